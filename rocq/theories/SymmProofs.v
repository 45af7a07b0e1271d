(** Lemmas for C25. *)
From Verif Require Import Base SortModel SortProofs LatModel LatProofs GIndexModel GIndexProofs
  GSphereModel GSphereProofs SymmModel SymmSpec CBase.
Open Scope Z_scope.

(* ---------------- keys, unique, split ---------------- *)
Lemma zleb_total x y : (x <=? y) = true \/ (y <=? x) = true. Proof. lia. Qed.
Lemma zleb_trans x y z : (x <=? y) = true -> (y <=? z) = true -> (x <=? z) = true. Proof. lia. Qed.

Lemma zdrop_in l x : In x (zdrop_adjacent l) <-> In x l.
Proof.
  induction l as [|a l IH]; [reflexivity|]. cbn [zdrop_adjacent]. destruct l as [|b l]; [reflexivity|].
  destruct (Z.eqb_spec a b) as [->|Hne].
  - rewrite IH. cbn. tauto.
  - cbn [In] in *. rewrite IH. tauto.
Qed.
Lemma zdrop_sorted l : StronglySorted Z.le l -> StronglySorted Z.lt (zdrop_adjacent l).
Proof.
  induction l as [|a l IH]; intros H; [constructor|].
  inversion H as [|? ? Hs Hf]; subst. cbn [zdrop_adjacent]. destruct l as [|b l].
  - constructor; constructor.
  - destruct (Z.eqb_spec a b) as [->|Hne]; [apply IH, Hs|].
    constructor; [apply IH, Hs|]. apply Forall_forall. intros x Hx.
    apply (zdrop_in (b :: l)) in Hx.
    assert (b <= x).
    { destruct Hx as [->|Hx]; [lia|]. inversion Hs as [|? ? _ Hf2]; subst.
      rewrite Forall_forall in Hf2. auto. }
    rewrite Forall_forall in Hf. specialize (Hf b (or_introl eq_refl)). lia.
Qed.
Lemma zisort_sorted l : StronglySorted Z.le (isort Z.leb l).
Proof.
  eapply StronglySorted_impl; [|apply (isort_sorted Z.leb zleb_total zleb_trans)].
  intros x y H. now apply Z.leb_le in H.
Qed.
Lemma zunique_in l x : In x (zunique l) <-> In x l.
Proof.
  unfold zunique. rewrite zdrop_in. split; intros H.
  - eapply Permutation_in; [apply isort_perm|exact H].
  - eapply Permutation_in; [symmetry; apply isort_perm|exact H].
Qed.
Lemma zunique_sorted l : StronglySorted Z.lt (zunique l).
Proof. apply zdrop_sorted, zisort_sorted. Qed.
Lemma zlt_NoDup l : StronglySorted Z.lt l -> NoDup l.
Proof.
  induction 1 as [|a l Hs IH Hf]; constructor; [|assumption].
  intros Hin. rewrite Forall_forall in Hf. specialize (Hf _ Hin). lia.
Qed.
Lemma zunique_id l : StronglySorted Z.le l -> zunique l = zdrop_adjacent l.
Proof.
  intros H. unfold zunique. rewrite (isort_id Z.leb); [reflexivity|].
  eapply StronglySorted_impl; [|exact H]. intros x y. apply Z.leb_le.
Qed.

Lemma index_of_spec v l : In v l -> (index_of v l < length l)%nat /\ nth (index_of v l) l 0 = v.
Proof.
  induction l as [|x l IH]; intros H; [destruct H|]. cbn [index_of].
  destruct (Z.eqb_spec x v) as [->|Hne]; [cbn; split; [lia|reflexivity]|].
  destruct H as [H|H]; [congruence|]. destruct (IH H). cbn. split; [lia|assumption].
Qed.

Lemma split_at_S {A} (x : A) l at_ : split_at (x :: l) (map S at_) = split_at l at_.
Proof.
  induction at_ as [|i at_ IH]; [reflexivity|]. destruct at_ as [|j at_]; [reflexivity|].
  cbn [map split_at] in *. rewrite IH. cbn [skipn Nat.sub]. reflexivity.
Qed.
Lemma split_at_cons {A} (x : A) l rest : 
  split_at (x :: l) (0%nat :: map S rest)
  = match split_at l (0%nat :: rest) with [] => [] | h :: t => (x :: h) :: t end.
Proof.
  destruct rest as [|j rest]; [reflexivity|].
  change (split_at (x :: l) (0%nat :: map S (j :: rest)))
    with (firstn (S j) (x :: l) :: split_at (x :: l) (map S (j :: rest))).
  rewrite split_at_S. cbn [split_at skipn]. rewrite Nat.sub_0_r. reflexivity.
Qed.

Lemma zdrop_head y l : exists vs, zdrop_adjacent (y :: l) = y :: vs.
Proof.
  revert y. induction l as [|z l IH]; intros y; [now exists []|]. cbn [zdrop_adjacent] in *.
  destruct (Z.eqb_spec y z) as [->|Hne]; [apply IH|]. eexists. reflexivity.
Qed.

Lemma map_index_S x l vs : (forall v, In v vs -> v <> x) ->
  map (fun v => index_of v (x :: l)) vs = map S (map (fun v => index_of v l) vs).
Proof.
  intros H. rewrite map_map. apply map_ext_in. intros v Hv. cbn [index_of].
  destruct (Z.eqb_spec x v) as [->|]; [now destruct (H v Hv)|reflexivity].
Qed.

Lemma filter_none {A} (f : A -> bool) l : (forall x, In x l -> f x = false) -> filter f l = [].
Proof.
  induction l as [|a l IH]; intros H; [reflexivity|]. cbn. rewrite (H a (or_introl eq_refl)).
  apply IH. intros x Hx. apply H. now right.
Qed.

(** Splitting a key-sorted list where the key changes gives the sets of equal key. *)
Lemma split_runs {A} (k : A -> Z) l : StronglySorted Z.le (map k l) ->
  split_at l (map (fun v => index_of v (map k l)) (zdrop_adjacent (map k l)))
  = map (fun v => filter (fun x => k x =? v) l) (zdrop_adjacent (map k l)).
Proof.
  induction l as [|x l IH]; intros H; [reflexivity|].
  destruct l as [|y l].
  - cbn. rewrite Z.eqb_refl. cbn. reflexivity.
  - cbn [map] in H. inversion H as [|? ? Hs Hf]; subst. specialize (IH Hs).
    pose proof (zdrop_sorted _ Hs) as Hds. cbn [map] in Hds.
    destruct (zdrop_head (k y) (map k l)) as [vs Evs].
    cbn [map] in *. rewrite Evs in IH, Hds.
    inversion Hds as [|? ? Hds' Hdf]; subst. rewrite Forall_forall in Hdf.
    assert (Hxy : k x <= k y) by (rewrite Forall_forall in Hf; apply Hf; now left).
    change (zdrop_adjacent (k x :: k y :: map k l))
      with (if k x =? k y then zdrop_adjacent (k y :: map k l) else k x :: zdrop_adjacent (k y :: map k l)).
    destruct (Z.eqb_spec (k x) (k y)) as [E|Hne].
    + rewrite Evs. cbn [map]. cbn [index_of]. rewrite E, Z.eqb_refl.
      cbn [map index_of] in IH. rewrite Z.eqb_refl in IH.
      change (fun v => if k y =? v then 0%nat else S (if k y =? v then 0%nat else S (index_of v (map k l))))
        with (fun v => index_of v (k y :: k y :: map k l)).
      change (fun v => if k y =? v then 0%nat else S (index_of v (map k l)))
        with (fun v => index_of v (k y :: map k l)) in IH.
      rewrite map_index_S by (intros v Hv; specialize (Hdf v Hv); lia).
      rewrite split_at_cons, IH. cbn [filter]. rewrite E, Z.eqb_refl. f_equal.
      apply map_ext_in. intros v Hv. specialize (Hdf v Hv).
      destruct (Z.eqb_spec (k y) v); [lia|reflexivity].
    + cbn [map]. rewrite Evs in *. 
      assert (Hvs : forall v, In v (k y :: vs) -> v <> k x)
        by (intros v [<-|Hv]; [lia|specialize (Hdf v Hv); lia]).
      rewrite map_index_S by exact Hvs.
      change (index_of (k x) (k x :: k y :: map k l)) with (if k x =? k x then 0%nat else S (index_of (k x) (k y :: map k l))).
      rewrite Z.eqb_refl.
      change (split_at (x :: y :: l) (0%nat :: map S (map (fun v => index_of v (k y :: map k l)) (k y :: vs))))
       with (firstn (S (index_of (k y) (k y :: map k l))) (x :: y :: l)
             :: split_at (x :: y :: l) (map S (map (fun v => index_of v (k y :: map k l)) (k y :: vs)))).
      rewrite split_at_S, IH. cbn [index_of]. rewrite Z.eqb_refl. cbn [firstn].
      f_equal.
      * change (filter (fun x0 => k x0 =? k x) (x :: y :: l))
          with (if k x =? k x then x :: filter (fun x0 => k x0 =? k x) (y :: l) else filter (fun x0 => k x0 =? k x) (y :: l)).
        rewrite Z.eqb_refl. f_equal. symmetry. apply filter_none. intros z Hz.
        apply Z.eqb_neq. intros E. apply (in_map k) in Hz. cbn [map] in Hz.
        apply zdrop_in in Hz. rewrite Evs in Hz. rewrite E in Hz. now apply Hvs in Hz.
      * apply map_ext_in. intros v Hv. change (filter (fun x0 => k x0 =? v) (x :: y :: l))
          with (if k x =? v then x :: filter (fun x0 => k x0 =? v) (y :: l) else filter (fun x0 => k x0 =? v) (y :: l)).
        specialize (Hvs v Hv). destruct (Z.eqb_spec (k x) v); [congruence|reflexivity].
Qed.

Lemma zsearchsorted_spec l v : StronglySorted Z.lt l -> In v l ->
  (zsearchsorted l v < length l)%nat /\ nth (zsearchsorted l v) l 0 = v.
Proof.
  unfold zsearchsorted. induction 1 as [|a l Hs IH Hf]; intros Hin; [destruct Hin|].
  cbn [filter]. destruct (Z.ltb_spec a v) as [Hlt|Hge].
  - destruct Hin as [->|Hin]; [lia|]. destruct (IH Hin) as [H1 H2].
    cbn [length nth]. split; [lia|assumption].
  - assert (a = v).
    { destruct Hin as [E|Hin]; [assumption|]. rewrite Forall_forall in Hf. specialize (Hf _ Hin). lia. }
    subst a. rewrite Forall_forall in Hf.
    rewrite filter_none; [cbn; split; [lia|reflexivity]|].
    intros x Hx. specialize (Hf x Hx). apply Z.ltb_ge. lia.
Qed.

Lemma zamin_in l : l <> [] -> In (zamin l) l /\ forall x, In x l -> zamin l <= x.
Proof.
  destruct l as [|a l]; [congruence|]. intros _. cbn [zamin].
  assert (G : forall m, In (fold_left Z.min l m) (m :: l) /\ forall x, In x (m :: l) -> fold_left Z.min l m <= x).
  { induction l as [|b l IH]; intros m; cbn [fold_left].
    - split; [now left|]. intros x [<-|[]]. lia.
    - destruct (IH (Z.min m b)) as [H1 H2]. split.
      + destruct H1 as [H1|H1]; [|right; now right].
        rewrite <- H1. destruct (Z.min_spec m b) as [[_ E]|[_ E]]; rewrite E; [now left|right; now left].
      + intros x [<-|[<-|Hx]].
        * specialize (H2 (Z.min m b) (or_introl eq_refl)). lia.
        * specialize (H2 (Z.min m b) (or_introl eq_refl)). lia.
        * apply H2. now right. }
  apply G.
Qed.

(* ---------------- integer matrices ---------------- *)
Ltac dm := repeat match goal with
  | M : imat |- _ => destruct M as [[[[? ?] ?] [[? ?] ?]] [[? ?] ?]]
  | g : vec3 |- _ => destruct g as [[? ?] ?] end.

Ltac peq := unfold recip, idet, imm, imv, iid, iscale, icross, idot; cbv beta iota zeta;
  repeat apply (f_equal2 pair); try ring.

Lemma imm_mv A B g : imv (imm A B) g = imv A (imv B g).
Proof. dm. peq. Qed.
Lemma imm_mr A B x : imr (imm A B) x = imr A (imr B x).
Proof. dm. destruct x. cbn. rewrite !plus_IZR, !mult_IZR. f_equal; ring. Qed.
Lemma imv_iid g : imv iid g = g.
Proof. dm. peq. Qed.
Lemma imr_iid x : imr iid x = x.
Proof. destruct x. cbn. f_equal; ring. Qed.
Lemma imm_assoc A B D : imm (imm A B) D = imm A (imm B D).
Proof. dm. peq. Qed.
Lemma recip_iid : recip iid = iid. Proof. reflexivity. Qed.
Definition icof (A : imat) : imat := let '(r1, r2, r3) := A in (icross r2 r3, icross r3 r1, icross r1 r2).
Definition imscale (k : Z) (A : imat) : imat := let '(r1, r2, r3) := A in (iscale k r1, iscale k r2, iscale k r3).
Lemma idet_imm A B : idet (imm A B) = idet A * idet B.
Proof. dm. unfold imm, idet, idot, icross. ring. Qed.
Lemma icof_imm A B : icof (imm A B) = imm (icof A) (icof B).
Proof. dm. unfold icof. peq. Qed.
Lemma recip_icof A : recip A = imscale (idet A) (icof A).
Proof. destruct A as [[r1 r2] r3]. reflexivity. Qed.
Lemma imscale_imm a b A B : imscale (a * b) (imm A B) = imm (imscale a A) (imscale b B).
Proof. dm. unfold imscale. peq. Qed.
Lemma recip_imm A B : recip (imm A B) = imm (recip A) (recip B).
Proof. now rewrite !recip_icof, idet_imm, icof_imm, imscale_imm. Qed.
Lemma imm_iid_l A : imm iid A = A.
Proof. dm. peq. Qed.
Lemma imm_iid_r A : imm A iid = A.
Proof. dm. peq. Qed.

Definition itrans (A : imat) : imat :=
  let '((b11, b12, b13), (b21, b22, b23), (b31, b32, b33)) := A in
  ((b11, b21, b31), (b12, b22, b32), (b13, b23, b33)).

Definition unimod (A : imat) : Prop := idet A = 1 \/ idet A = -1.

(** The reciprocal rotation is the inverse transpose. *)
Lemma recip_inv_l A : unimod A -> imm (itrans A) (recip A) = iid.
Proof.
  intros H. assert (D2 : idet A * idet A = 1) by (destruct H as [-> | ->]; reflexivity). clear H.
  dm. unfold itrans. unfold idet, idot, icross in D2. cbv beta iota zeta in D2.
  peq; (etransitivity; [|exact D2]); ring.
Qed.
Lemma recip_inv_r A : unimod A -> imm (recip A) (itrans A) = iid.
Proof.
  intros H. assert (D2 : idet A * idet A = 1) by (destruct H as [-> | ->]; reflexivity). clear H.
  dm. unfold itrans. unfold idet, idot, icross in D2. cbv beta iota zeta in D2.
  peq; (etransitivity; [|exact D2]); ring.
Qed.
(** (A^T g) . x = g . (A x) *)
Lemma itrans_dot A g x : zrdot (imv (itrans A) g) x = zrdot g (imr A x).
Proof. dm. destruct x. cbn. rewrite !plus_IZR, !mult_IZR. ring. Qed.
Lemma recip_dot A g x : unimod A -> zrdot (imv (recip A) g) (imr A x) = zrdot g x.
Proof. intros H. now rewrite <- itrans_dot, <- imm_mv, recip_inv_l, imv_iid. Qed.

Lemma recip_inj A g h : unimod A -> imv (recip A) g = imv (recip A) h -> g = h.
Proof.
  intros H E. apply (f_equal (imv (itrans A))) in E.
  now rewrite <- !imm_mv, recip_inv_l, !imv_iid in E.
Qed.
Lemma itrans_imm A B : itrans (imm A B) = imm (itrans B) (itrans A).
Proof. dm. unfold itrans. peq. Qed.
Lemma itrans_itrans A : itrans (itrans A) = A.
Proof. now dm. Qed.
(** Unimodular matrices cancel. *)
Lemma unimod_cancel_l A B D : unimod A -> imm A B = imm A D -> B = D.
Proof.
  intros H E.
  assert (I : imm (itrans (recip A)) A = iid).
  { rewrite <- (itrans_itrans A) at 2. rewrite <- itrans_imm, recip_inv_l by assumption. reflexivity. }
  apply (f_equal (imm (itrans (recip A)))) in E. now rewrite <- !imm_assoc, I, !imm_iid_l in E.
Qed.
Lemma unimod_cancel_r A B D : unimod A -> imm B A = imm D A -> B = D.
Proof.
  intros H E.
  assert (I : imm A (itrans (recip A)) = iid).
  { rewrite <- (itrans_itrans A) at 1. rewrite <- itrans_imm, recip_inv_r by assumption. reflexivity. }
  apply (f_equal (fun X => imm X (itrans (recip A)))) in E. now rewrite !imm_assoc, I, !imm_iid_r in E.
Qed.

Lemma zrdot_add g x y : zrdot g (vadd x y) = (zrdot g x + zrdot g y)%R.
Proof. dm. destruct x, y. cbn. ring. Qed.
Lemma zrdot_sub g x y : zrdot g (vsub x y) = (zrdot g x - zrdot g y)%R.
Proof. dm. destruct x, y. cbn. ring. Qed.
Lemma zrdot_int g x : int_vec x -> exists k, zrdot g x = IZR k.
Proof.
  intros (a & b & c & ->). dm. eexists. cbn. rewrite <- !mult_IZR, <- !plus_IZR. reflexivity.
Qed.
Lemma cis_int g x : int_vec x -> cis (2 * PI * zrdot g x) = RtoC 1.
Proof. intros H. destruct (zrdot_int g x H) as [k ->]. apply cis_2PI_Z. Qed.
Lemma cis_mod1 g x y : eq_mod1 x y -> cis (2 * PI * zrdot g x) = cis (2 * PI * zrdot g y).
Proof.
  intros H. pose proof (cis_int g _ H) as E. rewrite zrdot_sub in E.
  replace (2 * PI * zrdot g x)%R with (2 * PI * (zrdot g x - zrdot g y) + 2 * PI * zrdot g y)%R by ring.
  rewrite cis_plus, E. ring.
Qed.

(* ---------------- the group average ---------------- *)
Lemma lsum_perm l l' : Permutation l l' -> lsum l = lsum l'.
Proof.
  induction 1; [reflexivity| | |congruence]; cbn [lsum fold_right].
  - unfold lsum in IHPermutation. now rewrite IHPermutation.
  - ring.
Qed.
Lemma lsum_scal a l : lsum (map (fun x => (a * x)%C) l) = (a * lsum l)%C.
Proof.
  unfold lsum. induction l as [|x l IH]; [cbn [map fold_right]; ring|]. cbn [map fold_right]. rewrite IH. ring.
Qed.
Lemma lsum_conj l : Cconj (lsum l) = lsum (map Cconj l).
Proof.
  unfold lsum. induction l as [|x l IH]; cbn [map fold_right]; [apply C_ext; cbn; ring|]. rewrite <- IH.
  apply C_ext; cbn; ring.
Qed.
Lemma lsum_const {A} a (l : list A) : lsum (map (fun _ => a) l) = (RtoC (INR (length l)) * a)%C.
Proof.
  induction l as [|x l IH]; [cbn; ring|]. cbn [map lsum fold_right]. unfold lsum in IH. rewrite IH.
  cbn [length]. rewrite S_INR, RtoC_plus. ring.
Qed.

Lemma imat_dec (A B : imat) : {A = B} + {A <> B}.
Proof. repeat decide equality. Qed.

Section Group.
  Variable ops : list symop.
  Hypothesis HG : space_group ops.

  Lemma ops_nonempty : ops <> [].
  Proof. destruct (sg_identity _ HG) as (o & r & -> & _). discriminate. Qed.
  Lemma numops_nz : RtoC (INR (length ops)) <> RtoC 0.
  Proof.
    intros E. apply RtoC_inj in E. pose proof ops_nonempty. destruct ops; [congruence|].
    cbn [length] in E. rewrite S_INR in E. pose proof (pos_INR (length l)). lra.
  Qed.
  Lemma op_unimod o : In o ops -> unimod (reallat_rot o).
  Proof. apply (sg_unimodular _ HG). Qed.
  Lemma op_inj o g h : In o ops -> imv (recilat_rot o) g = imv (recilat_rot o) h -> g = h.
  Proof. intros H. rewrite (sg_reciprocal _ HG o H). apply recip_inj. now apply op_unimod. Qed.
  Lemma op_rot_inj o p : In o ops -> In p ops -> reallat_rot o = reallat_rot p -> o = p.
  Proof.
    intros Ho Hp E. pose proof (sg_distinct _ HG) as HN.
    apply In_nth with (d := o) in Ho as (i & Hi & Ei). apply In_nth with (d := o) in Hp as (j & Hj & Ej).
    assert (i = j).
    { apply (proj1 (NoDup_nth (map reallat_rot ops) (reallat_rot o)) HN); rewrite ?map_length; auto.
      rewrite !map_nth. congruence. }
    congruence.
  Qed.

  (** Multiplication from the right by an operation permutes the group. *)
  Lemma right_mult_perm p : In p ops ->
    Permutation (map (fun A => imm A (reallat_rot p)) (map reallat_rot ops)) (map reallat_rot ops).
  Proof.
    intros Hp. apply NoDup_Permutation_bis.
    - apply FinFun.Injective_map_NoDup; [|apply (sg_distinct _ HG)].
      intros A B E. now apply unimod_cancel_r in E; [|apply op_unimod].
    - rewrite !map_length. lia.
    - intros A HA. rewrite map_map in HA. apply in_map_iff in HA as (o & <- & Ho).
      destruct (sg_closed _ HG o p Ho Hp) as (q & Hq & <- & _). now apply in_map.
  Qed.
  Lemma left_mult_perm p : In p ops ->
    Permutation (map (fun A => imm (reallat_rot p) A) (map reallat_rot ops)) (map reallat_rot ops).
  Proof.
    intros Hp. apply NoDup_Permutation_bis.
    - apply FinFun.Injective_map_NoDup; [|apply (sg_distinct _ HG)].
      intros A B E. now apply unimod_cancel_l in E; [|apply op_unimod].
    - rewrite !map_length. lia.
    - intros A HA. rewrite map_map in HA. apply in_map_iff in HA as (o & <- & Ho).
      destruct (sg_closed _ HG p o Hp Ho) as (q & Hq & <- & _). now apply in_map.
  Qed.

  Lemma op_inverse p : In p ops -> exists q, In q ops /\ imm (reallat_rot q) (reallat_rot p) = iid.
  Proof.
    intros Hp. destruct (sg_identity _ HG) as (o & r & E & Eo & _).
    assert (Hin : In iid (map reallat_rot ops)) by (rewrite <- Eo, E; now left).
    apply (Permutation_in _ (Permutation_sym (right_mult_perm p Hp))) in Hin.
    rewrite map_map in Hin. apply in_map_iff in Hin as (q & Eq & Hq). now exists q.
  Qed.

  (** Two operations rotate one after the other as a third one does. *)
  Lemma op_compose o p : In o ops -> In p ops -> exists q, In q ops
    /\ reallat_rot q = imm (reallat_rot o) (reallat_rot p)
    /\ (forall g, imv (recilat_rot q) g = imv (recilat_rot o) (imv (recilat_rot p) g))
    /\ (forall g, cis (2 * PI * zrdot (imv (recilat_rot q) g) (reallat_trans q))
        = cis (2 * PI * zrdot (imv (recilat_rot p) g) (reallat_trans p))
          * cis (2 * PI * zrdot (imv (recilat_rot q) g) (reallat_trans o)))%C.
  Proof.
    intros Ho Hp. destruct (sg_closed _ HG o p Ho Hp) as (q & Hq & E & Et). exists q.
    assert (ER : forall g, imv (recilat_rot q) g = imv (recilat_rot o) (imv (recilat_rot p) g)).
    { intros g. rewrite !(sg_reciprocal _ HG) by assumption. rewrite E, recip_imm. apply imm_mv. }
    repeat split; auto. intros g. rewrite (cis_mod1 _ _ _ Et), zrdot_add, Rmult_plus_distr_l, cis_plus.
    f_equal. f_equal. f_equal. rewrite ER, (sg_reciprocal _ HG o Ho). apply recip_dot. now apply op_unimod.
  Qed.

  Definition by_rot (A : imat) : symop :=
    match find (fun o => if imat_dec (reallat_rot o) A then true else false) ops with
    | Some o => o | None => MkOp iid (V 0 0 0) iid end.
  Lemma by_rot_eq o : In o ops -> by_rot (reallat_rot o) = o.
  Proof.
    intros H. unfold by_rot. destruct (find _ ops) eqn:E.
    - apply find_some in E as [Hin E]. destruct (imat_dec (reallat_rot s) (reallat_rot o)) as [E'|]; [|discriminate].
      now apply op_rot_inj.
    - apply find_none with (x := o) in E; [|assumption]. destruct (imat_dec _ _); congruence.
  Qed.
  Lemma sum_by_rot (f : symop -> C) : lsum (map f ops) = lsum (map (fun A => f (by_rot A)) (map reallat_rot ops)).
  Proof. rewrite map_map. f_equal. apply map_ext_in. intros o Ho. now rewrite by_rot_eq. Qed.
  (** Reindexing a sum over the group. *)
  Lemma sum_reindex (f : symop -> C) (h : symop -> C) p : In p ops ->
    (forall o q, In o ops -> In q ops -> reallat_rot q = imm (reallat_rot o) (reallat_rot p) -> f q = h o) ->
    lsum (map f ops) = lsum (map h ops).
  Proof.
    intros Hp H. rewrite (sum_by_rot f).
    rewrite <- (lsum_perm _ _ (Permutation_map (fun A => f (by_rot A)) (right_mult_perm p Hp))).
    rewrite !map_map. f_equal. apply map_ext_in. intros o Ho.
    destruct (sg_closed _ HG o p Ho Hp) as (q & Hq & E & _). rewrite <- E, by_rot_eq by assumption. auto.
  Qed.

  (** The average at a vector and at a rotated vector differ by the phase. *)
  Lemma average_shift F p g : In p ops ->
    group_average ops F g
    = (cis (2 * PI * zrdot (imv (recilat_rot p) g) (reallat_trans p))
       * group_average ops F (imv (recilat_rot p) g))%C.
  Proof.
    intros Hp. unfold group_average.
    rewrite (sum_reindex (fun o => transported F o g)
       (fun o => (cis (2 * PI * zrdot (imv (recilat_rot p) g) (reallat_trans p))
                  * transported F o (imv (recilat_rot p) g))%C) p Hp).
    - rewrite <- (map_map (fun o => transported F o (imv (recilat_rot p) g))
         (fun x => (cis (2 * PI * zrdot (imv (recilat_rot p) g) (reallat_trans p)) * x)%C)).
      rewrite lsum_scal. unfold Cdiv. ring.
    - intros o q Ho Hq E. destruct (op_compose o p Ho Hp) as (q' & Hq' & E' & ER & EP).
      assert (q' = q) by (apply op_rot_inj; congruence). subst q'.
      unfold transported. rewrite EP, ER. ring.
  Qed.

  (** The average is invariant. *)
  Lemma average_invariant F p g : In p ops -> transported (group_average ops F) p g = group_average ops F g.
  Proof. intros Hp. unfold transported. rewrite (average_shift F p g Hp). ring. Qed.
  Lemma average_fixed F g : (forall o, In o ops -> transported F o g = F g) -> group_average ops F g = F g.
  Proof.
    intros H. unfold group_average.
    rewrite (map_ext_in _ (fun _ => F g)) by (intros o Ho; now apply H).
    rewrite lsum_const. unfold Cdiv. rewrite <- Cmult_assoc, (Cmult_comm (F g)), Cmult_assoc, Cinv_r, Cmult_1_l; [reflexivity|].
    apply numops_nz.
  Qed.
  Lemma average_idem F g : group_average ops (group_average ops F) g = group_average ops F g.
  Proof. apply average_fixed. intros o Ho. now apply average_invariant. Qed.
  Lemma average_zero F : group_average ops F (0, 0, 0) = F (0, 0, 0).
  Proof.
    apply average_fixed. intros o Ho. unfold transported.
    assert (E : imv (recilat_rot o) (0, 0, 0) = (0, 0, 0)) by (destruct (recilat_rot o) as [[r1 r2] r3]; dm; peq).
    rewrite E. cbn [zrdot]. rewrite !Rmult_0_l, !Rplus_0_l, Rmult_0_r, cis_0. ring.
  Qed.
End Group.
