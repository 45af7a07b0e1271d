(** C25: the arrays built by SymmFieldMod compute the group average. *)
From Verif Require Import Base SortModel SortProofs LatModel LatProofs GIndexModel GIndexProofs
  GSphereModel GSphereProofs SymmModel SymmSpec SymmProofs CBase.
Open Scope Z_scope.

Lemma sequence_all {A} (l : list (res A)) (m : list A) :
  Forall2 (fun r x => r = Ok x) l m -> sequence l = Ok m.
Proof. induction 1 as [|r x l m -> H IH]; [reflexivity|]. cbn. now rewrite IH. Qed.
Lemma sequence_map_ok {A B} (f : A -> res B) (g : A -> B) l :
  (forall x, In x l -> f x = Ok (g x)) -> sequence (map f l) = Ok (map g l).
Proof.
  intros H. apply sequence_all. induction l as [|x l IH]; cbn; constructor.
  - apply H. now left.
  - apply IH. intros y Hy. apply H. now right.
Qed.

(* ---------------- assignments ---------------- *)
Lemma fassign_notin l : forall a i, ~ In i (map fst l) -> fassign a l i = a i.
Proof.
  unfold fassign. induction l as [|p l IH]; intros a i H; [reflexivity|]. cbn [fold_left].
  rewrite IH by (intros Hin; apply H; now right).
  destruct (Nat.eqb_spec i (fst p)) as [->|]; [|reflexivity]. exfalso. apply H. now left.
Qed.
Lemma fassign_app l m a : fassign a (l ++ m) = fassign (fassign a l) m.
Proof. unfold fassign. apply fold_left_app. Qed.
Lemma fassign_const l : forall a i v, In i (map fst l) -> (forall p, In p l -> fst p = i -> snd p = v) ->
  fassign a l i = v.
Proof.
  induction l as [|p l IH] using rev_ind; intros a i v Hin H; [destruct Hin|].
  rewrite fassign_app. unfold fassign at 1. cbn [fold_left].
  destruct (Nat.eqb_spec i (fst p)) as [E|Hne].
  - apply H; [apply in_or_app; right; now left|now symmetry].
  - apply IH.
    + rewrite map_app in Hin. apply in_app_or in Hin as [Hin|[Hin|[]]]; [assumption|congruence].
    + intros q Hq. apply H. apply in_or_app. now left.
Qed.
Lemma fadd_at l a i v : (forall p, In p l -> fst p = i -> snd p = v) ->
  fadd a l i = (a i + (if in_dec Nat.eq_dec i (map fst l) then v else RtoC 0))%C.
Proof.
  intros H. unfold fadd. destruct (in_dec Nat.eq_dec i (map fst l)) as [Hin|Hn].
  - apply fassign_const.
    + now rewrite map_map.
    + intros p Hp Ep. apply in_map_iff in Hp as (q & <- & Hq). cbn [fst snd] in *.
      rewrite Ep. f_equal. now apply H.
  - rewrite fassign_notin by now rewrite map_map. ring.
Qed.

Lemma vec3_eqb_spec a b : reflect (a = b) (vec3_eqb a b).
Proof.
  destruct a as [[a1 a2] a3], b as [[b1 b2] b3]. unfold vec3_eqb.
  destruct (Z.eqb_spec a1 b1), (Z.eqb_spec a2 b2), (Z.eqb_spec a3 b3); cbn; constructor; congruence.
Qed.

Lemma fold1_shape n1 n2 n3 g h : 0 < n1 -> 0 < n2 -> 0 < n3 ->
  g_ok (n1, n2, n3) g = true -> g_ok (n1, n2, n3) h = true ->
  lex_leb (snd (shell_key (n1, n2, n3) (fun _ => 0) g)) (snd (shell_key (n1, n2, n3) (fun _ => 0) h)) = true ->
  gidx (n1, n2, n3) g <= gidx (n1, n2, n3) h.
Proof.
  destruct g as [[a1 a2] a3], h as [[b1 b2] b3]. intros H1 H2 H3 Hg Hh. cbn [shell_key snd].
  unfold g_ok in *. apply andb_prop in Hg as [Hg Hg3]. apply andb_prop in Hg as [Hg1 Hg2].
  apply andb_prop in Hh as [Hh Hh3]. apply andb_prop in Hh as [Hh1 Hh2].
  pose proof (fold1_range _ _ H2 Hg2) as R2. pose proof (fold1_range _ _ H3 Hg3) as R3.
  pose proof (fold1_range _ _ H2 Hh2) as S2. pose proof (fold1_range _ _ H3 Hh3) as S3.
  unfold fold1 in *. unfold gidx, lex_leb.
  generalize dependent (a1 + n1 * b2z (a1 <? 0)). intros x1.
  generalize dependent (a2 + n2 * b2z (a2 <? 0)). intros x2.
  generalize dependent (a3 + n3 * b2z (a3 <? 0)). intros x3.
  generalize dependent (b1 + n1 * b2z (b1 <? 0)). intros y1.
  generalize dependent (b2 + n2 * b2z (b2 <? 0)). intros y2.
  generalize dependent (b3 + n3 * b2z (b3 <? 0)). intros y3.
  intros.
  destruct (Z.ltb_spec x1 y1).
  - assert (n2 * n3 * x1 + n2 * n3 <= n2 * n3 * y1) by nia. nia.
  - destruct (Z.eqb_spec x1 y1); [|discriminate]. subst. cbn in H.
    destruct (Z.ltb_spec x2 y2); [nia|]. destruct (Z.eqb_spec x2 y2); [|discriminate]. subst. cbn in H. nia.
Qed.

Section Field.
  Variables (sh : shape3) (g_cryst : list vec3) (ops : list symop) (nkey : vec3 -> Z).
  Hypothesis Hsh : shape_ok sh = true.
  Hypothesis Hok : forall g, In g g_cryst -> g_ok sh g = true.
  Hypothesis HND : NoDup g_cryst.
  Hypothesis HG : space_group ops.
  Hypothesis Hcl : forall o g, In o ops -> In g g_cryst -> In (imv (recilat_rot o) g) g_cryst.
  Hypothesis Hkey : forall o g, In o ops -> In g g_cryst -> nkey (imv (recilat_rot o) g) = nkey g.

  Notation n := (length g_cryst).
  Notation gat := (gat g_cryst).

  Lemma gat_in i : (i < n)%nat -> In (gat i) g_cryst.
  Proof using g_cryst. intros H. now apply nth_In. Qed.
  Lemma gat_inj i j : (i < n)%nat -> (j < n)%nat -> gat i = gat j -> i = j.
  Proof using HND. intros Hi Hj E. now apply (proj1 (NoDup_nth g_cryst (0,0,0)) HND). Qed.
  Lemma gidx_in_inj g h : In g g_cryst -> In h g_cryst -> gidx sh g = gidx sh h -> g = h.
  Proof. intros Hg Hh. apply gidx_inj; auto. Qed.

  (** The position of a vector. *)
  Definition pos (g : vec3) : nat :=
    match find (fun i => vec3_eqb (gat i) g) (seq 0 n) with Some i => i | None => 0%nat end.
  Lemma pos_spec g : In g g_cryst -> (pos g < n)%nat /\ gat (pos g) = g.
  Proof using g_cryst.
    clear Hsh Hok HND HG Hcl Hkey nkey ops sh.
    intros H. unfold pos. destruct (find _ _) as [i|] eqn:E.
    - apply find_some in E as [Hin E]. apply in_seq in Hin. destruct (vec3_eqb_spec (gat i) g); [|discriminate].
      split; [lia|assumption].
    - apply In_nth with (d := (0, 0, 0)) in H as (i & Hi & E').
      apply find_none with (x := i) in E; [|apply in_seq; lia].
      destruct (vec3_eqb_spec (gat i) g); [discriminate|contradiction].
  Qed.
  Lemma pos_gat i : (i < n)%nat -> pos (gat i) = i.
  Proof using HND. intros H. destruct (pos_spec (gat i) (gat_in i H)). now apply gat_inj. Qed.

  (* ---- shells ---- *)
  Lemma shell_sort_perm : Permutation (shell_sort sh g_cryst nkey) (seq 0 n).
  Proof. unfold shell_sort. rewrite argsort_perm. now rewrite map_length. Qed.
  Lemma shell_sort_in i : In i (shell_sort sh g_cryst nkey) <-> (i < n)%nat.
  Proof.
    split; intros H.
    - apply (Permutation_in _ shell_sort_perm) in H. apply in_seq in H. lia.
    - apply (Permutation_in _ (Permutation_sym shell_sort_perm)). apply in_seq. lia.
  Qed.
  Lemma lex4_total a b : lex4_leb a b = true \/ lex4_leb b a = true.
  Proof.
    destruct a as [a u], b as [b v]. unfold lex4_leb. cbn [fst snd].
    destruct (Z.ltb_spec a b); [now left|]. destruct (Z.ltb_spec b a); [now right|].
    assert (a = b) by lia. subst. rewrite Z.eqb_refl. cbn. apply lex_total.
  Qed.
  Lemma lex4_trans a b c : lex4_leb a b = true -> lex4_leb b c = true -> lex4_leb a c = true.
  Proof.
    destruct a as [a u], b as [b v], c as [c w]. unfold lex4_leb. cbn [fst snd].
    intros H1 H2. apply orb_prop in H1. apply orb_prop in H2. apply orb_true_iff.
    destruct H1 as [H1|H1], H2 as [H2|H2].
    - left. lia.
    - apply andb_prop in H2 as [H2 _]. left. lia.
    - apply andb_prop in H1 as [H1 _]. left. lia.
    - apply andb_prop in H1 as [H1 H1']. apply andb_prop in H2 as [H2 H2']. right.
      apply andb_true_intro. split; [lia|]. eapply lex_trans; eassumption.
  Qed.
  Lemma shell_key_snd g : snd (shell_key sh nkey g) = snd (shell_key sh (fun _ => 0) g).
  Proof. destruct sh as [[n1 n2] n3], g as [[i1 i2] i3]. reflexivity. Qed.
  Lemma shell_key_fst g : fst (shell_key sh nkey g) = nkey g.
  Proof. destruct sh as [[n1 n2] n3], g as [[i1 i2] i3]. reflexivity. Qed.

  Lemma shell_sort_sorted :
    StronglySorted (fun i j => lex4_leb (shell_key sh nkey (gat i)) (shell_key sh nkey (gat j)) = true)
      (shell_sort sh g_cryst nkey).
  Proof.
    apply (StronglySorted_unmap (fun i => shell_key sh nkey (gat i)) (fun a b => lex4_leb a b = true)).
    pose proof (take_argsort_sorted lex4_leb (map (shell_key sh nkey) g_cryst) (shell_key sh nkey (0,0,0)) lex4_total lex4_trans) as H.
    unfold take in H. erewrite map_ext; [exact H|]. intros i. cbv beta. unfold SymmModel.gat. now rewrite map_nth.
  Qed.
  Lemma shell_nkey_sorted : StronglySorted Z.le (map (fun i => nkey (gat i)) (shell_sort sh g_cryst nkey)).
  Proof.
    apply StronglySorted_map. eapply StronglySorted_impl; [|exact shell_sort_sorted].
    intros i j H. cbv beta in *. unfold lex4_leb in H. rewrite !shell_key_fst in H.
    apply orb_prop in H as [H|H]; [lia|]. apply andb_prop in H as [H _]. lia.
  Qed.

  Definition shell (v : Z) : list nat := filter (fun i => nkey (gat i) =? v) (shell_sort sh g_cryst nkey).
  Definition shell_vals : list Z := zunique (map (fun i => nkey (gat i)) (shell_sort sh g_cryst nkey)).
  Lemma shells_eq : shells sh g_cryst nkey = map shell shell_vals.
  Proof.
    unfold shells, shell_vals, unique_index, shell. rewrite zunique_id by apply shell_nkey_sorted.
    apply (split_runs (fun i => nkey (gat i))). apply shell_nkey_sorted.
  Qed.
  Lemma shell_in v i : In i (shell v) <-> (i < n)%nat /\ nkey (gat i) = v.
  Proof. unfold shell. rewrite filter_In, shell_sort_in, Z.eqb_eq. tauto. Qed.

  Lemma sorted_filter {A} (R : A -> A -> Prop) f l : StronglySorted R l -> StronglySorted R (filter f l).
  Proof.
    induction 1 as [|a l Hs IH Hf]; cbn; [constructor|]. destruct (f a); [|assumption].
    constructor; [assumption|]. rewrite Forall_forall in *. intros x Hx. apply filter_In in Hx. now apply Hf.
  Qed.
  Lemma sorted_strict {A} (f : A -> Z) l : NoDup l -> (forall x y, In x l -> In y l -> f x = f y -> x = y) ->
    StronglySorted (fun x y => f x <= f y) l -> StronglySorted Z.lt (map f l).
  Proof.
    intros HN Hf H. induction H as [|a l Hs IH Hfa]; cbn; constructor.
    - apply IH; [now inversion HN|]. intros x y Hx Hy. apply Hf; now right.
    - rewrite Forall_forall in *. intros z Hz. apply in_map_iff in Hz as (y & <- & Hy).
      specialize (Hfa y Hy). assert (f a <> f y); [|lia]. intros E.
      assert (a = y) by (apply Hf; [now left|now right|assumption]). subst. inversion HN. contradiction.
  Qed.
  Lemma sorted_in_impl {A} (R S : A -> A -> Prop) l :
    (forall x y, In x l -> In y l -> R x y -> S x y) -> StronglySorted R l -> StronglySorted S l.
  Proof.
    intros H Hs. induction Hs as [|a l Hs IH Hf]; constructor.
    - apply IH. intros x y Hx Hy. apply H; now right.
    - rewrite Forall_forall in *. intros y Hy. apply H; [now left|now right|auto].
  Qed.

  (** Inside a shell the grid indices increase strictly. *)
  Lemma shell_idx_sorted v : StronglySorted Z.lt (map (fun i => gidx sh (gat i)) (shell v)).
  Proof.
    apply sorted_strict.
    - unfold shell. apply NoDup_filter. eapply Permutation_NoDup; [symmetry; apply shell_sort_perm|apply seq_NoDup].
    - intros i j Hi Hj E. apply shell_in in Hi as [Hi _]. apply shell_in in Hj as [Hj _].
      apply gat_inj; auto. apply gidx_in_inj; auto using gat_in.
    - eapply sorted_in_impl; [|apply sorted_filter, shell_sort_sorted].
      intros i j Hi Hj H. apply shell_in in Hi as [Hi Ki]. apply shell_in in Hj as [Hj Kj].
      unfold lex4_leb in H. rewrite !shell_key_fst, Ki, Kj, Z.ltb_irrefl, Z.eqb_refl in H. cbn [orb andb] in H.
      rewrite !shell_key_snd in H. pose proof (Hok _ (gat_in i Hi)) as Oi. pose proof (Hok _ (gat_in j Hj)) as Oj.
      destruct sh as [[n1 n2] n3]. apply shape_ok_pos in Hsh as (P1 & P2 & P3). now apply fold1_shape.
  Qed.

  Definition entry (i : nat) (o : symop) : nat * C :=
    (pos (imv (recilat_rot o) (gat i)),
     cis (2 * PI * zrdot (imv (recilat_rot o) (gat i)) (reallat_trans o))).

  Lemma id_row ig : match ops with [] => [] | o0 :: _ => map (rot_idx sh g_cryst o0) ig end
                    = map (fun i => gidx sh (gat i)) ig.
  Proof.
    destruct (sg_identity _ HG) as (o & rest & E & Eo & _).
    pose proof (sg_reciprocal _ HG o) as Er. rewrite E in *. specialize (Er (or_introl eq_refl)).
    apply map_ext. intros i. unfold rot_idx. rewrite Er, Eo, recip_iid, imv_iid. reflexivity.
  Qed.

  Lemma shell_entry_eq v i o : In i (shell v) -> In o ops ->
    shell_entry sh g_cryst ops (shell v) i o = Ok (entry i o).
  Proof.
    intros Hi Ho. unfold shell_entry. rewrite id_row. unfold rot_idx.
    apply shell_in in Hi as [Hi Kv].
    assert (Hr : In (imv (recilat_rot o) (gat i)) g_cryst) by (apply Hcl; auto using gat_in).
    destruct (pos_spec _ Hr) as [Hp Ep]. set (j := pos (imv (recilat_rot o) (gat i))) in *.
    assert (Hj : In j (shell v)).
    { apply shell_in. split; [assumption|]. rewrite Ep, Hkey by auto using gat_in. assumption. }
    assert (Hin : In (gidx sh (imv (recilat_rot o) (gat i))) (map (fun i => gidx sh (gat i)) (shell v))).
    { rewrite <- Ep. apply in_map_iff. now exists j. }
    destruct (zsearchsorted_spec _ _ (shell_idx_sorted v) Hin) as [Hlt E].
    set (p := zsearchsorted _ _) in *. rewrite map_length in Hlt.
    assert (E' : nth p (shell v) 0%nat = j).
    { assert (Hpi : In (nth p (shell v) 0%nat) (shell v)) by now apply nth_In.
      apply shell_in in Hpi as [Hpi _]. apply gat_inj; auto.
      apply gidx_in_inj; auto using gat_in.
      rewrite (nth_indep _ 0 (gidx sh (gat 0%nat))) in E by now rewrite map_length.
      pose proof (map_nth (fun i => gidx sh (gat i)) (shell v) 0%nat p) as M. cbv beta in M.
      rewrite M in E. rewrite E. now rewrite Ep. }
    rewrite (nth_error_nth' _ 0%nat) by assumption. rewrite E'. reflexivity.
  Qed.

  Definition amin_of (i : nat) : Z := zamin (map (fun o => rot_idx sh g_cryst o i) ops).
  Definition reps_of (ig : list nat) : list nat := map (fun c => nth c ig 0%nat) (idx_red sh g_cryst ops ig).
  Definition reps : list nat := concat (map (fun v => reps_of (shell v)) shell_vals).

  Lemma reps_of_eq ig : reps_of ig = map (fun w => nth (index_of w (map amin_of ig)) ig 0%nat) (zunique (map amin_of ig)).
  Proof. unfold reps_of, idx_red, unique_index. now rewrite map_map. Qed.
  Lemma rep_amin ig w : In w (map amin_of ig) ->
    In (nth (index_of w (map amin_of ig)) ig 0%nat) ig /\ amin_of (nth (index_of w (map amin_of ig)) ig 0%nat) = w.
  Proof.
    intros H. destruct (index_of_spec _ _ H) as [Hlt E]. rewrite map_length in Hlt. split; [now apply nth_In|].
    rewrite (nth_indep _ 0 (amin_of 0%nat)) in E by now rewrite map_length. now rewrite map_nth in E.
  Qed.
  Lemma reps_of_in ig i : In i (reps_of ig) -> In i ig.
  Proof.
    rewrite reps_of_eq. intros H. apply in_map_iff in H as (w & <- & Hw). apply (proj1 (zunique_in _ _)) in Hw. now apply rep_amin.
  Qed.

  Lemma columns_eq : columns sh g_cryst ops nkey = Ok (map (fun r => map (entry r) ops) reps).
  Proof.
    unfold columns. rewrite shells_eq.
    rewrite map_map.
    rewrite (sequence_map_ok _ (fun v => map (fun r => map (entry r) ops) (reps_of (shell v)))).
    - cbn [bind]. f_equal. unfold reps. rewrite concat_map, map_map. reflexivity.
    - intros v Hv. unfold reps_of. rewrite map_map. apply sequence_map_ok. intros c Hc.
      unfold shell_column.
      apply sequence_map_ok. intros o Ho. apply shell_entry_eq; [|assumption].
      unfold idx_red, unique_index in Hc. apply in_map_iff in Hc as (w & <- & Hw).
      apply (proj1 (zunique_in _ _)) in Hw. now apply rep_amin.
  Qed.

  (* ---- representatives of the orbits ---- *)
  Lemma rep_lt r : In r reps -> (r < n)%nat.
  Proof.
    unfold reps. intros H. apply in_concat in H as (l & Hl & Hr). apply in_map_iff in Hl as (v & <- & _).
    apply reps_of_in in Hr. now apply shell_in in Hr.
  Qed.
  Lemma amin_spec i : (i < n)%nat -> exists o, In o ops /\ amin_of i = gidx sh (imv (recilat_rot o) (gat i)).
  Proof.
    intros Hi. unfold amin_of.
    destruct (zamin_in (map (fun o => rot_idx sh g_cryst o i) ops)) as [Hin _].
    - intros E. apply map_eq_nil in E. now apply (ops_nonempty ops HG).
    - apply in_map_iff in Hin as (o & E & Ho). exists o. split; [assumption|]. now symmetry.
  Qed.
  (** Vectors of one orbit have the same least index, and conversely. *)
  Lemma amin_orbit i j p : (i < n)%nat -> (j < n)%nat -> In p ops -> gat j = imv (recilat_rot p) (gat i) ->
    amin_of i = amin_of j.
  Proof.
    intros Hi Hj Hp E.
    assert (Hsub : forall a b q, (a < n)%nat -> (b < n)%nat -> In q ops -> gat b = imv (recilat_rot q) (gat a) -> amin_of a <= amin_of b).
    { intros a b q Ha Hb Hq Eq. destruct (amin_spec b Hb) as (o & Ho & Eo).
      destruct (op_compose ops HG o q Ho Hq) as (s & Hs & _ & ER & _).
      unfold amin_of at 1. destruct (zamin_in (map (fun o => rot_idx sh g_cryst o a) ops)) as [_ Hmin].
      { intros E0. apply map_eq_nil in E0. now apply (ops_nonempty ops HG). }
      rewrite Eo, Eq, <- ER. apply Hmin. apply in_map_iff. exists s. split; [reflexivity|assumption]. }
    destruct (op_inverse ops HG p Hp) as (q & Hq & Eq).
    assert (Eb : gat i = imv (recilat_rot q) (gat j)).
    { rewrite E, <- imm_mv, !(sg_reciprocal _ HG) by assumption. rewrite <- recip_imm, Eq, recip_iid, imv_iid. reflexivity. }
    pose proof (Hsub i j p Hi Hj Hp E). pose proof (Hsub j i q Hj Hi Hq Eb). lia.
  Qed.
  Lemma amin_same_orbit i j : (i < n)%nat -> (j < n)%nat -> amin_of i = amin_of j ->
    exists p, In p ops /\ gat j = imv (recilat_rot p) (gat i).
  Proof.
    intros Hi Hj E. destruct (amin_spec i Hi) as (o & Ho & Eo). destruct (amin_spec j Hj) as (q & Hq & Eq).
    assert (Ev : imv (recilat_rot o) (gat i) = imv (recilat_rot q) (gat j)).
    { apply gidx_in_inj; [apply Hcl; auto using gat_in|apply Hcl; auto using gat_in|congruence]. }
    destruct (op_inverse ops HG q Hq) as (q' & Hq' & Eq').
    destruct (op_compose ops HG q' o Hq' Ho) as (s & Hs & _ & ER & _).
    exists s. split; [assumption|]. rewrite ER, Ev, <- imm_mv, !(sg_reciprocal _ HG) by assumption.
    now rewrite <- recip_imm, Eq', recip_iid, imv_iid.
  Qed.

  Lemma orbit_nkey i j p : (i < n)%nat -> In p ops -> gat j = imv (recilat_rot p) (gat i) -> nkey (gat j) = nkey (gat i).
  Proof. intros Hi Hp ->. apply Hkey; auto using gat_in. Qed.

  Lemma reps_cover i : (i < n)%nat -> exists r p, In r reps /\ In p ops /\ gat i = imv (recilat_rot p) (gat r).
  Proof.
    intros Hi. set (ig := shell (nkey (gat i))).
    assert (Hin : In i ig) by (apply shell_in; auto).
    assert (Hw : In (amin_of i) (map amin_of ig)) by now apply in_map.
    destruct (rep_amin ig (amin_of i) Hw) as [H1 H2].
    set (r := nth (index_of (amin_of i) (map amin_of ig)) ig 0%nat) in *.
    assert (Hr : In r reps).
    { unfold reps. apply in_concat. exists (reps_of ig). split.
      - apply in_map_iff. exists (nkey (gat i)). split; [reflexivity|].
        apply zunique_in. apply in_map_iff. exists i. split; [reflexivity|now apply shell_sort_in].
      - rewrite reps_of_eq. apply in_map_iff. exists (amin_of i). split; [reflexivity|]. now apply zunique_in. }
    destruct (amin_same_orbit r i (rep_lt r Hr) Hi H2) as (p & Hp & E). now exists r, p.
  Qed.

  Lemma reps_amin_inj r r' : In r reps -> In r' reps -> amin_of r = amin_of r' -> r = r'.
  Proof.
    intros Hr Hr' E.
    destruct (amin_same_orbit r r' (rep_lt _ Hr) (rep_lt _ Hr') E) as (p & Hp & Ep).
    pose proof (orbit_nkey r r' p (rep_lt _ Hr) Hp Ep) as Ek.
    unfold reps in Hr, Hr'. apply in_concat in Hr as (l & Hl & Hr). apply in_map_iff in Hl as (v & <- & _).
    apply in_concat in Hr' as (l & Hl & Hr'). apply in_map_iff in Hl as (v' & <- & _).
    pose proof (reps_of_in _ _ Hr) as Kr. pose proof (reps_of_in _ _ Hr') as Kr'.
    apply shell_in in Kr as [_ Kr]. apply shell_in in Kr' as [_ Kr'].
    assert (v = v') by congruence. subst v'.
    rewrite reps_of_eq in Hr, Hr'. apply in_map_iff in Hr as (w & Ew & Hw). apply in_map_iff in Hr' as (w' & Ew' & Hw').
    apply (proj1 (zunique_in _ _)) in Hw. apply (proj1 (zunique_in _ _)) in Hw'.
    destruct (rep_amin _ _ Hw) as [_ Aw]. destruct (rep_amin _ _ Hw') as [_ Aw'].
    rewrite Ew in Aw. rewrite Ew' in Aw'. congruence.
  Qed.
  Lemma reps_orbit r r' o o' : In r reps -> In r' reps -> In o ops -> In o' ops ->
    imv (recilat_rot o) (gat r) = imv (recilat_rot o') (gat r') -> r = r'.
  Proof.
    intros Hr Hr' Ho Ho' E. apply reps_amin_inj; auto.
    assert (Hin : In (imv (recilat_rot o) (gat r)) g_cryst) by (apply Hcl; auto using gat_in, rep_lt).
    destruct (pos_spec _ Hin) as [Hp Ep].
    rewrite (amin_orbit r (pos (imv (recilat_rot o) (gat r))) o) by (auto using rep_lt).
    symmetry. apply (amin_orbit r' _ o'); auto using rep_lt. congruence.
  Qed.

  (* ---- the phases ---- *)
  Notation cols := (map (fun r => map (entry r) ops) reps).
  Definition dop : symop := MkOp iid (V 0 0 0) iid.

  Lemma nth_entry r s : (s < length ops)%nat -> nth s (map (entry r) ops) (0%nat, RtoC 0) = entry r (nth s ops dop).
  Proof.
    intros H. rewrite (nth_indep _ _ (entry r dop)) by now rewrite map_length. apply map_nth.
  Qed.
  Lemma row_eq s : (s < length ops)%nat -> row cols s = map (fun r => entry r (nth s ops dop)) reps.
  Proof. intros H. unfold row. rewrite map_map. apply map_ext. intros r. now apply nth_entry. Qed.

  Definition hits (r i : nat) (o : symop) : bool := vec3_eqb (imv (recilat_rot o) (gat r)) (gat i).

  Lemma row_hit r i o : (i < n)%nat -> In r reps -> In o ops -> (exists p, In p ops /\ gat i = imv (recilat_rot p) (gat r)) ->
    (forall q, In q (map (fun r => entry r o) reps) -> fst q = i -> hits r i o = true /\ q = entry r o)
    /\ (In i (map fst (map (fun r => entry r o) reps)) <-> hits r i o = true).
  Proof.
    intros Hi Hr Ho (p & Hp & Ep).
    assert (A : forall q, In q (map (fun r => entry r o) reps) -> fst q = i -> hits r i o = true /\ q = entry r o).
    { intros q Hq Eq. apply in_map_iff in Hq as (r' & <- & Hr'). cbn [entry fst] in Eq.
      assert (Hin : In (imv (recilat_rot o) (gat r')) g_cryst) by (apply Hcl; auto using gat_in, rep_lt).
      destruct (pos_spec _ Hin) as [_ E]. rewrite Eq in E.
      assert (r' = r) by (apply (reps_orbit r' r o p); auto; congruence). subst r'. split; [|reflexivity].
      unfold hits. destruct (vec3_eqb_spec (imv (recilat_rot o) (gat r)) (gat i)); congruence. }
    split; [exact A|]. split.
    - intros H. apply in_map_iff in H as (q & Eq & Hq). now apply (A q).
    - intros H. unfold hits in H. destruct (vec3_eqb_spec (imv (recilat_rot o) (gat r)) (gat i)) as [E|]; [|discriminate].
      rewrite map_map. apply in_map_iff. exists r. split; [|assumption]. cbn [entry fst]. rewrite E. now apply pos_gat.
  Qed.

  (** Folding one addition per operation. *)
  Lemma fold_fadd (f : nat -> list (nat * C)) (h : nat -> C) i m : 
    (forall a s, (s < m)%nat -> fadd a (f s) i = (a i + h s)%C) -> forall k a, (k + m <= m + k)%nat -> 
    forall l, (forall s, In s l -> (s < m)%nat) ->
    fold_left (fun a s => fadd a (f s)) l a i = (a i + lsum (map h l))%C.
  Proof.
    intros H k a _ l. revert a. induction l as [|s l IH]; intros a Hl; [cbn; ring|].
    cbn [fold_left map]. rewrite IH by (intros; apply Hl; now right). rewrite H by (apply Hl; now left).
    unfold lsum. cbn [fold_right]. ring.
  Qed.
  Lemma map_nth_ops {B} (f : symop -> B) : map (fun s => f (nth s ops dop)) (seq 0 (length ops)) = map f ops.
  Proof.
    rewrite <- (map_map (fun s => nth s ops dop) f). f_equal. clear.
    assert (G : forall l, map (fun s => nth s l dop) (seq 0 (length l)) = l).
    { induction l as [|x l IH]; [reflexivity|]. cbn [length seq map]. f_equal. rewrite <- seq_shift, map_map. exact IH. }
    apply G.
  Qed.

  Lemma g_phase_eq r i : (i < n)%nat -> In r reps -> (exists p, In p ops /\ gat i = imv (recilat_rot p) (gat r)) ->
    g_phase ops cols i = lsum (map (fun o => if hits r i o then cis (2 * PI * zrdot (gat i) (reallat_trans o)) else RtoC 0) ops).
  Proof.
    intros Hi Hr He. unfold g_phase.
    rewrite (fold_fadd _ (fun s => if hits r i (nth s ops dop) then cis (2 * PI * zrdot (gat i) (reallat_trans (nth s ops dop))) else RtoC 0) i (length ops)) with (k := 0%nat).
    - rewrite (map_nth_ops (fun o => if hits r i o then cis (2 * PI * zrdot (gat i) (reallat_trans o)) else RtoC 0)). ring.
    - intros a s Hs. rewrite row_eq by assumption.
      set (o := nth s ops dop). assert (Ho : In o ops) by now apply nth_In.
      destruct (row_hit r i o Hi Hr Ho He) as [A B].
      rewrite (fadd_at _ a i (cis (2 * PI * zrdot (gat i) (reallat_trans o)))).
      + destruct (in_dec Nat.eq_dec i _) as [Hin|Hn]; destruct (hits r i o) eqn:Eh; try reflexivity.
        * apply B in Hin. congruence.
        * exfalso. apply Hn. now apply B.
      + intros q Hq Eq. destruct (A q Hq Eq) as [Hh ->]. cbn [entry snd]. unfold hits in Hh.
        destruct (vec3_eqb_spec (imv (recilat_rot o) (gat r)) (gat i)) as [E|]; [|discriminate]. now rewrite E.
    - lia.
    - intros s Hs. apply in_seq in Hs. lia.
  Qed.
  Lemma g_count_eq r i : (i < n)%nat -> In r reps -> (exists p, In p ops /\ gat i = imv (recilat_rot p) (gat r)) ->
    g_count ops cols i = lsum (map (fun o => if hits r i o then RtoC 1 else RtoC 0) ops).
  Proof.
    intros Hi Hr He. unfold g_count.
    rewrite (fold_fadd _ (fun s => if hits r i (nth s ops dop) then RtoC 1 else RtoC 0) i (length ops)) with (k := 0%nat).
    - rewrite (map_nth_ops (fun o => if hits r i o then RtoC 1 else RtoC 0)). ring.
    - intros a s Hs. rewrite row_eq by assumption.
      set (o := nth s ops dop). assert (Ho : In o ops) by now apply nth_In.
      destruct (row_hit r i o Hi Hr Ho He) as [A B].
      rewrite (fadd_at _ a i (RtoC 1)).
      + rewrite map_map. change (fun x : nat * C => fst (fst x, RtoC 1)) with (fun x : nat * C => fst x).
        destruct (in_dec Nat.eq_dec i _) as [Hin|Hn]; destruct (hits r i o) eqn:Eh; try reflexivity.
        * apply B in Hin. congruence.
        * exfalso. apply Hn. now apply B.
      + intros q Hq Eq. apply in_map_iff in Hq as (q' & <- & _). reflexivity.
    - lia.
    - intros s Hs. apply in_seq in Hs. lia.
  Qed.

  Lemma col_mean_eq F rho r : (forall i, (i < n)%nat -> rho i = F (gat i)) -> In r reps ->
    col_mean ops rho (map (entry r) ops) = group_average ops F (gat r).
  Proof.
    intros HF Hr. unfold col_mean, group_average, lsum. f_equal. f_equal. rewrite map_map. apply map_ext_in.
    intros o Ho. cbn [entry fst snd]. unfold transported.
    assert (Hin : In (imv (recilat_rot o) (gat r)) g_cryst) by (apply Hcl; auto using gat_in, rep_lt).
    destruct (pos_spec _ Hin) as [Hp Ep]. now rewrite HF, Ep.
  Qed.

  (** The symmetrised coefficients are the group average. *)
  Lemma symmetrize_arr_eq F rho junk i : (forall i, (i < n)%nat -> rho i = F (gat i)) -> (i < n)%nat ->
    symmetrize_arr ops cols junk rho i = group_average ops F (gat i).
  Proof.
    intros HF Hi. destruct (reps_cover i Hi) as (r & p & Hr & Hp & Ep).
    assert (He : exists p, In p ops /\ gat i = imv (recilat_rot p) (gat r)) by eauto.
    unfold symmetrize_arr.
    rewrite (fassign_const _ junk i (group_average ops F (gat r))).
    - unfold g_phaseconj. rewrite (g_phase_eq r i Hi Hr He), (g_count_eq r i Hi Hr He).
      set (A := group_average ops F (gat r)). rewrite lsum_conj, map_map.
      set (cnt := lsum (map (fun o => if hits r i o then RtoC 1 else RtoC 0) ops)).
      assert (E : (A * lsum (map (fun o => Cconj (if hits r i o then cis (2 * PI * zrdot (gat i) (reallat_trans o)) else RtoC 0)) ops)
                  = group_average ops F (gat i) * cnt)%C).
      { unfold cnt. rewrite <- !lsum_scal, !map_map. f_equal. apply map_ext_in. intros o Ho.
        destruct (hits r i o) eqn:Eh.
        - unfold hits in Eh. destruct (vec3_eqb_spec (imv (recilat_rot o) (gat r)) (gat i)) as [E|]; [|discriminate].
          unfold A. rewrite (average_shift ops HG F o (gat r) Ho), E.
          rewrite <- Cmult_assoc, (Cmult_comm (group_average ops F (gat i))), Cmult_assoc, cis_norm2. ring.
        - apply C_ext; cbn; ring. }
      assert (Hc : cnt <> RtoC 0).
      { assert (G : forall l, (forall o, In o l -> In o ops) -> exists m, lsum (map (fun o => if hits r i o then RtoC 1 else RtoC 0) l) = RtoC (INR m)
                     /\ (In p l -> (0 < m)%nat)).
        { clear - Hp Ep. induction l as [|o l IH]; intros Hl; [exists 0%nat; split; [reflexivity|intros []]|].
          destruct IH as (m & Em & Hm); [intros; apply Hl; now right|].
          unfold lsum in *. cbn [map fold_right]. rewrite Em. destruct (hits r i o) eqn:Eh.
          - exists (S m). split; [rewrite S_INR, RtoC_plus; ring|lia].
          - exists m. split; [ring|]. intros [->|Hin]; [|auto]. unfold hits in Eh.
            destruct (vec3_eqb_spec (imv (recilat_rot p) (gat r)) (gat i)); [discriminate|congruence]. }
        destruct (G ops (fun o H => H)) as (m & Em & Hm). unfold cnt. rewrite Em. intros E0. apply RtoC_inj in E0.
        specialize (Hm Hp). apply lt_0_INR in Hm. lra. }
      unfold Cdiv. rewrite Cmult_assoc, E, <- Cmult_assoc, Cinv_r by assumption. ring.
    - apply in_map_iff. 
      apply In_nth with (d := dop) in Hp as (s & Hs & Es).
      exists (i, group_average ops F (gat r)). split; [reflexivity|]. apply in_flat_map. exists s. split; [apply in_seq; lia|].
      apply in_map_iff. exists (map (entry r) ops). split; [|apply in_map_iff; now exists r].
      rewrite nth_entry by assumption. rewrite (col_mean_eq F rho r HF Hr). cbn [entry fst]. rewrite Es, <- Ep, pos_gat by assumption. reflexivity.
    - intros q Hq Eq. apply in_flat_map in Hq as (s & Hs & Hq). apply in_seq in Hs.
      apply in_map_iff in Hq as (c & <- & Hc). apply in_map_iff in Hc as (r' & <- & Hr').
      cbn [fst snd] in *. rewrite nth_entry in Eq by lia. cbn [entry fst] in Eq.
      assert (Ho : In (nth s ops dop) ops) by (apply nth_In; lia).
      assert (Hin : In (imv (recilat_rot (nth s ops dop)) (gat r')) g_cryst) by (apply Hcl; auto using gat_in, rep_lt).
      destruct (pos_spec _ Hin) as [_ E]. rewrite Eq in E.
      assert (r' = r) by (apply (reps_orbit r' r (nth s ops dop) p); auto; congruence). subst r'.
      now apply col_mean_eq.
  Qed.
End Field.
