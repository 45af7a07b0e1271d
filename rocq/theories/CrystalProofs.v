(** Lemmas about supercells. *)
From Verif Require Import Base LatModel LatProofs CrystalModel.
From Coq Require Import Lra.
Open Scope R_scope.

Lemma cells_in n1 n2 n3 i j k : In (i, j, k) (cells n1 n2 n3) <->
  (0 <= i < n1 /\ 0 <= j < n2 /\ 0 <= k < n3)%Z.
Proof.
  unfold cells. split.
  - intros H. apply in_flat_map in H as (a & Ha & H). apply in_flat_map in H as (b & Hb & H).
    apply in_map_iff in H as (c & E & Hc). apply in_zrange in Ha, Hb, Hc.
    apply pair_equal_spec in E as [E <-]. apply pair_equal_spec in E as [<- <-]. tauto.
  - intros (Hi & Hj & Hk). apply in_flat_map. exists i. split; [now apply in_zrange|].
    apply in_flat_map. exists j. split; [now apply in_zrange|]. apply in_map_iff. exists k.
    split; [reflexivity|now apply in_zrange].
Qed.

Lemma NoDup_flat_map {A B} (f : A -> list B) l :
  NoDup l -> (forall a, In a l -> NoDup (f a)) ->
  (forall a a' b, In a l -> In a' l -> In b (f a) -> In b (f a') -> a = a') -> NoDup (flat_map f l).
Proof.
  induction l as [|a l IH]; intros HN Hf Hd; [constructor|]. inversion HN as [|? ? Hn HN']; subst.
  cbn [flat_map].
  assert (HA : forall l1 l2 : list B, NoDup l1 -> NoDup l2 -> (forall b, In b l1 -> ~ In b l2) -> NoDup (l1 ++ l2)).
  { clear. induction l1 as [|x l1 IH]; intros l2 H1 H2 H; [exact H2|]. inversion H1; subst. cbn. constructor.
    - intros Hin. apply in_app_or in Hin as [Hin|Hin]; [contradiction|]. apply (H x (or_introl eq_refl) Hin).
    - apply IH; try assumption. intros b Hb. apply H. now right. }
  apply HA.
  - apply Hf. now left.
  - apply IH; [assumption|intros; apply Hf; now right|]. intros x x' b Hx Hx'. apply Hd; now right.
  - intros b Hb Hin. apply in_flat_map in Hin as (a' & Ha' & Hb').
    assert (a = a') by (apply (Hd a a' b); [now left|now right|assumption|assumption]). now subst.
Qed.

Lemma cells_NoDup n1 n2 n3 : NoDup (cells n1 n2 n3).
Proof.
  unfold cells. apply NoDup_flat_map; [apply zrange_NoDup| |].
  - intros i _. apply NoDup_flat_map; [apply zrange_NoDup| |].
    + intros j _. apply FinFun.Injective_map_NoDup; [|apply zrange_NoDup].
      intros k k' E. now apply pair_equal_spec in E.
    + intros j j' b _ _ H1 H2. apply in_map_iff in H1 as (k & <- & _). apply in_map_iff in H2 as (k' & E & _).
      apply pair_equal_spec in E as [E _]. now apply pair_equal_spec in E.
  - intros i i' b _ _ H1 H2. apply in_flat_map in H1 as (j & _ & H1). apply in_flat_map in H2 as (j' & _ & H2).
    apply in_map_iff in H1 as (k & <- & _). apply in_map_iff in H2 as (k' & E & _).
    apply pair_equal_spec in E as [E _]. now apply pair_equal_spec in E.
Qed.

Lemma cells_length n1 n2 n3 : (0 <= n1 -> 0 <= n2 -> 0 <= n3 ->
  Z.of_nat (length (cells n1 n2 n3)) = n1 * n2 * n3)%Z.
Proof.
  intros H1 H2 H3. unfold cells.
  rewrite (flat_map_const_length _ _ (Z.to_nat n2 * Z.to_nat n3)).
  - rewrite zrange_length. rewrite !Nat2Z.inj_mul, !Z2Nat.id by lia. rewrite !Z.sub_0_r. ring.
  - intros i _. rewrite (flat_map_const_length _ _ (Z.to_nat n3)).
    + rewrite zrange_length. f_equal. f_equal. lia.
    + intros j _. rewrite map_length, zrange_length. f_equal. lia.
Qed.

Lemma mv_vadd P u v : mv P (vadd u v) = vadd (mv P u) (mv P v).
Proof. unfold mv, vadd, vscale. cbn. apply V_ext; ring. Qed.

Lemma mdet_sup n1 n2 n3 P : mdet (latvec_sup n1 n2 n3 P) = IZR n1 * IZR n2 * IZR n3 * mdet P.
Proof. unfold mdet, latvec_sup, vdot, vcross, vscale. cbn. ring. Qed.

Lemma mk_species_inv l pp m lat r sp : mk_species l pp m lat r = Ok sp ->
  sp_label sp = l /\ sp_lat sp = lat /\ sp_r sp = r /\ sp_mass sp = m.
Proof.
  unfold mk_species. intros H. destruct pp; cbn [bind] in H; try discriminate;
    destruct m as [|x|]; cbn [bind] in H; try discriminate; try destruct (Rlt_dec x 0); cbn [bind] in H; try discriminate;
    injection H as <-; cbn; tauto.
Qed.

(** A species that some successful construction could have produced. *)
Definition valid_species (sp : species) : Prop :=
  exists l pp m lat r, mk_species l pp m lat r = Ok sp.

(** The species is built again from its own attributes: label, mass and atoms are
    kept, the valence only if it came from a pseudopotential file. *)
Lemma remake sp lat' r' : valid_species sp ->
  exists sp', mk_species (sp_label sp) (sp_pp sp) (sp_mass sp) lat' r' = Ok sp'
    /\ sp_label sp' = sp_label sp /\ sp_mass sp' = sp_mass sp /\ sp_lat sp' = lat' /\ sp_r sp' = r'
    /\ sp_valence sp' = (match sp_pp sp with PPFile v => sp_valence sp | _ => -1 end)%Z.
Proof.
  intros (l & pp & m & lat & r & H). unfold mk_species in H.
  destruct pp; cbn [bind] in H; try discriminate;
    destruct m as [|x|]; cbn [bind] in H; try discriminate;
    try destruct (Rlt_dec x 0) as [Hx|Hx]; cbn [bind] in H; try discriminate;
    injection H as <-; cbn; unfold mk_species; cbn [bind];
    try (destruct (Rlt_dec x 0); [contradiction|]); cbn [bind];
    eexists; (split; [reflexivity|]); cbn; tauto.
Qed.

Lemma sup_lat (c : crystal) (P : mat) (alat : R) (HP : mk_ulattice alat P = Ok (cr_lat c)) :
  u_unit (cr_lat c) = alat /\ mk_lattice P = Ok (u_lat (cr_lat c)) /\ primvec (u_lat (cr_lat c)) = P
  /\ mdet P <> 0.
Proof.
  unfold mk_ulattice in HP. destruct (mk_lattice P) as [L|e] eqn:E; cbn in HP; [|discriminate].
  injection HP as <-. cbn. split; [reflexivity|]. split; [reflexivity|].
  destruct (mk_lattice_ok P L E) as (A & B & _). tauto.
Qed.

Section Sup.
  Context (c : crystal) (n1 n2 n3 : Z) (P : mat) (alat : R).
  Hypothesis HP : mk_ulattice alat P = Ok (cr_lat c).
  Hypothesis Hn : (0 < n1 /\ 0 < n2 /\ 0 < n3)%Z.
  Hypothesis Hsp : Forall valid_species (cr_atoms c).

  Lemma sup_exists : exists c', gen_supercell c [n1; n2; n3] = Ok c'
    /\ u_unit (cr_lat c') = IZR n1 * alat
    /\ mk_lattice (latvec_sup n1 n2 n3 P) = Ok (u_lat (cr_lat c'))
    /\ Forall2 (fun sp sp' => sp_label sp' = sp_label sp /\ sp_mass sp' = sp_mass sp /\ sp_lat sp' = cr_lat c'
         /\ r_cart sp' = map (cryst2cart (u_lat (cr_lat c))) (r_cryst_all n1 n2 n3 (sp_r sp))
         /\ sp_valence sp' = match sp_pp sp with PPFile v => sp_valence sp | _ => (-1)%Z end)
       (cr_atoms c) (cr_atoms c').
  Proof.
    destruct (sup_lat c P alat HP) as (E1 & E2 & E3 & E4).
    assert (D : mdet (latvec_sup n1 n2 n3 P) <> 0).
    { rewrite mdet_sup. repeat (apply Rmult_integral_contrapositive_currified); try assumption; apply IZR_neq; lia. }
    destruct (mk_lattice_iff (latvec_sup n1 n2 n3 P)) as [_ K]. destruct (K D) as (L & EL & EP).
    unfold gen_supercell. cbn [forallb].
    replace ((0 <=? n1) && ((0 <=? n2) && ((0 <=? n3) && true)))%Z with true by lia. cbn [assert_ bind].
    unfold mk_ulattice. rewrite E3, EL, E1. cbn [rmap bind u_lat].
    set (lat' := MkULattice (IZR n1 * alat) L).
    assert (S : forall l, Forall valid_species l -> exists l', sequence (map (fun sp =>
         mk_species (sp_label sp) (sp_pp sp) (sp_mass sp) lat'
          (map (cart2cryst (u_lat lat')) (map (cryst2cart (u_lat (cr_lat c))) (r_cryst_all n1 n2 n3 (sp_r sp))))) l) = Ok l'
       /\ Forall2 (fun sp sp' => sp_label sp' = sp_label sp /\ sp_mass sp' = sp_mass sp /\ sp_lat sp' = lat'
         /\ r_cart sp' = map (cryst2cart (u_lat (cr_lat c))) (r_cryst_all n1 n2 n3 (sp_r sp))
         /\ sp_valence sp' = match sp_pp sp with PPFile v => sp_valence sp | _ => (-1)%Z end) l l').
    { induction l as [|sp l IH]; intros HF; [exists []; split; [reflexivity|constructor]|].
      inversion HF as [|? ? Hv Hl]; subst. destruct (IH Hl) as (l' & El & Fl).
      destruct (remake sp lat' (map (cart2cryst (u_lat lat')) (map (cryst2cart (u_lat (cr_lat c))) (r_cryst_all n1 n2 n3 (sp_r sp)))) Hv)
        as (sp' & Es & A1 & A2 & A3 & A4 & A5).
      exists (sp' :: l'). cbn [map sequence]. rewrite Es. cbn [bind]. rewrite El. cbn [bind].
      split; [reflexivity|]. constructor; [|exact Fl]. repeat (split; [assumption|]). split; [|exact A5].
      unfold r_cart. rewrite A3, A4. cbn [u_lat lat']. rewrite map_map.
      rewrite <- (map_id (map (cryst2cart (u_lat (cr_lat c))) (r_cryst_all n1 n2 n3 (sp_r sp)))) at 2.
      apply map_ext. intros v. apply (cryst_cart_inverse _ _ v EL). }
    destruct (S (cr_atoms c) Hsp) as (l' & El & Fl). cbn [u_lat lat'] in El.
    exists (MkCrystal lat' l'). split.
    - cbv zeta. match goal with |- bind ?x _ = _ => replace x with (Ok l') by (symmetry; exact El) end. reflexivity.
    - cbn. split; [reflexivity|]. split; [reflexivity|exact Fl].
  Qed.
End Sup.

Lemma r_cryst_all_length n1 n2 n3 r : (0 <= n1 -> 0 <= n2 -> 0 <= n3 ->
  Z.of_nat (length (r_cryst_all n1 n2 n3 r)) = n1 * n2 * n3 * Z.of_nat (length r))%Z.
Proof.
  intros H1 H2 H3. unfold r_cryst_all. rewrite (flat_map_const_length _ _ (length r)).
  - rewrite Nat2Z.inj_mul, cells_length by assumption. reflexivity.
  - intros [[i j] k] _. apply map_length.
Qed.

(** Lattice translation of a Cartesian point. *)
Definition translate (L : lattice) (i j k : Z) (q : rvec) : rvec :=
  vadd q (vadd (vadd (vscale (IZR i) (nth 0 (axes_cart L) (V 0 0 0)))
                     (vscale (IZR j) (nth 1 (axes_cart L) (V 0 0 0))))
               (vscale (IZR k) (nth 2 (axes_cart L) (V 0 0 0)))).

Lemma cart_translate L i j k r :
  cryst2cart L (vadd (V (IZR i) (IZR j) (IZR k)) r) = translate L i j k (cryst2cart L r).
Proof.
  unfold cryst2cart, translate, axes_cart. cbn [nth]. rewrite mv_vadd. unfold mv at 1.
  cbn [vx vy vz]. unfold vadd. cbn. apply V_ext; ring.
Qed.

Lemma r_cart_all L n1 n2 n3 r :
  map (cryst2cart L) (r_cryst_all n1 n2 n3 r)
  = flat_map (fun c => let '(i, j, k) := c in map (translate L i j k) (map (cryst2cart L) r)) (cells n1 n2 n3).
Proof.
  unfold r_cryst_all. rewrite !flat_map_concat_map, concat_map, map_map. f_equal.
  apply map_ext. intros [[i j] k]. rewrite !map_map. apply map_ext. intros v. apply cart_translate.
Qed.

Lemma translate_cancel P L i j k i' j' k' q q' : mk_lattice P = Ok L ->
  translate L i j k q = translate L i' j' k' q' -> q' = translate L (i - i') (j - j') (k - k') q.
Proof.
  intros HL. unfold translate. destruct q as [x y z], q' as [x' y' z']. unfold vadd. cbn. intros E.
  injection E as E1 E2 E3. rewrite !minus_IZR. apply V_ext; lra.
Qed.

Lemma translate_inj P L i j k i' j' k' q : mk_lattice P = Ok L ->
  translate L i j k q = translate L i' j' k' q -> (i, j, k) = (i', j', k').
Proof.
  intros HL E. destruct (mk_lattice_ok P L HL) as (HD & EP & _).
  assert (ER : q = cryst2cart L (cart2cryst L q)) by (symmetry; apply (cryst_cart_inverse P L q HL)).
  rewrite ER in E. rewrite <- !cart_translate in E.
  apply (f_equal (cart2cryst L)) in E. rewrite !(proj1 (cryst_cart_inverse P L _ HL)) in E.
  destruct (cart2cryst L q) as [a b c]. unfold vadd in E. cbn in E. injection E as E1 E2 E3.
  assert (F : forall (m n : Z) a, IZR m + a = IZR n + a -> m = n) by (intros m n x Ex; apply eq_IZR; lra).
  apply F in E1, E2, E3. congruence.
Qed.

(** Atoms that no lattice translation identifies stay distinct in the supercell. *)
Lemma supercell_distinct P L n1 n2 n3 r : mk_lattice P = Ok L ->
  (forall a b i j k, (a < length r)%nat -> (b < length r)%nat ->
     nth b r (V 0 0 0) = translate L i j k (nth a r (V 0 0 0)) -> a = b) ->
  NoDup (flat_map (fun c => let '(i, j, k) := c in map (translate L i j k) r) (cells n1 n2 n3)).
Proof.
  intros HL Hr.
  assert (HN : NoDup r).
  { apply (NoDup_nth r (V 0 0 0)). intros a b Ha Hb E. apply (Hr a b 0%Z 0%Z 0%Z Ha Hb).
    unfold translate, vadd, vscale. destruct (nth a r (V 0 0 0)) as [x y z]. rewrite <- E. cbn. apply V_ext; ring. }
  assert (INJ : forall i j k i' j' k' p q, In p r -> In q r ->
     translate L i j k p = translate L i' j' k' q -> p = q).
  { intros i j k i' j' k' p q Hp Hq E. apply (translate_cancel P) in E; [|exact HL].
    apply (In_nth _ _ (V 0 0 0)) in Hp as (a & Ha & <-). apply (In_nth _ _ (V 0 0 0)) in Hq as (b & Hb & <-).
    now rewrite (Hr a b _ _ _ Ha Hb E). }
  apply NoDup_flat_map; [apply cells_NoDup| |].
  - intros [[i j] k] _. clear Hr. revert HN INJ. induction r as [|p l IH]; intros HN INJ; [constructor|].
    inversion HN as [|? ? Hn HN']; subst. cbn [map]. constructor.
    + intros Hin. apply in_map_iff in Hin as (q & E & Hq). apply Hn.
      rewrite (INJ i j k i j k p q (or_introl eq_refl) (or_intror Hq) (eq_sym E)). exact Hq.
    + apply IH; [exact HN'|]. intros i0 j0 k0 i1 j1 k1 a b Ha Hb. apply INJ; now right.
  - intros [[i j] k] [[i' j'] k'] b _ _ H1 H2.
    apply in_map_iff in H1 as (p & <- & Hp). apply in_map_iff in H2 as (q & E & Hq).
    pose proof (INJ _ _ _ _ _ _ _ _ Hq Hp E) as ->. symmetry. now apply (translate_inj P L) in E.
Qed.

Lemma Forall2_impl {A B} (P Q : A -> B -> Prop) l l' :
  (forall a b, P a b -> Q a b) -> Forall2 P l l' -> Forall2 Q l l'.
Proof. intros H F. induction F; constructor; auto. Qed.
