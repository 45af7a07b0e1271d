(** C43 and C44: the non-local pseudopotential (nloc.py). *)
From Coq Require Import Reals Lra.
From Coquelicot Require Import Coquelicot.
From Verif Require Import Base LatModel LatProofs NlocModel NlocSpec NlocProofs InterpProofs CBase.
Open Scope R_scope.

(** What the caller of [gen_vkb_dij] builds from its result: matrix elements of
    sum over I, J of |v_I> D_IJ <v_J| between plane waves (see NonlocKSHam in C40). *)
Definition matrix_element ylm (S_ : species) (K : kpoint) (g g' : nat) : C :=
  csum (num_full S_) (fun i => csum (num_full S_) (fun j =>
    (vkb_full ylm S_ K i g * RtoC (dij_full S_ i j) * Cconj (vkb_full ylm S_ K j g'))%C)).

(** ** C43: the labels *)
(** The three label lists together enumerate, for each projector in order, every
    m of -l..l exactly once. *)
Theorem C43_projector_enumeration (ls : list nat) :
  let lab := combine (combine (vkb_idxbeta ls) (vkb_l ls)) (vkb_m ls) in
  numvkb ls = fold_right (fun l n => (2 * l + 1 + n)%nat) O ls /\
  length (vkb_idxbeta ls) = numvkb ls /\ length (vkb_m ls) = numvkb ls /\
  NoDup lab /\
  (forall b l m, In (b, l, m) lab <->
     nth_error ls b = Some l /\ (- Z.of_nat l <= m <= Z.of_nat l)%Z).
Proof.
  cbv zeta.
  assert (El : combine (combine (vkb_idxbeta ls) (vkb_l ls)) (vkb_m ls) = labels ls).
  { rewrite idx_labels, l_labels, m_labels. induction (labels ls) as [|[[b l] m] t IH]; [reflexivity|].
    cbn. now rewrite IH. }
  rewrite El. clear El.
  assert (Mem : forall s l0 b l m, In (b, l, m)
     (flat_map (fun bl => map (fun m => (fst bl, snd bl, m)) (mlist (snd bl))) (combine (seq s (length l0)) l0))
     <-> (s <= b)%nat /\ nth_error l0 (b - s) = Some l /\ (- Z.of_nat l <= m <= Z.of_nat l)%Z).
  { intros s l0. revert s. induction l0 as [|a t IH]; intros s b l m.
    - cbn. split; [tauto|]. intros (_ & H & _). destruct (b - s)%nat; discriminate.
    - cbn [length seq combine flat_map]. rewrite in_app_iff, IH. cbn [fst snd].
      assert (Hin : In (b, l, m) (map (fun m => (s, a, m)) (mlist a)) <-> b = s /\ l = a /\ (- Z.of_nat a <= m <= Z.of_nat a)%Z).
      { rewrite in_map_iff. split.
        - intros (m' & E & Hm). injection E as -> -> ->. repeat split; try reflexivity;
          apply (Permutation_in _ (mlist_perm l)), in_zrange in Hm; lia.
        - intros (-> & -> & Hm). exists m. split; [reflexivity|].
          apply (Permutation_in _ (Permutation_sym (mlist_perm a))), in_zrange. lia. }
      rewrite Hin. destruct (Nat.eq_dec b s) as [->|Hne].
      + rewrite Nat.sub_diag. cbn [nth_error]. split.
        * intros [(_ & -> & H)|(H & _)]; [|lia]. repeat split; [reflexivity|lia|lia].
        * intros (_ & H & Hm). injection H as ->. left. repeat split; lia.
      + split.
        * intros [(H & _)|(H1 & H2 & H3)]; [contradiction|].
          replace (b - s)%nat with (S (b - S s)) by lia. cbn [nth_error]. repeat split; [lia|exact H2|lia|lia].
        * intros (H1 & H2 & H3). right. replace (b - s)%nat with (S (b - S s)) in H2 by lia.
          cbn [nth_error] in H2. repeat split; [lia|exact H2|lia|lia]. }
  repeat apply conj.
  - rewrite numvkb_labels. unfold labels.
    assert (G : forall s, length (flat_map (fun bl => map (fun m => (fst bl, snd bl, m)) (mlist (snd bl)))
        (combine (seq s (length ls)) ls)) = fold_right (fun l n => (2 * l + 1 + n)%nat) O ls).
    { induction ls as [|l t IH]; intros s; [reflexivity|]. cbn [length seq combine flat_map fold_right].
      rewrite app_length, map_length, mlist_length, IH. reflexivity. }
    apply G.
  - now rewrite numvkb_labels, idx_labels, map_length.
  - now rewrite numvkb_labels, m_labels, map_length.
  - unfold labels.
    assert (G : forall s l0, NoDup (flat_map (fun bl => map (fun m => (fst bl, snd bl, m)) (mlist (snd bl))) (combine (seq s (length l0)) l0))).
    { intros s l0. revert s. induction l0 as [|a t IH]; intros s; [constructor|].
      cbn [length seq combine flat_map]. cbn [fst snd].
      assert (N1 : NoDup (map (fun m => (s, a, m)) (mlist a))).
      { apply FinFun.Injective_map_NoDup; [|apply mlist_NoDup]. intros x y H. now injection H. }
      specialize (IH (S s)).
      assert (N2 : forall x, In x (map (fun m => (s, a, m)) (mlist a)) ->
        ~ In x (flat_map (fun bl => map (fun m => (fst bl, snd bl, m)) (mlist (snd bl))) (combine (seq (S s) (length t)) t))).
      { intros [[b l] m] Hx Hy. apply Mem in Hy. apply in_map_iff in Hx. destruct Hx as (m' & E & _).
        injection E as -> -> ->. lia. }
      revert N1 N2. generalize (map (fun m => (s, a, m)) (mlist a)). intros L N1 N2.
      induction N1 as [|x L Hx N1 IHL]; [exact IH|]. cbn [app]. constructor.
      - rewrite in_app_iff. intros [H|H]; [contradiction|]. apply (N2 x); [now left|exact H].
      - apply IHL. intros z Hz. apply N2. now right. }
    apply G.
  - intros b l m. unfold labels. rewrite Mem. rewrite Nat.sub_0_r. split; [tauto|]. intros H. split; [lia|exact H].
Qed.

Example C43_enumeration_sp :
  combine (combine (vkb_idxbeta [0; 1; 1]%nat) (vkb_l [0; 1; 1]%nat)) (vkb_m [0; 1; 1]%nat)
  = [(0, 0, 0%Z); (1, 1, 0%Z); (1, 1, (-1)%Z); (1, 1, 1%Z); (2, 1, 0%Z); (2, 1, (-1)%Z); (2, 1, 1%Z)]%nat.
Proof. reflexivity. Qed.

(** Row i of the projector array holds the radial factor of its projector times the real
    harmonic of its own label (with the code's sign: minus the usual one for m <> 0). *)
Theorem C43_rows_carry_their_label ylm (S_ : species) (K : kpoint) (i g : nat) :
  (i < numvkb (s_l S_))%nat ->
  let b := nth i (vkb_idxbeta (s_l S_)) O in
  let l := nth i (vkb_l (s_l S_)) O in
  let m := nth i (vkb_m (s_l S_)) 0%Z in
  let H := real_harmonic ylm l m (k_theta K g) (k_phi K g) in
  length (vkb_atom ylm S_ K) = numvkb (s_l S_) /\
  nth i (vkb_atom ylm S_ K) (fun _ => RtoC 0) g
  = ((if (m =? 0)%Z then H else - H) * RtoC (k_beta K b g))%C.
Proof.
  intros Hi. cbv zeta. split; [apply atom_length|].
  rewrite nth_row, nth_l by assumption. rewrite nth_m, nth_b. unfold row. now rewrite ang_real_harmonic.
Qed.

(** D couples exactly the pairs of rows of the same atom with equal l and m. *)
Theorem C43_dij_couples_equal_lm (S_ : species) (a a' i j : nat) :
  let n := numvkb (s_l S_) in
  (i < n)%nat -> (j < n)%nat ->
  let same := a = a' /\ nth i (vkb_l (s_l S_)) O = nth j (vkb_l (s_l S_)) O
              /\ nth i (vkb_m (s_l S_)) 0%Z = nth j (vkb_m (s_l S_)) 0%Z in
  (same -> dij_full S_ (a * n + i) (a' * n + j)
           = s_dij S_ (nth i (vkb_idxbeta (s_l S_)) O) (nth j (vkb_idxbeta (s_l S_)) O)) /\
  (~ same -> dij_full S_ (a * n + i) (a' * n + j) = 0).
Proof.
  cbv zeta. intros Hi Hj. unfold dij_full. set (n := numvkb (s_l S_)) in *.
  assert (Hn : n <> O) by lia.
  assert (Q : forall a i, (i < n)%nat -> ((a * n + i) / n = a /\ (a * n + i) mod n = i)%nat).
  { intros a0 i0 H. split; [rewrite Nat.div_add_l by exact Hn; rewrite Nat.div_small by exact H; lia|].
    rewrite Nat.add_comm, Nat.mod_add by exact Hn. now apply Nat.mod_small. }
  destruct (Q a i Hi) as [-> ->]. destruct (Q a' j Hj) as [-> ->]. unfold dij_atom.
  split.
  - intros (-> & -> & ->). now rewrite !Nat.eqb_refl, Z.eqb_refl.
  - intros Hno. destruct (a =? a')%nat eqn:E1; [|reflexivity].
    destruct (_ && _) eqn:E2; [|reflexivity]. exfalso. apply Hno.
    apply andb_true_iff in E2. destruct E2 as [E2 E3].
    apply Nat.eqb_eq in E1, E2. apply Z.eqb_eq in E3. now repeat split.
Qed.

(** The operator assembled from the projectors and D is the textbook separable
    operator: sums over complex harmonics, whatever the choice of real ones. *)
Theorem C43_operator_is_kleinman_bylander ylm (S_ : species) (K : kpoint) (g g' : nat) :
  matrix_element ylm S_ K g g'
  = kb_operator ylm (s_l S_) (s_dij S_) (k_beta K) (k_theta K) (k_phi K) (k_cryst K) (s_pos S_) g g'.
Proof.
  unfold matrix_element, kb_operator.
  destruct (Nat.eq_dec (numvkb (s_l S_)) 0) as [E|Hn].
  - unfold num_full. rewrite E, Nat.mul_0_r. cbn [csum]. symmetry. apply lsum_zero. intros tau _.
    rewrite numvkb_labels in E.
    assert (L : s_l S_ = []).
    { destruct (s_l S_) as [|l t]; [reflexivity|]. exfalso. unfold labels in E. cbn [length seq combine flat_map] in E.
      rewrite app_length, map_length in E. cbn [snd] in E. rewrite mlist_length in E. lia. }
    rewrite L. cbn [projectors length seq combine]. rewrite lsum_nil. ring.
  - rewrite full_op by exact Hn. apply lsum_ext. intros tau _. rewrite atom_op, pair_sum, phase_pair. reflexivity.
Qed.

(** A case with two projectors of equal l, two atoms: the sums are not empty. *)
Example C43_operator_case :
  num_full {| s_l := [0; 1; 1]%nat; s_dij := fun _ _ => 1; s_pos := [V 0 0 0; V (/4) (/4) (/4)] |} = 14%nat.
Proof. reflexivity. Qed.

(** [vkb_diag] is the diagonal of that operator. *)
Theorem C43_diagonal ylm (S_ : species) (K : kpoint) (g : nat) :
  vkb_diag ylm S_ K g = matrix_element ylm S_ K g g.
Proof.
  unfold vkb_diag, matrix_element.
  assert (G : forall pos acc, fold_left (fun acc tau =>
      (acc + csum (numvkb (s_l S_)) (fun i => vkb_iat ylm S_ K tau i g *
          csum (numvkb (s_l S_)) (fun j => RtoC (dij_atom S_ i j) * Cconj (vkb_iat ylm S_ K tau j g))))%C) pos acc
    = (acc + lsum pos (fun tau => csum (numvkb (s_l S_)) (fun i => csum (numvkb (s_l S_)) (fun j =>
     (vkb_iat ylm S_ K tau i g * RtoC (dij_atom S_ i j) * Cconj (vkb_iat ylm S_ K tau j g)))%C)))%C).
  { induction pos as [|tau pos IH]; intros acc; cbn [fold_left]; [rewrite lsum_nil; ring|].
    rewrite IH, lsum_cons.
    assert (X : csum (numvkb (s_l S_)) (fun i => (vkb_iat ylm S_ K tau i g *
          csum (numvkb (s_l S_)) (fun j => RtoC (dij_atom S_ i j) * Cconj (vkb_iat ylm S_ K tau j g)))%C)
      = csum (numvkb (s_l S_)) (fun i => csum (numvkb (s_l S_)) (fun j =>
         (vkb_iat ylm S_ K tau i g * RtoC (dij_atom S_ i j) * Cconj (vkb_iat ylm S_ K tau j g))%C))).
    { apply csum_ext. intros i _. rewrite <- csum_scal. apply csum_ext. intros j _. ring. }
    rewrite X. ring. }
  rewrite G. destruct (Nat.eq_dec (numvkb (s_l S_)) 0) as [E|Hn].
  - unfold num_full. rewrite E, Nat.mul_0_r. cbn [csum]. rewrite lsum_zero; [ring|reflexivity].
  - rewrite full_op by exact Hn. ring.
Qed.

Lemma lsum_conj {A} (l : list A) f : Cconj (lsum l f) = lsum l (fun a => Cconj (f a)).
Proof.
  induction l as [|a t IH]; [apply C_ext; cbn; ring|]. rewrite !lsum_cons, <- IH. apply C_ext; cbn; ring.
Qed.
Lemma conj_invol (a : C) : Cconj (Cconj a) = a. Proof. destruct a. apply C_ext; cbn; ring. Qed.
Lemma angular_conj ylm l a b c d : Cconj (angular ylm l a b c d) = angular ylm l c d a b.
Proof.
  unfold angular. rewrite lsum_conj. apply lsum_ext. intros m _. rewrite conj_mul, conj_invol. ring.
Qed.

(** Hermitian when the pseudopotential's coefficients are symmetric. *)
Theorem C43_operator_hermitian ylm (S_ : species) (K : kpoint) (g g' : nat) :
  (forall b b', s_dij S_ b b' = s_dij S_ b' b) ->
  matrix_element ylm S_ K g' g = Cconj (matrix_element ylm S_ K g g').
Proof.
  intros HD. rewrite !C43_operator_is_kleinman_bylander. unfold kb_operator. rewrite lsum_conj.
  apply lsum_ext. intros tau _. rewrite conj_mul, cis_conj. f_equal.
  { f_equal. unfold vdot, vsub. cbn [vx vy vz]. ring. }
  rewrite lsum_conj, lsum_swap. apply lsum_ext. intros x _. rewrite lsum_conj. apply lsum_ext. intros y _.
  rewrite Nat.eqb_sym. destruct (snd x =? snd y)%nat eqn:E; [|apply C_ext; cbn; ring].
  apply Nat.eqb_eq in E. rewrite conj_mul, conj_RtoC, angular_conj, HD, E. f_equal. f_equal. ring.
Qed.

(** Translating every atom by t multiplies the matrix elements by the plane-wave phase;
    translating single atoms by lattice vectors or reordering them changes nothing. *)
Definition set_pos (S_ : species) (pos : list rvec) : species :=
  {| s_l := s_l S_; s_dij := s_dij S_; s_pos := pos |}.
Theorem C43_translation ylm (S_ : species) (K : kpoint) (t : rvec) (g g' : nat) :
  matrix_element ylm (set_pos S_ (map (fun tau => vadd tau t) (s_pos S_))) K g g'
  = (cis (- (2 * PI * vdot t (vsub (k_cryst K g) (k_cryst K g')))) * matrix_element ylm S_ K g g')%C.
Proof.
  rewrite !C43_operator_is_kleinman_bylander. unfold kb_operator. cbn [set_pos s_l s_dij s_pos].
  rewrite lsum_map, <- lsum_scal. apply lsum_ext. intros tau _.
  replace (- (2 * PI * vdot (vadd tau t) (vsub (k_cryst K g) (k_cryst K g'))))
    with (- (2 * PI * vdot t (vsub (k_cryst K g) (k_cryst K g'))) + - (2 * PI * vdot tau (vsub (k_cryst K g) (k_cryst K g')))).
  - rewrite cis_plus. ring.
  - unfold vdot, vadd. cbn [vx vy vz]. ring.
Qed.

Definition lattice_image (r r' : rvec) : Prop :=
  exists a b c : Z, r' = V (vx r + IZR a) (vy r + IZR b) (vz r + IZR c).
Theorem C43_periodic_images ylm (S_ : species) (K : kpoint) (pos : list rvec) (g g' : nat) :
  (exists pos', Permutation pos pos' /\ Forall2 lattice_image (s_pos S_) pos') ->
  (exists a b c : Z, vsub (k_cryst K g) (k_cryst K g') = V (IZR a) (IZR b) (IZR c)) ->
  matrix_element ylm (set_pos S_ pos) K g g' = matrix_element ylm S_ K g g'.
Proof.
  intros (pos' & Hp & HF) (a & b & c & Hg). rewrite !C43_operator_is_kleinman_bylander. unfold kb_operator.
  cbn [set_pos s_l s_dij s_pos]. rewrite (lsum_perm _ _ _ Hp). clear Hp pos.
  rewrite Hg. induction HF as [|r r' l l' (x & y & z & ->) HF IH]; [reflexivity|].
  rewrite !lsum_cons, IH. f_equal. f_equal.
  replace (- (2 * PI * vdot (V (vx r + IZR x) (vy r + IZR y) (vz r + IZR z)) (V (IZR a) (IZR b) (IZR c))))
    with (- (2 * PI * vdot r (V (IZR a) (IZR b) (IZR c))) + 2 * PI * IZR (- (x * a + y * b + z * c))).
  - rewrite cis_plus, cis_2PI_Z. ring.
  - rewrite opp_IZR, !plus_IZR, !mult_IZR. unfold vdot. cbn [vx vy vz]. ring.
Qed.

(** ** C44: radial interpolation *)
(** Exact for cubic polynomials, in particular constants: the weights sum to one. *)
Theorem C44_exact_for_cubics (a0 a1 a2 a3 q y : R) (nq : Z) (tab : Z -> R) :
  let F := fun x => a0 + a1 * x + a2 * x ^ 2 + a3 * x ^ 3 in
  (forall k, (0 <= k < nq)%Z -> tab k = F (IZR k * DEL_Q)) ->
  interp nq tab q = Ok y -> y = F q.
Proof.
  cbv zeta. intros Ht Hi. unfold interp in Hi. set (idx := rint (q / DEL_Q)) in *.
  destruct ((idx <? 0) || (nq <=? idx + 3))%Z eqn:E; [discriminate|].
  apply orb_false_iff in E. destruct E as [E1 E2].
  injection Hi as Hy. rewrite !Ht in Hy by lia. rewrite !plus_IZR in Hy.
  pose proof DEL_Q_pos as Hd.
  set (s := q / DEL_Q - IZR idx) in *. assert (Hq : q = (IZR idx + s) * DEL_Q) by (unfold s; field; lra).
  rewrite Hq, <- Hy. unfold lagrange4. field.
Qed.
Theorem C44_weights_sum_to_one (x : R) :
  lagrange4 1 1 1 1 x = 1 /\
  (forall y0 y1 y2 y3, lagrange4 y0 y1 y2 y3 x
     = lagrange4 1 0 0 0 x * y0 + lagrange4 0 1 0 0 x * y1 + lagrange4 0 0 1 0 x * y2 + lagrange4 0 0 0 1 x * y3).
Proof. split; intros; unfold lagrange4; field. Qed.

(** Error for a smooth projector: at most (105/384) h^4 times the largest fourth
    derivative, h the spacing of the table. *)
Theorem C44_error_bound F F1 F2 F3 F4 M nq tab q y :
  0 <= q -> interp nq tab q = Ok y ->
  (forall k, (0 <= k < nq)%Z -> tab k = F (IZR k * DEL_Q)) ->
  (forall x, 0 <= x <= q + 4 * DEL_Q ->
     derivable_pt_lim F x (F1 x) /\ derivable_pt_lim F1 x (F2 x) /\
     derivable_pt_lim F2 x (F3 x) /\ derivable_pt_lim F3 x (F4 x) /\ Rabs (F4 x) <= M) ->
  Rabs (y - F q) <= 105 / 384 * DEL_Q ^ 4 * M.
Proof.
  intros Hq Hi Ht HD.
  replace (105 / 384 * DEL_Q ^ 4 * M) with (M / 24 * DEL_Q ^ 4 * (105 / 16)) by field.
  apply (interp_bound F F1 F2 F3 F4 M nq tab q y Hq Hi Ht).
  all: intros x Hx; specialize (HD x Hx); tauto.
Qed.
(** The constant is attained: rint picks the nearest table point as the first of the
    four nodes, so half of the queries lie outside the nodes used. *)
Lemma rint_3_2 : rint (3 / 2) = 2%Z.
Proof.
  assert (E : rfloor (3 / 2) = 1%Z) by (apply rfloor_unique; cbn; lra).
  unfold rint. rewrite E. destruct (Rlt_dec (3/2 - 1) (1/2)); [lra|]. destruct (Rlt_dec (1/2) (3/2-1)); [lra|]. reflexivity.
Qed.
Theorem C44_error_bound_attained (nq : Z) : (6 <= nq)%Z ->
  let F := fun x => x ^ 4 in
  let q := 3 / 2 * DEL_Q in
  exists y, interp nq (fun k => F (IZR k * DEL_Q)) q = Ok y /\
            Rabs (y - F q) = 105 / 384 * DEL_Q ^ 4 * 24.
Proof.
  intros Hn. cbv zeta. pose proof DEL_Q_pos as Hd. unfold interp.
  replace (3 / 2 * DEL_Q / DEL_Q) with (3 / 2) by (field; lra). rewrite rint_3_2.
  replace ((2 <? 0) || (nq <=? 2 + 3))%Z with false by lia.
  eexists. split; [reflexivity|]. cbn [Z.add Pos.add Pos.succ].
  unfold lagrange4. set (h := DEL_Q) in *. clearbody h.
  match goal with |- Rabs ?a = _ => replace a with (- (105 / 16 * h ^ 4)) by field end.
  rewrite Rabs_Ropp, Rabs_pos_eq; [field|]. assert (0 < h ^ 4) by (apply pow_lt; lra). lra.
Qed.
Example C44_error_bound_nonvacuous : exists y, interp 10 (fun k => sin (IZR k * DEL_Q)) 0 = Ok y /\ Rabs (y - sin 0) <= 105 / 384 * DEL_Q ^ 4 * 1.
Proof.
  assert (R0 : rint (0 / DEL_Q) = 0%Z).
  { replace (0 / DEL_Q) with 0 by (unfold Rdiv; ring).
    assert (E : rfloor 0 = 0%Z) by (apply rfloor_unique; cbn; lra).
    unfold rint. rewrite E. destruct (Rlt_dec (0 - 0) (1/2)); [reflexivity|lra]. }
  assert (X : exists y, interp 10 (fun k => sin (IZR k * DEL_Q)) 0 = Ok y).
  { unfold interp. rewrite R0. eexists. reflexivity. }
  destruct X as (y & Hy). exists y. split; [exact Hy|].
  refine (C44_error_bound sin cos (fun x => - sin x) (fun x => - cos x) (fun x => - - sin x) 1 10 _ 0 y _ Hy _ _); [lra|reflexivity|].
  intros x _. split; [apply derivable_pt_lim_sin|]. split; [apply derivable_pt_lim_cos|].
  split; [apply (derivable_pt_lim_opp sin), derivable_pt_lim_sin|].
  split; [apply (derivable_pt_lim_opp cos), derivable_pt_lim_cos|].
  rewrite Ropp_involutive. pose proof (SIN_bound x). apply Rabs_le. lra.
Qed.

(** Every wave of the table's own cutoff is inside the table; waves beyond it by two
    and a half spacings are refused. *)
Lemma rceil_ge x : x <= IZR (rceil x) < x + 1.
Proof. unfold rceil. rewrite opp_IZR. pose proof (rfloor_spec (- x)). lra. Qed.
Theorem C44_in_range (ecut q : R) (tab : Z -> R) :
  0 <= q <= sqrt (2 * ecut) -> exists y, interp (numq ecut) tab q = Ok y.
Proof.
  intros [Hq Hq2]. unfold interp.
  pose proof DEL_Q_pos as Hd.
  assert (H0 : 0 <= q / DEL_Q) by (apply Rmult_le_pos; [lra|left; now apply Rinv_0_lt_compat]).
  assert (H1 : q / DEL_Q <= sqrt (2 * ecut) / DEL_Q) by (apply Rmult_le_compat_r; [left; now apply Rinv_0_lt_compat|lra]).
  pose proof (rint_nonneg _ H0) as Hi. pose proof (rint_close (q / DEL_Q)) as Hc. apply Rabs_le_between in Hc.
  pose proof (rceil_ge (sqrt (2 * ecut) / DEL_Q + 4)) as Hn. fold (numq ecut) in Hn.
  assert (Hlt : (rint (q / DEL_Q) + 3 < numq ecut)%Z) by (apply lt_IZR; rewrite plus_IZR; lra).
  replace ((rint (q / DEL_Q) <? 0) || (numq ecut <=? rint (q / DEL_Q) + 3))%Z with false by lia.
  eexists. reflexivity.
Qed.
Theorem C44_out_of_range_refused (ecut q : R) (tab : Z -> R) :
  sqrt (2 * ecut) + 5 / 2 * DEL_Q <= q -> interp (numq ecut) tab q = Err IndexError.
Proof.
  intros Hq. unfold interp. pose proof DEL_Q_pos as Hd.
  assert (H1 : sqrt (2 * ecut) / DEL_Q + 5 / 2 <= q / DEL_Q).
  { replace (sqrt (2 * ecut) / DEL_Q + 5 / 2) with ((sqrt (2 * ecut) + 5 / 2 * DEL_Q) / DEL_Q) by (field; lra).
    apply Rmult_le_compat_r; [left; now apply Rinv_0_lt_compat|lra]. }
  pose proof (rint_close (q / DEL_Q)) as Hc. apply Rabs_le_between in Hc.
  pose proof (rceil_ge (sqrt (2 * ecut) / DEL_Q + 4)) as Hn. fold (numq ecut) in Hn.
  assert (Hlt : (numq ecut < rint (q / DEL_Q) + 3 + 1)%Z) by (apply lt_IZR; rewrite !plus_IZR; lra).
  replace ((rint (q / DEL_Q) <? 0) || (numq ecut <=? rint (q / DEL_Q) + 3))%Z with true by lia.
  reflexivity.
Qed.

Print Assumptions C43_projector_enumeration.
Print Assumptions C43_rows_carry_their_label.
Print Assumptions C43_dij_couples_equal_lm.
Print Assumptions C43_operator_is_kleinman_bylander.
Print Assumptions C43_diagonal.
Print Assumptions C43_operator_hermitian.
Print Assumptions C43_translation.
Print Assumptions C43_periodic_images.
Print Assumptions C44_exact_for_cubics.
Print Assumptions C44_weights_sum_to_one.
Print Assumptions C44_error_bound.
Print Assumptions C44_error_bound_attained.
Print Assumptions C44_in_range.
Print Assumptions C44_out_of_range_refused.
