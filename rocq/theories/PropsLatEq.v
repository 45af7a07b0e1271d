(** C114: equality of lattices. *)
From Coq Require Import Reals Lra.
From Verif Require Import Base LatModel LatEqModel.
Local Open Scope R_scope.

(** Length of a vector of Cartesian (or of three) components. *)
Definition vlen (v : rvec) : R := sqrt (vdot v v).
Definition tol : R := 1 / 100000.
Definition basis (o : lobj) : mat := primvec (u_lat (l_u o)).
(** All nine components of the basis vectors within [e]. *)
Definition near (e : R) (a b : lobj) : Prop :=
  let d (u v : rvec) := Rabs (vx u - vx v) <= e /\ Rabs (vy u - vy v) <= e /\ Rabs (vz u - vz v) <= e in
  d (c1 (basis a)) (c1 (basis b)) /\ d (c2 (basis a)) (c2 (basis b)) /\ d (c3 (basis a)) (c3 (basis b)).
Definition cubic (d : R) : mat := Mat (V d 0 0) (V 0 d 0) (V 0 0 d).

Lemma kind_eqb_iff a b : kind_eqb a b = true <-> a = b.
Proof. destruct a, b; cbn; split; congruence. Qed.
Definition fro2 (P : mat) : R := vdot (c1 P) (c1 P) + vdot (c2 P) (c2 P) + vdot (c3 P) (c3 P).
Lemma sq_nonneg v : 0 <= vdot v v. Proof. unfold vdot. nra. Qed.
Lemma fro2_nonneg P : 0 <= fro2 P.
Proof. unfold fro2. pose proof (sq_nonneg (c1 P)). pose proof (sq_nonneg (c2 P)). pose proof (sq_nonneg (c3 P)). lra. Qed.
Lemma sqrt_le_iff x y : 0 <= y -> (sqrt x <= y <-> x <= y * y).
Proof.
  intros Hy. split; intros H.
  - destruct (Rle_dec 0 x) as [P|N]; [|nra]. rewrite <- (sqrt_def x P). pose proof (sqrt_pos x). nra.
  - rewrite <- (sqrt_square y Hy). now apply sqrt_le_1_alt.
Qed.
Lemma eq_iff a b : lattice_eq a b = true <-> l_kind a = l_kind b /\ fro2 (msub (basis a) (basis b)) <= tol * tol.
Proof.
  assert (T : 0 <= tol) by (unfold tol; lra). unfold lattice_eq, leb_R. destruct (kind_eqb _ _) eqn:E.
  - apply kind_eqb_iff in E. pose proof (sqrt_le_iff (fro2 (msub (basis a) (basis b))) tol T) as W.
    change (fro (msub (primvec (u_lat (l_u a))) (primvec (u_lat (l_u b))))) with (sqrt (fro2 (msub (basis a) (basis b)))).
    fold tol. destruct (Rle_dec _ _); split; try discriminate; tauto.
  - split; [discriminate|]. intros [H _]. apply kind_eqb_iff in H. congruence.
Qed.
Lemma abs_le x e : 0 <= e -> x * x <= e * e -> Rabs x <= e.
Proof. intros He H. apply Rabs_le. split; nra. Qed.
Lemma eq_near a b : lattice_eq a b = true -> near tol a b.
Proof.
  intros H. apply eq_iff in H. destruct H as [_ H]. unfold fro2, msub, vdot, vsub in H. cbn in H.
  assert (T : 0 <= tol) by (unfold tol; lra).
  unfold near. destruct (basis a) as [[a1 a2 a3] [a4 a5 a6] [a7 a8 a9]], (basis b) as [[b1 b2 b3] [b4 b5 b6] [b7 b8 b9]]. cbn in *.
  pose proof (Rle_0_sqr (a1 - b1)). pose proof (Rle_0_sqr (a2 - b2)). pose proof (Rle_0_sqr (a3 - b3)).
  pose proof (Rle_0_sqr (a4 - b4)). pose proof (Rle_0_sqr (a5 - b5)). pose proof (Rle_0_sqr (a6 - b6)).
  pose proof (Rle_0_sqr (a7 - b7)). pose proof (Rle_0_sqr (a8 - b8)). pose proof (Rle_0_sqr (a9 - b9)). unfold Rsqr in *.
  repeat split; apply abs_le; try assumption; lra.
Qed.
Lemma abs_sq x e : Rabs x <= e -> x * x <= e * e.
Proof. intros H. pose proof (Rabs_pos x). rewrite <- (Rabs_pos_eq (x * x)), Rabs_mult by nra. nra. Qed.
Lemma near_eq a b : l_kind a = l_kind b -> near (tol / 3) a b -> lattice_eq a b = true.
Proof.
  intros K ((H1 & H2 & H3) & (H4 & H5 & H6) & (H7 & H8 & H9)). apply eq_iff. split; [exact K|].
  unfold fro2, msub, vdot, vsub. cbn. apply abs_sq in H1, H2, H3, H4, H5, H6, H7, H8, H9. unfold tol in *. lra.
Qed.
Lemma cs3 a b c x y z : (a * x + b * y + c * z) * (a * x + b * y + c * z) <= (a * a + b * b + c * c) * (x * x + y * y + z * z).
Proof.
  pose proof (Rle_0_sqr (a * y - b * x)). pose proof (Rle_0_sqr (a * z - c * x)). pose proof (Rle_0_sqr (b * z - c * y)).
  unfold Rsqr in *. nra.
Qed.

Theorem C114_means_close : forall a b, lattice_eq a b = true ->
  l_kind a = l_kind b /\ near tol a b
  /\ forall v, vlen (vsub (cryst2cart (u_lat (l_u a)) v) (cryst2cart (u_lat (l_u b)) v)) <= tol * vlen v.
Proof.
  intros a b H. pose proof (proj1 (eq_iff a b) H) as [K F]. split; [exact K|]. split; [now apply eq_near|].
  intros v. assert (T : 0 <= tol) by (unfold tol; lra). unfold vlen.
  replace (tol * sqrt (vdot v v)) with (sqrt (tol * tol * vdot v v))
    by (rewrite sqrt_mult by (try apply sq_nonneg; nra); now rewrite sqrt_square).
  apply sqrt_le_1_alt. apply Rle_trans with (fro2 (msub (basis a) (basis b)) * vdot v v).
  - unfold cryst2cart. change (primvec (u_lat (l_u a))) with (basis a). change (primvec (u_lat (l_u b))) with (basis b).
    destruct (basis a) as [[a1 a2 a3] [a4 a5 a6] [a7 a8 a9]], (basis b) as [[b1 b2 b3] [b4 b5 b6] [b7 b8 b9]], v as [x y z].
    unfold fro2, msub, mv, vadd, vscale, vsub, vdot. cbn.
    pose proof (cs3 (a1 - b1) (a4 - b4) (a7 - b7) x y z). pose proof (cs3 (a2 - b2) (a5 - b5) (a8 - b8) x y z).
    pose proof (cs3 (a3 - b3) (a6 - b6) (a9 - b9) x y z). lra.
  - apply Rmult_le_compat_r; [apply sq_nonneg|exact F].
Qed.
Print Assumptions C114_means_close.

Theorem C114_close_means_equal : forall a b, l_kind a = l_kind b -> near (tol / 3) a b -> lattice_eq a b = true.
Proof. exact near_eq. Qed.
Print Assumptions C114_close_means_equal.

Theorem C114_reflexive_symmetric : forall a b,
  lattice_eq a a = true /\ lattice_eq a b = lattice_eq b a /\ lattice_ne a b = negb (lattice_eq a b)
  /\ (l_kind a <> l_kind b -> lattice_eq a b = false).
Proof.
  intros a b. split; [|split; [|split; [reflexivity|]]].
  - apply near_eq; [reflexivity|]. unfold near, tol. repeat split; rewrite Rminus_diag_eq, Rabs_R0 by reflexivity; lra.
  - apply eq_true_iff_eq. rewrite !eq_iff.
    replace (fro2 (msub (basis b) (basis a))) with (fro2 (msub (basis a) (basis b)));
      [|unfold fro2, msub, vdot, vsub; cbn; ring]. intuition.
  - intros N. destruct (lattice_eq a b) eqn:E; [|reflexivity]. apply eq_iff in E. tauto.
Qed.
Print Assumptions C114_reflexive_symmetric.

(** Two equalities in a row: within twice the tolerance. *)
Theorem C114_chain : forall a b c, lattice_eq a b = true -> lattice_eq b c = true -> l_kind a = l_kind c /\ near (2 * tol) a c.
Proof.
  intros a b c H1 H2. pose proof (proj1 (proj1 (eq_iff a b) H1)). pose proof (proj1 (proj1 (eq_iff b c) H2)).
  split; [congruence|]. apply eq_near in H1, H2. unfold near in *.
  assert (T : forall x y z, Rabs (x - y) <= tol -> Rabs (y - z) <= tol -> Rabs (x - z) <= 2 * tol).
  { intros x y z A B. replace (x - z) with ((x - y) + (y - z)) by ring. pose proof (Rabs_triang (x - y) (y - z)). lra. }
  destruct H1 as ((A1 & A2 & A3) & (A4 & A5 & A6) & (A7 & A8 & A9)), H2 as ((B1 & B2 & B3) & (B4 & B5 & B6) & (B7 & B8 & B9)).
  repeat split; eapply T; eassumption.
Qed.
Print Assumptions C114_chain.

Lemma cubic_det d : mdet (cubic d) = d * d * d.
Proof. unfold mdet, cubic, vdot, vcross. cbn. ring. Qed.
Lemma cubic_ok u d : d <> 0 -> exists U, mk_ulattice u (cubic d) = Ok U /\ u_unit U = u /\ primvec (u_lat U) = cubic d
  /\ primvec_inv (u_lat U) = cubic (/ d).
Proof.
  intros H. unfold mk_ulattice, mk_lattice. destruct (Req_EM_T (mdet (cubic d)) 0) as [e|_].
  - exfalso. rewrite cubic_det in e. apply H. destruct (Rmult_integral _ _ e) as [X|X]; [|exact X].
    destruct (Rmult_integral _ _ X); assumption.
  - eexists. split; [reflexivity|]. cbn. repeat split.
    unfold minv. rewrite cubic_det. unfold cubic, mtrans, mscale, vscale, vcross. cbn.
    assert (X : / (d * d * d) * (d * d - 0 * 0) = / d) by (field; exact H).
    f_equal; f_equal; try exact X; try (field; exact H).
Qed.
Definition is_cubic (o : lobj) (d : R) : Prop := basis o = cubic d.
Lemma cubic_eq a b x y : l_kind a = l_kind b -> is_cubic a x -> is_cubic b y ->
  (lattice_eq a b = true <-> 3 * ((x - y) * (x - y)) <= tol * tol).
Proof.
  intros K A B. rewrite eq_iff, A, B. unfold fro2, msub, cubic, vdot, vsub. cbn.
  replace ((x - y) * (x - y) + (0 - 0) * (0 - 0) + (0 - 0) * (0 - 0) + ((0 - 0) * (0 - 0) + (x - y) * (x - y) + (0 - 0) * (0 - 0)) +
    ((0 - 0) * (0 - 0) + (0 - 0) * (0 - 0) + (x - y) * (x - y))) with (3 * ((x - y) * (x - y))) by ring. tauto.
Qed.

(** Every non-singular lattice is the middle of such a chain in principle; a cubic family is enough. *)
Theorem C114_transitive_refuted : forall alat d, 1 <= d -> exists A B C,
  mk_ulattice alat (cubic d) = Ok A /\ mk_ulattice alat (cubic (d + tol / 2)) = Ok B /\ mk_ulattice alat (cubic (d + tol)) = Ok C
  /\ lattice_eq (LObj KReal A) (LObj KReal B) = true /\ lattice_eq (LObj KReal B) (LObj KReal C) = true
  /\ lattice_eq (LObj KReal A) (LObj KReal C) = false.
Proof.
  intros u d Hd. assert (T : 0 < tol) by (unfold tol; lra).
  destruct (cubic_ok u d) as (A & A1 & _ & A2 & _); [lra|]. destruct (cubic_ok u (d + tol / 2)) as (B & B1 & _ & B2 & _); [lra|].
  destruct (cubic_ok u (d + tol)) as (C & C1 & _ & C2 & _); [lra|].
  exists A, B, C. repeat split; auto.
  - eapply (cubic_eq _ _ d (d + tol / 2)); [reflexivity|exact A2|exact B2|]. nra.
  - eapply (cubic_eq _ _ (d + tol / 2) (d + tol)); [reflexivity|exact B2|exact C2|]. nra.
  - apply not_true_iff_false. intros H. eapply (cubic_eq _ _ d (d + tol)) in H; [|reflexivity|exact A2|exact C2]. nra.
Qed.
Print Assumptions C114_transitive_refuted.

(** Lattices with different alat, hence different alat coordinates, are equal. *)
Theorem C114_unit_refuted : forall P a1 a2 A B, mk_ulattice a1 P = Ok A -> mk_ulattice a2 P = Ok B ->
  lattice_eq (LObj KReal A) (LObj KReal B) = true /\ u_unit A = a1 /\ u_unit B = a2
  /\ forall v, cart2unit A v = vscale (/ a1) v /\ cart2unit B v = vscale (/ a2) v.
Proof.
  intros P a1 a2 A B HA HB. unfold mk_ulattice in *. destruct (mk_lattice P) as [L|e] eqn:E; [|discriminate].
  injection HA as <-. injection HB as <-. split; [|repeat split].
  apply near_eq; [reflexivity|]. unfold near, tol, basis. cbn.
  repeat split; rewrite Rminus_diag_eq, Rabs_R0 by reflexivity; lra.
Qed.
Print Assumptions C114_unit_refuted.

(** Equal real lattices need not have equal reciprocal lattices ... *)
Theorem C114_dual_refuted : forall alat, exists A B A' B',
  mk_ulattice alat (cubic 1) = Ok A /\ mk_ulattice alat (cubic (1 + tol / 2)) = Ok B
  /\ from_reallat A = Ok A' /\ from_reallat B = Ok B'
  /\ lattice_eq (LObj KReal A) (LObj KReal B) = true /\ lattice_eq (LObj KReci A') (LObj KReci B') = false.
Proof.
  intros u. destruct (cubic_ok u 1) as (A & A1 & _ & A2 & A3); [lra|].
  destruct (cubic_ok u (1 + tol / 2)) as (B & B1 & _ & B2 & B3); [unfold tol; lra|].
  assert (D : forall U d, d <> 0 -> primvec_inv (u_lat U) = cubic (/ d) -> exists U', from_reallat U = Ok U' /\ primvec (u_lat U') = cubic (TPI / d)).
  { intros U d Hd HU. unfold from_reallat. rewrite HU.
    replace (mscale TPI (mtrans (cubic (/ d)))) with (cubic (TPI / d)).
    - destruct (cubic_ok (TPI / u_unit U) (TPI / d)) as (X & X1 & _ & X2 & _); [|exists X; auto].
      unfold Rdiv, TPI. apply Rmult_integral_contrapositive_currified; [pose proof PI_RGT_0; lra|now apply Rinv_neq_0_compat].
    - unfold cubic, mtrans, mscale, vscale, Rdiv. cbn. f_equal; f_equal; ring. }
  destruct (D A 1 ltac:(lra) A3) as (A' & A4 & A5). destruct (D B (1 + tol / 2) ltac:(unfold tol; lra) B3) as (B' & B4 & B5).
  exists A, B, A', B'. repeat split; auto.
  - eapply (cubic_eq _ _ 1 (1 + tol / 2)); [reflexivity|exact A2|exact B2|]. unfold tol. nra.
  - apply not_true_iff_false. intros H. eapply cubic_eq in H; [|reflexivity|exact A5|exact B5].
    assert (P : 3 < PI) by (pose proof PI2_3_2; lra).
    assert (X : TPI / 1 - TPI / (1 + tol / 2) = TPI * (tol / 2) / (1 + tol / 2)) by (unfold tol; field; lra).
    rewrite X in H. assert (Y : 2 * tol <= TPI * (tol / 2) / (1 + tol / 2)).
    { unfold TPI, tol. apply Rmult_le_reg_r with (1 + 1 / 100000 / 2); [lra|]. set (k := 1 + 1 / 100000 / 2).
      replace (2 * PI * (1 / 100000 / 2) / k * k) with (2 * PI * (1 / 100000 / 2)) by (unfold k; field). unfold k. lra. }
    assert (0 < tol) by (unfold tol; lra). nra.
Qed.
Print Assumptions C114_dual_refuted.

(** ... nor real lattices with equal reciprocal lattices be equal (the check of a calculation's inputs
    compares reciprocal lattices). *)
Theorem C114_dual_back_refuted : forall tpiba, exists A B A' B',
  mk_ulattice tpiba (cubic (1 / 2)) = Ok A /\ mk_ulattice tpiba (cubic (1 / 2 + tol / 2)) = Ok B
  /\ from_recilat A = Ok A' /\ from_recilat B = Ok B'
  /\ lattice_eq (LObj KReci A) (LObj KReci B) = true /\ lattice_eq (LObj KReal A') (LObj KReal B') = false.
Proof.
  intros u. destruct (cubic_ok u (1 / 2)) as (A & A1 & _ & A2 & A3); [lra|].
  destruct (cubic_ok u (1 / 2 + tol / 2)) as (B & B1 & _ & B2 & B3); [unfold tol; lra|].
  assert (D : forall U d, d <> 0 -> primvec_inv (u_lat U) = cubic (/ d) -> exists U', from_recilat U = Ok U' /\ primvec (u_lat U') = cubic (TPI / d)).
  { intros U d Hd HU. unfold from_recilat. rewrite HU.
    replace (mscale TPI (mtrans (cubic (/ d)))) with (cubic (TPI / d)).
    - destruct (cubic_ok (TPI / u_unit U) (TPI / d)) as (X & X1 & _ & X2 & _); [|exists X; auto].
      unfold Rdiv, TPI. apply Rmult_integral_contrapositive_currified; [pose proof PI_RGT_0; lra|now apply Rinv_neq_0_compat].
    - unfold cubic, mtrans, mscale, vscale, Rdiv. cbn. f_equal; f_equal; ring. }
  destruct (D A (1 / 2) ltac:(lra) A3) as (A' & A4 & A5). destruct (D B (1 / 2 + tol / 2) ltac:(unfold tol; lra) B3) as (B' & B4 & B5).
  exists A, B, A', B'. repeat split; auto.
  - eapply (cubic_eq _ _ (1 / 2) (1 / 2 + tol / 2)); [reflexivity|exact A2|exact B2|]. unfold tol. nra.
  - apply not_true_iff_false. intros H. eapply cubic_eq in H; [|reflexivity|exact A5|exact B5].
    assert (P : 3 < PI) by (pose proof PI2_3_2; lra).
    assert (X : TPI / (1 / 2) - TPI / (1 / 2 + tol / 2) = 2 * TPI * tol / (1 + tol)) by (unfold tol; field; lra).
    rewrite X in H. assert (Y : 2 * tol <= 2 * TPI * tol / (1 + tol)).
    { unfold TPI, tol. apply Rmult_le_reg_r with (1 + 1 / 100000); [lra|]. set (k := 1 + 1 / 100000).
      replace (2 * (2 * PI) * (1 / 100000) / k * k) with (2 * (2 * PI) * (1 / 100000)) by (unfold k; field). unfold k. lra. }
    assert (0 < tol) by (unfold tol; lra). nra.
Qed.
Print Assumptions C114_dual_back_refuted.

(** Non-vacuity: two equal lattices that are not the same. *)
Example C114_example : exists A B, mk_ulattice 10 (cubic 10) = Ok A /\ mk_ulattice 10 (cubic (10 + tol / 3)) = Ok B
  /\ lattice_eq (LObj KReal A) (LObj KReal B) = true /\ basis (LObj KReal A) <> basis (LObj KReal B)
  /\ near (tol / 3) (LObj KReal A) (LObj KReal B).
Proof.
  assert (T : 0 < tol) by (unfold tol; lra).
  destruct (cubic_ok 10 10) as (A & A1 & _ & A2 & _); [lra|]. destruct (cubic_ok 10 (10 + tol / 3)) as (B & B1 & _ & B2 & _); [lra|].
  exists A, B. split; [exact A1|]. split; [exact B1|]. split; [|split].
  - eapply (cubic_eq _ _ 10 (10 + tol / 3)); [reflexivity|exact A2|exact B2|]. nra.
  - unfold basis. cbn. rewrite A2, B2. unfold cubic. intros H. injection H. lra.
  - unfold near, basis. cbn. rewrite A2, B2. cbn.
    assert (Z1 : Rabs (0 - 0) <= tol / 3) by (rewrite Rminus_diag_eq, Rabs_R0 by reflexivity; lra).
    assert (Z2 : Rabs (10 - (10 + tol / 3)) <= tol / 3) by (replace (10 - (10 + tol / 3)) with (- (tol / 3)) by ring; rewrite Rabs_Ropp, Rabs_pos_eq; lra).
    repeat split; assumption.
Qed.
