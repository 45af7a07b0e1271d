(** Derivatives, bounds and tails of the three smearing functions. *)
From Coq Require Import Reals String Lra Lia.
From Coquelicot Require Import Coquelicot.
From Verif Require Import Base LatModel KPtsModel ErfBase OccModel OccProofs SmearModel.
Open Scope R_scope.

Lemma sqrt_PI_pos : 0 < sqrt PI.
Proof. apply sqrt_lt_R0, PI_RGT_0. Qed.
Lemma sqrt2_pos : 0 < sqrt 2.
Proof. apply sqrt_lt_R0. lra. Qed.
Lemma sqrt2_sq : sqrt 2 * sqrt 2 = 2.
Proof. apply sqrt_sqrt. lra. Qed.
Lemma sqrt_2PI : sqrt (2 * PI) = sqrt 2 * sqrt PI.
Proof. apply sqrt_mult; [lra|left; apply PI_RGT_0]. Qed.
Lemma sqrt_PI_gt1 : 1 < sqrt PI.
Proof. rewrite <- sqrt_1. apply sqrt_lt_1; try lra; pose proof PI2_3_2; unfold PI2 in *; lra. Qed.
Lemma inv_sqrt_PI : 0 < / sqrt PI < 1.
Proof.
  pose proof sqrt_PI_gt1. split; [apply Rinv_0_lt_compat; lra|]. rewrite <- Rinv_1. apply Rinv_lt_contravar; lra.
Qed.

(** Derivatives. *)
Definition gauss_slope (x : R) : R := - / sqrt PI * exp (- (x * x)).
Lemma gauss_occ_derive x : is_derive gauss_occ x (gauss_slope x).
Proof.
  unfold gauss_occ, erfc. auto_derive.
  - eexists. apply erf_derive.
  - replace (Derive (fun x0 => erf x0) x) with (2 / sqrt PI * exp (- (x * x))).
    2:{ symmetry. apply is_derive_unique, erf_derive. }
    unfold gauss_slope. field. apply Rgt_not_eq, sqrt_PI_pos.
Qed.
Definition mv_g (x : R) : R := - (x + 1 / sqrt 2).
Definition mv_slope (x : R) : R := - / sqrt PI * exp (- (mv_g x * mv_g x)) * (1 - sqrt 2 * mv_g x).
Lemma mv_occ_derive x : is_derive mv_occ x (mv_slope x).
Proof.
  unfold mv_occ. auto_derive.
  - eexists. apply erf_derive.
  - assert (D : Derive (fun u => erf u) (- (x + 1 / sqrt 2)) = 2 / sqrt PI * exp (- (- (x + 1 / sqrt 2) * - (x + 1 / sqrt 2))))
      by apply is_derive_unique, erf_derive.
    rewrite D.
    unfold mv_slope, mv_g. rewrite sqrt_2PI.
    set (E := exp _). pose proof sqrt_PI_pos. pose proof sqrt2_pos. pose proof sqrt2_sq as S.
    assert (Q : 1 / (sqrt 2 * sqrt PI) * 2 = sqrt 2 / sqrt PI).
    { replace (1 / (sqrt 2 * sqrt PI) * 2) with (1 / (sqrt 2 * sqrt PI) * (sqrt 2 * sqrt 2)) by (rewrite S; reflexivity). field. lra. }
    set (g := - (x + 1 / sqrt 2)).
    transitivity (- / sqrt PI * E + (1 / (sqrt 2 * sqrt PI) * 2) * g * E).
    + unfold g. field. lra.
    + rewrite Q. field. lra.
Qed.
Definition fd_slope (x : R) : R := - (fd_occ x * (1 - fd_occ x)).
Lemma fd_occ_derive x : is_derive fd_occ x (fd_slope x).
Proof.
  pose proof (exp_pos x). unfold fd_occ. auto_derive; [lra|]. unfold fd_slope, fd_occ. field. lra.
Qed.

(** Lipschitz bound from a derivative bound. *)
Lemma lipschitz_of (f f' : R -> R) L : (forall x, is_derive f x (f' x)) -> (forall x, Rabs (f' x) <= L) ->
  forall x y, Rabs (f x - f y) <= L * Rabs (x - y).
Proof.
  intros D B x y. destruct (MVT_gen f y x f') as (c & _ & E).
  - intros u _. apply D.
  - intros u _. apply continuity_pt_filterlim. apply (ex_derive_continuous f). eexists. apply D.
  - rewrite E, Rabs_mult. apply Rmult_le_compat_r; [apply Rabs_pos|apply B].
Qed.
Lemma exp_neg_sq x : 0 < exp (- (x * x)) <= 1.
Proof.
  split; [apply exp_pos|]. rewrite <- exp_0. destruct (Req_dec (x * x) 0) as [-> |]; [right; f_equal; lra|].
  left. apply exp_increasing. nra.
Qed.
(** |x| exp(-x^2) <= 1 / 2. *)
Lemma x_exp_neg_sq x : Rabs x * exp (- (x * x)) <= / 2.
Proof.
  rewrite exp_Ropp. pose proof (exp_ineq1_le (x * x)) as E. pose proof (Rabs_pos x).
  assert (Q : Rabs x * Rabs x = x * x) by (unfold Rabs; destruct (Rcase_abs x); ring).
  apply Rmult_le_reg_r with (exp (x * x)); [apply exp_pos|]. rewrite Rmult_assoc, Rinv_l, Rmult_1_r by (apply Rgt_not_eq, exp_pos).
  pose proof (Rle_0_sqr (Rabs x - 1)) as SQ. unfold Rsqr in SQ. lra.
Qed.
Lemma gauss_slope_bound x : Rabs (gauss_slope x) <= 1.
Proof.
  unfold gauss_slope. pose proof inv_sqrt_PI. pose proof (exp_neg_sq x).
  rewrite Ropp_mult_distr_l_reverse, Rabs_Ropp, Rabs_pos_eq by (apply Rmult_le_pos; lra). nra.
Qed.
Lemma fd_slope_bound x : Rabs (fd_slope x) <= 1.
Proof. unfold fd_slope. pose proof (fd_bounds x). rewrite Rabs_Ropp, Rabs_pos_eq; nra. Qed.
Lemma mv_slope_bound x : Rabs (mv_slope x) <= 2.
Proof.
  unfold mv_slope. set (g := mv_g x). pose proof inv_sqrt_PI. pose proof (exp_neg_sq g). pose proof (x_exp_neg_sq g).
  pose proof sqrt2_pos. pose proof sqrt2_sq. assert (sqrt 2 < 2) by nra.
  rewrite Rmult_assoc, Rabs_mult, Rabs_Ropp, (Rabs_pos_eq (/ sqrt PI)) by lra.
  assert (Q : Rabs (exp (- (g * g)) * (1 - sqrt 2 * g)) <= 2).
  { rewrite Rabs_mult, (Rabs_pos_eq (exp _)) by lra.
    assert (Rabs (1 - sqrt 2 * g) <= 1 + sqrt 2 * Rabs g).
    { eapply Rle_trans; [apply Rabs_triang|]. rewrite Rabs_R1, Rabs_Ropp, Rabs_mult, (Rabs_pos_eq (sqrt 2)) by lra. lra. }
    apply Rle_trans with (exp (- (g * g)) * (1 + sqrt 2 * Rabs g)); [apply Rmult_le_compat_l; lra|].
    assert (sqrt 2 * (Rabs g * exp (- (g * g))) <= sqrt 2 * / 2) by (apply Rmult_le_compat_l; lra). nra. }
  pose proof (Rabs_pos (exp (- (g * g)) * (1 - sqrt 2 * g))). nra.
Qed.

(** Tails. *)
Lemma exp_le a b : a <= b -> exp a <= exp b.
Proof. intros [H| ->]; [left; now apply exp_increasing|right; reflexivity]. Qed.
Lemma gauss_symm f : gauss_occ f + gauss_occ (- f) = 1.
Proof. unfold gauss_occ, erfc. rewrite erf_odd. field. Qed.
Lemma gauss_bounds f : 0 < gauss_occ f < 1.
Proof. unfold gauss_occ, erfc. pose proof (erf_bound f). lra. Qed.
Lemma gauss_decr a b : a <= b -> gauss_occ b <= gauss_occ a.
Proof. intros [H| ->]; [|lra]. unfold gauss_occ, erfc. pose proof (erf_increasing a b H). lra. Qed.
Lemma gauss_tail x : 0 <= x -> gauss_occ x <= / 2 * exp (- (x * x)).
Proof. intros H. unfold gauss_occ, erfc. pose proof (erf_tail x H). lra. Qed.
Lemma gauss_right x : 50 <= x -> Rabs (gauss_occ x) <= exp (-2500).
Proof.
  intros H. pose proof (gauss_bounds x). pose proof (gauss_tail x ltac:(lra)). rewrite Rabs_pos_eq by lra.
  assert (exp (- (x * x)) <= exp (-2500)) by (apply exp_le; nra). pose proof (exp_pos (-2500)). lra.
Qed.
Lemma gauss_left x : x <= -50 -> Rabs (1 - gauss_occ x) <= exp (-2500).
Proof. intros H. rewrite <- (gauss_symm x). replace (_ + _ - _) with (gauss_occ (- x)) by ring. apply gauss_right. lra. Qed.
Lemma fd_right x : 50 <= x -> Rabs (fd_occ x) <= exp (-50).
Proof.
  intros H. pose proof (fd_bounds x). rewrite Rabs_pos_eq by lra.
  replace (-50) with (- SMEAR_THRESHOLD) by (unfold SMEAR_THRESHOLD; lra). apply fd_small. exact H.
Qed.
Lemma fd_left x : x <= -50 -> Rabs (1 - fd_occ x) <= exp (-50).
Proof. intros H. rewrite <- (fd_symm x). replace (_ + _ - _) with (fd_occ (- x)) by ring. apply fd_right. lra. Qed.

Lemma mv_eq x : mv_occ x = gauss_occ (- mv_g x) + / (sqrt 2 * sqrt PI) * exp (- (mv_g x * mv_g x)).
Proof.
  unfold mv_occ, gauss_occ, erfc. fold (mv_g x). rewrite erf_odd, sqrt_2PI. cbv zeta. unfold Rdiv. ring.
Qed.
Lemma inv_sqrt_2PI : 0 < / (sqrt 2 * sqrt PI) < / 2.
Proof.
  rewrite <- sqrt_2PI. pose proof PI2_3_2. assert (E : sqrt (2 * 2) = 2) by (apply sqrt_square; lra).
  assert (2 < sqrt (2 * PI)) by (rewrite <- E at 1; apply sqrt_lt_1; unfold PI2 in *; lra).
  split; [apply Rinv_0_lt_compat; lra|apply Rinv_lt_contravar; lra].
Qed.
Lemma inv_sqrt2 : / 2 < / sqrt 2 < 1.
Proof.
  pose proof sqrt2_pos. pose proof sqrt2_sq. split; [apply Rinv_lt_contravar; nra|].
  rewrite <- Rinv_1. apply Rinv_lt_contravar; nra.
Qed.
Lemma mv_right x : 50 <= x -> Rabs (mv_occ x) <= exp (-2400).
Proof.
  intros H. rewrite mv_eq. set (g := mv_g x). assert (G : 50 <= - g) by (unfold g, mv_g; pose proof inv_sqrt2; lra).
  pose proof (gauss_bounds (- g)). pose proof (gauss_tail (- g) ltac:(lra)) as T. pose proof inv_sqrt_2PI.
  replace (- g * - g) with (g * g) in T by ring. pose proof (exp_pos (- (g * g))).
  assert (exp (- (g * g)) <= exp (-2400)) by (apply exp_le; nra).
  assert (/ (sqrt 2 * sqrt PI) * exp (- (g * g)) <= / 2 * exp (- (g * g))) by (apply Rmult_le_compat_r; lra).
  assert (0 <= / (sqrt 2 * sqrt PI) * exp (- (g * g))) by (apply Rmult_le_pos; lra).
  rewrite Rabs_pos_eq by lra. lra.
Qed.
Lemma mv_left x : x <= -50 -> Rabs (1 - mv_occ x) <= exp (-2400).
Proof.
  intros H. rewrite mv_eq. set (g := mv_g x). assert (G : 49 <= g) by (unfold g, mv_g; pose proof inv_sqrt2; lra).
  rewrite <- (gauss_symm (- g)). rewrite Ropp_involutive.
  pose proof (gauss_bounds g). pose proof (gauss_tail g ltac:(lra)) as T. pose proof inv_sqrt_2PI.
  pose proof (exp_pos (- (g * g))).
  assert (exp (- (g * g)) <= exp (-2400)) by (apply exp_le; nra).
  assert (/ (sqrt 2 * sqrt PI) * exp (- (g * g)) <= / 2 * exp (- (g * g))) by (apply Rmult_le_compat_r; lra).
  assert (0 <= / (sqrt 2 * sqrt PI) * exp (- (g * g))) by (apply Rmult_le_pos; lra).
  apply Rabs_le. lra.
Qed.
Lemma mv_pos x : 0 < mv_occ x.
Proof.
  rewrite mv_eq. pose proof (gauss_bounds (- mv_g x)). pose proof inv_sqrt_2PI. pose proof (exp_pos (- (mv_g x * mv_g x))).
  assert (0 < / (sqrt 2 * sqrt PI) * exp (- (mv_g x * mv_g x))) by (apply Rmult_lt_0_compat; lra). lra.
Qed.
(** Strict monotonicity from the sign of the slope in the open interval. *)
Lemma mv_diff a b : a < b -> exists c, a < c < b /\ mv_occ b - mv_occ a = mv_slope c * (b - a).
Proof.
  intros H. destruct (MVT_cor2 mv_occ mv_slope a b H) as (c & E & Hc).
  - intros c _. apply is_derive_Reals, mv_occ_derive.
  - exists c. split; [exact Hc|exact E].
Qed.
Lemma mv_slope_sign c : (- sqrt 2 < c -> mv_slope c < 0) /\ (c < - sqrt 2 -> 0 < mv_slope c).
Proof.
  unfold mv_slope. set (g := mv_g c). pose proof inv_sqrt_PI. pose proof (exp_pos (- (g * g))).
  assert (P : 0 < / sqrt PI * exp (- (g * g))) by (apply Rmult_lt_0_compat; lra).
  pose proof sqrt2_pos. pose proof sqrt2_sq.
  assert (E : 1 - sqrt 2 * g = sqrt 2 * (c + sqrt 2)).
  { unfold g, mv_g. replace (1 - sqrt 2 * - (c + 1 / sqrt 2)) with (2 + sqrt 2 * c) by (field; lra). rewrite <- H2 at 1. ring. }
  rewrite E. split; intros Hc.
  - assert (0 < sqrt 2 * (c + sqrt 2)) by (apply Rmult_lt_0_compat; lra).
    assert (0 < / sqrt PI * exp (- (g * g)) * (sqrt 2 * (c + sqrt 2))) by now apply Rmult_lt_0_compat. lra.
  - assert (0 < sqrt 2 * - (c + sqrt 2)) by (apply Rmult_lt_0_compat; lra).
    assert (0 < / sqrt PI * exp (- (g * g)) * (sqrt 2 * - (c + sqrt 2))) by now apply Rmult_lt_0_compat. lra.
Qed.
Lemma mv_decr a b : - sqrt 2 <= a -> a < b -> mv_occ b < mv_occ a.
Proof.
  intros Ha H. destruct (mv_diff a b H) as (c & Hc & E). destruct (mv_slope_sign c) as [S _]. specialize (S ltac:(lra)).
  assert (0 < - mv_slope c * (b - a)) by (apply Rmult_lt_0_compat; lra). lra.
Qed.
Lemma mv_incr a b : b <= - sqrt 2 -> a < b -> mv_occ a < mv_occ b.
Proof.
  intros Ha H. destruct (mv_diff a b H) as (c & Hc & E). destruct (mv_slope_sign c) as [_ S]. specialize (S ltac:(lra)).
  assert (0 < mv_slope c * (b - a)) by (apply Rmult_lt_0_compat; lra). lra.
Qed.
(** Left tail without a bound on the argument: 1 - mv_occ x <= exp(-g^2). *)
Lemma mv_left_gen x : 0 <= mv_g x -> 1 - mv_occ x <= exp (- (mv_g x * mv_g x)).
Proof.
  intros G. rewrite mv_eq. set (g := mv_g x) in *. rewrite <- (gauss_symm (- g)). rewrite Ropp_involutive.
  pose proof (gauss_tail g G). pose proof inv_sqrt_2PI. pose proof (exp_pos (- (g * g))).
  assert (0 <= / (sqrt 2 * sqrt PI) * exp (- (g * g))) by (apply Rmult_le_pos; lra). lra.
Qed.
Lemma mv_over_one x : x <= - sqrt 2 -> 1 < mv_occ x.
Proof.
  intros H. destruct (Rlt_le_dec 1 (mv_occ x)) as [|L]; [assumption|exfalso].
  pose proof (mv_incr (x - 1) x H ltac:(lra)) as I1. set (d := 1 - mv_occ (x - 1)). assert (Hd : 0 < d) by (unfold d; lra).
  set (y := Rmin (x - 2) (- (/ d + 1 + / sqrt 2))).
  assert (Y1 : y <= x - 2) by apply Rmin_l. assert (Y2 : y <= - (/ d + 1 + / sqrt 2)) by apply Rmin_r.
  pose proof (mv_incr y (x - 1) ltac:(lra) ltac:(lra)) as I2.
  assert (G : / d + 1 <= mv_g y) by (unfold mv_g, Rdiv; lra). pose proof (Rinv_0_lt_compat d Hd).
  pose proof (mv_left_gen y ltac:(lra)) as T. set (g := mv_g y) in *.
  assert (X : exp (- (g * g)) < d).
  { rewrite exp_Ropp. rewrite <- (Rinv_involutive d) by lra. apply Rinv_lt_contravar.
    - apply Rmult_lt_0_compat; [lra|apply exp_pos].
    - apply Rlt_le_trans with (1 + g * g); [nra|apply exp_ineq1_le]. }
  unfold d in X. lra.
Qed.
Lemma mv_at_mu : mv_occ 0 < / 2.
Proof.
  unfold mv_occ. rewrite Rplus_0_l. set (s := 1 / sqrt 2). rewrite erf_odd, sqrt_2PI.
  assert (Hs : 0 < s) by (unfold s; apply Rdiv_lt_0_compat; [lra|apply sqrt2_pos]).
  destruct (MVT_cor2 erf (fun u => 2 / sqrt PI * exp (- (u * u))) 0 s Hs) as (c & E & Hc).
  { intros c _. apply is_derive_Reals, erf_derive. }
  rewrite erf_0 in E. 
  assert (X : exp (- (s * s)) < exp (- (c * c))) by (apply exp_increasing; nra).
  replace (- s * - s) with (s * s) by ring.
  assert (Q : 2 / sqrt PI * exp (- (s * s)) * s < erf s).
  { replace (erf s) with (2 / sqrt PI * exp (- (c * c)) * s) by lra. apply Rmult_lt_compat_r; [exact Hs|].
    apply Rmult_lt_compat_l; [apply coef_pos|exact X]. }
  replace (2 / sqrt PI * exp (- (s * s)) * s) with (2 * (1 / (sqrt 2 * sqrt PI) * exp (- (s * s)))) in Q.
  - lra.
  - generalize (exp (- (s * s))). intros X0. unfold s. field. split; [apply Rgt_not_eq, sqrt2_pos|apply Rgt_not_eq, sqrt_PI_pos].
Qed.

(** The entropy functions: en'(x) = - x occ'(x). *)
Lemma gauss_en_derive x : is_derive gauss_en x (- x * gauss_slope x).
Proof. unfold gauss_en. auto_derive; [exact I|]. unfold gauss_slope. field. apply Rgt_not_eq, sqrt_PI_pos. Qed.
Lemma mv_en_derive x : is_derive mv_en x (- x * mv_slope x).
Proof.
  unfold mv_en. auto_derive; [exact I|]. unfold mv_slope, mv_g. rewrite sqrt_2PI. set (E := exp _).
  pose proof sqrt_PI_pos as P. pose proof sqrt2_pos as P2. pose proof sqrt2_sq as S2.
  set (s := 1 / sqrt 2). assert (Ss : s * s = / 2) by (unfold s; transitivity (1 / (sqrt 2 * sqrt 2)); [field; lra|rewrite S2; field]).
  assert (Es : sqrt 2 = 2 * s) by (unfold s; apply Rmult_eq_reg_r with (sqrt 2); [rewrite S2; field; lra|lra]).
  assert (Ek : 1 / (sqrt 2 * sqrt PI) = s * / sqrt PI) by (unfold s; field; lra).
  rewrite Ek, Es. set (p := / sqrt PI).
  transitivity (p * E * (2 * s * (x * x) + 4 * (s * s) * x + 2 * (s * s) * s - s)); [ring|].
  transitivity (p * E * (x + 2 * s * (x * x) + 2 * (s * s) * x)); [rewrite Ss; field|ring].
Qed.
Lemma fd_en_eq x : fd_en x = fd_occ x * ln (fd_occ x) + (1 - fd_occ x) * ln (1 - fd_occ x).
Proof.
  unfold fd_en, xlogy. pose proof (fd_bounds x). destruct (Req_EM_T (fd_occ x) 0); [lra|].
  destruct (Req_EM_T (1 - fd_occ x) 0); lra.
Qed.
Lemma fd_logit x : ln (1 - fd_occ x) - ln (fd_occ x) = x.
Proof.
  pose proof (exp_pos x). pose proof (fd_bounds x). assert (E : 1 - fd_occ x = exp x * fd_occ x) by (unfold fd_occ; field; lra).
  rewrite E, ln_mult, ln_exp by lra. ring.
Qed.
Lemma fd_en_derive x : is_derive fd_en x (- x * fd_slope x).
Proof.
  apply (is_derive_ext (fun y => fd_occ y * ln (fd_occ y) + (1 - fd_occ y) * ln (1 - fd_occ y))).
  { intros t. symmetry. apply fd_en_eq. }
  pose proof (fd_bounds x) as B. pose proof (fd_logit x) as Lg.
  assert (D : Derive (fun y => fd_occ y) x = fd_slope x) by apply is_derive_unique, fd_occ_derive.
  auto_derive.
  - assert (ex_derive (fun y => fd_occ y) x) by (eexists; apply fd_occ_derive). repeat split; try assumption; lra.
  - rewrite D. change (1 + - fd_occ x) with (1 - fd_occ x).
    transitivity (fd_slope x * - (ln (1 - fd_occ x) - ln (fd_occ x))); [field; lra|rewrite Lg; ring].
Qed.
