From Verif Require Import Base GIndexModel LatModel GSphereModel CBase FFTModel FFTSpec FFTProofs FFTProofs2 KSHamModel KSHamSpec KSHamProofs PropsKSHam TddftModel TddftSpec TddftProofs.
Open Scope nat_scope.

(* ------------------------------------------------------------------ *)
(** Norm of the propagated state for a Hermitian matrix. *)
Section Herm.
  Variable n : nat.
  Variable M : nat -> nat -> C.
  Hypothesis HM : forall i j, i < n -> j < n -> M i j = Cconj (M j i).

  Lemma braket_adj u v : length u = n -> length v = n -> braket u (mat_vec n M v) = braket (mat_vec n M u) v.
  Proof.
    intros Hu Hv. unfold braket. rewrite mat_vec_length, Hu.
    transitivity (csum n (fun i => csum n (fun j => (Cconj (nth i u (RtoC 0)) * M i j * nth j v (RtoC 0))%C))).
    - apply csum_ext. intros i Hi. rewrite mat_vec_nth by exact Hi. rewrite <- csum_scal. apply csum_ext. intros; ring.
    - rewrite csum_swap. apply csum_ext. intros j Hj. rewrite mat_vec_nth by exact Hj.
      rewrite csum_conj, <- csum_scal_r. apply csum_ext. intros i Hi.
      rewrite Cmult_conj, <- (HM i j) by assumption. ring.
  Qed.

  Lemma braket_pow v m : forall p, length v = n ->
    braket (mat_pow n M m v) (mat_pow n M p v) = braket v (mat_pow n M (m + p) v).
  Proof.
    induction m as [|m IH]; intros p Hv; [reflexivity|]. cbn [mat_pow].
    rewrite <- braket_adj by now apply mat_pow_length.
    change (mat_vec n M (mat_pow n M p v)) with (mat_pow n M (S p) v). rewrite IH by exact Hv.
    f_equal. f_equal. lia.
  Qed.
  Lemma braket_conj u v : length u = length v -> braket u v = Cconj (braket v u).
  Proof.
    intros L. unfold braket. rewrite csum_conj, L. apply csum_ext. intros i _. rewrite Cmult_conj, Cconj_conj. ring.
  Qed.
  Lemma moment_real v p : length v = n -> snd (braket v (mat_pow n M p v)) = 0%R.
  Proof.
    intros Hv. assert (E : braket v (mat_pow n M p v) = Cconj (braket v (mat_pow n M p v))).
    - rewrite braket_conj at 1 by (now rewrite mat_pow_length). f_equal.
      change v with (mat_pow n M 0 v) at 2. rewrite braket_pow by exact Hv. now rewrite Nat.add_0_r.
    - apply (f_equal snd) in E. unfold Cconj in E. cbn [snd] in E. lra.
  Qed.
  Definition moment (v : list C) (p : nat) : R := fst (braket v (mat_pow n M p v)).
  Lemma moment_eq v m p : length v = n -> braket (mat_pow n M m v) (mat_pow n M p v) = RtoC (moment v (m + p)).
  Proof.
    intros Hv. rewrite braket_pow by exact Hv. unfold moment. apply C_ext; [reflexivity|]. now apply moment_real.
  Qed.
  Lemma norm2_braket v : RtoC (norm2 v) = braket v v.
  Proof. rewrite norm2_csum. unfold braket. apply csum_ext. intros; ring. Qed.
  Lemma moment_norm2 v p : length v = n -> moment v (p + p) = norm2 (mat_pow n M p v).
  Proof. intros Hv. apply RtoC_inj. now rewrite <- moment_eq, norm2_braket. Qed.

  Lemma truncated_norm dt order v : length v = n ->
    RtoC (norm2 (truncated_exp n M dt order v))
    = csum (S order) (fun m => csum (S order) (fun p =>
        Cconj (exp_term (- Ci * RtoC dt) m) * exp_term (- Ci * RtoC dt) p * RtoC (moment v (m + p))))%C.
  Proof.
    intros Hv. rewrite norm2_braket. unfold braket at 1.
    replace (length (truncated_exp n M dt order v)) with n by (unfold truncated_exp; now rewrite map_length, seq_length).
    transitivity (csum n (fun i => csum (S order) (fun m => csum (S order) (fun p =>
      (Cconj (exp_term (- Ci * RtoC dt) m) * exp_term (- Ci * RtoC dt) p
       * (Cconj (nth i (mat_pow n M m v) (RtoC 0)) * nth i (mat_pow n M p v) (RtoC 0)))%C)))).
    - apply csum_ext. intros i Hi. unfold truncated_exp. rewrite !nth_map_seq by exact Hi.
      rewrite csum_conj, csum_mult. apply csum_ext. intros m _. apply csum_ext. intros p _. rewrite Cmult_conj. ring.
    - rewrite csum_swap. apply csum_ext. intros m _. rewrite csum_swap. apply csum_ext. intros p _.
      rewrite csum_scal. f_equal. rewrite <- (moment_eq v m p Hv). unfold braket. now rewrite mat_pow_length.
  Qed.

  Lemma norm_order1 dt v : length v = n ->
    norm2 (truncated_exp n M dt 1 v) = (norm2 v + dt * dt * norm2 (mat_pow n M 1 v))%R.
  Proof.
    intros Hv. apply RtoC_inj. rewrite truncated_norm by exact Hv.
    rewrite <- (moment_norm2 v 1 Hv). change (norm2 v) with (norm2 (mat_pow n M 0 v)). rewrite <- (moment_norm2 v 0 Hv).
    assert (T1 : exp_term (- Ci * RtoC dt)%C 1 = (0, - dt)%R).
    { rewrite exp_term_S, exp_term_0. apply C_ext; cbn; field. }
    cbn [csum Nat.add]. rewrite T1, exp_term_0.
    generalize (moment v 0) (moment v 1) (moment v 2). intros a b c.
    apply C_ext; cbn; ring.
  Qed.

  Lemma norm_order4 dt v : length v = n ->
    norm2 (truncated_exp n M dt 4 v)
    = (norm2 v - dt ^ 6 / 72 * norm2 (mat_pow n M 3 v) + dt ^ 8 / 576 * norm2 (mat_pow n M 4 v))%R.
  Proof.
    intros Hv. apply RtoC_inj. rewrite truncated_norm by exact Hv.
    rewrite <- (moment_norm2 v 3 Hv), <- (moment_norm2 v 4 Hv).
    change (norm2 v) with (norm2 (mat_pow n M 0 v)). rewrite <- (moment_norm2 v 0 Hv).
    assert (T1 : exp_term (- Ci * RtoC dt)%C 1 = (0, - dt)%R).
    { rewrite exp_term_S, exp_term_0. apply C_ext; cbn; field. }
    assert (T2 : exp_term (- Ci * RtoC dt)%C 2 = (- dt * dt / 2, 0)%R).
    { rewrite exp_term_S, T1. apply C_ext; cbn; field. }
    assert (T3 : exp_term (- Ci * RtoC dt)%C 3 = (0, dt * dt * dt / 6)%R).
    { rewrite exp_term_S, T2. apply C_ext; cbn; field. }
    assert (T4 : exp_term (- Ci * RtoC dt)%C 4 = (dt * dt * dt * dt / 24, 0)%R).
    { rewrite exp_term_S, T3. apply C_ext; cbn; field. }
    cbn [csum Nat.add]. rewrite T1, T2, T3, T4, exp_term_0. clear T1 T2 T3 T4.
    generalize (moment v 0) (moment v 1) (moment v 2) (moment v 3) (moment v 4) (moment v 5) (moment v 6) (moment v 7) (moment v 8).
    intros m0 m1 m2 m3 m4 m5 m6 m7 m8.
    apply C_ext; cbn; field.
  Qed.

  (** Eigenvectors. *)
  Lemma mat_pow_eigen lam v p : length v = n -> mat_vec n M v = map (Cmult (RtoC lam)) v ->
    mat_pow n M p v = map (Cmult (cpow (RtoC lam) p)) v.
  Proof using.
    clear HM.
    intros Hv He. induction p as [|p IH].
    - cbn. rewrite <- (map_id v) at 1. apply map_ext. intros; ring.
    - cbn [mat_pow]. rewrite IH. apply (list_ext (RtoC 0)); [now rewrite mat_vec_length, map_length|].
      intros i Hi. rewrite mat_vec_length in Hi. rewrite mat_vec_nth by exact Hi.
      rewrite (nth_map_lt (Cmult (cpow (RtoC lam) (S p))) (RtoC 0)) by lia. cbn [cpow].
      transitivity (cpow (RtoC lam) p * nth i (mat_vec n M v) (RtoC 0))%C.
      + rewrite mat_vec_nth by exact Hi. rewrite <- csum_scal. apply csum_ext. intros j Hj.
        rewrite (nth_map_lt (Cmult (cpow (RtoC lam) p)) (RtoC 0)) by lia. ring.
      + rewrite He. rewrite (nth_map_lt (Cmult (RtoC lam)) (RtoC 0)) by lia. ring.
  Qed.
  Lemma cpow_mult a b p : cpow (a * b)%C p = (cpow a p * cpow b p)%C.
  Proof. induction p as [|p IH]; cbn [cpow]; [ring|]. rewrite IH. ring. Qed.
  Lemma truncated_eigen lam dt order v : length v = n -> mat_vec n M v = map (Cmult (RtoC lam)) v ->
    truncated_exp n M dt order v = map (Cmult (exp_poly order (- Ci * RtoC (lam * dt)))%C) v.
  Proof using.
    clear HM.
    intros Hv He. apply (list_ext (RtoC 0)).
    - unfold truncated_exp. now rewrite !map_length, seq_length.
    - intros i Hi. unfold truncated_exp in Hi. rewrite map_length, seq_length in Hi.
      rewrite (nth_map_lt (Cmult _) (RtoC 0)) by lia.
      unfold truncated_exp. rewrite nth_map_seq by exact Hi. unfold exp_poly. rewrite <- csum_scal_r.
      apply csum_ext. intros p _. rewrite (mat_pow_eigen lam v p Hv He).
      rewrite (nth_map_lt (Cmult _) (RtoC 0)) by lia. unfold exp_term.
      replace (- Ci * RtoC (lam * dt))%C with ((- Ci * RtoC dt) * RtoC lam)%C by (rewrite RtoC_mult; ring).
      rewrite (cpow_mult (- Ci * RtoC dt)%C). unfold Cdiv. ring.
  Qed.
End Herm.

(* ------------------------------------------------------------------ *)
(** Remainder of the exponential series on the imaginary axis. *)
Open Scope R_scope.
Definition P (a : nat -> R) (N : nat) (y : R) : R := rsum (S N) (fun p => a p * (y ^ p / INR (fact p))).

Lemma P_deriv a : forall N y, derivable_pt_lim (P a (S N)) y (P (fun p => a (S p)) N y).
Proof.
  assert (T : forall p y, derivable_pt_lim (fun y => a (S p) * (y ^ S p / INR (fact (S p)))) y (a (S p) * (y ^ p / INR (fact p)))).
  { intros p y. apply derivable_pt_lim_scal.
    replace (y ^ p / INR (fact p)) with (INR (S p) * y ^ pred (S p) * / INR (fact (S p))).
    - apply (derivable_pt_lim_ext (fun y => / INR (fact (S p)) * y ^ S p)); [intros; unfold Rdiv; ring|].
      rewrite Rmult_comm. apply derivable_pt_lim_scal. apply derivable_pt_lim_pow.
    - cbn [pred]. change (fact (S p)) with (S p * fact p)%nat. rewrite mult_INR. field.
      split; [apply INR_fact_neq_0|apply not_0_INR; lia]. }
  induction N as [|N IH]; intros y.
  - unfold P. cbn [rsum].
    apply (derivable_pt_lim_ext (fun y => a 0%nat + a 1%nat * (y ^ 1 / INR (fact 1)))).
    { intros z. cbn. field. }
    replace (0 + a 1%nat * (y ^ 0 / INR (fact 0))) with (0 + a 1%nat * (y ^ 0 / INR (fact 0))) by ring.
    apply derivable_pt_lim_plus; [apply derivable_pt_lim_const|]. apply T.
  - unfold P. cbn [rsum]. apply derivable_pt_lim_plus.
    + exact (IH y).
    + apply T.
Qed.

Lemma growth_bound (g g' : R -> R) k : g 0 = 0 ->
  (forall y, 0 <= y -> derivable_pt_lim g y (g' y)) ->
  (forall y, 0 <= y -> Rabs (g' y) <= y ^ k / INR (fact k)) ->
  forall y, 0 <= y -> Rabs (g y) <= y ^ S k / INR (fact (S k)).
Proof.
  intros G0 D B y Hy.
  assert (Q : forall y, derivable_pt_lim (fun y => y ^ S k / INR (fact (S k))) y (y ^ k / INR (fact k))).
  { intros z. replace (z ^ k / INR (fact k)) with (/ INR (fact (S k)) * (INR (S k) * z ^ pred (S k))).
    - apply (derivable_pt_lim_ext (fun y => / INR (fact (S k)) * y ^ S k)); [intros; unfold Rdiv; ring|].
      apply derivable_pt_lim_scal, derivable_pt_lim_pow.
    - cbn [pred]. change (fact (S k)) with (S k * fact k)%nat. rewrite mult_INR. field.
      split; [apply INR_fact_neq_0|apply not_0_INR; lia]. }
  destruct (Req_dec y 0) as [->|Hne].
  { rewrite G0, Rabs_R0. cbn [pow]. unfold Rdiv. rewrite Rmult_0_l, Rmult_0_l. lra. }
  assert (Hpos : 0 < y) by lra.
  assert (U : forall s, s = 1 \/ s = -1 -> 0 <= y ^ S k / INR (fact (S k)) - s * g y).
  { intros s Hs.
    destruct (MVT_cor2 (fun z => z ^ S k / INR (fact (S k)) - s * g z) (fun z => z ^ k / INR (fact k) - s * g' z) 0 y Hpos) as (c & Ec & Hc).
    - intros c Hc. apply derivable_pt_lim_minus; [apply Q|]. apply derivable_pt_lim_scal, D. lra.
    - assert (Z : 0 ^ S k / INR (fact (S k)) - s * g 0 = 0) by (rewrite G0, pow_i by lia; unfold Rdiv; ring).
      rewrite Z, !Rminus_0_r in Ec. rewrite Ec. apply Rmult_le_pos; [|lra]. specialize (B c ltac:(lra)).
      pose proof (Rle_abs (g' c)). pose proof (Rle_abs (- g' c)). rewrite Rabs_Ropp in *. destruct Hs as [-> | ->]; lra. }
  pose proof (U 1 (or_introl eq_refl)). pose proof (U (-1) (or_intror eq_refl)).
  unfold Rabs. destruct (Rcase_abs (g y)); lra.
Qed.

Definition aR (p : nat) : R := fst (cpow Ci p).
Definition aI (p : nat) : R := snd (cpow Ci p).
Lemma aR_S p : aR (S p) = - aI p. Proof. unfold aR, aI. cbn [cpow]. cbn. ring. Qed.
Lemma aI_S p : aI (S p) = aR p. Proof. unfold aR, aI. cbn [cpow]. cbn. ring. Qed.

Lemma P_ext a b N y : (forall p, a p = b p) -> P a N y = P b N y.
Proof. intros H. unfold P. apply rsum_ext. intros. now rewrite H. Qed.
Lemma P_opp a N y : P (fun p => - a p) N y = - P a N y.
Proof.
  unfold P. replace (- rsum (S N) (fun p => a p * (y ^ p / INR (fact p)))) with (-1 * rsum (S N) (fun p => a p * (y ^ p / INR (fact p)))) by ring.
  rewrite <- rsum_scal. apply rsum_ext. intros; ring.
Qed.
Lemma P_0 a N : P a N 0 = a 0%nat.
Proof.
  induction N as [|N IH]; unfold P in *; cbn [rsum].
  - cbn. field.
  - change (rsum N (fun p => a p * (0 ^ p / INR (fact p))) + a N * (0 ^ N / INR (fact N))) with (rsum (S N) (fun p => a p * (0 ^ p / INR (fact p)))).
    rewrite IH. cbn [pow]. unfold Rdiv. ring.
Qed.

Lemma series_bound : forall N y, 0 <= y ->
  Rabs (cos y - P aR N y) <= y ^ S N / INR (fact (S N)) /\ Rabs (sin y - P aI N y) <= y ^ S N / INR (fact (S N)).
Proof.
  induction N as [|N IH].
  - assert (B1 : forall u, -1 <= u <= 1 -> Rabs u <= 1) by (intros u Hu; unfold Rabs; destruct (Rcase_abs u); lra).
    intros y Hy. split.
    + apply (growth_bound (fun y => cos y - P aR 0 y) (fun y => - sin y) 0); try exact Hy.
      * rewrite cos_0, P_0. unfold aR. cbn. ring.
      * intros z _. replace (- sin z) with (- sin z - 0) by ring.
        apply derivable_pt_lim_minus; [apply derivable_pt_lim_cos|].
        apply (derivable_pt_lim_ext (fun _ => 1)); [intros; unfold P, aR; cbn; field|]. apply derivable_pt_lim_const.
      * intros z _. cbn. rewrite Rabs_Ropp. replace (1 / 1) with 1 by field. apply B1. pose proof (SIN_bound z). lra.
    + apply (growth_bound (fun y => sin y - P aI 0 y) cos 0); try exact Hy.
      * rewrite sin_0, P_0. unfold aI. cbn. ring.
      * intros z _. replace (cos z) with (cos z - 0) by ring.
        apply derivable_pt_lim_minus; [apply derivable_pt_lim_sin|].
        apply (derivable_pt_lim_ext (fun _ => 0)); [intros; unfold P, aI; cbn; field|]. apply derivable_pt_lim_const.
      * intros z _. cbn. replace (1 / 1) with 1 by field. apply B1. pose proof (COS_bound z). lra.
  - intros y Hy. split.
    + apply (growth_bound (fun y => cos y - P aR (S N) y) (fun y => - sin y - P (fun p => aR (S p)) N y) (S N)); try exact Hy.
      * rewrite cos_0, P_0. unfold aR. cbn. ring.
      * intros z _. apply derivable_pt_lim_minus; [apply derivable_pt_lim_cos|apply P_deriv].
      * intros z Hz. rewrite (P_ext _ (fun p => - aI p)) by apply aR_S. rewrite P_opp.
        replace (- sin z - - P aI N z) with (- (sin z - P aI N z)) by ring. rewrite Rabs_Ropp. now apply IH.
    + apply (growth_bound (fun y => sin y - P aI (S N) y) (fun y => cos y - P (fun p => aI (S p)) N y) (S N)); try exact Hy.
      * rewrite sin_0, P_0. unfold aI. cbn. ring.
      * intros z _. apply derivable_pt_lim_minus; [apply derivable_pt_lim_sin|apply P_deriv].
      * intros z Hz. rewrite (P_ext _ aR) by apply aI_S. now apply IH.
Qed.

Lemma cpow_RtoC y p : cpow (RtoC y) p = RtoC (y ^ p).
Proof. induction p as [|p IH]; cbn [cpow pow]; [reflexivity|]. now rewrite IH, RtoC_mult. Qed.

Lemma exp_poly_P N y : exp_poly N (Ci * RtoC y)%C = (P aR N y, P aI N y).
Proof.
  assert (T : forall p, exp_term (Ci * RtoC y)%C p = (aR p * (y ^ p / INR (fact p)), aI p * (y ^ p / INR (fact p)))%R).
  { intros p. unfold exp_term. rewrite cpow_mult, cpow_RtoC. unfold Cdiv.
    rewrite <- RtoC_inv by apply INR_fact_neq_0. rewrite <- Cmult_assoc, <- RtoC_mult. unfold aR, aI.
    apply C_ext; cbn; unfold Rdiv; ring. }
  apply C_ext; unfold exp_poly; rewrite ?csum_re, ?csum_im; unfold P; cbn [fst snd]; apply rsum_ext; intros; now rewrite T.
Qed.

Lemma exp_poly_conj N z : exp_poly N (Cconj z) = Cconj (exp_poly N z).
Proof.
  unfold exp_poly. rewrite csum_conj. apply csum_ext. intros p _. unfold exp_term.
  assert (E : cpow (Cconj z) p = Cconj (cpow z p)).
  { induction p as [|p IH]; cbn [cpow]; [apply C_ext; cbn; ring|]. now rewrite IH, Cmult_conj. }
  rewrite E. unfold Cdiv. rewrite <- RtoC_inv by apply INR_fact_neq_0. rewrite Cmult_conj.
  f_equal. apply C_ext; cbn; ring.
Qed.

(** The Taylor polynomial differs from the exact phase by at most |y|^(N+1)/(N+1)! in each component. *)
Lemma phase_error N y :
  Rabs (fst (exp_poly N (- Ci * RtoC y)%C - cis (- y))%C) <= Rabs y ^ S N / INR (fact (S N))
  /\ Rabs (snd (exp_poly N (- Ci * RtoC y)%C - cis (- y))%C) <= Rabs y ^ S N / INR (fact (S N)).
Proof.
  destruct (Rle_dec 0 y) as [Hy|Hy].
  - replace (- Ci * RtoC y)%C with (Cconj (Ci * RtoC y))%C by (apply C_ext; cbn; ring).
    rewrite exp_poly_conj, exp_poly_P, (Rabs_pos_eq y) by exact Hy. destruct (series_bound N y Hy) as [A B].
    unfold cis. rewrite cos_neg, sin_neg. unfold Cconj. cbn [fst snd Cminus Cplus Copp]. split.
    + rewrite Rabs_minus_sym in A. exact A.
    + replace (- P aI N y + - - sin y) with (sin y - P aI N y) by ring. exact B.
  - replace (- Ci * RtoC y)%C with (Ci * RtoC (- y))%C by (apply C_ext; cbn; ring).
    rewrite exp_poly_P, (Rabs_left y) by lra. destruct (series_bound N (- y) ltac:(lra)) as [A B].
    unfold cis. cbn [fst snd Cminus Cplus Copp]. split.
    + rewrite Rabs_minus_sym in A. exact A.
    + rewrite Rabs_minus_sym in B. exact B.
Qed.
