(** The error function: erf x = 2 / sqrt pi * integral of exp(-t^2) from 0 to x, with its
    derivative, symmetry and limits (the Gaussian integral), proved from the definition.
    scipy.special.erf and erfc (smear.py line 5) are these functions. *)
From Coq Require Import Reals Lra Lia.
From Coquelicot Require Import Coquelicot.
Open Scope R_scope.

Definition gaussian (t : R) : R := exp (- (t * t)).
Definition gint (x : R) : R := RInt gaussian 0 x.
Definition erf (x : R) : R := 2 / sqrt PI * gint x.
Definition erfc (x : R) : R := 1 - erf x.

Lemma gaussian_cont x : continuous gaussian x.
Proof.
  apply (ex_derive_continuous gaussian x). unfold gaussian. eexists. auto_derive; [exact I|reflexivity].
Qed.
Lemma gaussian_ex a b : ex_RInt gaussian a b.
Proof. apply (@ex_RInt_continuous R_CompleteNormedModule). intros; apply gaussian_cont. Qed.
Lemma gint_derive x : is_derive gint x (gaussian x).
Proof.
  apply (is_derive_RInt gaussian gint 0).
  - exists (mkposreal 1 Rlt_0_1). intros y _. apply (@RInt_correct R_CompleteNormedModule), gaussian_ex.
  - apply gaussian_cont.
Qed.
Lemma gint_0 : gint 0 = 0.
Proof. unfold gint. exact (@RInt_point R_CompleteNormedModule 0 gaussian). Qed.

(** The auxiliary integral of the classical proof. *)
Definition aux (x t : R) : R := exp (- (x * x * (1 + t * t))) / (1 + t * t).
Definition auxint (x : R) : R := RInt (aux x) 0 1.

Lemma one_sq t : 0 < 1 + t * t.
Proof. pose proof (Rle_0_sqr t). unfold Rsqr in *. lra. Qed.
Lemma aux_cont x t : continuous (aux x) t.
Proof.
  apply (ex_derive_continuous (aux x) t). unfold aux. eexists. auto_derive; [|reflexivity].
  pose proof (one_sq t). lra.
Qed.
Lemma aux_derive x t : is_derive (fun u => aux u t) x (- 2 * x * exp (- (x * x * (1 + t * t)))).
Proof. unfold aux. auto_derive; [exact I|]. pose proof (one_sq t). field. lra. Qed.

Lemma auxint_derive x : is_derive auxint x (RInt (fun t => - 2 * x * exp (- (x * x * (1 + t * t)))) 0 1).
Proof.
  assert (H : is_derive auxint x (RInt (fun t => Derive (fun u => aux u t) x) 0 1)).
  { apply (is_derive_RInt_param aux 0 1 x).
    - exists (mkposreal 1 Rlt_0_1). intros y _ t _. eexists. apply aux_derive.
    - intros t _. apply (continuity_2d_pt_ext (fun u v => - 2 * u * exp (- (u * u * (1 + v * v))))).
      { intros u v. symmetry. apply is_derive_unique, aux_derive. }
      apply continuity_2d_pt_mult.
      + apply continuity_2d_pt_mult; [apply continuity_2d_pt_const|apply continuity_2d_pt_id1].
      + apply (continuity_1d_2d_pt_comp exp (fun u v => - (u * u * (1 + v * v)))).
        * apply derivable_continuous_pt, derivable_pt_exp.
        * apply continuity_2d_pt_opp. apply continuity_2d_pt_mult.
          -- apply continuity_2d_pt_mult; apply continuity_2d_pt_id1.
          -- apply continuity_2d_pt_plus; [apply continuity_2d_pt_const|]. apply continuity_2d_pt_mult; apply continuity_2d_pt_id2.
    - exists (mkposreal 1 Rlt_0_1). intros y _. apply (@ex_RInt_continuous R_CompleteNormedModule). intros; apply aux_cont. }
  replace (RInt (fun t => - 2 * x * exp (- (x * x * (1 + t * t)))) 0 1) with (RInt (fun t => Derive (fun u => aux u t) x) 0 1); [exact H|].
  apply RInt_ext. intros t _. apply is_derive_unique, aux_derive.
Qed.

Lemma RInt_mul k f a b : ex_RInt f a b -> RInt (fun t => k * f t) a b = k * RInt f a b.
Proof. intros H. exact (@RInt_scal R_CompleteNormedModule f a b k H). Qed.
Lemma RInt_lin f u v a b : ex_RInt f (u * a + v) (u * b + v) ->
  RInt (fun t => u * f (u * t + v)) a b = RInt f (u * a + v) (u * b + v).
Proof. intros H. exact (@RInt_comp_lin R_CompleteNormedModule f u v a b H). Qed.

Lemma aux_substitution x : RInt (fun t => - 2 * x * exp (- (x * x * (1 + t * t)))) 0 1 = - 2 * gaussian x * gint x.
Proof.
  unfold gint. transitivity (RInt (fun t => (- 2 * gaussian x) * (x * gaussian (x * t + 0))) 0 1).
  - apply RInt_ext. intros t _. unfold gaussian.
    replace (- (x * x * (1 + t * t))) with (- (x * x) + - ((x * t + 0) * (x * t + 0))) by ring. rewrite exp_plus.
    match goal with |- ?a = ?b => change (@eq R a b) end. ring.
  - rewrite (RInt_mul (- 2 * gaussian x) (fun t => x * gaussian (x * t + 0))).
    + rewrite (RInt_lin gaussian x 0 0 1) by apply gaussian_ex. do 2 f_equal; ring.
    + apply (@ex_RInt_comp_lin R_NormedModule gaussian x 0 0 1), gaussian_ex.
Qed.

Lemma gauss_identity x : gint x * gint x + auxint x = PI / 4.
Proof.
  assert (D : forall y, is_derive (fun u => gint u * gint u + auxint u) y 0).
  { intros y. pose proof (gint_derive y) as D1. pose proof (auxint_derive y) as D2. rewrite aux_substitution in D2.
    replace 0 with (plus (plus (mult (gaussian y) (gint y)) (mult (gint y) (gaussian y))) (- 2 * gaussian y * gint y))
      by (unfold plus, mult; cbn; ring).
    apply (is_derive_plus (fun u => gint u * gint u) auxint); [|exact D2].
    apply (is_derive_mult gint gint); [exact D1|exact D1|]. intros a b. unfold mult; cbn. ring. }
  assert (C : gint x * gint x + auxint x = gint 0 * gint 0 + auxint 0).
  { destruct (MVT_gen (fun u => gint u * gint u + auxint u) 0 x (fun _ => 0)) as (c & _ & E).
    - intros y _. apply D.
    - intros y _. apply continuity_pt_filterlim. apply (ex_derive_continuous (fun u => gint u * gint u + auxint u)). eexists. apply D.
    - cbv beta in E. lra. }
  rewrite C, gint_0. assert (A : auxint 0 = PI / 4); [|rewrite A; ring].
  unfold auxint. rewrite <- atan_1. replace (atan 1) with (minus (atan 1) (atan 0)) by (change (atan 1 - atan 0 = atan 1); rewrite atan_0; ring).
  apply is_RInt_unique. apply (is_RInt_ext (fun t => / (1 + t ^ 2))).
  { intros t _. unfold aux. replace (- (0 * 0 * (1 + t * t))) with 0 by ring. rewrite exp_0. pose proof (one_sq t). match goal with |- ?a = ?b => change (@eq R a b) end. field. nra. }
  apply (is_RInt_derive atan).
  - intros t _. apply is_derive_Reals, derivable_pt_lim_atan.
  - intros t _. apply (ex_derive_continuous (fun t => / (1 + t ^ 2))). eexists. auto_derive; [nra|reflexivity].
Qed.

Lemma auxint_bounds x : 0 < auxint x <= exp (- (x * x)) * (PI / 4).
Proof.
  assert (Q : auxint 0 = PI / 4) by (pose proof (gauss_identity 0) as H; rewrite gint_0 in H; lra).
  split.
  - apply (RInt_gt_0 (aux x)); [lra| |intros; apply aux_cont].
    intros t _. unfold aux. apply Rdiv_lt_0_compat; [apply exp_pos|apply one_sq].
  - rewrite <- Q. unfold auxint. apply Rle_trans with (RInt (fun t => exp (- (x * x)) * aux 0 t) 0 1).
    + apply RInt_le; [lra| | |].
      * apply (@ex_RInt_continuous R_CompleteNormedModule). intros; apply aux_cont.
      * apply (@ex_RInt_scal R_NormedModule). apply (@ex_RInt_continuous R_CompleteNormedModule). intros; apply aux_cont.
      * intros t _. unfold aux. pose proof (one_sq t) as K.
        replace (- (0 * 0 * (1 + t * t))) with 0 by ring. rewrite exp_0.
        apply Rle_trans with (exp (- (x * x)) / (1 + t * t)); [|right; field; lra].
        apply Rmult_le_compat_r; [left; now apply Rinv_0_lt_compat|]. 
        assert (- (x * x * (1 + t * t)) <= - (x * x)) as L by (pose proof (Rle_0_sqr (x * t)); unfold Rsqr in *; nra).
        destruct L as [L|L]; [left; now apply exp_increasing|right; now rewrite L].
    + rewrite RInt_mul; [right; reflexivity|]. apply (@ex_RInt_continuous R_CompleteNormedModule). intros; apply aux_cont.
Qed.

Lemma erf_sq x : erf x * erf x = 1 - 4 / PI * auxint x.
Proof.
  pose proof (gauss_identity x) as H. pose proof PI_RGT_0. unfold erf.
  replace (2 / sqrt PI * gint x * (2 / sqrt PI * gint x)) with (4 / (sqrt PI * sqrt PI) * (gint x * gint x)).
  2:{ field. apply Rgt_not_eq, sqrt_lt_R0. lra. }
  rewrite sqrt_sqrt by lra. replace (gint x * gint x) with (PI / 4 - auxint x) by lra. field. lra.
Qed.

Lemma erf_derive x : is_derive erf x (2 / sqrt PI * exp (- (x * x))).
Proof. unfold erf. apply (is_derive_scal gint x (2 / sqrt PI)), gint_derive. Qed.
Lemma erf_0 : erf 0 = 0.
Proof. unfold erf. rewrite gint_0. ring. Qed.
Lemma coef_pos : 0 < 2 / sqrt PI.
Proof. apply Rdiv_lt_0_compat; [lra|]. apply sqrt_lt_R0, PI_RGT_0. Qed.
Lemma erf_increasing x y : x < y -> erf x < erf y.
Proof.
  intros H. destruct (MVT_gen erf x y (fun u => 2 / sqrt PI * exp (- (u * u)))) as (c & _ & E).
  - intros u _. apply erf_derive.
  - intros u _. apply continuity_pt_filterlim. apply (ex_derive_continuous erf). eexists. apply erf_derive.
  - pose proof coef_pos. pose proof (exp_pos (- (c * c))). assert (0 < 2 / sqrt PI * exp (- (c * c)) * (y - x)); [|lra].
    apply Rmult_lt_0_compat; [now apply Rmult_lt_0_compat|lra].
Qed.
Lemma erf_odd x : erf (- x) = - erf x.
Proof.
  assert (D : forall y, is_derive (fun u => erf (- u) + erf u) y 0).
  { intros y. replace 0 with (plus (scal (-1) (2 / sqrt PI * exp (- (- y * - y)))) (2 / sqrt PI * exp (- (y * y)))).
    2:{ unfold plus, scal; cbn; unfold mult; cbn. replace (- y * - y) with (y * y) by ring. ring. }
    apply (is_derive_plus (fun u => erf (- u)) erf); [|apply erf_derive].
    apply (is_derive_comp erf (fun u => - u)); [apply erf_derive|]. auto_derive; [exact I|ring]. }
  destruct (MVT_gen (fun u => erf (- u) + erf u) 0 x (fun _ => 0)) as (c & _ & E).
  - intros y _. apply D.
  - intros y _. apply continuity_pt_filterlim. apply (ex_derive_continuous (fun u => erf (- u) + erf u)). eexists. apply D.
  - cbv beta in E. rewrite Ropp_0, erf_0 in E. lra.
Qed.
Lemma erf_bound x : -1 < erf x < 1.
Proof.
  pose proof (erf_sq x). destruct (auxint_bounds x) as [A _]. pose proof PI_RGT_0.
  assert (0 < 4 / PI * auxint x) by (apply Rmult_lt_0_compat; [apply Rdiv_lt_0_compat; lra|lra]). nra.
Qed.
(** The tail: 1 - erf x <= exp(-x^2) for x >= 0. *)
Lemma erf_tail x : 0 <= x -> 1 - erf x <= exp (- (x * x)).
Proof.
  intros Hx. pose proof (erf_sq x) as S. destruct (auxint_bounds x) as [A B]. pose proof PI_RGT_0 as P.
  assert (E0 : 0 <= erf x). { destruct Hx as [Hx|<-]; [|rewrite erf_0; lra]. pose proof (erf_increasing 0 x Hx). rewrite erf_0 in *. lra. }
  destruct (erf_bound x) as [_ E1].
  assert (4 / PI * auxint x <= exp (- (x * x))).
  { apply Rle_trans with (4 / PI * (exp (- (x * x)) * (PI / 4))); [|right; field; lra].
    apply Rmult_le_compat_l; [|exact B]. left. apply Rdiv_lt_0_compat; lra. }
  nra.
Qed.
