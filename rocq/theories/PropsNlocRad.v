(** C69: the radial factor of a projector, from the radial mesh to the plane wave. *)
From Coq Require Import Reals Lra Lia List.
From Coquelicot Require Import Coquelicot.
From Verif Require Import Base LatModel LatProofs NlocModel NlocSpec NlocProofs InterpProofs LocSpec PropsNloc PropsBessel CBase.
Local Open Scope R_scope.

(** The integrand r beta(r) . r j_l(q r) dr/di at mesh point i. *)
Definition projector_integrand (r r_ab rbeta : nat -> R) (jl : R -> R) (q : R) (i : nat) : R :=
  rbeta i * (r i * jl (q * r i)) * r_ab i.

Lemma composite_ext m y z : (forall i, (i <= 2 * m)%nat -> y i = z i) -> composite_simpson m y = composite_simpson m z.
Proof. intros H. apply rsum_ext. intros j Hj. rewrite !H by lia. reflexivity. Qed.
Lemma composite_scal m a y : composite_simpson m (fun i => a * y i) = a * composite_simpson m y.
Proof. unfold composite_simpson. rewrite <- rsum_scal. apply rsum_ext. intros. field. Qed.
Lemma composite_abs m y : Rabs (composite_simpson m y) <= composite_simpson m (fun i => Rabs (y i)).
Proof.
  unfold composite_simpson. induction m as [|m IH]; cbn [rsum]; [rewrite Rabs_R0; lra|].
  eapply Rle_trans; [apply Rabs_triang|]. apply Rplus_le_compat; [exact IH|].
  set (a := y (2 * m)%nat). set (b := y (2 * m + 1)%nat). set (d := y (2 * m + 2)%nat).
  apply Rabs_le. pose proof (Rle_abs a). pose proof (Rle_abs (- a)). pose proof (Rle_abs b). pose proof (Rle_abs (- b)).
  pose proof (Rle_abs d). pose proof (Rle_abs (- d)). rewrite Rabs_Ropp in *. lra.
Qed.
Lemma composite_le m y z : (forall i, (i <= 2 * m)%nat -> y i <= z i) -> composite_simpson m y <= composite_simpson m z.
Proof.
  intros H. apply rsum_le. intros j Hj.
  pose proof (H (2 * j)%nat ltac:(lia)). pose proof (H (2 * j + 1)%nat ltac:(lia)). pose proof (H (2 * j + 2)%nat ltac:(lia)). lra.
Qed.
Lemma composite_deriv m (y y' : R -> nat -> R) x :
  (forall i, (i <= 2 * m)%nat -> derivable_pt_lim (fun q => y q i) x (y' x i)) ->
  derivable_pt_lim (fun q => composite_simpson m (y q)) x (composite_simpson m (y' x)).
Proof.
  unfold composite_simpson. induction m as [|m IH]; intros H; cbn [rsum].
  - apply derivable_pt_lim_const.
  - apply (derivable_pt_lim_plus (fun q => rsum m _) (fun q => (y q (2 * m)%nat + 4 * y q (2 * m + 1)%nat + y q (2 * m + 2)%nat) / 3)).
    + apply IH. intros i Hi. apply H. lia.
    + pose proof (H (2 * m)%nat ltac:(lia)) as A. pose proof (H (2 * m + 1)%nat ltac:(lia)) as B. pose proof (H (2 * m + 2)%nat ltac:(lia)) as D.
      replace ((y' x (2 * m)%nat + 4 * y' x (2 * m + 1)%nat + y' x (2 * m + 2)%nat) / 3)
        with (/ 3 * (y' x (2 * m)%nat + 4 * y' x (2 * m + 1)%nat + y' x (2 * m + 2)%nat)) by field.
      apply (derivable_pt_lim_ext (fun q => / 3 * (y q (2 * m)%nat + 4 * y q (2 * m + 1)%nat + y q (2 * m + 2)%nat))); [intros; field|].
      apply (derivable_pt_lim_scal (fun q => y q (2 * m)%nat + 4 * y q (2 * m + 1)%nat + y q (2 * m + 2)%nat)).
      apply (derivable_pt_lim_plus (fun q => y q (2 * m)%nat + 4 * y q (2 * m + 1)%nat)); [|exact D].
      apply (derivable_pt_lim_plus (fun q => y q (2 * m)%nat)); [exact A|].
      apply (derivable_pt_lim_scal (fun q => y q (2 * m + 1)%nat)). exact B.
Qed.
Lemma scaled_deriv (f f' : R -> R) c a x : derivable_pt_lim f (x * a) (f' (x * a)) ->
  derivable_pt_lim (fun q => c * f (q * a)) x (c * a * f' (x * a)).
Proof.
  intros H. apply is_derive_Reals in H. apply is_derive_Reals. auto_derive; [eexists; exact H|].
  apply is_derive_unique in H. replace (Derive (fun x0 : R => f x0) (x * a)) with (f' (x * a)) by (symmetry; exact H). ring.
Qed.

(** On an odd mesh the table holds Simpson's rule for the projector's transform at the
    table points (on an even one the rule leaves out the last interval). *)
Theorem C69_table_entry (m : nat) (r r_ab rbeta : nat -> R) (jl : R -> R) (iq : Z) :
  beta_q (2 * m + 1) r r_ab rbeta jl iq
    = composite_simpson m (projector_integrand r r_ab rbeta jl (IZR iq / 100)) /\
  beta_q (2 * m + 2) r r_ab rbeta jl iq
    = composite_simpson m (projector_integrand r r_ab rbeta jl (IZR iq / 100)).
Proof.
  assert (O : beta_q (2 * m + 1) r r_ab rbeta jl iq
    = composite_simpson m (projector_integrand r r_ab rbeta jl (IZR iq / 100))).
  { unfold beta_q, simpson. replace ((2 * m + 1 - 1) / 2)%nat with m.
    - rewrite <- rsum_scal. apply rsum_ext. intros j _. unfold projector_integrand, DEL_Q, Rdiv. field.
    - replace (2 * m + 1 - 1)%nat with (m * 2)%nat by lia. now rewrite Nat.div_mul by lia. }
  split; [exact O|]. rewrite <- O. unfold beta_q. apply C69_simpson_even_mesh_refuted.
Qed.

(** The radial factor used for a plane wave of length q: 4 pi / sqrt(V) times Simpson's
    rule at q itself, up to the interpolation error, which is of fourth order in the
    table spacing 1/100. *)
Theorem C69_projector_radial_factor (m : nat) (r r_ab rbeta : nat -> R) (j j1 j2 j3 j4 : R -> R) (M vol q y : R) (nq : Z) :
  0 < vol -> 0 <= q -> (forall i, (i <= 2 * m)%nat -> 0 <= r i) ->
  (forall x, 0 <= x -> derivable_pt_lim j x (j1 x) /\ derivable_pt_lim j1 x (j2 x) /\
     derivable_pt_lim j2 x (j3 x) /\ derivable_pt_lim j3 x (j4 x) /\ Rabs (j4 x) <= M) ->
  beta_gk vol nq (beta_q (2 * m + 1) r r_ab rbeta j) q = Ok y ->
  Rabs (y - 4 * PI / sqrt vol * composite_simpson m (projector_integrand r r_ab rbeta j q))
  <= 4 * PI / sqrt vol * (105 / 384 * (/ 100) ^ 4 *
       (M * composite_simpson m (fun i => Rabs (rbeta i * r i ^ 5 * r_ab i)))).
Proof.
  intros Hv Hq Hr HD H. unfold beta_gk in H.
  destruct (interp nq (beta_q (2 * m + 1) r r_ab rbeta j) q) as [y0|] eqn:E; [|discriminate].
  injection H as <-. rewrite <- Rmult_minus_distr_l.
  assert (P : 0 < 4 * PI / sqrt vol).
  { apply Rmult_lt_0_compat; [pose proof PI_RGT_0; lra|]. apply Rinv_0_lt_compat, sqrt_lt_R0, Hv. }
  rewrite Rabs_mult, (Rabs_pos_eq (4 * PI / sqrt vol)) by lra. apply Rmult_le_compat_l; [lra|].
  pose (D := fun (p : nat) (jp : R -> R) (x : R) => composite_simpson m (fun i => rbeta i * r i * r_ab i * r i ^ p * jp (x * r i))).
  assert (F0 : forall x, composite_simpson m (projector_integrand r r_ab rbeta j x) = D 0%nat j x).
  { intros x. apply composite_ext. intros i _. unfold projector_integrand. cbn [pow]. ring. }
  assert (DD : forall p f f' x, 0 <= x -> (forall z, 0 <= z -> derivable_pt_lim f z (f' z)) ->
    derivable_pt_lim (D p f) x (D (S p) f' x)).
  { intros p f f' x Hx Hf. unfold D.
    replace (composite_simpson m (fun i => rbeta i * r i * r_ab i * r i ^ S p * f' (x * r i)))
      with (composite_simpson m ((fun x i => rbeta i * r i * r_ab i * r i ^ p * r i * f' (x * r i)) x)).
    - apply (composite_deriv m (fun x i => rbeta i * r i * r_ab i * r i ^ p * f (x * r i)) (fun x i => rbeta i * r i * r_ab i * r i ^ p * r i * f' (x * r i))). intros i Hi. cbv beta.
      apply (scaled_deriv f f'). apply Hf. apply Rmult_le_pos; auto.
    - apply composite_ext. intros i _. cbn [pow]. ring. }
  rewrite F0. change (/ 100) with DEL_Q.
  refine (C44_error_bound (D 0%nat j) (D 1%nat j1) (D 2%nat j2) (D 3%nat j3) (D 4%nat j4) _ nq _ q y0 Hq E _ _).
  - intros k _. rewrite (proj1 (C69_table_entry m r r_ab rbeta j k)). apply F0.
  - intros x [Hx _]. split; [apply DD; [exact Hx|intros z Hz; apply (HD z Hz)]|].
    split; [apply DD; [exact Hx|intros z Hz; apply (HD z Hz)]|].
    split; [apply DD; [exact Hx|intros z Hz; apply (HD z Hz)]|].
    split; [apply DD; [exact Hx|intros z Hz; apply (HD z Hz)]|].
    unfold D. eapply Rle_trans; [apply composite_abs|]. rewrite <- composite_scal. apply composite_le.
    intros i Hi. rewrite !Rabs_mult.
    replace (r i ^ 5) with (r i * r i ^ 4) by ring. rewrite Rabs_mult.
    rewrite (Rmult_comm M). 
    replace (Rabs (rbeta i) * (Rabs (r i) * Rabs (r i ^ 4)) * Rabs (r_ab i) * M)
      with (Rabs (rbeta i) * Rabs (r i) * Rabs (r_ab i) * Rabs (r i ^ 4) * M) by ring.
    apply Rmult_le_compat_l; [repeat apply Rmult_le_pos; apply Rabs_pos|].
    apply (HD (x * r i)). apply Rmult_le_pos; auto.
Qed.
Print Assumptions C69_table_entry.
Print Assumptions C69_projector_radial_factor.

(** The hypotheses are met, e.g. with the fourth-order smooth function sin as factor. *)
Example C69_radial_factor_case : exists y,
  beta_gk 1 10 (beta_q (2 * 1 + 1) (fun i => INR i) (fun _ => 1) (fun _ => 1) sin) 0 = Ok y /\
  forall x, 0 <= x -> derivable_pt_lim sin x (cos x) /\ derivable_pt_lim cos x (- sin x) /\
     derivable_pt_lim (fun x => - sin x) x (- cos x) /\ derivable_pt_lim (fun x => - cos x) x (- - sin x) /\ Rabs (- - sin x) <= 1.
Proof.
  destruct (C44_error_bound_nonvacuous) as (y0 & H & _).
  unfold beta_gk. unfold interp in *. destruct ((rint (0 / DEL_Q) <? 0) || (10 <=? rint (0 / DEL_Q) + 3))%Z; [discriminate|].
  eexists. split; [reflexivity|]. intros x _. split; [apply derivable_pt_lim_sin|]. split; [apply derivable_pt_lim_cos|].
  split; [apply (derivable_pt_lim_opp sin), derivable_pt_lim_sin|].
  split; [apply (derivable_pt_lim_opp cos), derivable_pt_lim_cos|].
  rewrite Ropp_involutive. pose proof (SIN_bound x). apply Rabs_le. lra.
Qed.
