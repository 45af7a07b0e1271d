(** Lemmas about the Hartree model. *)
From Verif Require Import Base GIndexModel GIndexProofs LatModel LatProofs GSphereModel CBase FFTModel FFTSpec FFTProofs FFTProofs2 KSHamModel KSHamProofs MixProofs PotModel PotSpec.
Open Scope nat_scope.

Lemma is_zero_spec g : is_zero g = true <-> g = (0, 0, 0)%Z.
Proof.
  destruct g as [[a b] c]. unfold is_zero. rewrite !andb_true_iff, !Z.eqb_eq. split.
  - intros [[-> ->] ->]. reflexivity.
  - intros [= -> -> ->]. auto.
Qed.

Lemma gp_norm2_sq G k : (exists P, mk_lattice P = Ok (gp_lat G)) -> gp_norm2 G k = sq_length G k.
Proof.
  intros [P H]. unfold gp_norm2, sq_length, g_norm2, gv.
  pose proof (dot_cart P (gp_lat G) 1%R (gvec (nth k (gs_cryst (gp_gs G)) (0, 0, 0)%Z)) (gvec (nth k (gs_cryst (gp_gs G)) (0, 0, 0)%Z)) H) as E.
  unfold dot in E. now injection E.
Qed.

Lemma sq_length_nonneg G k : (0 <= sq_length G k)%R.
Proof. apply vdot_nonneg. Qed.

Lemma gvec_zero g : gvec g = V 0 0 0 -> g = (0, 0, 0)%Z.
Proof.
  destruct g as [[a b] c]. unfold gvec. intros [= A B D].
  apply eq_IZR in A, B, D. now subst.
Qed.

Lemma sq_length_pos G k : (exists P, mk_lattice P = Ok (gp_lat G)) -> is_zero (gv G k) = false -> (0 < sq_length G k)%R.
Proof.
  intros [P H] HZ. destruct (sq_length_nonneg G k) as [|E]; [assumption|]. exfalso.
  unfold sq_length in E. symmetry in E. apply vdot_zero in E.
  destruct (cryst_cart_inverse P (gp_lat G) (gvec (gv G k)) H) as [I _]. rewrite E in I.
  assert (I2 : gvec (gv G k) = V 0 0 0).
  { rewrite <- I. unfold cart2cryst, mv, vadd, vscale. cbn. f_equal; ring. }
  apply gvec_zero in I2. assert (is_zero (gv G k) = true) by now apply is_zero_spec. congruence.
Qed.

(** G = 0 can only be the first vector, and is when [has_g0] holds. *)
Lemma g0_index G k : constructed G -> k < gp_size G ->
  (gs_has_g0 (gp_gs G) && Nat.eqb k 0)%bool = is_zero (gv G k).
Proof.
  intros (_ & gs & H) Hk. apply gspace_base_spec in H as (P & ND & _ & _ & _ & _ & H0 & Hh & _).
  unfold gp_size in Hk. unfold gv. set (l := gs_cryst (gp_gs G)) in *.
  assert (NDl : NoDup l) by (eapply Permutation_NoDup; [apply Permutation_sym, P|exact ND]).
  destruct (is_zero (nth k l (0, 0, 0)%Z)) eqn:E.
  - apply is_zero_spec in E. assert (I : In (0, 0, 0)%Z gs).
    { eapply Permutation_in; [exact P|]. rewrite <- E. now apply nth_In. }
    rewrite (proj2 H0 I). specialize (Hh I). destruct l as [|g l']; [discriminate|]. cbn in Hh. injection Hh as ->.
    assert (k = 0) as ->; [|reflexivity].
    apply (proj1 (NoDup_nth ((0, 0, 0)%Z :: l') (0, 0, 0)%Z) NDl); [exact Hk|cbn; lia|exact E].
  - destruct (gs_has_g0 (gp_gs G)) eqn:F; [|reflexivity]. destruct (Nat.eqb_spec k 0) as [->|]; [|reflexivity].
    specialize (Hh (proj1 H0 eq_refl)). destruct l as [|g l']; [discriminate|]. cbn in Hh. injection Hh as ->.
    cbn in E. discriminate.
Qed.

Lemma spin_sum_ok G rho : is_density G rho ->
  length (spin_sum rho) = gp_size G /\ forall k, k < gp_size G -> nth k (spin_sum rho) (RtoC 0) = total rho k.
Proof.
  intros [[H|H] L].
  - destruct rho as [|a [|? ?]]; cbn in H; try lia. cbn [spin_sum fold_left]. rewrite map_length.
    specialize (L a (or_introl eq_refl)). split; [exact L|]. intros k Hk.
    rewrite (nth_indep _ _ (RtoC 0 + RtoC 0)%C) by (rewrite map_length; lia).
    rewrite (map_nth (fun c => RtoC 0 + c)%C). cbn. ring.
  - destruct rho as [|a [|b [|? ?]]]; cbn in H; try lia. cbn [spin_sum fold_left].
    pose proof (L a (or_introl eq_refl)) as La. pose proof (L b (or_intror (or_introl eq_refl))) as Lb.
    rewrite zip_with_length, map_length. split; [lia|]. intros k Hk.
    rewrite (zip_with_nth _ _ _ k (RtoC 0 + RtoC 0)%C (RtoC 0)) by (rewrite ?map_length; lia).
    rewrite (map_nth (fun c => RtoC 0 + c)%C). cbn. ring.
Qed.

Lemma check_rho_ok G rho : is_density G rho -> check_rho rho = Ok tt.
Proof. intros [[H|H] _]; unfold check_rho; now rewrite H. Qed.

Lemma hartree_vg_length G r : length (hartree_vg G r) = length r.
Proof. unfold hartree_vg. now rewrite map_length, seq_length. Qed.

Lemma hartree_vg_nth G r k : constructed G -> length r = gp_size G -> k < gp_size G ->
  nth k (hartree_vg G r) (RtoC 0) = coulomb G (fun k => nth k r (RtoC 0)) k.
Proof.
  intros HC Hl Hk. unfold hartree_vg, coulomb.
  set (f := fun k => if (gs_has_g0 (gp_gs G) && Nat.eqb k 0)%bool then RtoC 0
                else (RtoC FPI * nth k r (RtoC 0) / RtoC (gp_norm2 G k))%C).
  rewrite (nth_indep _ _ (f 0)) by (rewrite map_length, seq_length; lia).
  rewrite map_nth, seq_nth by lia. cbn [Nat.add]. unfold f. rewrite g0_index by assumption.
  destruct (is_zero (gv G k)); [reflexivity|]. rewrite gp_norm2_sq by apply HC. reflexivity.
Qed.

(** The FFT object of a G-space after any history of transforms. *)
Definition field_fft (G : gsp) (garbage : worker) (history : list call) : full :=
  full_run (full_init (gp_nx G) (gp_ny G) (gp_nz G) (map Z.to_nat (gs_idxgrid (gp_gs G))) true garbage) history.

Lemma field_g2r G g h v x y z : constructed G -> length v = gp_size G -> on_grid G x y z ->
  at_point G (snd (full_g2r (field_fft G g h) v)) x y z
  = fourier_series G (fun k => nth k v (RtoC 0)) x y z.
Proof.
  intros (_ & gs & H) Hl (Hx & Hy & Hz). unfold at_point, field_fft.
  change (full_g2r ?o v) with (full_call o (G2R v)). rewrite full_stateless.
  rewrite (g2r_gspace _ _ _ gs (gp_gs G) true v x y z H Hl Hx Hy Hz). unfold fourier_series.
  rewrite nfac_scal. unfold gp_size in Hl. rewrite Hl. reflexivity.
Qed.

(** [field.to_r().to_g()] is the identity. *)
Lemma field_roundtrip G g1 h1 g2 h2 v : constructed G -> length v = gp_size G ->
  snd (full_r2g (field_fft G g2 h2) (snd (full_g2r (field_fft G g1 h1) v))) = v.
Proof.
  intros (_ & gs & H) Hl. unfold field_fft.
  destruct (gspace_idx _ _ _ gs (gp_gs G) H) as (HN & HB & HL & _).
  change (full_g2r ?o v) with (full_call o (G2R v)).
  match goal with |- context [full_r2g ?o ?d] => change (full_r2g o d) with (full_call o (R2G d)) end.
  rewrite !full_stateless. unfold gp_size in Hl.
  rewrite roundtrip by (try assumption; congruence).
  rewrite <- (map_id v) at 2. apply map_ext. intros c. ring.
Qed.

Lemma field_r2g G g h f k : constructed G -> k < gp_size G ->
  nth k (snd (full_r2g (field_fft G g h) f)) (RtoC 0)
  = over_grid G (fun x y z => at_point G f x y z * Cconj (plane_wave (gp_nx G) (gp_ny G) (gp_nz G) (gv G k) x y z))%C.
Proof.
  intros (_ & gs & H) Hk. unfold field_fft.
  change (full_r2g ?o f) with (full_call o (R2G f)). rewrite full_stateless.
  exact (r2g_gspace _ _ _ gs (gp_gs G) true f k H Hk).
Qed.

Lemma over_grid_ext G f g : (forall x y z, on_grid G x y z -> f x y z = g x y z) -> over_grid G f = over_grid G g.
Proof.
  intros H. unfold over_grid. apply csum_ext. intros x Hx. apply csum_ext. intros y Hy. apply csum_ext. intros z Hz.
  apply H. repeat split; assumption.
Qed.
Lemma over_grid_scal G a f : over_grid G (fun x y z => a * f x y z)%C = (a * over_grid G f)%C.
Proof.
  unfold over_grid. rewrite <- csum_scal. apply csum_ext. intros x _.
  rewrite <- csum_scal. apply csum_ext. intros y _. now rewrite <- csum_scal.
Qed.
Lemma over_grid_csum G n f : over_grid G (fun x y z => csum n (fun k => f k x y z)) = csum n (fun k => over_grid G (f k)).
Proof.
  unfold over_grid.
  rewrite (csum_ext _ _ (fun x => csum n (fun k => csum (gp_ny G) (fun y => csum (gp_nz G) (fun z => f k x y z))))).
  - apply csum_swap.
  - intros x _. rewrite (csum_ext _ _ (fun y => csum n (fun k => csum (gp_nz G) (fun z => f k x y z)))) by (intros; apply csum_swap).
    apply csum_swap.
Qed.

(** Plancherel: the overlap of two fields on the grid in terms of their coefficients. *)
Lemma plancherel G g1 h1 g2 h2 u v : constructed G -> length u = gp_size G -> length v = gp_size G ->
  over_grid G (fun x y z => Cconj (at_point G (snd (full_g2r (field_fft G g1 h1) u)) x y z)
                            * at_point G (snd (full_g2r (field_fft G g2 h2) v)) x y z)%C
  = (/ RtoC (INR (gp_n G)) * csum (gp_size G) (fun k => Cconj (nth k u (RtoC 0)) * nth k v (RtoC 0)))%C.
Proof.
  intros HC Hu Hv.
  assert (HN : RtoC (INR (gp_n G)) <> RtoC 0).
  { destruct HC as (_ & gs & H). destruct (gspace_idx _ _ _ gs (gp_gs G) H) as (_ & _ & _ & P1 & P2 & P3 & _).
    apply RtoC_INR_neq. unfold gp_n. nia. }
  rewrite (over_grid_ext G _ (fun x y z => / RtoC (INR (gp_n G)) * csum (gp_size G) (fun k => Cconj (nth k u (RtoC 0)) *
     (at_point G (snd (full_g2r (field_fft G g2 h2) v)) x y z * Cconj (plane_wave (gp_nx G) (gp_ny G) (gp_nz G) (gv G k) x y z))))%C).
  2:{ intros x y z Hp. rewrite (field_g2r G g1 h1 u) by assumption. unfold fourier_series. fold (gp_n G).
      rewrite Cmult_conj, csum_conj.
      replace (Cconj (/ RtoC (INR (gp_n G)))) with (/ RtoC (INR (gp_n G)))%C.
      2:{ rewrite <- RtoC_inv by (intros E; apply HN; now rewrite E). apply C_ext; cbn; ring. }
      rewrite <- Cmult_assoc. f_equal. rewrite <- csum_scal_r. apply csum_ext. intros k _. rewrite Cmult_conj. ring. }
  rewrite over_grid_scal. f_equal. rewrite over_grid_csum. apply csum_ext. intros k Hk.
  rewrite over_grid_scal. f_equal. rewrite <- (field_r2g G g2 h2) by assumption.
  now rewrite field_roundtrip.
Qed.
