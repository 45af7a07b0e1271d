From Verif Require Import Base GIndexModel LatModel GSphereModel CBase FFTModel FFTSpec FFTProofs FFTProofs2 KSHamModel KSHamSpec KSHamProofs PropsKSHam TddftModel TddftSpec TddftProofs TddftProofs2.
Open Scope nat_scope.

Lemma row_norm2_eq v : row_norm2 v = norm2 v.
Proof.
  unfold row_norm2. rewrite (vdot1_csum v v eq_refl). fold (braket v v). rewrite <- norm2_braket. reflexivity.
Qed.
Lemma normalize_eq b : normalize b = map unit_vector b.
Proof. unfold normalize, unit_vector. apply map_ext. intros v. now rewrite row_norm2_eq. Qed.

Lemma norm2_nonneg v : (0 <= norm2 v)%R.
Proof.
  induction v as [|c v IH]; [cbn; lra|]. cbn [norm2 fold_right]. change (fold_right _ _ v) with (norm2 v).
  pose proof (Rle_0_sqr (fst c)) as A. pose proof (Rle_0_sqr (snd c)) as B. unfold Rsqr in A, B. lra.
Qed.
Lemma norm2_scaled a v : norm2 (map (Cmult a) v) = ((fst a * fst a + snd a * snd a) * norm2 v)%R.
Proof.
  induction v as [|c v IH]; [cbn; ring|]. cbn [map norm2 fold_right].
  change (fold_right _ _ (map (Cmult a) v)) with (norm2 (map (Cmult a) v)). rewrite IH.
  change (fold_right _ _ v) with (norm2 v). cbn [Cmult fst snd]. ring.
Qed.
Lemma unit_as_scaled v : unit_vector v = map (Cmult (/ RtoC (sqrt (norm2 v)))%C) v.
Proof. unfold unit_vector. apply map_ext. intros c. unfold Cdiv. ring. Qed.
Lemma unit_norm v : (0 < norm2 v)%R -> norm2 (unit_vector v) = 1%R.
Proof.
  intros H. rewrite unit_as_scaled, norm2_scaled.
  assert (Hs : (0 < sqrt (norm2 v))%R) by now apply sqrt_lt_R0.
  rewrite <- RtoC_inv by lra. cbn [fst snd RtoC]. rewrite Rmult_0_l, Rplus_0_r.
  rewrite <- (sqrt_sqrt (norm2 v)) at 3 by lra. field. lra.
Qed.
Lemma unit_length v : length (unit_vector v) = length v.
Proof. unfold unit_vector. apply map_length. Qed.

Section Rho.
  Variables nx ny nz : nat.
  Variable gs0 : list vec3.
  Variable s : gspace.
  Hypothesis HS : gspace_base (zshape nx ny nz) gs0 = Ok s.
  Let idx := map Z.to_nat (gs_idxgrid s).
  Let N := nx * ny * nz.
  Let ng := length (gs_cryst s).
  Definition onr (psi : list C) : list C := full_fun nx ny nz (map Z.to_nat (gs_idxgrid s)) false (G2R psi).

  Lemma onr_length psi : length (onr psi) = N.
  Proof. unfold onr. cbn [full_fun]. apply store_length. Qed.

  Lemma g2r_onr o psi : full_inv nx ny nz idx false o ->
    exists o', full_g2r o psi = (o', onr psi) /\ full_inv nx ny nz idx false o'.
  Proof.
    intros Ho. change (full_g2r o psi) with (full_call o (G2R psi)).
    pose proof (full_call_fun nx ny nz idx false o (G2R psi) Ho) as E.
    pose proof (full_call_inv nx ny nz idx false o (G2R psi) Ho) as I.
    destruct (full_call o (G2R psi)) as [o' out]. cbn [fst snd] in *. subst out. exists o'. split; [reflexivity|exact I].
  Qed.

  Lemma onr_at psi x y z : length psi = ng -> x < nx -> y < ny -> z < nz ->
    nth ((x * ny + y) * nz + z) (onr psi) (RtoC 0)
    = csum ng (fun k => nth k psi (RtoC 0) * plane_wave nx ny nz (nth k (gs_cryst s) (0, 0, 0)%Z) x y z)%C.
  Proof.
    intros Hl Hx Hy Hz. unfold onr. rewrite (g2r_gspace nx ny nz gs0 s false psi x y z HS Hl Hx Hy Hz).
    rewrite nfac_scal, Hl. ring.
  Qed.

  Lemma onr_norm psi : length psi = ng -> norm2 (onr psi) = (INR N * norm2 psi)%R.
  Proof.
    intros Hl. destruct (gspace_idx nx ny nz gs0 s HS) as (HN & HB & HL & P1 & P2 & P3 & _).
    unfold onr. rewrite (parseval_full nx ny nz (map Z.to_nat (gs_idxgrid s)) false psi); try assumption; [reflexivity|]. fold ng in HL. cbv zeta in HL. now rewrite HL.
  Qed.

  Lemma density_nth psi_r p : p < length psi_r -> nth p (get_density psi_r) (RtoC 0) = (Cconj (nth p psi_r (RtoC 0)) * nth p psi_r (RtoC 0))%C.
  Proof.
    intros Hp. unfold get_density. rewrite (zip_nth _ (RtoC 0) (RtoC 0)) by now rewrite map_length.
    now rewrite (nth_map_lt Cconj (RtoC 0)) by exact Hp.
  Qed.
  Lemma density_length psi_r : length (get_density psi_r) = length psi_r.
  Proof. unfold get_density. rewrite zip_length; now rewrite map_length. Qed.

  Lemma rho_sum_ok rows : forall occ acc o, full_inv nx ny nz idx false o -> length rows = length occ -> length acc = N ->
    exists o' out, rho_sum o rows occ acc = (o', out) /\ full_inv nx ny nz idx false o' /\ length out = N
    /\ forall p, p < N -> nth p out (RtoC 0)
       = (nth p acc (RtoC 0) + csum (length rows) (fun b => RtoC (nth b occ 0%R)
           * (Cconj (nth p (onr (nth b rows [])) (RtoC 0)) * nth p (onr (nth b rows [])) (RtoC 0))))%C.
  Proof.
    induction rows as [|psi rows IH]; intros [|f occ] acc o Ho L La; cbn in L; try lia.
    - exists o, acc. cbn [rho_sum length csum]. repeat split; try apply Ho; auto. intros; ring.
    - cbn [rho_sum]. destruct (g2r_onr o psi Ho) as (o1 & E & Ho1). rewrite E.
      destruct (IH occ (zip_with Cplus acc (map (Cmult (RtoC f)) (get_density (onr psi)))) o1 Ho1) as (o' & out & E' & I & LO & D).
      + lia.
      + rewrite zip_length; [exact La|]. now rewrite map_length, density_length, onr_length.
      + exists o', out. repeat split; try apply I; try assumption. intros p Hp. rewrite (D p Hp).
        rewrite (zip_nth _ (RtoC 0) (RtoC 0)) by (rewrite ?map_length, ?density_length, ?onr_length; lia).
        rewrite (nth_map_lt _ (RtoC 0)) by (rewrite density_length, onr_length; exact Hp).
        rewrite density_nth by (rewrite onr_length; exact Hp).
        cbn [length]. rewrite csum_head. cbn [nth]. ring.
  Qed.

  (** The density at grid point p of rows with weights, divided by the volume. *)
  Definition rho_at (vol : R) (rows : bands) (occ : list R) (p : nat) : C :=
    (csum (length rows) (fun b => RtoC (nth b occ 0%R)
       * (Cconj (nth p (onr (nth b rows [])) (RtoC 0)) * nth p (onr (nth b rows [])) (RtoC 0))) / RtoC vol)%C.

  Lemma rho_zero_ok rows occ vol o : full_inv nx ny nz idx false o -> length rows = length occ ->
    exists o' rho, rho_sum o rows occ (repeat (RtoC 0) N) = (o', rho) /\ full_inv nx ny nz idx false o'
    /\ length (map (fun c => c / RtoC vol)%C rho) = N
    /\ forall p, p < N -> nth p (map (fun c => c / RtoC vol)%C rho) (RtoC 0) = rho_at vol rows occ p.
  Proof.
    intros Ho L. destruct (rho_sum_ok rows occ (repeat (RtoC 0) N) o Ho L (repeat_length _ _)) as (o' & out & E & I & LO & D).
    exists o', out. repeat split; try apply I; auto; [now rewrite map_length|].
    intros p Hp. rewrite (nth_map_lt (fun c => c / RtoC vol)%C (RtoC 0)) by lia. rewrite (D p Hp), nth_repeat. unfold rho_at.
    f_equal. ring.
  Qed.

  Lemma grid_sum_csum f : grid_sum f = csum (length f) (fun i => nth i f (RtoC 0)).
  Proof. apply fold_csum. Qed.

  Lemma rho_integral vol rows occ rho : (vol <> 0)%R -> rect ng rows -> length rho = N ->
    (forall p, p < N -> nth p rho (RtoC 0) = rho_at vol rows occ p) ->
    (grid_sum rho * RtoC (vol / INR N) = RtoC (rsum (length rows) (fun b => nth b occ 0 * norm2 (nth b rows []))%R))%C.
  Proof.
    intros Hv Hr L D. rewrite grid_sum_csum, L.
    destruct (gspace_idx nx ny nz gs0 s HS) as (_ & _ & _ & P1 & P2 & P3 & _).
    assert (HN : 0 < N) by (unfold N; nia).
    rewrite (csum_ext N _ _ D). unfold rho_at.
    rewrite <- csum_RtoC.
    transitivity ((csum (length rows) (fun b => csum N (fun p => RtoC (nth b occ 0%R)
       * (Cconj (nth p (onr (nth b rows [])) (RtoC 0)) * nth p (onr (nth b rows [])) (RtoC 0)))) / RtoC vol) * RtoC (vol / INR N))%C.
    { f_equal. rewrite csum_swap. unfold Cdiv. rewrite <- csum_scal_r. apply csum_ext. intros; reflexivity. }
    unfold Cdiv. rewrite <- !csum_scal_r. apply csum_ext. intros b Hb.
    rewrite csum_scal.
    assert (E : csum N (fun p => Cconj (nth p (onr (nth b rows [])) (RtoC 0)) * nth p (onr (nth b rows [])) (RtoC 0))%C
                = RtoC (INR N * norm2 (nth b rows []))).
    { rewrite <- onr_norm by (apply Hr, nth_In; exact Hb). rewrite norm2_csum, onr_length. apply csum_ext. intros; ring. }
    rewrite E. unfold Rdiv. rewrite !RtoC_mult, RtoC_inv by (apply not_0_INR; lia). field.
    split; [now apply RtoC_INR_neq|]. intros X; apply RtoC_inj in X; contradiction.
  Qed.

  Lemma rho_real_nonneg vol rows occ p : (0 < vol)%R -> (forall f, In f occ -> (0 <= f)%R) -> length rows = length occ ->
    snd (rho_at vol rows occ p) = 0%R /\ (0 <= fst (rho_at vol rows occ p))%R.
  Proof.
    intros Hv Hf L.
    assert (E : rho_at vol rows occ p = RtoC (rsum (length rows) (fun b => nth b occ 0%R *
       (fst (nth p (onr (nth b rows [])) (RtoC 0)) * fst (nth p (onr (nth b rows [])) (RtoC 0))
        + snd (nth p (onr (nth b rows [])) (RtoC 0)) * snd (nth p (onr (nth b rows [])) (RtoC 0)))) / vol)%R).
    { unfold rho_at, Rdiv. rewrite RtoC_mult, RtoC_inv by lra. unfold Cdiv. f_equal.
      rewrite <- csum_RtoC. apply csum_ext. intros b _.
      generalize (nth p (onr (nth b rows [])) (RtoC 0)) as c. intros c. rewrite RtoC_mult. f_equal. apply C_ext; cbn; ring. }
    rewrite E. cbn [RtoC fst snd]. split; [reflexivity|].
    apply Rmult_le_pos; [|left; now apply Rinv_0_lt_compat].
    apply rsum_nonneg. intros b Hb. apply Rmult_le_pos; [apply Hf, nth_In; lia|].
    generalize (nth p (onr (nth b rows [])) (RtoC 0)) as c. intros c.
    pose proof (Rle_0_sqr (fst c)) as A. pose proof (Rle_0_sqr (snd c)) as B. unfold Rsqr in A, B. lra.
  Qed.
End Rho.
