(** Properties C13, C14, C15, C54: transforms between G-space and the grid. *)
From Verif Require Import Base GIndexModel CBase FFTModel FFTSpec FFTProofs FFTProofs2.
Open Scope nat_scope.

(** C13.  The grid field returned by g2r is the Fourier sum of the coefficients
    over the G-vectors of the G-space (divided by the number of grid points when
    normalisation is on), whatever was done with the FFT object before. *)
Theorem C13_g2r_is_fourier_sum : forall nx ny nz gs s norm garbage history v x y z,
  gspace_base (zshape nx ny nz) gs = Ok s ->
  length v = length (gs_cryst s) ->
  x < nx -> y < ny -> z < nz ->
  let fft := full_run (full_init nx ny nz (map Z.to_nat (gs_idxgrid s)) norm garbage) history in
  nth ((x * ny + y) * nz + z) (snd (full_g2r fft v)) (RtoC 0)
  = ((if norm then / RtoC (INR (nx * ny * nz)) else RtoC 1) *
     csum (length v) (fun k => nth k v (RtoC 0)
        * plane_wave nx ny nz (nth k (gs_cryst s) (0, 0, 0)%Z) x y z))%C.
Proof.
  intros nx ny nz gs s norm g h v x y z H Hl Hx Hy Hz fft.
  change (full_g2r fft v) with (full_call fft (G2R v)). unfold fft. rewrite full_stateless.
  rewrite (g2r_gspace nx ny nz gs s norm v x y z H Hl Hx Hy Hz). apply nfac_scal.
Qed.
Print Assumptions C13_g2r_is_fourier_sum.

(** C13.  r2g projects the field on the plane waves of the G-space. *)
Theorem C13_r2g_is_projection_on_plane_waves : forall nx ny nz gs s norm garbage history f k,
  gspace_base (zshape nx ny nz) gs = Ok s -> k < length (gs_cryst s) ->
  let fft := full_run (full_init nx ny nz (map Z.to_nat (gs_idxgrid s)) norm garbage) history in
  nth k (snd (full_r2g fft f)) (RtoC 0)
  = csum nx (fun x => csum ny (fun y => csum nz (fun z =>
      nth ((x * ny + y) * nz + z) f (RtoC 0)
      * Cconj (plane_wave nx ny nz (nth k (gs_cryst s) (0, 0, 0)%Z) x y z))))%C.
Proof.
  intros nx ny nz gs s norm g h f k H Hk fft.
  change (full_r2g fft f) with (full_call fft (R2G f)). unfold fft. rewrite full_stateless.
  exact (r2g_gspace nx ny nz gs s norm f k H Hk).
Qed.
Print Assumptions C13_r2g_is_projection_on_plane_waves.

(** C13.  GSpace (normalise_idft = True): to_r then to_g is the identity. *)
Theorem C13_roundtrip_gspace : forall nx ny nz gs s garbage h1 h2 v,
  gspace_base (zshape nx ny nz) gs = Ok s -> length v = length (gs_cryst s) ->
  let fft := full_init nx ny nz (map Z.to_nat (gs_idxgrid s)) true garbage in
  snd (full_r2g (full_run fft h2) (snd (full_g2r (full_run fft h1) v))) = v.
Proof.
  intros nx ny nz gs s g h1 h2 v H Hl fft.
  destruct (gspace_idx nx ny nz gs s H) as (HN & HB & HL & _).
  change (full_g2r (full_run fft h1) v) with (full_call (full_run fft h1) (G2R v)).
  change (full_r2g (full_run fft h2)) with (fun d => full_call (full_run fft h2) (R2G d)).
  unfold fft. cbv beta. rewrite !full_stateless, roundtrip by (try assumption; congruence).
  rewrite <- (map_id v) at 2. apply map_ext. intros c. ring.
Qed.
Print Assumptions C13_roundtrip_gspace.

(** C13.  GkSpace (normalise_idft = False): WavefunG.to_r().to_g() multiplies
    every coefficient by the number of grid points - it is not the identity. *)
Theorem C13_roundtrip_gkspace_scales : forall nx ny nz gs s garbage h1 h2 v,
  gspace_base (zshape nx ny nz) gs = Ok s -> length v = length (gs_cryst s) ->
  let fft := full_init nx ny nz (map Z.to_nat (gs_idxgrid s)) false garbage in
  snd (full_r2g (full_run fft h2) (snd (full_g2r (full_run fft h1) v)))
  = scaled (RtoC (INR (nx * ny * nz))) v.
Proof.
  intros nx ny nz gs s g h1 h2 v H Hl fft.
  destruct (gspace_idx nx ny nz gs s H) as (HN & HB & HL & _).
  change (full_g2r (full_run fft h1) v) with (full_call (full_run fft h1) (G2R v)).
  change (full_r2g (full_run fft h2)) with (fun d => full_call (full_run fft h2) (R2G d)).
  unfold fft. cbv beta. rewrite !full_stateless. now rewrite roundtrip by (try assumption; congruence).
Qed.
Print Assumptions C13_roundtrip_gkspace_scales.

Theorem C13_roundtrip_gkspace_identity_refuted :
  exists nx ny nz gs s v, forall garbage,
    gspace_base (zshape nx ny nz) gs = Ok s /\ length v = length (gs_cryst s) /\
    let fft := full_init nx ny nz (map Z.to_nat (gs_idxgrid s)) false garbage in
    snd (full_r2g fft (snd (full_g2r fft v))) <> v.
Proof.
  destruct (GIndexProofs.gspace_base_total (zshape 2 2 2) [(0, 0, 0)%Z]) as [s Hs];
    [reflexivity|reflexivity|repeat constructor; cbn; tauto|discriminate|].
  assert (HL : length (gs_cryst s) = 1).
  { pose proof (GIndexProofs.gspace_base_spec _ _ _ Hs) as (HP & _).
    now apply Permutation_length in HP. }
  exists 2, 2, 2, [(0, 0, 0)%Z], s, [RtoC 1]. intros g.
  split; [exact Hs|]. split; [now rewrite HL|]. intros fft E.
  pose proof (C13_roundtrip_gkspace_scales 2 2 2 _ s g [] [] [RtoC 1] Hs (eq_sym HL)) as E2.
  cbv zeta in E2. cbn [full_run fold_left] in E2. fold fft in E2. rewrite E in E2. unfold scaled in E2. cbn [map] in E2.
  injection E2 as E3 _. cbn in E3. lra.
Qed.
Print Assumptions C13_roundtrip_gkspace_identity_refuted.

(** Non-vacuity: a G-space with five vectors, two of them negative. *)
Example C13_nonvacuous : exists s,
  gspace_base (zshape 3 4 5) [(0, 0, 0); (1, -1, 2); (-1, 1, 0); (0, 1, -2); (0, -2, 0)]%Z = Ok s.
Proof. eexists. vm_compute. reflexivity. Qed.

(** C14.  The stick-based driver and the full driver agree on every call,
    whatever happened on either object before, for every list of in-range grid
    indices (duplicates allowed). *)
Theorem C14_sticks_equal_full : forall nx ny nz idx norm garbage1 garbage2 garbage3 h1 h2 (c : call),
  (forall i, In i idx -> i < nx * ny * nz) ->
  snd (sticks_call (sticks_run (sticks_init nx ny nz idx norm garbage1 garbage2) h1) c)
  = snd (full_call (full_run (full_init nx ny nz idx norm garbage3) h2) c).
Proof.
  intros. rewrite full_stateless. now apply sticks_stateless.
Qed.
Print Assumptions C14_sticks_equal_full.

Example C14_nonvacuous :
  (forall i, In i [0; 7; 13; 59] -> i < 3 * 4 * 5)
  /\ s_g2sticks (sticks_init 3 4 5 [0; 7; 13; 59] true
       (MkWorker zeros zeros zeros) (MkWorker zeros zeros zeros)) = [0; 3; 6; 11].
Proof. split; [cbn; lia|reflexivity]. Qed.

(** C15.  The result of a call does not depend on the calls made before nor on
    the initial contents of the work arrays. *)
Theorem C15_full_history_independent : forall nx ny nz idx norm g1 g2 h1 h2 c,
  snd (full_call (full_run (full_init nx ny nz idx norm g1) h1) c)
  = snd (full_call (full_run (full_init nx ny nz idx norm g2) h2) c).
Proof. intros. now rewrite !full_stateless. Qed.
Print Assumptions C15_full_history_independent.

Theorem C15_sticks_history_independent : forall nx ny nz idx norm gx1 gyz1 gx2 gyz2 h1 h2 c,
  (forall i, In i idx -> i < nx * ny * nz) ->
  snd (sticks_call (sticks_run (sticks_init nx ny nz idx norm gx1 gyz1) h1) c)
  = snd (sticks_call (sticks_run (sticks_init nx ny nz idx norm gx2 gyz2) h2) c).
Proof. intros. now rewrite !sticks_stateless. Qed.
Print Assumptions C15_sticks_history_independent.

(** C15, limit of the claim: called without [arr_out], FFT3DFull.g2r returns the
    worker's own output array; with a backend that reuses it (PyFFTW) the array
    the caller holds changes at the next call. *)
Theorem C15_result_without_arr_out_refuted :
  exists nx ny nz idx norm v1 v2, forall garbage,
    let o1 := full_g2r_buf (full_init nx ny nz idx norm garbage) v1 in
    let held_after_first := store (nx * ny * nz) (w_out (f_w o1)) in
    let o2 := full_g2r_buf o1 v2 in
    let held_after_second := store (nx * ny * nz) (w_out (f_w o2)) in
    held_after_first <> held_after_second.
Proof.
  exists 1, 1, 1, [0], false, [RtoC 0], [RtoC 1]. intros g o1 h1 o2 h2 E.
  assert (D : forall A, dft_xyz 1 1 1 1 A 0 = A 0).
  { intros A. unfold dft_xyz, csum, kern. cbn [Z.of_nat Z.mul]. rewrite !root_0.
    cbn [Nat.mul Nat.add Nat.div]. ring. }
  apply (f_equal (fun l => nth 0 l (RtoC 0))) in E.
  change (dft_xyz 1 1 1 1 (put zeros [0] [RtoC 0]) 0 = dft_xyz 1 1 1 1 (put zeros [0] [RtoC 1]) 0) in E.
  rewrite !D in E. cbn in E. unfold upd in E. cbn in E. apply RtoC_inj in E. lra.
Qed.
Print Assumptions C15_result_without_arr_out_refuted.

(** Exactly: whatever was done before, after a call without [arr_out] the shared
    array holds the result of that call, so every array handed out earlier now
    shows the newest transform. *)
Theorem C15_shared_array_shows_newest : forall nx ny nz idx norm g1 g2 h1 h2 v,
  store (nx * ny * nz) (w_out (f_w (full_g2r_buf (full_run (full_init nx ny nz idx norm g1) h1) v)))
  = snd (full_g2r (full_run (full_init nx ny nz idx norm g2) h2) v).
Proof.
  intros. transitivity (snd (full_call (full_run (full_init nx ny nz idx norm g1) h1) (G2R v))).
  - unfold full_call, full_g2r. cbn [snd].
    assert (S : forall h o, f_nx (full_run o h) = f_nx o /\ f_ny (full_run o h) = f_ny o /\ f_nz (full_run o h) = f_nz o).
    { clear. induction h as [|c h IH]; intros o; [auto|].
      change (full_run o (c :: h)) with (full_run (fst (full_call o c)) h).
      destruct (IH (fst (full_call o c))) as (A & B & D). rewrite A, B, D. destruct c; cbn; auto. }
    destruct (S h1 (full_init nx ny nz idx norm g1)) as (A & B & D). rewrite A, B, D. reflexivity.
  - now rewrite (C15_full_history_independent nx ny nz idx norm g1 g2 h1 h2).
Qed.
Print Assumptions C15_shared_array_shows_newest.

(** C54.  Parseval: the squared modulus summed over the grid equals the squared
    norm of the coefficients times 1/N (GSpace) or N (GkSpace). *)
Theorem C54_parseval : forall nx ny nz gs s norm garbage history v,
  gspace_base (zshape nx ny nz) gs = Ok s -> length v = length (gs_cryst s) ->
  let fft := full_run (full_init nx ny nz (map Z.to_nat (gs_idxgrid s)) norm garbage) history in
  norm2 (snd (full_g2r fft v))
  = ((if norm then / INR (nx * ny * nz) else INR (nx * ny * nz)) * norm2 v)%R.
Proof.
  intros nx ny nz gs s norm g h v H Hl fft.
  destruct (gspace_idx nx ny nz gs s H) as (HN & HB & HL & P1 & P2 & P3 & _).
  change (full_g2r fft v) with (full_call fft (G2R v)). unfold fft. rewrite full_stateless.
  apply parseval_full; try assumption. congruence.
Qed.
Print Assumptions C54_parseval.
