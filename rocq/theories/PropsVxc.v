(** Property C110: the exchange-correlation matrix elements returned by scf(..., ret_vxc=True). *)
From Coq Require Import Lra.
From Verif Require Import Base GIndexModel LatModel GSphereModel CBase FFTModel FFTSpec FFTProofs FFTProofs2 KSHamModel KSHamSpec KSHamProofs PropsKSHam TddftModel TddftSpec TddftProofs TddftProofs2 TddftProofs3 PropsTddft VxcModel VxcSpec VxcProofs.
Open Scope nat_scope.

(** A k-point whose wavefunctions are given by the coefficients [spins] in the k+G space [s], its
    FFT object having been used before for any sequence of transforms. *)
Definition at_k (nx ny nz : nat) (s : gspace) (garbage : worker) (history : list call) (spins : list bands) : kpoint :=
  (used nx ny nz s garbage history, spins).
(** Coefficient rows of the right length, none of them zero. *)
Definition proper (s : gspace) (evc : bands) : Prop :=
  forall c, In c evc -> length c = length (gs_cryst s) /\ (0 < norm2 c)%R.

Lemma row_ok nx ny nz gs s numbnd dv v garbage history (evc : bands) (spins : list bands) :
  gspace_base (zshape nx ny nz) gs = Ok s -> length evc <= numbnd ->
  vxc_row (nx * ny * nz) numbnd dv v (at_k nx ny nz s garbage history (evc :: spins))
  = Ok (map (fun c => vxc_entry (nx * ny * nz) dv v (onr nx ny nz s c)) evc ++ repeat 0%R (numbnd - length evc)).
Proof.
  intros HS L. unfold vxc_row, at_k. destruct (Nat.leb_spec (length evc) numbnd); [|lia].
  rewrite (all_to_r_eq nx ny nz s evc _ (used_inv nx ny nz s garbage history)), map_map. reflexivity.
Qed.

(** C110.  Entry b of a k-point's row is the expectation value of the exchange-correlation
    potential in orbital b of the first wavefunction object, whatever its norm:
    sum_r v(r) |phi_b(r)|^2 / sum_r |phi_b(r)|^2, v being the sum of the channels. *)
Theorem C110_expectation_value :
  forall nx ny nz gs s numbnd dv v garbage history evc spins,
  gspace_base (zshape nx ny nz) gs = Ok s -> proper s evc -> length evc <= numbnd -> (dv <> 0)%R ->
  (forall channel, In channel v -> length channel = nx * ny * nz) ->
  exists row, vxc_row (nx * ny * nz) numbnd dv v (at_k nx ny nz s garbage history (evc :: spins)) = Ok row
    /\ length row = numbnd
    /\ (forall b, b < length evc ->
          let weight := fun x y z => square_modulus (orbital nx ny nz s (nth b evc []) x y z) in
          nth b row 0%R = (over_grid nx ny nz (fun x y z => total_potential ny nz v x y z * weight x y z)
                           / over_grid nx ny nz weight)%R
          /\ (0 < over_grid nx ny nz weight)%R)
    /\ (forall b, length evc <= b -> nth b row 0%R = 0%R).
Proof.
  intros nx ny nz gs s numbnd dv v g hist evc spins HS Hc L Hd Lv.
  eexists. split; [now apply (row_ok nx ny nz gs)|]. split; [rewrite app_length, map_length, repeat_length; lia|]. split.
  - intros b Hb weight.
    assert (Hin : In (nth b evc []) evc) by now apply nth_In. destruct (Hc _ Hin) as (Lc & Pc).
    destruct (entry_orbital nx ny nz gs s HS dv v _ Lc Pc Hd Lv) as (E1 & E2).
    rewrite app_nth1 by now rewrite map_length.
    rewrite (nth_map_lt (fun c => vxc_entry (nx * ny * nz) dv v (onr nx ny nz s c)) []) by assumption.
    split; [exact E1|]. unfold weight. rewrite E2.
    destruct (gspace_idx nx ny nz gs s HS) as (_ & _ & _ & P1 & P2 & P3 & _).
    apply Rmult_lt_0_compat; [|exact Pc]. apply lt_0_INR. nia.
  - intros b Hb. rewrite app_nth2; rewrite map_length; [|assumption]. apply nth_repeat.
Qed.
Print Assumptions C110_expectation_value.

(** C110.  In terms of the plane-wave coefficients: the entry is the quadratic form of the matrix
    of the potential between plane waves, divided by the squared norm of the coefficients. *)
Lemma quadratic_form nx ny nz s (v : nat -> nat -> nat -> R) c :
  let n := length (gs_cryst s) in let G := fun i => nth i (gs_cryst s) (0, 0, 0)%Z in
  RtoC (over_grid nx ny nz (fun x y z => v x y z * square_modulus (orbital nx ny nz s c x y z))%R)
  = csum n (fun i => csum n (fun j => Cconj (nth i c (RtoC 0)) *
       csum nx (fun x => csum ny (fun y => csum nz (fun z =>
          Cconj (plane_wave nx ny nz (G i) x y z) * RtoC (v x y z) * plane_wave nx ny nz (G j) x y z)))
       * nth j c (RtoC 0)))%C.
Proof.
  intros n G.
  transitivity (csum nx (fun x => csum ny (fun y => csum nz (fun z =>
     RtoC (v x y z) * (Cconj (orbital nx ny nz s c x y z) * orbital nx ny nz s c x y z)))))%C.
  { unfold over_grid. rewrite <- csum_RtoC. apply csum_ext; intros x _. rewrite <- csum_RtoC. apply csum_ext; intros y _.
    rewrite <- csum_RtoC. apply csum_ext; intros z _. rewrite RtoC_mult. f_equal. unfold square_modulus. apply C_ext; cbn; ring. }
  transitivity (csum nx (fun x => csum ny (fun y => csum nz (fun z => csum n (fun i => csum n (fun j =>
     Cconj (nth i c (RtoC 0)) * nth j c (RtoC 0) * (Cconj (plane_wave nx ny nz (G i) x y z) * RtoC (v x y z) * plane_wave nx ny nz (G j) x y z)))))))%C.
  { apply csum_ext; intros x _. apply csum_ext; intros y _. apply csum_ext; intros z _. unfold orbital. fold n.
    rewrite csum_conj, csum_mult, <- csum_scal. apply csum_ext; intros i _. rewrite <- csum_scal. apply csum_ext; intros j _.
    rewrite Cmult_conj. unfold G. ring. }
  rewrite (csum3_swap nx ny nz n (fun x y z i => csum n (fun j =>
     Cconj (nth i c (RtoC 0)) * nth j c (RtoC 0) * (Cconj (plane_wave nx ny nz (G i) x y z) * RtoC (v x y z) * plane_wave nx ny nz (G j) x y z))%C)).
  apply csum_ext; intros i _.
  rewrite (csum3_swap nx ny nz n (fun x y z j =>
     Cconj (nth i c (RtoC 0)) * nth j c (RtoC 0) * (Cconj (plane_wave nx ny nz (G i) x y z) * RtoC (v x y z) * plane_wave nx ny nz (G j) x y z))%C).
  apply csum_ext; intros j _.
  rewrite <- csum_scal, <- csum_scal_r. apply csum_ext; intros x _. rewrite <- csum_scal, <- csum_scal_r. apply csum_ext; intros y _.
  rewrite <- csum_scal, <- csum_scal_r. apply csum_ext; intros z _. ring.
Qed.

Theorem C110_matrix_element :
  forall nx ny nz gs s numbnd dv v garbage history evc spins row b,
  gspace_base (zshape nx ny nz) gs = Ok s -> proper s evc -> length evc <= numbnd -> (dv <> 0)%R ->
  (forall channel, In channel v -> length channel = nx * ny * nz) ->
  vxc_row (nx * ny * nz) numbnd dv v (at_k nx ny nz s garbage history (evc :: spins)) = Ok row -> b < length evc ->
  let c := nth b evc [] in let n := length (gs_cryst s) in
  let V := fun i j => potential_element nx ny nz (total_potential ny nz v)
                        (nth i (gs_cryst s) (0, 0, 0)%Z) (nth j (gs_cryst s) (0, 0, 0)%Z) in
  (RtoC (nth b row 0%R) = csum n (fun i => csum n (fun j => Cconj (nth i c (RtoC 0)) * V i j * nth j c (RtoC 0))) / RtoC (norm2 c))%C.
Proof.
  intros nx ny nz gs s numbnd dv v g hist evc spins row b HS Hc L Hd Lv Hrow Hb c n V.
  rewrite (row_ok nx ny nz gs s numbnd dv v g hist evc spins HS L) in Hrow. injection Hrow as <-.
  assert (Hin : In c evc) by now apply nth_In. destruct (Hc _ Hin) as (Lc & Pc).
  destruct (entry_orbital nx ny nz gs s HS dv v _ Lc Pc Hd Lv) as (E1 & E2).
  rewrite app_nth1 by now rewrite map_length.
  rewrite (nth_map_lt (fun c => vxc_entry (nx * ny * nz) dv v (onr nx ny nz s c)) []) by assumption.
  fold c. rewrite E1, E2.
  destruct (gspace_idx nx ny nz gs s HS) as (_ & _ & _ & P1 & P2 & P3 & _).
  assert (PN : (0 < INR (nx * ny * nz))%R) by (apply lt_0_INR; nia).
  rewrite RtoC_div by (apply Rgt_not_eq, Rmult_lt_0_compat; assumption).
  rewrite (quadratic_form nx ny nz s (total_potential ny nz v) c). fold n.
  rewrite RtoC_mult.
  rewrite (csum_ext n (fun i => csum n (fun j => Cconj (nth i c (RtoC 0)) * V i j * nth j c (RtoC 0)))%C
    (fun i => csum n (fun j => Cconj (nth i c (RtoC 0)) *
       csum nx (fun x => csum ny (fun y => csum nz (fun z =>
          Cconj (plane_wave nx ny nz (nth i (gs_cryst s) (0, 0, 0)%Z) x y z) * RtoC (total_potential ny nz v x y z)
          * plane_wave nx ny nz (nth j (gs_cryst s) (0, 0, 0)%Z) x y z)))
       * nth j c (RtoC 0)) * / RtoC (INR (nx * ny * nz)))%C).
  2:{ intros i _. rewrite <- csum_scal_r. apply csum_ext. intros j _. unfold V, potential_element. unfold Cdiv. ring. }
  rewrite csum_scal_r. field. split; intros X; apply RtoC_inj in X; lra.
Qed.
Print Assumptions C110_matrix_element.

(** C110.  Every entry lies between the least and the greatest value the potential takes on the grid. *)
Theorem C110_between_extremes :
  forall nx ny nz gs s numbnd dv v garbage history evc spins row b lo hi,
  gspace_base (zshape nx ny nz) gs = Ok s -> proper s evc -> length evc <= numbnd -> (dv <> 0)%R ->
  (forall channel, In channel v -> length channel = nx * ny * nz) ->
  (forall x y z, x < nx -> y < ny -> z < nz -> (lo <= total_potential ny nz v x y z <= hi)%R) ->
  vxc_row (nx * ny * nz) numbnd dv v (at_k nx ny nz s garbage history (evc :: spins)) = Ok row -> b < length evc ->
  (lo <= nth b row 0 <= hi)%R.
Proof.
  intros nx ny nz gs s numbnd dv v g hist evc spins row b lo hi HS Hc L Hd Lv Hv Hrow Hb.
  rewrite (row_ok nx ny nz gs s numbnd dv v g hist evc spins HS L) in Hrow. injection Hrow as <-.
  assert (Hin : In (nth b evc []) evc) by now apply nth_In. destruct (Hc _ Hin) as (Lc & Pc).
  rewrite app_nth1 by now rewrite map_length.
  rewrite (nth_map_lt (fun c => vxc_entry (nx * ny * nz) dv v (onr nx ny nz s c)) []) by assumption.
  pose proof (onr_norm_pos nx ny nz gs s HS _ Lc Pc) as Pp.
  rewrite (entry_flat (nx * ny * nz) dv v (onr nx ny nz s (nth b evc []))); [|lra|exact Hd|apply onr_length|exact Lv].
  apply rsum_lin_bounds.
  - intros p _. unfold square_modulus. nra.
  - intros p Hp. destruct (flat_decomp nx ny nz p Hp) as (Hx & Hy & Hz & E). rewrite <- E. exact (Hv _ _ _ Hx Hy Hz).
  - rewrite norm2_rsum, onr_length in Pp. exact Pp.
Qed.
Print Assumptions C110_between_extremes.

(** C110.  Multiplying orbitals by any non-zero complex factors (in particular normalising them, or
    changing their phases) leaves the whole row as it is, and so does the volume element. *)
Definition rescaled (f : nat -> C) (evc : bands) : bands :=
  map (fun b => map (Cmult (f b)) (nth b evc [])) (seq 0 (length evc)).
Theorem C110_independent_of_norm_and_phase :
  forall nx ny nz gs s numbnd dv dv' v garbage history garbage' history' evc spins spins' f,
  gspace_base (zshape nx ny nz) gs = Ok s -> proper s evc -> length evc <= numbnd -> (dv <> 0)%R -> (dv' <> 0)%R ->
  (forall channel, In channel v -> length channel = nx * ny * nz) ->
  (forall b, b < length evc -> f b <> RtoC 0) ->
  vxc_row (nx * ny * nz) numbnd dv' v (at_k nx ny nz s garbage' history' (rescaled f evc :: spins'))
  = vxc_row (nx * ny * nz) numbnd dv v (at_k nx ny nz s garbage history (evc :: spins)).
Proof.
  intros nx ny nz gs s numbnd dv dv' v g h g' h' evc spins spins' f HS Hc L Hd Hd' Lv Hf.
  assert (Lr : length (rescaled f evc) = length evc) by (unfold rescaled; now rewrite map_length, seq_length).
  rewrite !(row_ok nx ny nz gs) by (try assumption; lia). f_equal. rewrite Lr. f_equal.
  unfold rescaled. rewrite map_map.
  transitivity (map (fun b => vxc_entry (nx * ny * nz) dv v (onr nx ny nz s (nth b evc []))) (seq 0 (length evc))).
  2:{ rewrite <- (map_map (fun b => nth b evc []) (fun c => vxc_entry (nx * ny * nz) dv v (onr nx ny nz s c))).
      now rewrite map_nth_seq. }
  apply map_ext_in. intros b Hb. apply in_seq in Hb.
  assert (Hin : In (nth b evc []) evc) by (apply nth_In; lia). destruct (Hc _ Hin) as (Lc & Pc).
  assert (Pf : (0 < square_modulus (f b))%R).
  { specialize (Hf b ltac:(lia)). unfold square_modulus. destruct (Rlt_or_le 0 (fst (f b) * fst (f b) + snd (f b) * snd (f b))) as [A|A]; [exact A|].
    exfalso. apply Hf. apply C_ext; cbn; nra. }
  assert (Lc' : length (map (Cmult (f b)) (nth b evc [])) = length (gs_cryst s)) by now rewrite map_length.
  assert (Pc' : (0 < norm2 (map (Cmult (f b)) (nth b evc [])))%R).
  { rewrite norm2_scaled. apply Rmult_lt_0_compat; assumption. }
  destruct (entry_orbital nx ny nz gs s HS dv v _ Lc Pc Hd Lv) as (E1 & E2).
  destruct (entry_orbital nx ny nz gs s HS dv' v _ Lc' Pc' Hd' Lv) as (E1' & E2').
  rewrite E1, E1', E2, E2'. rewrite norm2_scaled.
  assert (W : forall x y z, square_modulus (orbital nx ny nz s (map (Cmult (f b)) (nth b evc [])) x y z)
    = (square_modulus (f b) * square_modulus (orbital nx ny nz s (nth b evc []) x y z))%R).
  { intros x y z. assert (O : orbital nx ny nz s (map (Cmult (f b)) (nth b evc [])) x y z = (f b * orbital nx ny nz s (nth b evc []) x y z)%C).
    { unfold orbital. rewrite <- csum_scal. apply csum_ext. intros k Hk.
      rewrite (nth_map_lt (Cmult (f b)) (RtoC 0)) by (rewrite Lc; exact Hk). ring. }
    rewrite O. unfold square_modulus. cbn. ring. }
  rewrite (over_grid_ext nx ny nz _ (fun x y z => square_modulus (f b) *
     (total_potential ny nz v x y z * square_modulus (orbital nx ny nz s (nth b evc []) x y z)))%R) by (intros; rewrite W; ring).
  assert (Q : forall (a : R) (h0 : nat -> nat -> nat -> R), over_grid nx ny nz (fun x y z => a * h0 x y z)%R = (a * over_grid nx ny nz h0)%R).
  { intros a h0. unfold over_grid. rewrite <- rsum_scal. apply rsum_ext; intros x _. rewrite <- rsum_scal. apply rsum_ext; intros y _.
    now rewrite rsum_scal. }
  rewrite Q. destruct (gspace_idx nx ny nz gs s HS) as (_ & _ & _ & P1 & P2 & P3 & _).
  assert (PN : (0 < INR (nx * ny * nz))%R) by (apply lt_0_INR; nia).
  unfold square_modulus in *. field. repeat split; lra.
Qed.
Print Assumptions C110_independent_of_norm_and_phase.

(** C110.  Adding a constant to one channel of the potential adds it to every entry. *)
Theorem C110_constant_shift :
  forall nx ny nz gs s numbnd dv va ch vb a garbage history evc spins row row' b,
  gspace_base (zshape nx ny nz) gs = Ok s -> proper s evc -> length evc <= numbnd -> (dv <> 0)%R ->
  (forall channel, In channel (va ++ ch :: vb) -> length channel = nx * ny * nz) ->
  vxc_row (nx * ny * nz) numbnd dv (va ++ ch :: vb) (at_k nx ny nz s garbage history (evc :: spins)) = Ok row ->
  vxc_row (nx * ny * nz) numbnd dv (va ++ map (Cplus (RtoC a)) ch :: vb) (at_k nx ny nz s garbage history (evc :: spins)) = Ok row' ->
  b < length evc -> (nth b row' 0 = nth b row 0 + a)%R.
Proof.
  intros nx ny nz gs s numbnd dv va ch vb a g hist evc spins row row' b HS Hc L Hd Lv Hrow Hrow' Hb.
  rewrite (row_ok nx ny nz gs s numbnd dv _ g hist evc spins HS L) in Hrow.
  rewrite (row_ok nx ny nz gs s numbnd dv _ g hist evc spins HS L) in Hrow'.
  injection Hrow as <-. injection Hrow' as <-.
  assert (Hin : In (nth b evc []) evc) by now apply nth_In. destruct (Hc _ Hin) as (Lc & Pc).
  rewrite !app_nth1 by now rewrite map_length.
  rewrite !(nth_map_lt (fun c => vxc_entry (nx * ny * nz) dv _ (onr nx ny nz s c)) []) by assumption.
  assert (Lv' : forall channel, In channel (va ++ map (Cplus (RtoC a)) ch :: vb) -> length channel = nx * ny * nz).
  { intros q Hq. apply in_app_or in Hq. destruct Hq as [Hq|[<-|Hq]].
    - apply Lv, in_or_app. now left.
    - rewrite map_length. apply Lv, in_or_app. right. now left.
    - apply Lv, in_or_app. right. now right. }
  assert (Lch : length ch = nx * ny * nz) by (apply Lv, in_or_app; right; now left).
  pose proof (onr_norm_pos nx ny nz gs s HS _ Lc Pc) as Pp. set (phi := onr nx ny nz s (nth b evc [])) in *.
  assert (Lp : length phi = nx * ny * nz) by apply onr_length.
  rewrite !(entry_flat (nx * ny * nz) dv _ phi) by (try assumption; lra).
  rewrite norm2_rsum, Lp in Pp. set (W := rsum (nx * ny * nz) (fun p => square_modulus (nth p phi (RtoC 0)))) in *.
  rewrite (rsum_ext _ (fun p => flat_pot (va ++ map (Cplus (RtoC a)) ch :: vb) p * square_modulus (nth p phi (RtoC 0)))%R
    (fun p => flat_pot (va ++ ch :: vb) p * square_modulus (nth p phi (RtoC 0)) + a * square_modulus (nth p phi (RtoC 0)))%R).
  2:{ intros p Hp. assert (E : flat_pot (va ++ map (Cplus (RtoC a)) ch :: vb) p = (flat_pot (va ++ ch :: vb) p + a)%R).
      { unfold flat_pot. clear - Hp Lch. induction va as [|q va IH]; cbn [app map fold_right].
        - rewrite (nth_map_lt (Cplus (RtoC a)) (RtoC 0)) by lia. cbn. ring.
        - rewrite IH. ring. }
      rewrite E. ring. }
  rewrite rsum_plus, rsum_scal. fold W. field. lra.
Qed.
Print Assumptions C110_constant_shift.

(** C110.  scf returns one row per k-point of this process's k-group, in its order, each as wide as
    the number of bands; it does not gather the other groups' rows. *)
Theorem C110_one_row_per_local_kpoint :
  forall npts numbnd dv v kgrp rows, vxc_data npts numbnd dv v kgrp = Ok rows ->
  length rows = length kgrp
  /\ (forall row, In row rows -> length row = numbnd)
  /\ forall ik p, nth_error kgrp ik = Some p -> vxc_row npts numbnd dv v p = Ok (nth ik rows []).
Proof.
  intros npts numbnd dv v kgrp rows H. destruct (vxc_data_ok npts numbnd dv v kgrp rows H) as (H1 & H2).
  split; [exact H1|]. split; [|exact H2].
  intros row Hr. destruct (In_nth rows row [] Hr) as (ik & Hik & <-).
  destruct (nth_error kgrp ik) as [p|] eqn:E.
  - specialize (H2 ik p E). unfold vxc_row in H2. destruct p as (o, [|evc spins]); [discriminate|].
    destruct (Nat.leb_spec (length evc) numbnd); [|discriminate]. injection H2 as <-.
    rewrite app_length, map_length, repeat_length.
    assert (A : forall evc (o : full), length (all_to_r o evc) = length evc).
    { clear. induction evc as [|c evc IH]; intros o; cbn [all_to_r length]; [reflexivity|].
      destruct (full_g2r o c). cbn [length]. now rewrite IH. }
    rewrite A. lia.
  - apply nth_error_None in E. lia.
Qed.
Print Assumptions C110_one_row_per_local_kpoint.

(** C110, refuted with spin polarisation: the second wavefunction object of a k-point is never read,
    and only the sum of the two channels of the potential matters: exchanging them, or replacing both
    by their average, gives the same numbers (v_up + v_down in the spin-up orbitals). *)
Theorem C110_spin_down_orbitals_ignored_refuted : forall npts numbnd dv v o evc spins spins',
  vxc_row npts numbnd dv v (o, evc :: spins) = vxc_row npts numbnd dv v (o, evc :: spins').
Proof. reflexivity. Qed.
Print Assumptions C110_spin_down_orbitals_ignored_refuted.

Theorem C110_spin_channels_added_refuted :
  forall nx ny nz gs s numbnd dv up down up' down' garbage history evc spins,
  gspace_base (zshape nx ny nz) gs = Ok s -> proper s evc -> length evc <= numbnd -> (dv <> 0)%R ->
  (forall channel, In channel [up; down; up'; down'] -> length channel = nx * ny * nz) ->
  (forall p, p < nx * ny * nz ->
     (fst (nth p up (RtoC 0)) + fst (nth p down (RtoC 0)) = fst (nth p up' (RtoC 0)) + fst (nth p down' (RtoC 0)))%R) ->
  vxc_row (nx * ny * nz) numbnd dv [up; down] (at_k nx ny nz s garbage history (evc :: spins))
  = vxc_row (nx * ny * nz) numbnd dv [up'; down'] (at_k nx ny nz s garbage history (evc :: spins)).
Proof.
  intros nx ny nz gs s numbnd dv up down up' down' g hist evc spins HS Hc L Hd Lv Hv.
  rewrite !(row_ok nx ny nz gs) by assumption. do 2 f_equal. apply map_ext_in. intros c Hin.
  destruct (Hc _ Hin) as (Lc & Pc). pose proof (onr_norm_pos nx ny nz gs s HS _ Lc Pc) as Pp.
  assert (Lp : length (onr nx ny nz s c) = nx * ny * nz) by apply onr_length.
  rewrite !(entry_flat (nx * ny * nz) dv _ (onr nx ny nz s c)) by (try assumption; try lra; cbn [In] in *; firstorder).
  f_equal. apply rsum_ext. intros p Hp. f_equal. unfold flat_pot. cbn [map fold_right]. specialize (Hv p Hp). lra.
Qed.
Print Assumptions C110_spin_channels_added_refuted.

(** Non-vacuity: on a 2 x 1 x 1 grid with the plane waves 0 and -1, the orbital 2 + 2i exp(iG.r) lives
    at both points with the same weight; the potential -3, 1 gives -1, and a missing second band 0. *)
Example C110_example : exists s row,
  gspace_base (zshape 2 1 1) [(0, 0, 0)%Z; (-1, 0, 0)%Z] = Ok s
  /\ proper s [[RtoC 2; (0, 2)%R]]
  /\ vxc_row (2 * 1 * 1) 2 5 [[RtoC (-3); RtoC 1]] (at_k 2 1 1 s (MkWorker (fun _ => RtoC 7) (fun _ => Ci) (fun _ => RtoC 3)) [] [[[RtoC 2; (0, 2)%R]]]) = Ok row
  /\ row = [(-1)%R; 0%R].
Proof.
  destruct (gspace_base (zshape 2 1 1) [(0, 0, 0)%Z; (-1, 0, 0)%Z]) as [s|] eqn:HS; [|now vm_compute in HS].
  assert (Hg : gs_cryst s = [(0, 0, 0)%Z; (-1, 0, 0)%Z]) by (vm_compute in HS; injection HS as <-; reflexivity).
  assert (Hp : proper s [[RtoC 2; (0, 2)%R]]).
  { intros c [<-|[]]. rewrite Hg. split; [reflexivity|]. cbn. lra. }
  destruct (C110_expectation_value 2 1 1 _ s 2 5 [[RtoC (-3); RtoC 1]] (MkWorker (fun _ => RtoC 7) (fun _ => Ci) (fun _ => RtoC 3)) [] [[RtoC 2; (0, 2)%R]] [] HS Hp)
    as (row & E & L & A & B); [cbn; lia|lra|intros r [<-|[]]; reflexivity|].
  exists s, row. split; [reflexivity|]. split; [exact Hp|]. split; [exact E|].
  destruct (A 0 ltac:(cbn; lia)) as (A0 & _). specialize (B 1 ltac:(cbn; lia)).
  destruct row as [|r0 [|r1 [|? ?]]]; try discriminate L. cbn [nth] in A0, B. subst r1. f_equal. rewrite A0.
  assert (W : forall x, x < 2 -> square_modulus (orbital 2 1 1 s [RtoC 2; (0, 2)%R] x 0 0) = 8%R).
  { intros x Hx. unfold orbital. rewrite Hg. cbn [length csum nth].
    unfold plane_wave. destruct x as [|[|x]]; [| |lia].
    - replace (2 * PI * (0 * (INR 0 / INR 2) + 0 * (INR 0 / INR 1) + 0 * (INR 0 / INR 1)))%R with 0%R by (cbn; field).
      replace (2 * PI * (-1 * (INR 0 / INR 2) + 0 * (INR 0 / INR 1) + 0 * (INR 0 / INR 1)))%R with 0%R by (cbn; field).
      rewrite cis_0. unfold square_modulus. cbn. ring.
    - replace (2 * PI * (0 * (INR 1 / INR 2) + 0 * (INR 0 / INR 1) + 0 * (INR 0 / INR 1)))%R with 0%R by (cbn; field).
      replace (2 * PI * (-1 * (INR 1 / INR 2) + 0 * (INR 0 / INR 1) + 0 * (INR 0 / INR 1)))%R with (- PI)%R by (cbn; field).
      rewrite cis_0. unfold cis. rewrite cos_neg, sin_neg, cos_PI, sin_PI. unfold square_modulus. cbn. ring. }
  unfold over_grid. cbn [rsum]. rewrite !W by lia. unfold total_potential. cbn. lra.
Qed.
