From Coq Require Import Lra.
From Verif Require Import Base GIndexModel LatModel GSphereModel CBase FFTModel FFTSpec FFTProofs FFTProofs2 KSHamModel KSHamSpec KSHamProofs PropsKSHam TddftModel TddftSpec TddftProofs TddftProofs2 TddftProofs3 PropsTddft VxcModel VxcSpec.
Open Scope nat_scope.

Lemma rsum_prod n m (f : nat -> R) : rsum (n * m) f = rsum n (fun i => rsum m (fun j => f (i * m + j))).
Proof.
  apply RtoC_inj. rewrite <- !csum_RtoC, csum_prod. apply csum_ext. intros i _. apply csum_RtoC.
Qed.
Lemma over_grid_flat nx ny nz (f : nat -> R) :
  over_grid nx ny nz (fun x y z => f ((x * ny + y) * nz + z)) = rsum (nx * ny * nz) f.
Proof.
  unfold over_grid. rewrite rsum_prod, rsum_prod. reflexivity.
Qed.
Lemma over_grid_ext nx ny nz f g : (forall x y z, x < nx -> y < ny -> z < nz -> f x y z = g x y z) ->
  over_grid nx ny nz f = over_grid nx ny nz g.
Proof. intros H. unfold over_grid. apply rsum_ext; intros x Hx. apply rsum_ext; intros y Hy. apply rsum_ext; intros z Hz. now apply H. Qed.

Definition flat_pot (v : list (list C)) (p : nat) : R := fold_right Rplus 0%R (map (fun r => fst (nth p r (RtoC 0))) v).

Lemma norm2_rsum phi : norm2 phi = rsum (length phi) (fun p => square_modulus (nth p phi (RtoC 0))).
Proof.
  apply RtoC_inj. rewrite norm2_csum, <- csum_RtoC. apply csum_ext. intros p _. unfold square_modulus. apply C_ext; cbn; ring.
Qed.
Lemma density_length phi : length (get_density phi) = length phi.
Proof. unfold get_density. rewrite zip_with_length, map_length. lia. Qed.
Lemma density_nth phi p : p < length phi ->
  nth p (get_density phi) (RtoC 0) = RtoC (square_modulus (nth p phi (RtoC 0))).
Proof.
  intros H. unfold get_density. rewrite (zip_with_nth Cmult _ _ _ (RtoC 0) (RtoC 0)) by (rewrite ?map_length; lia).
  rewrite (nth_map_lt Cconj (RtoC 0)) by lia. unfold square_modulus. apply C_ext; cbn; ring.
Qed.
Lemma density_total dv phi : cell_integral dv (get_density phi) = RtoC (norm2 phi * dv).
Proof.
  unfold cell_integral. change (fold_right Cplus (RtoC 0)) with grid_sum. rewrite grid_sum_csum, density_length.
  rewrite (csum_ext _ _ (fun p => RtoC (square_modulus (nth p phi (RtoC 0))))) by (intros; now apply density_nth).
  rewrite csum_RtoC, <- norm2_rsum, RtoC_mult. reflexivity.
Qed.
Lemma unit_density_length dv phi : length (unit_density dv phi) = length phi.
Proof. unfold unit_density. now rewrite map_length, density_length. Qed.
Lemma unit_density_nth dv phi p : (norm2 phi * dv <> 0)%R -> p < length phi ->
  nth p (unit_density dv phi) (RtoC 0) = RtoC (square_modulus (nth p phi (RtoC 0)) / (norm2 phi * dv)).
Proof.
  intros H Hp. unfold unit_density. rewrite density_total.
  rewrite (nth_map_lt (fun d => d / RtoC (norm2 phi * dv))%C (RtoC 0)) by (now rewrite density_length).
  rewrite density_nth by assumption. symmetry. apply RtoC_div. exact H.
Qed.
Lemma fold_rows n (l : list (list C)) : forall acc, length acc = n -> (forall r, In r l -> length r = n) ->
  length (fold_left (zip_with Cplus) l acc) = n
  /\ forall p, p < n -> nth p (fold_left (zip_with Cplus) l acc) (RtoC 0)
     = (nth p acc (RtoC 0) + fold_right Cplus (RtoC 0) (map (fun r => nth p r (RtoC 0)) l))%C.
Proof.
  induction l as [|r l IH]; intros acc La Hl; cbn [fold_left map fold_right].
  - split; [exact La|]. intros. ring.
  - destruct (IH (zip_with Cplus acc r)) as (I1 & I2).
    + rewrite zip_with_length, La, (Hl r (or_introl eq_refl)). lia.
    + intros q Hq. apply Hl. now right.
    + split; [exact I1|]. intros p Hp. rewrite (I2 p Hp).
      rewrite (zip_with_nth Cplus _ _ _ (RtoC 0) (RtoC 0)) by (rewrite ?La, ?(Hl r (or_introl eq_refl)); lia). ring.
Qed.

Lemma entry_flat n dv v phi : (norm2 phi <> 0)%R -> (dv <> 0)%R -> length phi = n -> (forall r, In r v -> length r = n) ->
  vxc_entry n dv v phi
  = (rsum n (fun p => flat_pot v p * square_modulus (nth p phi (RtoC 0)))
     / rsum n (fun p => square_modulus (nth p phi (RtoC 0))))%R.
Proof.
  intros Hn Hd Ln Lv. unfold vxc_entry. set (den := unit_density dv phi).
  assert (Ld : length den = n) by (unfold den; now rewrite unit_density_length).
  destruct (fold_rows n (map (fun r => zip_with Cmult r den) v) (repeat (RtoC 0) n)) as (L1 & P1).
  { apply repeat_length. }
  { intros r Hr. apply in_map_iff in Hr. destruct Hr as (q & <- & Hq). rewrite zip_with_length, (Lv q Hq), Ld. lia. }
  unfold cell_integral. change (fold_right Cplus (RtoC 0)) with grid_sum. rewrite grid_sum_csum, L1.
  assert (Hnd : (norm2 phi * dv <> 0)%R) by (now apply Rmult_integral_contrapositive_currified).
  rewrite (csum_ext n _ (fun p => (fold_right Cplus (RtoC 0) (map (fun r => nth p r (RtoC 0)) v))
      * RtoC (square_modulus (nth p phi (RtoC 0)) / (norm2 phi * dv)))%C).
  2:{ intros p Hp. rewrite (P1 p Hp), nth_repeat, Cplus_0_l. rewrite map_map.
      rewrite <- (unit_density_nth dv phi p Hnd ltac:(lia)). fold den.
      clear P1 L1. assert (Lv' : forall r, In r v -> p < length r) by (intros r Hr; rewrite (Lv r Hr); exact Hp).
      clear Lv. induction v as [|r v IH]; cbn [map fold_right]; [ring|].
      rewrite IH by (intros; apply Lv'; now right).
      rewrite (zip_with_nth Cmult _ _ _ (RtoC 0) (RtoC 0)) by (rewrite ?Ld; try lia; apply Lv'; now left). ring. }
  assert (E : forall z : C, fst (z * RtoC dv)%C = (fst z * dv)%R) by (intros z; cbn; ring).
  rewrite E, csum_re.
  rewrite (rsum_ext n _ (fun p => (/ (norm2 phi * dv)) * (flat_pot v p * square_modulus (nth p phi (RtoC 0))))%R).
  2:{ intros p _. assert (G : fst (fold_right Cplus (RtoC 0) (map (fun r => nth p r (RtoC 0)) v)) = flat_pot v p).
      { unfold flat_pot. clear. induction v as [|r v IH]; cbn [map fold_right]; [reflexivity|].
        rewrite <- IH. reflexivity. }
      rewrite <- G. generalize (fold_right Cplus (RtoC 0) (map (fun r => nth p r (RtoC 0)) v)). intros z. cbn. unfold Rdiv. ring. }
  rewrite rsum_scal, <- Ln, <- norm2_rsum. field. now split.
Qed.

Section Wfn.
  Variables nx ny nz : nat.
  Variable gs0 : list vec3.
  Variable s : gspace.
  Hypothesis HS : gspace_base (zshape nx ny nz) gs0 = Ok s.
  Let idx := map Z.to_nat (gs_idxgrid s).
  Let N := nx * ny * nz.

  Lemma all_to_r_eq evc : forall o, full_inv nx ny nz idx false o -> all_to_r o evc = map (onr nx ny nz s) evc.
  Proof.
    induction evc as [|c evc IH]; intros o Ho; cbn [all_to_r map]; [reflexivity|].
    destruct (g2r_onr nx ny nz s o c Ho) as (o' & E & Ho'). rewrite E. f_equal. now apply IH.
  Qed.
  Lemma onr_norm_pos c : length c = length (gs_cryst s) -> (0 < norm2 c)%R -> (0 < norm2 (onr nx ny nz s c))%R.
  Proof.
    intros Lc Hc. rewrite (onr_norm nx ny nz gs0 s HS c Lc).
    destruct (gspace_idx nx ny nz gs0 s HS) as (_ & _ & _ & P1 & P2 & P3 & _).
    apply Rmult_lt_0_compat; [|exact Hc]. apply lt_0_INR. nia.
  Qed.
  Lemma entry_orbital dv v c : length c = length (gs_cryst s) -> (0 < norm2 c)%R -> (dv <> 0)%R ->
    (forall r, In r v -> length r = N) ->
    let den := fun x y z => square_modulus (orbital nx ny nz s c x y z) in
    vxc_entry N dv v (onr nx ny nz s c)
    = (over_grid nx ny nz (fun x y z => total_potential ny nz v x y z * den x y z) / over_grid nx ny nz den)%R
    /\ over_grid nx ny nz den = (INR N * norm2 c)%R.
  Proof.
    intros Lc Hc Hd Lv den. pose proof (onr_norm_pos c Lc Hc) as Hp.
    assert (D : over_grid nx ny nz den = rsum N (fun p => square_modulus (nth p (onr nx ny nz s c) (RtoC 0)))).
    { unfold N. rewrite <- over_grid_flat. apply over_grid_ext. intros x y z Hx Hy Hz.
      rewrite (onr_at nx ny nz gs0 s HS c x y z Lc Hx Hy Hz). reflexivity. }
    split.
    - rewrite (entry_flat N dv v (onr nx ny nz s c)); [|lra|exact Hd|apply onr_length|exact Lv].
      rewrite D. f_equal. unfold N. rewrite <- over_grid_flat. apply over_grid_ext. intros x y z Hx Hy Hz.
      rewrite (onr_at nx ny nz gs0 s HS c x y z Lc Hx Hy Hz). reflexivity.
    - rewrite D. transitivity (norm2 (onr nx ny nz s c)); [|exact (onr_norm nx ny nz gs0 s HS c Lc)].
      rewrite norm2_rsum, onr_length. reflexivity.
  Qed.
End Wfn.

Lemma rsum_lin_bounds n (f w : nat -> R) (lo hi : R) :
  (forall p : nat, p < n -> (0 <= w p)%R) -> (forall p : nat, p < n -> (lo <= f p <= hi)%R) -> (0 < rsum n w)%R ->
  (lo <= rsum n (fun p => f p * w p) / rsum n w <= hi)%R.
Proof.
  intros Hw Hf Hp. split.
  - apply Rmult_le_reg_r with (rsum n w); [exact Hp|]. unfold Rdiv. rewrite Rmult_assoc, Rinv_l, Rmult_1_r by lra.
    rewrite <- rsum_scal. apply rsum_le. intros p H. specialize (Hw p H). specialize (Hf p H). nra.
  - apply Rmult_le_reg_r with (rsum n w); [exact Hp|]. unfold Rdiv. rewrite Rmult_assoc, Rinv_l, Rmult_1_r by lra.
    rewrite <- rsum_scal. apply rsum_le. intros p H. specialize (Hw p H). specialize (Hf p H). nra.
Qed.

Lemma vxc_data_ok npts numbnd dv v kgrp rows : vxc_data npts numbnd dv v kgrp = Ok rows ->
  length rows = length kgrp
  /\ forall ik p, nth_error kgrp ik = Some p -> vxc_row npts numbnd dv v p = Ok (nth ik rows []).
Proof.
  revert rows. induction kgrp as [|p kgrp IH]; intros rows; cbn [vxc_data].
  - intros [= <-]. split; [reflexivity|]. now intros [|ik].
  - destruct (vxc_row npts numbnd dv v p) as [row|] eqn:E; [|discriminate].
    destruct (vxc_data npts numbnd dv v kgrp) as [rs|] eqn:E2; [|discriminate]. intros [= <-].
    destruct (IH rs eq_refl) as (I1 & I2). split; [cbn; now rewrite I1|].
    intros [|ik] q Hq; cbn in *; [now injection Hq as <-|now apply I2].
Qed.
