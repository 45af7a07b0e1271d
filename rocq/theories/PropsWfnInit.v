(** C84: the random starting wavefunctions. *)
From Verif Require Import Base ScatterModel ScatterProofs WfnInitModel CBase.
Open Scope R_scope.

(* ------------------------------------------------------------------ *)
(** Specification vocabulary.  Bands are drawn in blocks of ten; a block of
    [r] bands takes [r * cols] numbers for the moduli and then [r * cols] for
    the phases.  Place in the stream of the modulus and of the phase of the
    coefficient of band [b] on basis function [g]. *)
Definition block_of (b : nat) : nat := (b / 10)%nat.
Definition block_rows (nb b : nat) : nat := Nat.min 10 (nb - 10 * block_of b).
Definition modulus_at (cols b g : nat) : nat :=
  (20 * block_of b * cols + (b mod 10) * cols + g)%nat.
Definition phase_at (nb cols b g : nat) : nat :=
  (20 * block_of b * cols + block_rows nb b * cols + (b mod 10) * cols + g)%nat.

(** Coefficient of band [b] on vector [g] of a wavefunction array. *)
Definition coeff (d : list (list C)) (b g : nat) : C := nth g (nth b d []) 0%C.

(* ------------------------------------------------------------------ *)
Lemma polar_table (f h : nat -> nat -> R) rows cols :
  polar (map (fun i => map (fun j => f i j) (seq 0 cols)) (seq 0 rows))
        (map (fun i => map (fun j => h i j) (seq 0 cols)) (seq 0 rows))
  = map (fun i => map (fun j => (RtoC (f i j) * cis (2 * PI * h i j))%C) (seq 0 cols)) (seq 0 rows).
Proof.
  unfold polar.
  assert (HC : forall (A B D : Type) (p : nat -> A) (q : nat -> B) (k : A * B -> D) l,
            map k (combine (map p l) (map q l)) = map (fun i => k (p i, q i)) l).
  { intros A B D p q k l. induction l as [|x l IH]; cbn; [reflexivity|]. now rewrite IH. }
  rewrite HC. apply map_ext. intros i. cbn [fst snd]. rewrite HC. reflexivity.
Qed.

Lemma seq_shift_add a n m : map (fun i => (a + i)%nat) (seq n m) = seq (a + n) m.
Proof. revert n. induction m as [|m IH]; intros n; cbn; [reflexivity|]. rewrite IH. f_equal. f_equal. lia. Qed.

Definition raw_coeff (u : nat -> R) (nb cols b g : nat) : C :=
  (RtoC (u (modulus_at cols b g)) * cis (2 * PI * u (phase_at nb cols b g)))%C.

Lemma fill_prefix u nb cols m : (m <= (nb + 9) / 10)%nat ->
  fold_left (fun st i =>
      let rows := (Nat.min (i + chunk_size) nb - i)%nat in
      let '(re, p1) := draw u (snd st) rows cols in
      let '(im, p2) := draw u p1 rows cols in
      (fst st ++ polar re im, p2))
    (map (fun t => (10 * t)%nat) (seq 0 m)) ([], 0%nat)
  = (map (fun b => map (raw_coeff u nb cols b) (seq 0 cols)) (seq 0 (Nat.min (10 * m) nb)),
     (2 * (Nat.min (10 * m) nb * cols))%nat).
Proof.
  induction m as [|m IH]; intros Hm.
  - cbn [seq map fold_left]. rewrite Nat.mul_0_r, Nat.min_0_l. reflexivity.
  - assert (Hlt : (10 * m < nb)%nat).
    { assert (10 * ((nb + 9) / 10) <= nb + 9)%nat by (apply Nat.mul_div_le; lia). lia. }
    rewrite seq_S, map_app, fold_left_app, IH by lia. cbn [plus map fold_left fst snd].
    change chunk_size with 10%nat. unfold draw.
    rewrite (Nat.min_l (10 * m) nb) by lia.
    set (rows := (Nat.min (10 * m + 10) nb - 10 * m)%nat).
    assert (Hr : (Nat.min (10 * S m) nb = 10 * m + rows)%nat) by (unfold rows; lia).
    rewrite Hr. f_equal; [|lia].
    rewrite polar_table, seq_app, map_app. f_equal. cbn [plus].
    replace (seq (10 * m) rows) with (map (fun i => (10 * m + i)%nat) (seq 0 rows))
      by (rewrite seq_shift_add; f_equal; lia).
    rewrite map_map.
    apply map_ext_in. intros i Hi. apply in_seq in Hi. apply map_ext. intros j.
    unfold raw_coeff, modulus_at, phase_at, block_rows, block_of.
    assert (Hi10 : (i < 10)%nat) by (unfold rows in Hi; lia).
    assert (Hd : ((10 * m + i) / 10 = m)%nat).
    { symmetry. apply (Nat.div_unique _ 10 m i); lia. }
    assert (Hmod : ((10 * m + i) mod 10 = i)%nat).
    { symmetry. apply (Nat.mod_unique _ 10 m i); lia. }
    rewrite Hd, Hmod.
    assert (Hrows : rows = Nat.min 10 (nb - 10 * m)) by (unfold rows; lia).
    rewrite <- Hrows.
    replace (2 * (10 * m * cols) + i * cols + j)%nat with (20 * m * cols + i * cols + j)%nat by lia.
    replace (2 * (10 * m * cols) + rows * cols + i * cols + j)%nat
      with (20 * m * cols + rows * cols + i * cols + j)%nat by lia.
    reflexivity.
Qed.

Lemma fill_closed u nb cols :
  fill_chunks u nb cols
  = (map (fun b => map (raw_coeff u nb cols b) (seq 0 cols)) (seq 0 nb), (2 * (nb * cols))%nat).
Proof.
  unfold fill_chunks, range_step. change chunk_size with 10%nat.
  replace (nb + 10 - 1)%nat with (nb + 9)%nat by lia.
  etransitivity; [apply (fill_prefix u nb cols ((nb + 9) / 10)); lia|].
  assert (H : (nb <= 10 * ((nb + 9) / 10))%nat).
  { pose proof (Nat.div_mod (nb + 9) 10 ltac:(lia)). pose proof (Nat.mod_upper_bound (nb + 9) 10 ltac:(lia)). lia. }
  now rewrite Nat.min_r by lia.
Qed.

Lemma map_combine_seq {A B D} (f : nat -> A) (l : list B) (k : A * B -> D) (d : B) :
  map k (combine (map f (seq 0 (length l))) l) = map (fun i => k (f i, nth i l d)) (seq 0 (length l)).
Proof.
  assert (H : forall a, map k (combine (map f (seq a (length l))) l)
     = map (fun i => k (f i, nth (i - a) l d)) (seq a (length l))).
  { induction l as [|x l IH]; intros a; cbn [length seq map combine]; [reflexivity|].
    rewrite Nat.sub_diag. cbn [nth]. f_equal. rewrite IH. apply map_ext_in. intros i Hi.
    apply in_seq in Hi. replace (i - a)%nat with (S (i - S a)) by lia. reflexivity. }
  rewrite H. apply map_ext. intros i. now rewrite Nat.sub_0_r.
Qed.

Lemma init_closed u nb norm2 :
  init_random u 1 nb norm2
  = Ok (map (fun b => map (fun g => (raw_coeff u nb (length norm2) b g / RtoC (1 + nth g norm2 0))%C)
                          (seq 0 (length norm2))) (seq 0 nb)).
Proof.
  unfold init_random, divide_rows. rewrite Nat.mul_1_l, Nat.eqb_refl, fill_closed. cbn [fst].
  f_equal. rewrite map_map. apply map_ext. intros b. rewrite (map_combine_seq _ norm2 _ 0). reflexivity.
Qed.

(* ------------------------------------------------------------------ *)
(** C84: a collinear start always succeeds, has one row per band and one
    column per vector, and each coefficient is
    modulus * exp(2 pi i phase) / (1 + |k+G|^2), with modulus and phase taken
    from the stated places of the stream. *)
Theorem C84_coefficients : forall u nb norm2,
  exists d, init_random u 1 nb norm2 = Ok d
  /\ length d = nb /\ Forall (fun row => length row = length norm2) d
  /\ forall b g, (b < nb)%nat -> (g < length norm2)%nat ->
     coeff d b g
     = (RtoC (u (modulus_at (length norm2) b g)) * cis (2 * PI * u (phase_at nb (length norm2) b g))
        / RtoC (1 + nth g norm2 0))%C.
Proof.
  intros u nb norm2. eexists. split; [apply init_closed|].
  split; [now rewrite map_length, seq_length|]. split.
  - apply Forall_forall. intros row Hr. apply in_map_iff in Hr. destruct Hr as (b & <- & _).
    now rewrite map_length, seq_length.
  - intros b g Hb Hg. unfold coeff.
    rewrite (nth_indep _ [] (map (fun g0 => (raw_coeff u nb (length norm2) 0 g0 / RtoC (1 + nth g0 norm2 0))%C)
                          (seq 0 (length norm2)))) by (now rewrite map_length, seq_length).
    rewrite (map_nth (fun b0 => map (fun g0 => (raw_coeff u nb (length norm2) b0 g0 / RtoC (1 + nth g0 norm2 0))%C)
                          (seq 0 (length norm2)))).
    rewrite seq_nth by lia. cbn [plus].
    rewrite (nth_indep _ (RtoC 0) ((fun g0 => (raw_coeff u nb (length norm2) b g0 / RtoC (1 + nth g0 norm2 0))%C) 0%nat))
      by (now rewrite map_length, seq_length).
    rewrite (map_nth (fun g0 => (raw_coeff u nb (length norm2) b g0 / RtoC (1 + nth g0 norm2 0))%C)).
    rewrite seq_nth by lia. reflexivity.
Qed.
Print Assumptions C84_coefficients.

(** C84: no number of the stream is used twice, and none is skipped: the
    moduli and phases of an [nb] x [cols] start are exactly the first
    [2 * nb * cols] places. *)
Theorem C84_stream_used_once : forall nb cols b g b' g',
  (b < nb)%nat -> (g < cols)%nat -> (b' < nb)%nat -> (g' < cols)%nat ->
  (modulus_at cols b g < 2 * nb * cols)%nat /\ (phase_at nb cols b g < 2 * nb * cols)%nat
  /\ modulus_at cols b g <> phase_at nb cols b' g'
  /\ (modulus_at cols b g = modulus_at cols b' g' -> b = b' /\ g = g')
  /\ (phase_at nb cols b g = phase_at nb cols b' g' -> b = b' /\ g = g').
Proof.
  intros nb cols b g b' g' Hb Hg Hb' Hg'.
  unfold modulus_at, phase_at, block_rows, block_of.
  pose proof (Nat.div_mod b 10 ltac:(lia)) as D. pose proof (Nat.mod_upper_bound b 10 ltac:(lia)) as M.
  pose proof (Nat.div_mod b' 10 ltac:(lia)) as D'. pose proof (Nat.mod_upper_bound b' 10 ltac:(lia)) as M'.
  revert D M D' M'. generalize (b / 10)%nat (b mod 10)%nat (b' / 10)%nat (b' mod 10)%nat.
  intros q r q' r' D M D' M'.
  (* row numbers: the stream is cut into rows of [cols] numbers *)
  assert (Huniq : forall x y i j, (i < cols)%nat -> (j < cols)%nat -> (x * cols + i = y * cols + j)%nat -> x = y /\ i = j).
  { intros x y i j Hi Hj E. assert (x = y) by (destruct (Nat.lt_trichotomy x y) as [L|[L|L]]; [nia|exact L|nia]).
    subst. lia. }
  assert (Hlt : forall x i, (i < cols)%nat -> (x < 2 * nb)%nat -> (x * cols + i < 2 * nb * cols)%nat) by (intros; nia).
  set (h := Nat.min 10 (nb - 10 * q)). set (h' := Nat.min 10 (nb - 10 * q')).
  replace (20 * q * cols + r * cols + g)%nat with ((20 * q + r) * cols + g)%nat by lia.
  replace (20 * q' * cols + r' * cols + g')%nat with ((20 * q' + r') * cols + g')%nat by lia.
  replace (20 * q * cols + h * cols + r * cols + g)%nat with ((20 * q + h + r) * cols + g)%nat by lia.
  replace (20 * q' * cols + h' * cols + r' * cols + g')%nat with ((20 * q' + h' + r') * cols + g')%nat by lia.
  repeat split.
  - apply Hlt; [exact Hg|]. lia.
  - apply Hlt; [exact Hg|]. unfold h. lia.
  - intros E. apply Huniq in E; [|assumption|assumption]. destruct E as [E _].
    assert (q = q' \/ (q < q' \/ q' < q))%nat as [?|[?|?]] by lia; [subst q'; fold h in h'; unfold h' in E; lia| |]; unfold h' in E; lia.
  - apply Huniq in H; [|assumption|assumption]. lia.
  - apply Huniq in H; [|assumption|assumption]. lia.
  - apply Huniq in H; [|assumption|assumption]. destruct H as [E _].
    assert (q = q' \/ (q < q' \/ q' < q))%nat as [?|[?|?]] by lia; [subst q'| |]; unfold h, h' in E; lia.
  - apply Huniq in H; [|assumption|assumption]. lia.
Qed.
Print Assumptions C84_stream_used_once.

(** C84: with stream values in [0, 1) (the contract of [random]) each
    coefficient is bounded by the kinetic weight 1 / (1 + |k+G|^2). *)
Theorem C84_bounded : forall u nb norm2 d b g,
  (forall n, 0 <= u n < 1) -> Forall (fun w => 0 <= w) norm2 ->
  init_random u 1 nb norm2 = Ok d -> (b < nb)%nat -> (g < length norm2)%nat ->
  Cmod (coeff d b g) <= 1 / (1 + nth g norm2 0).
Proof.
  intros u nb norm2 d b g Hu Hw Hd Hb Hg.
  destruct (C84_coefficients u nb norm2) as (d' & E & _ & _ & Hc).
  rewrite Hd in E. injection E as <-. rewrite Hc by assumption.
  assert (Hg0 : 0 <= nth g norm2 0) by (eapply Forall_forall; [exact Hw|]; now apply nth_In).
  rewrite Cmod_div, Cmod_mult, !Cmod_R.
  2: { intros Ez. apply RtoC_inj in Ez. lra. }
  assert (Hcis : forall t, Cmod (cis t) = 1).
  { intros t. unfold Cmod, cis. cbn [fst snd]. replace (cos t ^ 2 + sin t ^ 2) with 1.
    - apply sqrt_1.
    - pose proof (sin2_cos2 t) as S. unfold Rsqr in S. cbn. lra. }
  rewrite Hcis, Rmult_1_r. destruct (Hu (modulus_at (length norm2) b g)) as [Hl Hr].
  rewrite !Rabs_right by lra. unfold Rdiv. apply Rmult_le_compat_r; [|lra].
  apply Rlt_le, Rinv_0_lt_compat. lra.
Qed.
Print Assumptions C84_bounded.

(** C84: asking for more bands keeps every full block of ten: bands
    [0 .. 10*floor(nb/10) - 1] do not change. *)
Theorem C84_more_bands : forall u nb nb' norm2 d d' b g,
  (nb <= nb')%nat -> init_random u 1 nb norm2 = Ok d -> init_random u 1 nb' norm2 = Ok d' ->
  (b < 10 * (nb / 10))%nat -> (g < length norm2)%nat -> coeff d' b g = coeff d b g.
Proof.
  intros u nb nb' norm2 d d' b g Hn Hd Hd' Hb Hg.
  assert (Hnb : (10 * (nb / 10) <= nb)%nat) by (apply Nat.mul_div_le; lia).
  destruct (C84_coefficients u nb norm2) as (x & E & _ & _ & Hc). rewrite Hd in E. injection E as <-.
  destruct (C84_coefficients u nb' norm2) as (x & E & _ & _ & Hc'). rewrite Hd' in E. injection E as <-.
  rewrite Hc, Hc' by lia.
  assert (Hp : block_rows nb b = 10%nat /\ block_rows nb' b = 10%nat).
  { unfold block_rows, block_of. assert (b / 10 < nb / 10)%nat by (apply Nat.div_lt_upper_bound; lia). lia. }
  unfold phase_at. destruct Hp as [-> ->]. reflexivity.
Qed.
Print Assumptions C84_more_bands.

(** ... but a band of an incomplete block does change: one band computed alone
    and the same band computed together with a second one differ. *)
Theorem C84_more_bands_refuted :
  exists u d d', (forall n, 0 <= u n < 1)
  /\ init_random u 1 1 [0] = Ok d /\ init_random u 1 2 [0] = Ok d' /\ coeff d' 0 0 <> coeff d 0 0.
Proof.
  exists (fun n : nat => match n with O => 1 / 2 | S O => 0 | _ => 1 / 2 end).
  eexists. eexists. split; [|split; [apply init_closed|split; [apply init_closed|]]].
  - intros [|[|n]]; lra.
  - unfold coeff, raw_coeff, modulus_at, phase_at, block_rows, block_of. cbn.
    replace (2 * PI * (1 / 2)) with PI by field. rewrite Rmult_0_r.
    unfold cis. rewrite cos_PI, sin_PI, cos_0, sin_0. intros E.
    apply (f_equal fst) in E. cbn in E. lra.
Qed.
Print Assumptions C84_more_bands_refuted.

(** C84: in a spin-polarised start the two spin channels are identical. *)
Theorem C84_spin_channels_equal : forall U seed numbnd norm2 k w,
  wfn_start U seed true false numbnd norm2 k = Ok w -> exists a, w = [a; a].
Proof.
  intros U seed numbnd norm2 k w. unfold wfn_start. rewrite init_closed. cbn [bind].
  intros E. injection E as <-. now eexists.
Qed.
Print Assumptions C84_spin_channels_equal.

Lemma sequence_app {A} (a b : list (res A)) :
  sequence (a ++ b) = do x <- sequence a; do y <- sequence b; Ok (x ++ y).
Proof.
  induction a as [|x a IH]; cbn [app sequence bind].
  - destruct (sequence b); reflexivity.
  - destruct x as [v|e]; cbn [bind]; [|reflexivity]. rewrite IH.
    destruct (sequence a) as [va|e]; cbn [bind]; [|reflexivity].
    destruct (sequence b); reflexivity.
Qed.

(** C84: the starting wavefunctions do not depend on the number of k-groups:
    laid end to end, the groups' lists are the single-group list. *)
Theorem C84_kgroups : forall U seed is_spin numbnd norm2 kpts n, (0 < n)%Z ->
  exists whole parts,
    start_group U seed is_spin false numbnd norm2 kpts 1 0 = Ok whole
    /\ map (start_group U seed is_spin false numbnd norm2 kpts n) (zrange 0 n) = map Ok parts
    /\ concat parts = whole
    /\ length whole = length kpts.
Proof.
  intros U seed is_spin numbnd norm2 kpts n Hn.
  assert (Hst : exists f, forall k, wfn_start U seed is_spin false numbnd norm2 k = Ok (f k)).
  { unfold wfn_start. destruct is_spin; eexists; intros k; rewrite init_closed; cbn [bind]; reflexivity. }
  destruct Hst as [f Hf].
  assert (Hseq : forall l, sequence (map (wfn_start U seed is_spin false numbnd norm2) l) = Ok (map f l)).
  { intros l. apply sequence_ok. rewrite map_map. apply map_ext. exact Hf. }
  assert (Hgrp : forall m i, (0 < m)%Z -> (0 <= i < m)%Z ->
     forall p, klist_scatter kpts m i = Ok p -> start_group U seed is_spin false numbnd norm2 kpts m i = Ok (map f p)).
  { intros m i Hm Hi p. unfold klist_scatter, start_group.
    replace (0 <? m)%Z with true by (symmetry; apply Z.ltb_lt; lia).
    replace ((0 <=? i)%Z && (i <? m)%Z) with true by (symmetry; apply andb_true_intro; split; [apply Z.leb_le|apply Z.ltb_lt]; lia).
    cbn [negb]. destruct (scatter_slice _ m i) as [ab|e]; cbn [bind]; [|discriminate].
    intros E. injection E as <-. apply Hseq. }
  destruct (klist_scatter_partition kpts n Hn) as (parts & Hp & Hc).
  destruct (klist_scatter_partition kpts 1 ltac:(lia)) as (p1 & Hp1 & Hc1).
  change (zrange 0 1) with [0%Z] in Hp1. destruct p1 as [|p [|]]; try discriminate Hp1.
  cbn in Hc1. rewrite app_nil_r in Hc1. subst p.
  injection Hp1 as Hp1.
  exists (map f kpts), (map (map f) parts). split; [apply Hgrp; [lia|lia|exact Hp1]|]. split; [|split].
  - rewrite map_map.
    assert (Hlen : length (zrange 0 n) = length parts) by (apply (f_equal (@length _)) in Hp; now rewrite !map_length in Hp).
    assert (Hin : forall i, In i (zrange 0 n) -> (0 <= i < n)%Z) by (intros i Hi; apply in_zrange in Hi; lia).
    clear Hc. revert parts Hp Hlen Hin. generalize (zrange 0 n). induction l as [|i l IH]; intros [|p ps] Hp Hl Hin; try discriminate Hl; [reflexivity|].
    cbn [map] in Hp |- *. injection Hp as H1 H2. f_equal.
    + apply Hgrp; [lia|apply Hin; now left|exact H1].
    + apply IH; [exact H2|now injection Hl|]. intros j Hj. apply Hin. now right.
  - now rewrite <- concat_map, Hc.
  - now rewrite map_length.
Qed.
Print Assumptions C84_kgroups.

(** C84: when the plane waves of one k-point are divided over several
    processes, every process restarts the same stream: two processes holding
    the same number of vectors start from the same random numbers, so the
    distributed start is not the single-process one. *)
Theorem C84_plane_wave_ranks_repeat_refuted : forall u nb norm2 norm2' d d' b g,
  length norm2 = length norm2' ->
  Forall (fun w => 0 <= w) norm2 -> Forall (fun w => 0 <= w) norm2' ->
  init_random u 1 nb norm2 = Ok d -> init_random u 1 nb norm2' = Ok d' ->
  (b < nb)%nat -> (g < length norm2)%nat ->
  (coeff d b g * RtoC (1 + nth g norm2 0) = coeff d' b g * RtoC (1 + nth g norm2' 0))%C.
Proof.
  intros u nb norm2 norm2' d d' b g Hl Hw Hw' Hd Hd' Hb Hg.
  destruct (C84_coefficients u nb norm2) as (x & E & _ & _ & Hc). rewrite Hd in E. injection E as <-.
  destruct (C84_coefficients u nb norm2') as (x & E & _ & _ & Hc'). rewrite Hd' in E. injection E as <-.
  rewrite Hc, Hc' by lia. rewrite <- Hl.
  assert (Hg0 : 0 <= nth g norm2 0) by (eapply Forall_forall; [exact Hw|]; now apply nth_In).
  assert (Hg1 : 0 <= nth g norm2' 0) by (eapply Forall_forall; [exact Hw'|]; apply nth_In; lia).
  field. split; intros Ez; apply RtoC_inj in Ez; lra.
Qed.
Print Assumptions C84_plane_wave_ranks_repeat_refuted.

(** C84: a noncollinear start is refused as soon as the sphere has two vectors:
    the spinor array is twice as wide as the kinetic weights. *)
Theorem C84_noncollinear_refuted : forall u nb norm2, (1 < length norm2)%nat ->
  init_random u 2 nb norm2 = Err ValueError.
Proof.
  intros u nb norm2 H. unfold init_random, divide_rows.
  replace (length norm2 =? 2 * length norm2)%nat with false by (symmetry; apply Nat.eqb_neq; lia).
  destruct norm2 as [|a [|b l]]; cbn in H; [lia|lia|reflexivity].
Qed.
Print Assumptions C84_noncollinear_refuted.

(** Non-vacuity: a start of 11 bands on two vectors uses 44 numbers; band 10 is
    alone in the second block. *)
Example C84_witness :
  map (fun b => map (modulus_at 2 b) (seq 0 2)) [0; 9; 10]%nat = [[0; 1]; [18; 19]; [40; 41]]%nat
  /\ map (fun b => map (phase_at 11 2 b) (seq 0 2)) [0; 9; 10]%nat = [[20; 21]; [38; 39]; [42; 43]]%nat.
Proof. vm_compute. split; reflexivity. Qed.
