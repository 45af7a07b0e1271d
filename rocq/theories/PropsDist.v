(** Properties C16, C17: the distributed G-space. *)
From Verif Require Import Base SortModel SortProofs GIndexModel GIndexProofs CBase FFTModel FFTSpec FFTProofs FFTProofs2
  DistModel DistSpec DistProofs DistProofs2 DistProofs3.
Open Scope nat_scope.

(** C16.  For every G-space and every rank count up to the number of sticks (and
    of planes), all ranks build their part; the G-vector slices of the ranks are
    non-empty and, concatenated, give back the G-list (a partition that keeps the
    order); two G-vectors on the same stick are on the same rank; and each rank's
    own G-space, which sorts its vectors again, lists exactly its slice in the
    same order, so that scattered data and local G-vectors stay aligned. *)
Theorem C16_slices_partition : forall nx ny nz gs s norm P gx gyz,
  gspace_base (zshape nx ny nz) gs = Ok s ->
  0 < P -> P <= num_sticks ny nz gs -> P <= nx ->
  exists os, dist_init_all nx ny nz (map Z.to_nat (gs_idxgrid s)) norm P gx gyz = Ok os
    /\ length os = P
    /\ concat (map (fun o => slice (d_ig o) (gs_cryst s)) os) = gs_cryst s
    /\ (forall o, In o os -> fst (d_ig o) < snd (d_ig o) <= length (gs_cryst s))
    /\ (forall r1 r2 o1 o2 g1 g2, nth_error os r1 = Some o1 -> nth_error os r2 = Some o2 ->
          In g1 (slice (d_ig o1) (gs_cryst s)) -> In g2 (slice (d_ig o2) (gs_cryst s)) ->
          stick ny nz g1 = stick ny nz g2 -> r1 = r2)
    /\ (forall o, In o os -> exists s', dist_local_gspace s o = Ok s'
          /\ gs_cryst s' = slice (d_ig o) (gs_cryst s)).
Proof.
  intros nx ny nz gs s norm P gx gyz H HP HPs HPx.
  rewrite <- (FG_num nx ny nz gs s H) in HPs.
  pose proof (FG_bound nx ny nz gs s H) as Hidx. pose proof (FG_sorted nx ny nz gs s H) as Hsort.
  pose proof (FG_len nx ny nz gs s H) as HL.
  set (idx := map Z.to_nat (gs_idxgrid s)) in *.
  destruct (init_oinv nx ny nz idx norm P Hidx HP HPs HPx gx gyz) as (os & E & Ho)
    || destruct (init_oinv nx ny nz idx norm P Hidx Hsort HP HPs HPx gx gyz) as (os & E & Ho).
  exists os. split; [exact E|]. destruct Ho as (wx & wyz & -> & _).
  split; [now rewrite map_length, seq_length|].
  assert (HB : forall r, r < P -> G ny nz idx P r < G ny nz idx P (S r)).
  { intros r Hr. pose proof (T_lt ny nz idx P HP HPs r Hr) as HT.
    pose proof (T_le ny nz idx P HP (S r) ltac:(lia)) as HT2.
    set (iyz := map (iyz_of ny nz) idx) in *. set (ns := length (np_unique iyz)) in *.
    assert (Hin : In (nth (st ns P r) (np_unique iyz) 0) iyz).
    { apply SortProofs.np_unique_in, nth_In. fold ns. lia. }
    apply (In_nth _ _ 0) in Hin as (k & Hk & Ek).
    assert (A1 : nth (st ns P r) (np_unique iyz) 0 < cut ny nz idx P (S r)).
    { apply (cut_lt nx); try assumption; try lia; fold iyz; fold ns; lia. }
    destruct (le_lt_dec (G ny nz idx P (S r)) k) as [Hge|Hlt].
    - exfalso. assert (In (nth k iyz 0) (skipn (G ny nz idx P (S r)) iyz)).
      { rewrite <- (firstn_skipn (G ny nz idx P (S r)) iyz) at 1.
        rewrite app_nth2; [|rewrite firstn_length; lia]. apply nth_In.
        rewrite skipn_length, firstn_length. lia. }
      apply (searchsorted_split iyz (cut ny nz idx P (S r)) Hsort) in H0. lia.
    - destruct (le_lt_dec (G ny nz idx P r) k) as [|Hlt2]; [lia|].
      exfalso. assert (In (nth k iyz 0) (firstn (G ny nz idx P r) iyz)).
      { rewrite <- (firstn_skipn (G ny nz idx P r) iyz) at 1.
        rewrite app_nth1; [|rewrite firstn_length; lia]. apply nth_In. rewrite firstn_length. lia. }
      apply (searchsorted_split iyz (cut ny nz idx P r) Hsort) in H0. rewrite Ek in H0.
      apply (cut_lt nx ny nz idx P Hidx HP HPs HPx) in H0; unfold ns, iyz in *; lia. }
  assert (HGl : forall r, G ny nz idx P r <= length (gs_cryst s)).
  { intros r. rewrite <- HL. first [now apply (G_len ny nz idx P Hsort) | now apply (G_len nx ny nz idx P)]. }
  split; [|split; [|split]].
  - rewrite map_map. cbn [d_ig D].
    destruct (slices_of_bounds P (G ny nz idx P) (gs_cryst s)) as (_ & _ & EE).
    + now apply (G_0 nx).
    + rewrite <- HL. now apply (G_P nx).
    + intros j Hj. apply Nat.lt_le_incl, HB, Hj.
    + exact EE.
  - intros o Ho. apply in_map_iff in Ho as (r & <- & Hr). apply in_seq in Hr. cbn [d_ig D fst snd].
    split; [apply HB; lia|apply HGl].
  - assert (ST : forall r g, r < P -> In g (slice (G ny nz idx P r, G ny nz idx P (S r)) (gs_cryst s)) ->
       cut ny nz idx P r <= stickn ny nz g < cut ny nz idx P (S r)).
    { intros r g Hr Hg. apply (in_slice_nth ((0, 0, 0)%Z : vec3) _ _ _ _ (HGl (S r))) in Hg as (k & Hk & <-).
      pose proof (FG_iyz nx ny nz gs s H) as EI. fold idx in EI.
      assert (Hkl : k < length (gs_cryst s)) by (eapply Nat.lt_le_trans; [apply Hk|apply HGl]).
      assert (En : stickn ny nz (nth k (gs_cryst s) (0, 0, 0)%Z) = nth k (map (iyz_of ny nz) idx) 0).
      { rewrite EI. rewrite (nth_indep _ 0 (stickn ny nz (0, 0, 0)%Z)) by (rewrite map_length; exact Hkl).
        symmetry. apply map_nth. }
      set (iyz := map (iyz_of ny nz) idx) in *.
      assert (HLi : length iyz = length (gs_cryst s)) by (unfold iyz; rewrite map_length; exact HL).
      match goal with |- _ <= ?t < _ => replace t with (nth k iyz 0) by (symmetry; exact En) end. split.
      - apply (searchsorted_split iyz (cut ny nz idx P r) Hsort).
        change (searchsorted iyz (cut ny nz idx P r)) with (G ny nz idx P r).
        rewrite <- (firstn_skipn (G ny nz idx P r) iyz) at 1.
        rewrite app_nth2; [|rewrite firstn_length; lia]. apply nth_In.
        rewrite skipn_length, firstn_length. rewrite HLi. clear - Hk Hkl. lia.
      - apply (searchsorted_split iyz (cut ny nz idx P (S r)) Hsort).
        change (searchsorted iyz (cut ny nz idx P (S r))) with (G ny nz idx P (S r)).
        rewrite <- (firstn_skipn (G ny nz idx P (S r)) iyz) at 1.
        rewrite app_nth1; [|rewrite firstn_length, HLi; clear - Hk Hkl; lia]. apply nth_In.
        rewrite firstn_length, HLi. clear - Hk Hkl. lia. }
    assert (CM : forall a b, a <= b -> b <= P -> cut ny nz idx P a <= cut ny nz idx P b).
    { intros a b Hab. induction Hab as [|b Hab IH]; intros Hb; [lia|].
      etransitivity; [apply IH; lia|]. apply (cut_le nx); assumption || lia. }
    assert (NE : forall r o, nth_error (map (fun r => D nx ny nz idx norm P r (wx r) (wyz r)) (seq 0 P)) r = Some o ->
       r < P /\ d_ig o = (G ny nz idx P r, G ny nz idx P (S r))).
    { intros r o Hn. assert (Hr : r < P).
      { assert (nth_error (map (fun r => D nx ny nz idx norm P r (wx r) (wyz r)) (seq 0 P)) r <> None) by congruence.
        apply nth_error_Some in H0. now rewrite map_length, seq_length in H0. }
      split; [exact Hr|]. erewrite map_nth_error in Hn; [injection Hn as <-; reflexivity|].
      rewrite nth_error_nth' with (d := 0) by (now rewrite seq_length). now rewrite seq_nth. }
    intros r1 r2 o1 o2 g1 g2 H1 H2 I1 I2 Es.
    apply NE in H1 as [R1 E1]. apply NE in H2 as [R2 E2]. rewrite E1 in I1. rewrite E2 in I2.
    apply (ST r1 g1 R1) in I1. apply (ST r2 g2 R2) in I2.
    assert (Esn : stickn ny nz g1 = stickn ny nz g2) by (unfold stickn; now rewrite Es).
    destruct (Nat.lt_trichotomy r1 r2) as [L|[L|L]]; [exfalso|exact L|exfalso].
    + pose proof (CM (S r1) r2 L ltac:(lia)). lia.
    + pose proof (CM (S r2) r1 L ltac:(lia)). lia.
  - intros o Ho. apply in_map_iff in Ho as (r & <- & Hr). apply in_seq in Hr. unfold dist_local_gspace.
    cbn [d_ig D].
    replace (gs_shape s) with (zshape nx ny nz).
    2:{ symmetry. apply (gspace_base_spec _ _ _ H). }
    destruct (gspace_base_part _ _ _ _ _ H (HB r ltac:(lia)) (HGl (S r))) as (s' & Es & Ec & _).
    now exists s'.
Qed.
Print Assumptions C16_slices_partition.

(** C16.  gather_g (gather_r) undoes scatter_g (scatter_r) for any batch shape
    with at least one dimension, for whatever counts the ranks agreed on. *)
Theorem C16_gather_scatter_identity : forall counts shape rows,
  shape <> [] -> length rows = fold_right Nat.mul 1 shape ->
  (forall row, In row rows -> length row = fold_right Nat.add 0 counts) ->
  exists parts, scatter_rows counts shape rows = Ok parts
    /\ length parts = length counts
    /\ (forall r p, nth_error parts r = Some p -> length p = length rows)
    /\ gather_rows shape parts = Ok rows.
Proof. exact gather_scatter_rows. Qed.
Print Assumptions C16_gather_scatter_identity.

(** C16.  The counts used by the two scatters add up to the number of G-vectors
    and of grid points, and every rank holds the same counts. *)
Theorem C16_counts_cover : forall nx ny nz gs s norm P gx gyz os,
  gspace_base (zshape nx ny nz) gs = Ok s ->
  0 < P -> P <= num_sticks ny nz gs -> P <= nx ->
  dist_init_all nx ny nz (map Z.to_nat (gs_idxgrid s)) norm P gx gyz = Ok os ->
  exists gc rc, (forall o, In o os -> d_g_cnt o = gc /\ d_r_cnt o = rc)
    /\ length gc = P /\ length rc = P
    /\ fold_right Nat.add 0 gc = length gs /\ fold_right Nat.add 0 rc = nx * ny * nz.
Proof.
  intros nx ny nz gs s norm P gx gyz os H HP HPs HPx E.
  rewrite <- (FG_num nx ny nz gs s H) in HPs.
  pose proof (FG_bound nx ny nz gs s H) as Hidx. pose proof (FG_sorted nx ny nz gs s H) as Hsort.
  pose proof (FG_len nx ny nz gs s H) as HL.
  set (idx := map Z.to_nat (gs_idxgrid s)) in *.
  destruct (init_oinv nx ny nz idx norm P Hidx HP HPs HPx gx gyz) as (os' & E' & Ho)
    || destruct (init_oinv nx ny nz idx norm P Hidx Hsort HP HPs HPx gx gyz) as (os' & E' & Ho).
  rewrite E in E'. injection E' as <-.
  destruct (oinv_props nx ny nz idx norm P os Ho) as (_ & Hc & _).
  exists (gcnt ny nz idx P), (rcnt nx ny nz P). split; [exact Hc|].
  unfold gcnt, rcnt. rewrite !map_length, seq_length. split; [reflexivity|]. split; [reflexivity|].
  assert (TEL : forall (F : nat -> nat) n k, (forall j, j < k + n -> F j <= F (S j)) ->
     fold_right Nat.add 0 (map (fun j => F (S j) - F j) (seq k n)) = F (k + n) - F k /\ F k <= F (k + n)).
  { clear. intros F. induction n as [|n IH]; intros k Hm.
    - rewrite Nat.add_0_r. cbn. lia.
    - destruct (IH (S k)) as [I1 I2]; [intros; apply Hm; lia|]. specialize (Hm k ltac:(lia)).
      cbn [seq map fold_right]. rewrite I1. replace (k + S n) with (S k + n) by lia. lia. }
  destruct (gspace_base_spec _ _ _ H) as (HPm & _).
  split.
  - destruct (TEL (G ny nz idx P) P 0) as [-> _]; [intros j Hj; now apply (G_mono nx)|].
    cbn [Nat.add]. rewrite (G_0 nx), (G_P nx) by assumption. rewrite Nat.sub_0_r, HL.
    now apply Permutation_length.
  - destruct (TEL (fun j => st nx P j * (ny * nz)) P 0) as [-> _].
    + intros j Hj. apply Nat.mul_le_mono_r, st_le_S; assumption.
    + cbn [Nat.add]. rewrite st_0, st_P by assumption. lia.
Qed.
Print Assumptions C16_counts_cover.

(** C16.  A single field (batch shape ()) cannot be scattered or gathered: the
    product over an empty shape is a float, which [range] refuses. *)
Theorem C16_scalar_shape_refuted : forall counts rows parts,
  scatter_rows counts [] rows = Err TypeError /\ gather_rows [] parts = Err TypeError.
Proof. split; reflexivity. Qed.
Print Assumptions C16_scalar_shape_refuted.

(** C17.  After any history of collective transforms, the distributed g2r / r2g
    of scattered data succeeds on all ranks (no count mismatch in the all-to-all)
    and gathering the per-rank results gives the serial transform. *)
Theorem C17_distributed_equals_serial : forall nx ny nz gs s norm P gx gyz,
  gspace_base (zshape nx ny nz) gs = Ok s ->
  0 < P -> P <= num_sticks ny nz gs -> P <= nx ->
  let idx := map Z.to_nat (gs_idxgrid s) in
  exists os gc rc, dist_init_all nx ny nz idx norm P gx gyz = Ok os
    /\ (forall o, In o os -> d_g_cnt o = gc /\ d_r_cnt o = rc)
    /\ forall history c garbage serial_history,
       Forall (well_sized (nx * ny * nz) (length gs)) (history ++ [c]) ->
       exists os' os'' out,
         dist_run os (map (scattered gc rc) history) = Ok os'
         /\ dist_call os' (scattered gc rc c) = Ok (os'', out)
         /\ length out = P
         /\ gatherv out
            = snd (full_call (full_run (full_init nx ny nz idx norm garbage) serial_history) c).
Proof.
  intros nx ny nz gs s norm P gx gyz H HP HPs HPx idx.
  rewrite <- (FG_num nx ny nz gs s H) in HPs.
  pose proof (FG_bound nx ny nz gs s H) as Hidx. pose proof (FG_sorted nx ny nz gs s H) as Hsort.
  pose proof (FG_len nx ny nz gs s H) as HL. fold idx in HPs, Hidx, Hsort, HL.
  destruct (init_oinv nx ny nz idx norm P Hidx HP HPs HPx gx gyz) as (os & E & Ho)
    || destruct (init_oinv nx ny nz idx norm P Hidx Hsort HP HPs HPx gx gyz) as (os & E & Ho).
  destruct (oinv_props nx ny nz idx norm P os Ho) as (_ & Hc & _).
  exists os, (gcnt ny nz idx P), (rcnt nx ny nz P). split; [exact E|]. split; [exact Hc|].
  intros h c g h' Hw. destruct (gspace_base_spec _ _ _ H) as (HPm & _).
  assert (HLg : length gs = length idx) by (rewrite HL; symmetry; now apply Permutation_length).
  rewrite HLg in Hw. apply Forall_app in Hw as [Hh Hcw]. inversion Hcw as [|? ? Hcw' _]; subst.
  destruct (run_eq nx ny nz idx norm P Hidx Hsort HP HPs HPx h os Ho Hh) as (os' & E1 & Ho1).
  destruct (call_eq nx ny nz idx norm P Hidx Hsort HP HPs HPx os' c Ho1 Hcw') as (os'' & out & E2 & Ho2 & E3 & E4).
  exists os', os'', out. split; [exact E1|]. split; [exact E2|]. split.
  - rewrite E4. assert (SL : forall cs (l : list C), length (split_counts cs l) = length cs)
      by (clear; induction cs; intros l; cbn; congruence).
    unfold scatterv. destruct c; rewrite SL; unfold gcnt, rcnt; now rewrite map_length, seq_length.
  - rewrite E3. symmetry. apply full_stateless.
Qed.
Print Assumptions C17_distributed_equals_serial.

(** C17.  With more ranks than sticks, the surplus ranks fail with IndexError;
    with more ranks than planes, they fail the FFT backend's shape assertion. *)
Theorem C17_too_many_ranks_fail : forall nx ny nz gs s norm P r gx gyz,
  gspace_base (zshape nx ny nz) gs = Ok s -> r < P ->
  let idx := map Z.to_nat (gs_idxgrid s) in
  (num_sticks ny nz gs <= r -> dist_init nx ny nz idx norm P r gx gyz = Err IndexError)
  /\ (P <= num_sticks ny nz gs -> nx <= r -> dist_init nx ny nz idx norm P r gx gyz = Err AssertionError).
Proof.
  intros nx ny nz gs s norm P r gx gyz H Hr idx.
  rewrite <- (FG_num nx ny nz gs s H). fold idx. split; intros.
  - now apply dist_init_no_stick.
  - now apply dist_init_no_plane.
Qed.
Print Assumptions C17_too_many_ranks_fail.

(** Non-vacuity: five vectors on four sticks of a 3x4x5 grid, three ranks. *)
Example C17_nonvacuous : exists s,
  gspace_base (zshape 3 4 5) [(0, 0, 0); (1, -1, 2); (-1, 1, 0); (0, 1, -2); (1, 0, 0)]%Z = Ok s
  /\ num_sticks 4 5 [(0, 0, 0); (1, -1, 2); (-1, 1, 0); (0, 1, -2); (1, 0, 0)]%Z = 4 /\ 3 <= 4.
Proof. eexists. split; [vm_compute; reflexivity|]. split; [vm_compute; reflexivity|lia]. Qed.
