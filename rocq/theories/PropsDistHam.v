(** C98: Hamiltonian and density on a plane-wave parallel k-point. *)
From Verif Require Import Base SortModel SortProofs GIndexModel GIndexProofs LatModel GSphereModel CBase FFTModel FFTSpec FFTProofs FFTProofs2
  DistModel DistSpec DistProofs DistProofs2 DistProofs3 PropsDist KSHamModel KSHamSpec KSHamProofs TddftModel DistHamModel DistHamProofs.
Open Scope nat_scope.

Lemma local_spaces nx ny nz gs s P os : gspace_base (zshape nx ny nz) gs = Ok s -> 0 < P -> P <= num_sticks ny nz gs -> P <= nx ->
  oinv nx ny nz (map Z.to_nat (gs_idxgrid s)) false P os ->
  (forall o, In o os -> exists s', dist_local_gspace s o = Ok s' /\ gs_cryst s' = slice (d_ig o) (gs_cryst s)) ->
  exists gss, sequence (map (dist_local_gspace s) os) = Ok gss
    /\ map gs_cryst gss = split_counts (gcnt ny nz (map Z.to_nat (gs_idxgrid s)) P) (gs_cryst s).
Proof.
  intros Hs HP HPs HPx Ho HL.
  assert (A : exists gss, sequence (map (dist_local_gspace s) os) = Ok gss /\ map gs_cryst gss = map (fun o => slice (d_ig o) (gs_cryst s)) os).
  { clear Ho. induction os as [|o os IH]; [now exists []|]. destruct IH as (gss & E1 & E2); [intros; apply HL; now right|].
    destruct (HL o ltac:(now left)) as (s' & F1 & F2). exists (s' :: gss). cbn [map sequence]. rewrite F1. cbn [bind]. rewrite E1. cbn. now rewrite F2, E2. }
  destruct A as (gss & E1 & E2). exists gss. split; [exact E1|]. rewrite E2.
  destruct Ho as (wx & wyz & -> & _). rewrite map_map. cbn [d_ig D].
  pose proof (U_HPs nx ny nz gs s P Hs HPs) as H1. pose proof (U_idx nx ny nz gs s Hs) as H2. pose proof (U_sort nx ny nz gs s Hs) as H3.
  set (idx := map Z.to_nat (gs_idxgrid s)) in *.
  destruct (slices_of_bounds P (G ny nz idx P) (gs_cryst s)) as (_ & E & _).
  - now apply (G_0 nx).
  - rewrite (G_P nx) by assumption. exact (U_len nx ny nz gs s Hs).
  - intros j Hj. now apply (G_mono nx).
  - symmetry. exact E.
Qed.
Lemma gather_scatter cnt l : length l = total cnt -> gatherv (scatterv cnt l) = l.
Proof.
  revert l. induction cnt as [|n c IH]; intros l H; [destruct l; [reflexivity|cbn in H; lia]|].
  cbn in H. fold (total c) in H. unfold gatherv, scatterv in *. cbn [split_counts concat]. rewrite IH by (rewrite skipn_length; lia). apply firstn_skipn.
Qed.

Lemma group_setup nx ny nz gs s P gx gyz : gspace_base (zshape nx ny nz) gs = Ok s ->
  0 < P -> P <= num_sticks ny nz gs -> P <= nx ->
  let idx := map Z.to_nat (gs_idxgrid s) in
  let gc := gcnt ny nz idx P in let rc := rcnt nx ny nz P in
  exists os gss, dist_init_all nx ny nz idx false P gx gyz = Ok os
    /\ sequence (map (dist_local_gspace s) os) = Ok gss
    /\ (forall o, In o os -> d_g_cnt o = gc /\ d_r_cnt o = rc)
    /\ map gs_cryst gss = split_counts gc (gs_cryst s)
    /\ length (gs_cryst s) = length gs
    /\ forall history, Forall (well_sized (nx * ny * nz) (length gs)) history ->
         exists os', dist_run os (map (scattered gc rc) history) = Ok os' /\ oinv nx ny nz idx false P os'.
Proof.
  intros Hs HP HPs HPx idx gc rc.
  destruct (C16_slices_partition nx ny nz gs s false P gx gyz Hs HP HPs HPx) as (os & E & _ & _ & _ & _ & HL).
  pose proof (U_HPs nx ny nz gs s P Hs HPs) as H1. pose proof (U_idx nx ny nz gs s Hs) as H2. pose proof (U_sort nx ny nz gs s Hs) as H3.
  fold idx in E, H1, H2, H3.
  assert (HI : oinv nx ny nz idx false P os).
  { first [destruct (init_oinv nx ny nz idx false P H2 H3 HP H1 HPx gx gyz) as (os0 & E0 & I0)
          |destruct (init_oinv nx ny nz idx false P H2 HP H1 HPx gx gyz) as (os0 & E0 & I0)].
    rewrite E in E0. injection E0 as <-. exact I0. }
  destruct (local_spaces nx ny nz gs s P os Hs HP HPs HPx HI HL) as (gss & Eg & Hg). fold idx in Hg.
  destruct (gspace_base_spec _ _ _ Hs) as (HPm & _). apply Permutation_length in HPm.
  exists os, gss. repeat split; try assumption.
  - apply (oinv_props nx ny nz idx false P os HI). assumption.
  - apply (oinv_props nx ny nz idx false P os HI). assumption.
  - intros history HH. apply (run_eq nx ny nz idx false P H2 H3 HP H1 HPx history os HI).
    replace (length idx) with (length gs); [exact HH|]. unfold idx. rewrite (U_len nx ny nz gs s Hs). symmetry. exact HPm.
Qed.
Lemma serial_inv nx ny nz idx garbage hist : full_inv nx ny nz idx false (full_run (full_init nx ny nz idx false garbage) hist).
Proof. apply full_run_inv. unfold full_init, full_inv. cbn. tauto. Qed.

(** C98.  For every G-space, number of ranks, lattice, k-point, local potential, projectors and any
    earlier use of the transforms: the Hamiltonian objects that the ranks build on their own
    G-vectors and their part of the potential, applied together to the pieces of wavefunctions,
    leave on the ranks the pieces of what the serial Hamiltonian gives; gathered, exactly the
    serial result. *)
Theorem C98_h_psi : forall nx ny nz gs s P gx gyz lat k nloc vloc,
  gspace_base (zshape nx ny nz) gs = Ok s ->
  0 < P -> P <= num_sticks ny nz gs -> P <= nx -> length vloc = nx * ny * nz ->
  let idx := map Z.to_nat (gs_idxgrid s) in
  exists os gss gc rc, dist_init_all nx ny nz idx false P gx gyz = Ok os
    /\ sequence (map (dist_local_gspace s) os) = Ok gss
    /\ (forall o, In o os -> d_g_cnt o = gc /\ d_r_cnt o = rc)
    /\ forall history garbage serial_history l_psi l_hpsi,
       Forall (well_sized (nx * ny * nz) (length gs)) history ->
       length l_psi = length l_hpsi -> (forall psi, In psi l_psi -> length psi = length gs) ->
       exists os' os'' out fft' sout,
         dist_run os (map (scattered gc rc) history) = Ok os'
         /\ dist_h_psi (zip_with (ham_on lat k nloc) gss (scatterv rc vloc)) (length nloc) os'
              (map (scatterv gc) l_psi) (map (scatterv gc) l_hpsi) = Ok (os'', out)
         /\ h_psi (ham_on lat k nloc s vloc) (full_run (full_init nx ny nz idx false garbage) serial_history) l_psi l_hpsi = Ok (fft', sout)
         /\ out = map (scatterv gc) sout /\ map gatherv out = sout.
Proof.
  intros nx ny nz gs s P gx gyz lat k nloc vloc Hs HP HPs HPx Hv idx.
  destruct (group_setup nx ny nz gs s P gx gyz Hs HP HPs HPx) as (os & gss & E & Eg & Hc & Hg & LG & RUN). fold idx in E, Hc, Hg, RUN.
  exists os, gss, (gcnt ny nz idx P), (rcnt nx ny nz P). split; [exact E|]. split; [exact Eg|]. split; [exact Hc|].
  intros history garbage sh l_psi l_hpsi HH HL Hp. destruct (RUN history HH) as (os' & ER & I').
  destruct (dist_h_psi_eq nx ny nz gs s P Hs HP HPs HPx lat k nloc vloc gss Hv Hg os' l_psi l_hpsi I' HL
              ltac:(intros; rewrite LG; now apply Hp) _ (serial_inv nx ny nz idx garbage sh)) as (os'' & fft' & sout & _ & ES & ED).
  exists os', os'', (map (scatterv (gcnt ny nz idx P)) sout), fft', sout. split; [exact ER|]. split; [exact ED|]. split; [exact ES|]. split; [reflexivity|].
  rewrite map_map. rewrite <- (map_id sout) at 2. apply map_ext_in. intros p Hin. apply gather_scatter. unfold idx. rewrite (gc_total nx ny nz gs s P Hs HP HPs HPx).
  assert (WF : well_formed nx ny nz (ham_on lat k nloc s vloc)).
  { split; [now exists gs|]. split; [exact Hv|]. intros vd v Hvd Hin2. cbn in Hvd. apply in_map_iff in Hvd as (sp & <- & _). cbn in Hin2.
    apply in_map_iff in Hin2 as (f & <- & _). now rewrite map_length. }
  destruct (h_psi_eq nx ny nz _ WF _ l_psi l_hpsi (serial_inv nx ny nz idx garbage sh) HL ltac:(intros; cbn; rewrite LG; now apply Hp)) as (o2 & out2 & E2 & _ & _ & L2 & _).
  rewrite ES in E2. injection E2 as <- <-. now apply L2.
Qed.
Print Assumptions C98_h_psi.

(** The density: every rank ends with its piece of the serially computed density, and with its
    pieces of the orbitals normalised by their full norms. *)
Theorem C98_density : forall nx ny nz gs s P gx gyz,
  gspace_base (zshape nx ny nz) gs = Ok s ->
  0 < P -> P <= num_sticks ny nz gs -> P <= nx ->
  let idx := map Z.to_nat (gs_idxgrid s) in
  exists os gc rc, dist_init_all nx ny nz idx false P gx gyz = Ok os
    /\ (forall o, In o os -> d_g_cnt o = gc /\ d_r_cnt o = rc)
    /\ forall history garbage serial_history evc occ vol,
       Forall (well_sized (nx * ny * nz) (length gs)) history ->
       evc <> [] -> (forall psi, In psi evc -> length psi = length gs) ->
       exists os' os'' devc drho fft' evc' rho,
         dist_run os (map (scattered gc rc) history) = Ok os'
         /\ dist_compute_rho rc vol os' (map (scatterv gc) evc) occ = Ok (os'', devc, drho)
         /\ compute_rho (nx * ny * nz) vol (full_run (full_init nx ny nz idx false garbage) serial_history) evc occ (Slice 0 (length evc)) = Ok (fft', evc', rho)
         /\ devc = map (scatterv gc) evc' /\ map gatherv devc = evc'
         /\ drho = scatterv rc rho /\ gatherv drho = rho.
Proof.
  intros nx ny nz gs s P gx gyz Hs HP HPs HPx idx.
  destruct (group_setup nx ny nz gs s P gx gyz Hs HP HPs HPx) as (os & gss & E & Eg & Hc & Hg & LG & RUN). fold idx in E, Hc, Hg, RUN.
  exists os, (gcnt ny nz idx P), (rcnt nx ny nz P). split; [exact E|]. split; [exact Hc|].
  intros history garbage sh evc occ vol HH Hn Hp. destruct (RUN history HH) as (os' & ER & I').
  destruct (dist_rho_eq nx ny nz gs s P Hs HP HPs HPx os' evc occ vol _ I' Hn ltac:(intros; rewrite LG; now apply Hp) (serial_inv nx ny nz idx garbage sh))
    as (os'' & fft' & evc' & rho & _ & ES & ED).
  exists os', os'', (map (scatterv (gcnt ny nz idx P)) evc'), (scatterv (rcnt nx ny nz P) rho), fft', evc', rho.
  split; [exact ER|]. split; [exact ED|]. split; [exact ES|]. split; [reflexivity|].
  unfold compute_rho in ES. rewrite Nat.sub_0_r in ES. cbn [skipn] in ES. rewrite firstn_all in ES.
  destruct (Nat.eqb _ 0); [discriminate|]. destruct (rho_sum _ _ _ _) as (o1, r1) eqn:ER1. injection ES as <- <- <-.
  assert (LN : forall p, In p (normalize evc) -> length p = length gs).
  { intros p H. unfold normalize in H. apply in_map_iff in H as (q & <- & Hq). rewrite map_length. now apply Hp. }
  split; [|split; [reflexivity|]].
  - rewrite map_map. rewrite <- map_id. apply map_ext_in. intros p Hin. apply gather_scatter. unfold idx. rewrite (gc_total nx ny nz gs s P Hs HP HPs HPx), LG.
    apply LN. unfold set_slice in Hin. cbn [firstn app] in Hin. rewrite skipn_all2, app_nil_r in Hin; [exact Hin|]. unfold normalize. rewrite map_length. lia.
  - apply gather_scatter. rewrite (rc_total nx ny nz gs) by assumption. rewrite map_length.
    assert (RL : forall rows o occ' acc, full_inv nx ny nz idx false o -> length acc = nx * ny * nz -> length (snd (rho_sum o rows occ' acc)) = nx * ny * nz).
    { clear. induction rows as [|p rows IH]; intros o occ' acc Hf Ha; [exact Ha|]. destruct occ' as [|f occ']; [exact Ha|]. cbn [rho_sum].
      pose proof (full_call_inv nx ny nz idx false o (G2R p) Hf) as H1. pose proof (full_call_fun nx ny nz idx false o (G2R p) Hf) as E1. cbn [full_call] in H1, E1.
      destruct (full_g2r o p) as [of pr]. cbn [fst snd] in H1, E1. subst pr. apply IH; [exact H1|].
      rewrite zip_with_length, map_length. unfold get_density. rewrite zip_with_length, map_length, full_fun_len, Ha. lia. }
    change r1 with (snd (o1, r1)). rewrite <- ER1. apply RL; [apply serial_inv|apply repeat_length].
Qed.
Print Assumptions C98_density.

(** Inner products of pieces add up to the serial ones, for every division of the basis: what the
    ranks use for norms, projections and the matrices of the eigensolver is the same everywhere. *)
Theorem C98_inner_products : forall counts bra ket,
  length bra = fold_right Nat.add 0 counts -> length ket = length bra ->
  allsum (zip_with vdot1 (scatterv counts bra) (scatterv counts ket)) = braket bra ket.
Proof.
  intros counts bra ket H1 H2. unfold scatterv. rewrite allsum_vdot by (unfold total; lia). unfold braket. rewrite vdot1_csum by lia.
  now rewrite H2.
Qed.
Print Assumptions C98_inner_products.

Example C98_instance : exists s,
  gspace_base (zshape 3 4 5) [(0, 0, 0); (1, -1, 2); (-1, 1, 0); (0, 1, -2); (1, 0, 0)]%Z = Ok s
  /\ num_sticks 4 5 [(0, 0, 0); (1, -1, 2); (-1, 1, 0); (0, 1, -2); (1, 0, 0)]%Z = 4 /\ 3 <= 4
  /\ forall lat k, exists os gss gc rc,
       dist_init_all 3 4 5 (map Z.to_nat (gs_idxgrid s)) false 3 (fun _ => MkWorker (fun _ => RtoC 0) (fun _ => RtoC 0) (fun _ => RtoC 0)) (fun _ => MkWorker (fun _ => RtoC 0) (fun _ => RtoC 0) (fun _ => RtoC 0)) = Ok os
       /\ length gss = 3 /\ sequence (map (dist_local_gspace s) os) = Ok gss
       /\ exists os' out, dist_h_psi (zip_with (ham_on lat k [([fun _ => RtoC 1], fun _ _ => RtoC 2)]) gss (scatterv rc (repeat (RtoC 1) 60))) 1 os
            (map (scatterv gc) [repeat Ci 5]) (map (scatterv gc) [repeat (RtoC 0) 5]) = Ok (os', out).
Proof.
  eexists. split; [vm_compute; reflexivity|]. split; [vm_compute; reflexivity|]. split; [lia|]. intros lat k.
  match goal with |- context [dist_init_all 3 4 5 (map Z.to_nat (gs_idxgrid ?s0)) false 3 ?g ?g'] =>
    destruct (C98_h_psi 3 4 5 [(0, 0, 0); (1, -1, 2); (-1, 1, 0); (0, 1, -2); (1, 0, 0)]%Z s0 3 g g' lat k [([fun _ => RtoC 1], fun _ _ => RtoC 2)] (repeat (RtoC 1) 60)) as (os & gss & gc & rc & E & Eg & _ & H) end.
  - vm_compute; reflexivity.
  - lia.
  - replace (num_sticks _ _ _) with 4 by (vm_compute; reflexivity). lia.
  - lia.
  - reflexivity.
  - exists os, gss, gc, rc. split; [exact E|]. split.
    + assert (L1 : length gss = length os). { apply sequence_ok in Eg. apply (f_equal (@length _)) in Eg. now rewrite !map_length in Eg. }
      assert (L2 : length os = 3). { unfold dist_init_all in E. apply sequence_ok in E. apply (f_equal (@length _)) in E. rewrite !map_length, seq_length in E. symmetry. exact E. }
      congruence.
    + split; [exact Eg|]. destruct (H [] (MkWorker (fun _ => RtoC 0) (fun _ => RtoC 0) (fun _ => RtoC 0)) [] [repeat Ci 5] [repeat (RtoC 0) 5]) as (os' & os'' & out & _ & _ & ER & ED & _).
      * constructor.
      * reflexivity.
      * intros psi [<-|[]]. reflexivity.
      * cbn [map dist_run] in ER. injection ER as <-. exists os'', out. exact ED.
Qed.
