(** Property C92: the FFT libraries are interchangeable. *)
From Coq Require Import Reals Lra String FunctionalExtensionality.
From Verif Require Import Base SortModel CBase FFTModel FFTProofs GIndexModel FFTSpec PropsFFT DistModel DistSpec PropsDist BackendModel.
Open Scope nat_scope.
Notation length := List.length.

(** ---- One transform ---- *)
Lemma b_fft_eq lib dft n w : b_fft lib dft n w = w_fft dft w.
Proof.
  unfold b_fft, w_fft. f_equal. destruct lib; try reflexivity.
  unfold mkl_fftn. apply functional_extensionality. intros i. ring.
Qed.
Lemma b_ifft_out lib junk dft n norm w : 0 < n ->
  w_out (b_ifft lib junk dft n norm w) = w_out (w_ifft dft n norm w).
Proof.
  intros Hn. assert (Hr : INR n <> 0%R) by (apply not_0_INR; lia).
  apply functional_extensionality. intros i. unfold b_ifft, w_ifft. cbn [w_out].
  destruct lib; destruct norm; unfold np_ifftn, fftw_backward, mkl_ifftn; try reflexivity.
  - now rewrite Rmult_1_r.
  - replace (INR n * (1 / INR n))%R with 1%R by (field; exact Hr). unfold Cdiv.
    replace (/ RtoC 1)%C with (RtoC 1); [ring|].
    rewrite <- RtoC_inv by lra. now rewrite Rinv_1.
Qed.
Lemma b_ifft_eq lib junk dft n norm w : 0 < n -> lib <> CupyLib -> b_ifft lib junk dft n norm w = w_ifft dft n norm w.
Proof.
  intros Hn HL. pose proof (b_ifft_out lib junk dft n norm w Hn) as E. unfold b_ifft, w_ifft in *. cbn [w_out] in E.
  rewrite E. now destruct lib.
Qed.

(** ---- Objects with one process ---- *)
Lemma bfull_call_eq lib junk o c : 0 < f_nx o * f_ny o * f_nz o ->
  snd (bfull_call lib junk o c) = snd (full_call o c).
Proof.
  intros H. destruct c as [v|v]; unfold bfull_call, full_call.
  - rewrite b_fft_eq. reflexivity.
  - cbn [snd]. rewrite b_ifft_out by exact H. reflexivity.
Qed.
Lemma bfull_run_inv lib junk nx ny nz idx norm h : forall o,
  full_inv nx ny nz idx norm o -> full_inv nx ny nz idx norm (bfull_run lib junk o h).
Proof.
  induction h as [|c h IH]; intros o H; [exact H|]. cbn [bfull_run fold_left]. apply IH. destruct c; exact H.
Qed.
Lemma bfull_stateless lib junk nx ny nz idx norm g h c : 0 < nx * ny * nz ->
  snd (bfull_call lib junk (bfull_run lib junk (full_init nx ny nz idx norm g) h) c) = full_fun nx ny nz idx norm c.
Proof.
  intros H.
  assert (I : full_inv nx ny nz idx norm (bfull_run lib junk (full_init nx ny nz idx norm g) h)).
  { apply bfull_run_inv. unfold full_init, full_inv. cbn. tauto. }
  rewrite bfull_call_eq; [now apply full_call_fun|]. destruct I as (-> & -> & -> & _). exact H.
Qed.

Lemma bsticks_call_eq lib junk o c : 0 < s_nx o -> 0 < s_ny o * s_nz o ->
  snd (bsticks_call lib junk o c) = snd (sticks_call o c).
Proof.
  intros H1 H2. destruct c as [v|v]; unfold bsticks_call, sticks_call.
  - rewrite !b_fft_eq. reflexivity.
  - cbn [snd]. rewrite !b_ifft_out by assumption. reflexivity.
Qed.
Lemma bsticks_run_inv lib junk nx ny nz idx norm h : forall o,
  sticks_inv nx ny nz idx norm o -> sticks_inv nx ny nz idx norm (bsticks_run lib junk o h).
Proof.
  induction h as [|c h IH]; intros o H; [exact H|]. cbn [bsticks_run fold_left]. apply IH. destruct c; exact H.
Qed.
Lemma sticks_call_workers o wx wyz c : snd (sticks_call (s_set o wx wyz) c) = snd (sticks_call o c).
Proof. destruct c; reflexivity. Qed.
Lemma bsticks_stateless lib junk nx ny nz idx norm gx gyz h c : 0 < nx * ny * nz ->
  (forall i, In i idx -> i < nx * ny * nz) ->
  snd (bsticks_call lib junk (bsticks_run lib junk (sticks_init nx ny nz idx norm gx gyz) h) c) = full_fun nx ny nz idx norm c.
Proof.
  intros H Hidx.
  assert (I : sticks_inv nx ny nz idx norm (bsticks_run lib junk (sticks_init nx ny nz idx norm gx gyz) h)).
  { apply bsticks_run_inv. unfold sticks_inv. cbn. tauto. }
  set (o := bsticks_run lib junk (sticks_init nx ny nz idx norm gx gyz) h) in *. clearbody o.
  destruct I as (E1 & E2 & E3 & E4 & E5 & E6). cbn in E5, E6.
  rewrite bsticks_call_eq; [|rewrite E1; nia|rewrite E2, E3; nia].
  rewrite <- (sticks_stateless nx ny nz idx norm gx gyz [] c Hidx).
  rewrite <- (sticks_call_workers o (set_bwd gx zeros) (set_bwd gyz zeros) c). f_equal. f_equal.
  unfold s_set. rewrite E1, E2, E3, E4, E5, E6. reflexivity.
Qed.

(** C92.  Whatever the library, whatever it leaves in the arrays it may destroy, and whatever
    was transformed before with the same object, both serial implementations return the same
    array as the reference transforms of C13-C15 on a fresh object. *)
Theorem C92_same_transforms : forall lib junk nx ny nz idx norm g g1 g2 g3 h c,
  0 < nx -> 0 < ny -> 0 < nz ->
  snd (bfull_call lib junk (bfull_run lib junk (full_init nx ny nz idx norm g) h) c)
    = snd (full_call (full_init nx ny nz idx norm g1) c)
  /\ ((forall i, In i idx -> i < nx * ny * nz) ->
      snd (bsticks_call lib junk (bsticks_run lib junk (sticks_init nx ny nz idx norm g2 g3) h) c)
      = snd (full_call (full_init nx ny nz idx norm g1) c)).
Proof.
  intros lib junk nx ny nz idx norm g g1 g2 g3 h c Hx Hy Hz.
  assert (HP : 0 < nx * ny * nz) by (apply Nat.mul_pos_pos; [apply Nat.mul_pos_pos|]; assumption).
  change (full_init nx ny nz idx norm g1) with (full_run (full_init nx ny nz idx norm g1) []).
  rewrite (full_stateless nx ny nz idx norm g1 [] c). split.
  - now apply bfull_stateless.
  - intros Hidx. now apply bsticks_stateless.
Qed.
Print Assumptions C92_same_transforms.

(** C92.  In particular, on every library the backward transform is the Fourier sum over the
    plane waves, divided by the number of grid points exactly when normalisation is on. *)
Theorem C92_fourier_sum : forall lib junk nx ny nz gs s norm g h v x y z,
  gspace_base (zshape nx ny nz) gs = Ok s -> length v = length (gs_cryst s) ->
  x < nx -> y < ny -> z < nz ->
  nth ((x * ny + y) * nz + z)
    (snd (bfull_call lib junk (bfull_run lib junk (full_init nx ny nz (map Z.to_nat (gs_idxgrid s)) norm g) h) (G2R v))) (RtoC 0)
  = ((if norm then / RtoC (INR (nx * ny * nz)) else RtoC 1) *
     csum (length v) (fun k => nth k v (RtoC 0)
        * plane_wave nx ny nz (nth k (gs_cryst s) (0, 0, 0)%Z) x y z))%C.
Proof.
  intros lib junk nx ny nz gs s norm g h v x y z HG HL Hx Hy Hz.
  rewrite (proj1 (C92_same_transforms lib junk nx ny nz _ norm g g g g h (G2R v) ltac:(lia) ltac:(lia) ltac:(lia))).
  exact (PropsFFT.C13_g2r_is_fourier_sum nx ny nz gs s norm g [] v x y z HG HL Hx Hy Hz).
Qed.
Print Assumptions C92_fourier_sum.

(** ---- Distributed objects ---- *)
Definition pos_dims (o : dist) : Prop := 0 < d_nx o /\ 0 < d_ny o /\ 0 < d_nz o.
Lemma map_ext_combine {A B D} (f g : A * B -> D) (l1 : list A) (l2 : list B) (P : A -> Prop) :
  Forall P l1 -> (forall a b, P a -> f (a, b) = g (a, b)) -> map f (combine l1 l2) = map g (combine l1 l2).
Proof.
  intros HF H. apply map_ext_in. intros [a b] Hin. apply H. rewrite Forall_forall in HF. apply HF. eapply in_combine_l; exact Hin.
Qed.
Lemma bdist_call_eq lib junk os c : lib <> CupyLib -> Forall pos_dims os -> bdist_call lib junk os c = dist_call os c.
Proof.
  intros HL HF. destruct c as [d|d]; unfold bdist_call, dist_call, bdist_r2g, dist_r2g, bdist_g2r, dist_g2r.
  - rewrite (map_ext (fun p => br2g_local1 lib (fst p) (snd p)) (fun p => r2g_local1 (fst p) (snd p))).
    2:{ intros [o i]. unfold br2g_local1, r2g_local1. now rewrite b_fft_eq. }
    destruct (alltoallv _ _) as [recv|]; [|reflexivity]. cbn [bind].
    rewrite (map_ext (fun p => br2g_local2 lib (fst p) (snd p)) (fun p => r2g_local2 (fst p) (snd p))); [reflexivity|].
    intros [o i]. unfold br2g_local2, r2g_local2. cbn [fst snd]. now rewrite b_fft_eq.
  - rewrite (map_ext_combine (fun p => bg2r_local1 lib junk (fst p) (snd p)) (fun p => g2r_local1 (fst p) (snd p)) os d pos_dims HF).
    2:{ intros o i (A1 & A2 & A3). cbn [fst snd]. unfold bg2r_local1, g2r_local1. now rewrite b_ifft_eq. }
    set (os1 := map (fun p => g2r_local1 (fst p) (snd p)) (combine os d)).
    destruct (alltoallv _ _) as [recv|]; [|reflexivity]. cbn [bind].
    rewrite (map_ext_combine (fun p => bg2r_local2 lib junk (fst p) (snd p)) (fun p => g2r_local2 (fst p) (snd p)) os1 recv pos_dims); [reflexivity| |].
    + apply Forall_forall. intros o Ho. apply in_map_iff in Ho as ([o' i] & <- & Ho). apply in_combine_l in Ho.
      rewrite Forall_forall in HF. exact (HF o' Ho).
    + intros o i (A1 & A2 & A3). cbn [fst snd]. unfold bg2r_local2, g2r_local2. rewrite b_ifft_eq; [reflexivity|nia|exact HL].
Qed.
Lemma dist_call_pos os c os' r : Forall pos_dims os -> dist_call os c = Ok (os', r) -> Forall pos_dims os'.
Proof.
  intros HF. rewrite Forall_forall in *. destruct c as [d|d]; unfold dist_call, dist_r2g, dist_g2r;
  (destruct (alltoallv _ _) as [recv|]; [|discriminate]; cbn [bind]; intros E; injection E as <- <-;
   intros o Ho; apply in_map_iff in Ho as ([o1 l] & <- & Ho); apply in_map_iff in Ho as ([o2 i] & E2 & Ho);
   apply in_combine_l in Ho; apply in_map_iff in Ho as ([o3 i3] & <- & Ho); apply in_combine_l in Ho;
   apply (f_equal fst) in E2; cbn [fst] in E2 |- *; subst o1; exact (HF o3 Ho)).
Qed.
Lemma bdist_run_eq lib junk h : lib <> CupyLib -> forall os, Forall pos_dims os ->
  bdist_run lib junk os h = dist_run os h.
Proof.
  intros HL. induction h as [|c h IH]; intros os HF; [reflexivity|]. cbn [bdist_run dist_run].
  rewrite (bdist_call_eq lib junk os c HL HF). destruct (dist_call os c) as [[os' r]|] eqn:E; [|reflexivity].
  cbn [bind fst]. apply IH. eapply dist_call_pos; eassumption.
Qed.

(** C92.  Distributed transforms: on every library whose wrapper leaves its input array alone
    (all but CuPy's) every history of collective calls gives the states and results of the
    reference (C16, C17). *)
Theorem C92_distributed : forall lib junk nx ny nz gs s norm P gx gyz os h c,
  gspace_base (zshape nx ny nz) gs = Ok s -> lib <> CupyLib ->
  dist_init_all nx ny nz (map Z.to_nat (gs_idxgrid s)) norm P gx gyz = Ok os ->
  (do os' <- bdist_run lib junk os h; bdist_call lib junk os' c)
  = (do os' <- dist_run os h; dist_call os' c).
Proof.
  intros lib junk nx ny nz gs s norm P gx gyz os h c HG HL HO.
  assert (HF : Forall pos_dims os).
  { apply Forall_forall. intros o Ho. unfold dist_init_all in HO. apply sequence_ok in HO.
    assert (Hin : In (Ok o) (map (@Ok dist) os)) by now apply in_map.
    rewrite <- HO in Hin. apply in_map_iff in Hin as (r & E & _). unfold dist_init in E.
    repeat match type of E with
    | bind ?x _ = _ => destruct x eqn:?E; [cbn [bind] in E|discriminate E]
    end.
    injection E as <-. unfold pos_dims. cbn [d_nx d_ny d_nz].
    repeat match goal with H : backend_ok _ = Ok _ |- _ => unfold backend_ok, assert_ in H; cbn [forallb] in H end.
    destruct (Nat.ltb_spec 0 nx); [|easy]. destruct (Nat.ltb_spec 0 ny); [|now rewrite andb_false_r in *].
    destruct (Nat.ltb_spec 0 nz); [easy|]. now rewrite !andb_false_r in *. }
  rewrite (bdist_run_eq lib junk h HL os HF).
  assert (HF' : forall os', dist_run os h = Ok os' -> Forall pos_dims os').
  { clear HO. revert os HF. induction h as [|c0 h0 IH]; intros os HF os'; cbn [dist_run]; [now intros E; injection E as <-|].
    destruct (dist_call os c0) as [[o1 r]|] eqn:E; [|discriminate]. cbn [bind fst]. apply IH. eapply dist_call_pos; eassumption. }
  destruct (dist_run os h) as [os'|] eqn:E; [|reflexivity]. cbn [bind]. apply bdist_call_eq; [exact HL|]. now apply HF'.
Qed.
Print Assumptions C92_distributed.

(** C92.  On CuPy the distributed backward transform depends on what was transformed before:
    its wrapper lets the library destroy the input array, whose unused positions the
    distributed object never clears again.  Two identical calls in a row can differ. *)
Theorem C92_distributed_cupy_refuted : exists junk nx ny nz idx norm P gx gyz os v,
  dist_init_all nx ny nz idx norm P gx gyz = Ok os /\
  exists os1 out1, bdist_call CupyLib junk os (DG2R v) = Ok (os1, out1) /\
  exists os2 out2, bdist_call CupyLib junk os1 (DG2R v) = Ok (os2, out2) /\ out1 <> out2.
Proof.
  exists (fun _ _ => RtoC 1), 2, 1, 1, [0], false, 1, (fun _ => MkWorker zeros zeros zeros), (fun _ => MkWorker zeros zeros zeros).
  eexists. exists [[RtoC 0]]. split. { vm_compute. reflexivity. }
  eexists _, _. split. { unfold bdist_call, bdist_g2r. cbv -[csum kern Cmult Cplus Cdiv RtoC]. reflexivity. }
  eexists _, _. split. { cbv -[csum kern Cmult Cplus Cdiv RtoC]. reflexivity. }
  intros E. apply (f_equal (fun o => nth 0 (nth 0 o []) (RtoC 0))) in E. cbn [nth] in E.
  unfold kern in E. cbn [csum] in E. rewrite ?Z.mul_0_r, ?Z.mul_0_l, ?root_0 in E. cbn in E.
  rewrite ?Z.mul_0_r, ?Z.mul_0_l, ?root_0 in E.
  change R0 with 0%R in E. change R1 with 1%R in E.
  apply (f_equal fst) in E. unfold Cmult, Cplus, RtoC in E. cbn [fst snd] in E. lra.
Qed.
Print Assumptions C92_distributed_cupy_refuted.

(** C92.  Choosing a library by name: the five names give their wrapper when the package is
    there; a missing CuPy is a RuntimeError; every other name, and None (documented as "the
    default"), raises TypeError while the message is built. *)
Theorem C92_names : forall installed cupy_flag,
  get_FFTBackend installed cupy_flag (Some "numpy"%string) = Ok NumpyLib
  /\ get_FFTBackend installed cupy_flag (Some "scipy"%string) = Ok ScipyLib
  /\ get_FFTBackend installed cupy_flag (Some "pyfftw"%string) = (if installed "pyfftw"%string then Ok PyfftwLib else Err TypeError)
  /\ get_FFTBackend installed cupy_flag (Some "mkl_fft"%string) = (if installed "mkl_fft"%string then Ok MklLib else Err TypeError)
  /\ get_FFTBackend installed cupy_flag (Some "cupy"%string)
     = (if cupy_flag then (if installed "cupy"%string then Ok CupyLib else Err TypeError) else Err RuntimeError)
  /\ get_FFTBackend installed cupy_flag None = Err TypeError
  /\ forall name, ~ In name ["numpy"; "scipy"; "pyfftw"; "mkl_fft"; "cupy"]%string ->
       get_FFTBackend installed cupy_flag (Some name) = Err TypeError.
Proof.
  intros inst fl. unfold get_FFTBackend, backend_map. cbn [String.eqb Ascii.eqb Bool.eqb andb].
  split; [reflexivity|]. split; [reflexivity|]. split; [now destruct (inst _)|]. split; [now destruct (inst _)|].
  split; [destruct fl; [cbn; now destruct (inst _)|reflexivity]|]. split; [reflexivity|].
  intros name H.
  destruct (String.eqb_spec name "cupy"); [subst; exfalso; apply H; cbn; tauto|]. cbn [andb].
  destruct (String.eqb_spec name "numpy"); [subst; exfalso; apply H; cbn; tauto|].
  destruct (String.eqb_spec name "scipy"); [subst; exfalso; apply H; cbn; tauto|].
  destruct (String.eqb_spec name "pyfftw"); [subst; exfalso; apply H; cbn; tauto|].
  destruct (String.eqb_spec name "mkl_fft"); [subst; exfalso; apply H; cbn; tauto|]. reflexivity.
Qed.
Print Assumptions C92_names.

Example C92_nonvacuous : exists s,
  gspace_base (zshape 3 4 5) [(0, 0, 0); (1, -1, 2); (-1, 1, 0); (0, 1, -2); (1, 0, 0)]%Z = Ok s
  /\ exists os, dist_init_all 3 4 5 (map Z.to_nat (gs_idxgrid s)) true 2 (fun _ => MkWorker zeros zeros zeros) (fun _ => MkWorker zeros zeros zeros) = Ok os
     /\ length os = 2.
Proof.
  eexists. split; [vm_compute; reflexivity|]. eexists. split; [vm_compute; reflexivity|]. reflexivity.
Qed.
