(** Lemmas on the exact static Coulomb hole. *)
From Coq Require Import Reals Lra Lia.
From Verif Require PropsParseInp EwaldProofs.
From Verif Require Import Base SortModel LatModel LatProofs GIndexModel GIndexProofs FFTModel FFTSpec FFTProofs FFTProofs2 GwModel GwSpec GwProofs GwProofs2 PropsUpf PropsGw PropsVcoul SigmaModel SigmaProofs PropsSigma PropsSigmaQ GppModel CohsexModel CohsexSpec CBase.
Open Scope R_scope.

(** ---- grid sums over the flat index ---- *)
Definition pwf (nx ny nz : nat) (g : vec3) (r : nat) : C := plane_wave nx ny nz g (r / (ny * nz)) ((r / nz) mod ny) (r mod nz).
Lemma gsum_flat nx ny nz (F : nat -> C) (f : nat -> nat -> nat -> C) :
  (forall x y z, (x < nx)%nat -> (y < ny)%nat -> (z < nz)%nat -> f x y z = F ((x * ny + y) * nz + z)%nat) ->
  csum nx (fun x => csum ny (fun y => csum nz (fun z => f x y z))) = csum (nx * ny * nz) F.
Proof.
  intros H. rewrite csum_prod, csum_prod. apply csum_ext. intros x Hx. apply csum_ext. intros y Hy. apply csum_ext. intros z Hz. now apply H.
Qed.
Lemma pwf_xyz nx ny nz g x y z : (y < ny)%nat -> (z < nz)%nat -> pwf nx ny nz g ((x * ny + y) * nz + z) = plane_wave nx ny nz g x y z.
Proof. intros Hy Hz. unfold pwf. now rewrite flat_x, flat_y, flat_z. Qed.
Lemma pwf_prod nx ny nz a b r : (pwf nx ny nz a r * pwf nx ny nz b r)%C = pwf nx ny nz (zadd3 a b) r.
Proof. apply pw_prod. Qed.
Lemma pwf_conj nx ny nz a r : Cconj (pwf nx ny nz a r) = pwf nx ny nz (zneg3 a) r.
Proof. apply pw_conj. Qed.
Lemma r2g_flat nx ny nz gs norm f k : (0 < nx)%nat -> (0 < ny)%nat -> (0 < nz)%nat ->
  (forall g, In g gs -> g_ok (zshape nx ny nz) g = true) -> (k < length gs)%nat ->
  nth k (full_fun nx ny nz (map Z.to_nat (map (gidx (zshape nx ny nz)) gs)) norm (R2G f)) (RtoC 0)
  = csum (nx * ny * nz) (fun r => nth r f (RtoC 0) * Cconj (pwf nx ny nz (nth k gs o3) r))%C.
Proof.
  intros P1 P2 P3 HG Hk. rewrite r2g_list by assumption. apply gsum_flat. intros x y z Hx Hy Hz. now rewrite pwf_xyz.
Qed.
(** the wave at the flat index *)
Definition wvf (nx ny nz : nat) (gs : list vec3) (cs : list C) (r : nat) : C := wave nx ny nz gs cs (r / (ny * nz)) ((r / nz) mod ny) (r mod nz).
Lemma fft_fun S idx c : snd (full_call (fft (at_q S 0) idx) c) = full_fun (g_nx S) (g_ny S) (g_nz S) idx false c.
Proof. unfold fft. apply (full_stateless (g_nx S) (g_ny S) (g_nz S) idx false _ []). Qed.
Lemma fftE_fun E idx c : snd (full_call (fft E idx) c) = full_fun (e_nx E) (e_ny E) (e_nz E) idx false c.
Proof. unfold fft. apply (full_stateless (e_nx E) (e_ny E) (e_nz E) idx false _ []). Qed.
Lemma phi_flat E w b gs r : gspace_base (e_shape E) gs = Ok (w_gk w) -> length (nth b (w_evc w) []) = length (gs_cryst (w_gk w)) ->
  (r < e_nx E * e_ny E * e_nz E)%nat -> nth r (phi E w b) (RtoC 0) = wvf (e_nx E) (e_ny E) (e_nz E) (gs_cryst (w_gk w)) (nth b (w_evc w) []) r.
Proof.
  intros HG HL Hr. unfold phi. change (full_g2r ?o ?v) with (full_call o (G2R v)). rewrite fftE_fun.
  destruct (flat_decomp _ _ _ _ Hr) as (Hx & Hy & Hz & Er). unfold wvf, wave. rewrite <- Er at 1.
  rewrite (g2r_gspace _ _ _ gs (w_gk w) false _ _ _ _ HG HL Hx Hy Hz). reflexivity.
Qed.
Lemma phi_length E w b : length (phi E w b) = (e_nx E * e_ny E * e_nz E)%nat.
Proof. unfold phi. change (full_g2r ?o ?v) with (full_call o (G2R v)). rewrite fftE_fun. apply full_fun_g2r_length. Qed.

(** ---- one row ---- *)
Lemma exact_idx_inv S lg idx : exact_idx S lg = Ok idx ->
  (0 < g_nx S)%nat /\ (0 < g_ny S)%nat /\ (0 < g_nz S)%nat /\ idx = map Z.to_nat (map (gidx (zshape (g_nx S) (g_ny S) (g_nz S))) lg) /\
  forall g, In g lg -> g_ok (zshape (g_nx S) (g_ny S) (g_nz S)) g = true.
Proof.
  unfold exact_idx. destruct (cryst2idxgrid (e_shape (at_q S 0)) lg) as [i0|] eqn:H; [|discriminate]. cbn [rmap]. intros E. injection E as <-.
  destruct (driver_inv _ _ _ _ _ H) as (P1 & P2 & P3 & -> & HG). repeat split; try assumption.
Qed.
Lemma pair_row_nth S lg idx w b gs t : exact_idx S lg = Ok idx -> (t < length lg)%nat ->
  gspace_base (e_shape (at_q S 0)) gs = Ok (w_gk w) -> length (nth b (w_evc w) []) = length (gs_cryst (w_gk w)) ->
  nth t (pair_row S idx w w b) (RtoC 0) =
  csum (g_nx S * g_ny S * g_nz S) (fun r => let f := wvf (g_nx S) (g_ny S) (g_nz S) (gs_cryst (w_gk w)) (nth b (w_evc w) []) r in
     Cconj f * f * Cconj (pwf (g_nx S) (g_ny S) (g_nz S) (nth t lg o3) r))%C.
Proof.
  intros HI Ht HG HL. destruct (exact_idx_inv _ _ _ HI) as (P1 & P2 & P3 & -> & HO).
  unfold pair_row, on_grid. change (full_r2g ?o ?v) with (full_call o (R2G v)). rewrite fft_fun, r2g_flat by assumption.
  apply csum_ext. intros r Hr. cbv zeta.
  rewrite combine_nth_map by (rewrite ?phi_length; easy). cbn [fst snd]. now rewrite (phi_flat (at_q S 0) w b gs r HG HL Hr).
Qed.
Lemma zero_same nx ny nz a b d : zero3b nx ny nz (zadd3 (zadd3 a (zneg3 b)) (zneg3 d)) = same_on_gridb nx ny nz (gminus a b) d.
Proof. destruct a as [[a1 a2] a3], b as [[b1 b2] b3], d as [[d1 d2] d3]. reflexivity. Qed.
Lemma pair_row_component S lg idx w b gs t : exact_idx S lg = Ok idx -> (t < length lg)%nat ->
  gspace_base (e_shape (at_q S 0)) gs = Ok (w_gk w) -> length (nth b (w_evc w) []) = length (gs_cryst (w_gk w)) ->
  nth t (pair_row S idx w w b) (RtoC 0) =
  (RtoC (INR (g_nx S * g_ny S * g_nz S)) * component (g_nx S) (g_ny S) (g_nz S) (gs_cryst (w_gk w)) (nth b (w_evc w) []) (nth t lg o3))%C.
Proof.
  intros HI Ht HG HL. destruct (exact_idx_inv _ _ _ HI) as (P1 & P2 & P3 & -> & HO).
  unfold pair_row, on_grid, phi. change (full_r2g ?o ?v) with (full_call o (R2G v)). change (full_g2r ?o ?v) with (full_call o (G2R v)). rewrite !fft_fun.
  etransitivity; [apply (overlap_sum (g_nx S) (g_ny S) (g_nz S) gs gs (w_gk w) (w_gk w) _ _ lg t HG HG HL HL P1 P2 P3 HO Ht)|]. f_equal. unfold component. apply csum_ext. intros i _. apply csum_ext. intros j _.
  rewrite zero_same. reflexivity.
Qed.

(** ---- the loop ---- *)
Lemma isclose3_near a b : isclose3 a b = true <-> near (vx a) (vx b) /\ near (vy a) (vy b) /\ near (vz a) (vz b).
Proof. unfold isclose3, near. rewrite !andb_true_iff, !isclose_iff. tauto. Qed.
Lemma near_refl a : near a a.
Proof. unfold near. rewrite Rminus_eq_0, Rabs_R0. pose proof (Rabs_pos a). assert (0 < / 10 ^ 5) by (apply Rinv_0_lt_compat; lra). nra. Qed.
Lemma items_seq {A} (l : list A) n ks d : sequence (map (item l) (seq 0 n)) = Ok ks -> (n <= length l)%nat /\ forall k, (k < n)%nat -> nth k ks d = nth k l d.
Proof.
  intros H. apply sequence_ok in H.
  assert (E : forall k, (k < n)%nat -> item l k = Ok (nth k ks d) /\ (k < length ks)%nat).
  { intros k Hk. apply (f_equal (fun L => nth_error L k)) in H. cbv beta in H. rewrite !nth_error_map in H. rewrite (nth_error_nth' (seq 0 n) O) in H by (rewrite seq_length; exact Hk). rewrite seq_nth in H by exact Hk.
    cbn [option_map Nat.add] in H. destruct (nth_error ks k) as [x|] eqn:Ex; [|discriminate]. cbn [option_map] in H. injection H as H. split; [|apply nth_error_Some; congruence]. now rewrite (nth_error_nth _ _ d Ex). }
  assert (F : forall k, (k < n)%nat -> nth_error l k = Some (nth k ks d)).
  { intros k Hk. destruct (E k Hk) as [E1 _]. unfold item in E1. destruct (nth_error l k); [|discriminate]. now injection E1 as ->. }
  split.
  - destruct n as [|n]; [lia|]. assert (X := F n ltac:(lia)). assert (n < length l)%nat by (apply nth_error_Some; congruence). lia.
  - intros k Hk. specialize (F k Hk). symmetry. now apply nth_error_nth.
Qed.
Lemma filter_alone (f : nat -> bool) k n : (k < n)%nat -> f k = true -> (forall k', (k' < n)%nat -> f k' = true -> k' = k) -> filter f (seq 0 n) = [k].
Proof.
  intros Hk Hf Hu. replace n with (k + (1 + (n - k - 1)))%nat by lia. rewrite seq_app, filter_app, seq_app, filter_app. rewrite !Nat.add_0_l. cbn [seq filter]. rewrite Hf.
  assert (Z : forall a m, (forall x, (a <= x < a + m)%nat -> f x = false) -> filter f (seq a m) = []).
  { intros a m. revert a. induction m as [|m IH]; intros a H; [reflexivity|]. cbn [seq filter]. rewrite (H a) by lia. apply IH. intros x Hx. apply H. lia. }
  rewrite !Z; [reflexivity| |]; intros x Hx; destruct (f x) eqn:E; try reflexivity; specialize (Hu x ltac:(lia) E); lia.
Qed.
Lemma same_k_alone S k ks : same_k S k = Ok ks -> (k < length (g_q S))%nat -> alone (g_kpts S) (length (g_q S)) k -> ks = [k].
Proof.
  unfold same_k. intros H Hk HA. apply bind_ok in H as (l & H & E). apply ok_inj in E. subst ks. apply (items_seq _ _ _ k0) in H as [_ H].
  apply filter_alone; [exact Hk| |].
  - rewrite (H k Hk). apply isclose3_near. repeat split; apply near_refl.
  - intros k' Hk' C. rewrite (H k' Hk') in C. apply isclose3_near in C as (C1 & C2 & C3). now apply (HA k' Hk').
Qed.
Lemma existsb_In k l : existsb (Nat.eqb k) l = true <-> In k l.
Proof. rewrite existsb_exists. split; [intros (x & I & E); apply Nat.eqb_eq in E; now subst|intros I; exists k; split; [exact I|apply Nat.eqb_refl]]. Qed.
Definition pair_dec (a b : nat * nat) : {a = b} + {a <> b}.
Proof. decide equality; apply Nat.eq_dec. Defined.
Section Loop.
  Context (S : sigma_obj) (lg : list vec3) (i j : nat).
  Hypothesis ND : NoDup (g_lk S).
  Hypothesis Hi : (i < length (g_lk S))%nat.
  Let k := nth i (g_lk S) O.
  Lemma position_k : position k (g_lk S) = i.
  Proof.
    destruct (position_first k (g_lk S)) as [Q1 _]; [now apply nth_In|]. assert (Q3 : nth_error (g_lk S) i = Some k) by now apply nth_error_nth'.
    apply (proj1 (NoDup_nth_error _) ND); [apply nth_error_Some; congruence|congruence].
  Qed.
  Lemma step_other M M' p : exact_step S lg M p = Ok M' -> p <> (k, j) -> M' i j = M i j.
  Proof.
    destruct p as [k' b]. intros H Hp. unfold exact_step in H. destruct (existsb (Nat.eqb k') (g_lk S)) eqn:EX; [|now apply ok_inj in H; subst].
    apply existsb_In in EX. apply bind_ok in H as (kp_ & _ & H). apply bind_ok in H as (u & _ & H). apply bind_ok in H as (idx & _ & H). apply bind_ok in H as (ks & _ & H).
    assert (T : ((i =? position k' (g_lk S))%nat && (j =? b)%nat) = false).
    { apply andb_false_iff. destruct (Nat.eqb_spec i (position k' (g_lk S))) as [E|]; [|now left]. right. apply Nat.eqb_neq. intros ->. apply Hp. f_equal.
      destruct (position_first k' (g_lk S) EX) as [Q _]. rewrite <- E in Q. unfold k. symmetry. now apply nth_error_nth. }
    revert M H. induction ks as [|c ks IH]; intros M H; cbn [fold_res] in H; [now apply ok_inj in H; subst|].
    apply bind_ok in H as (M2 & H2 & H). apply bind_ok in H2 as (kp' & _ & H2). apply bind_ok in H2 as (u' & _ & H2). apply ok_inj in H2.
    rewrite (IH M2 H). subst M2. now rewrite T.
  Qed.
  Lemma step_here M M' : (k < length (g_q S))%nat -> alone (g_kpts S) (length (g_q S)) k -> exact_step S lg M (k, j) = Ok M' ->
    exists idx, exact_idx S lg = Ok idx /\ (k < length (g_kpts S))%nat /\ M' i j = pair_row S idx (kp_wfn (nth k (g_kpts S) k0)) (kp_wfn (nth k (g_kpts S) k0)) j.
  Proof.
    intros Hq HA H. unfold exact_step in H. replace (existsb (Nat.eqb k) (g_lk S)) with true in H by (symmetry; apply existsb_In; now apply nth_In).
    apply bind_ok in H as (kp_ & HK & H). apply bind_ok in H as (u & _ & H). apply bind_ok in H as (idx & HI & H). apply bind_ok in H as (ks & HS & H).
    apply same_k_alone in HS; [|exact Hq|exact HA]. subst ks. cbn [fold_res] in H. rewrite HK in H. cbn [bind] in H. apply bind_ok in H as (M2 & H2 & H). apply bind_ok in H2 as (u' & _ & H2). apply ok_inj in H2, H. subst M' M2.
    exists idx. split; [exact HI|]. apply item_nth in HK. split; [apply nth_error_Some; congruence|]. rewrite (nth_error_nth _ _ k0 HK), position_k, !Nat.eqb_refl. reflexivity.
  Qed.
  Lemma loop_row l M M' : (k < length (g_q S))%nat -> alone (g_kpts S) (length (g_q S)) k -> fold_res (exact_step S lg) M l = Ok M' ->
    In (k, j) l -> exists idx, exact_idx S lg = Ok idx /\ (k < length (g_kpts S))%nat /\ M' i j = pair_row S idx (kp_wfn (nth k (g_kpts S) k0)) (kp_wfn (nth k (g_kpts S) k0)) j.
  Proof.
    intros Hq HA. revert M. induction l as [|p l IH]; intros M H I; [destruct I|]. cbn [fold_res] in H. apply bind_ok in H as (M1 & H1 & H).
    destruct (in_dec pair_dec (k, j) l) as [I'|N]; [now apply (IH M1)|].
    destruct I as [->|I]; [|contradiction]. apply step_here in H1 as (idx & A & B & D); [|exact Hq|exact HA]. exists idx. split; [exact A|]. split; [exact B|]. rewrite <- D.
    clear - H N ND Hi. revert M1 H. induction l as [|p l IH]; intros M1 H; cbn [fold_res] in H; [now apply ok_inj in H; subst|].
    apply bind_ok in H as (M2 & H2 & H). rewrite (IH (fun X => N (or_intror X)) M2 H). apply (step_other M1 M2 p H2). intros ->. apply N. now left.
  Qed.
  Lemma loop_none l M M' : fold_res (exact_step S lg) M l = Ok M' -> ~ In (k, j) l -> M' i j = M i j.
  Proof.
    intros H N. revert M H. induction l as [|p l IH]; intros M1 H; cbn [fold_res] in H; [now apply ok_inj in H; subst|].
    apply bind_ok in H as (M2 & H2 & H). rewrite (IH (fun X => N (or_intror X)) M2 H). apply (step_other M1 M2 p H2). intros ->. apply N. now left.
  Qed.
End Loop.

(** ---- differences ---- *)
Lemma gpmg_length gs : length (gpmg gs) = (length gs * length gs)%nat.
Proof. unfold gpmg. apply EwaldProofs.flat_map_length_const. intros. apply map_length. Qed.
Lemma gpmg_nth gs a b : (a < length gs)%nat -> (b < length gs)%nat -> nth (length gs * a + b) (gpmg gs) o3 = gminus (nth b gs o3) (nth a gs o3).
Proof.
  intros Ha Hb. unfold gpmg. rewrite Nat.mul_comm. rewrite (EwaldProofs.flat_map_nth_const _ (length gs) o3) by (try (intros; apply map_length); assumption).
  rewrite (nth_map_lt _ gs b o3) by exact Hb. reflexivity.
Qed.
Lemma gpmg_bound n a b : (a < n)%nat -> (b < n)%nat -> (n * a + b < n * n)%nat. Proof. nia. Qed.
Lemma len2_metric P L g : mk_lattice P = Ok L -> vdot (zr g) (mv (metric L) (zr g)) = len2 P g.
Proof.
  unfold mk_lattice. destruct (Req_EM_T (mdet P) 0); [discriminate|]. intros H. injection H as <-. cbn [metric]. unfold len2. rewrite zr_zvec.
  destruct P as [[] [] []]. unfold mmul, mtrans, mv, vadd, vscale, vdot. destruct g as [[g1 g2] g3]. cbn. ring.
Qed.
Lemma cut_row_nth P L cutoff lg row t : mk_lattice P = Ok L -> length row = length lg -> (t < length lg)%nat ->
  nth t (cut_row L cutoff lg row) (RtoC 0) = if Rle_dec (len2 P (nth t lg o3)) cutoff then nth t row (RtoC 0) else RtoC 0.
Proof.
  intros HL Hr Ht. unfold cut_row. rewrite (nth_map_lt _ (combine lg row) t (o3, RtoC 0)) by (rewrite combine_length; lia).
  rewrite combine_nth by now symmetry. cbn [fst snd]. rewrite (len2_metric P L _ HL).
  destruct (Rlt_dec cutoff (len2 P (nth t lg o3))), (Rle_dec (len2 P (nth t lg o3)) cutoff); try reflexivity; lra.
Qed.
Lemma pair_row_length S lg idx w w' b : exact_idx S lg = Ok idx -> length (pair_row S idx w w' b) = length lg.
Proof.
  intros HI. destruct (exact_idx_inv _ _ _ HI) as (_ & _ & _ & -> & _). unfold pair_row. change (full_r2g ?o ?v) with (full_call o (R2G v)). rewrite fft_fun.
  cbn [full_fun]. unfold taken. now rewrite !map_length.
Qed.
