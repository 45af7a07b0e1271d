(** Properties of the plasmon-pole self-energy and of the quasiparticle energies (gw/sigma.py). *)
From Coq Require Import Reals Lra Lia.
From Coquelicot Require Import Coquelicot.
From Verif Require Import Base SortModel SortProofs LatModel LatProofs GIndexModel GIndexProofs FFTModel FFTSpec FFTProofs FFTProofs2 GwModel GwSpec GwProofs GwProofs2 NlocSpec NlocProofs WfnIOProofs PropsUpf PropsGw PropsVcoul SigmaModel SigmaProofs PropsSigma PropsSigmaQ GppModel CBase.
From Verif Require PropsSymm.
Open Scope R_scope.

(** ================= C78: plasmon-pole model ================= *)
Lemma rltb_false a b : rltb a b = false -> b <= a.
Proof. intros H. destruct (Rle_lt_dec b a); [assumption|]. apply rltb_iff in r. congruence. Qed.
Lemma Cmod_pos_neq z : 0 < Cmod z -> z <> RtoC 0.
Proof. intros H ->. rewrite Cmod_0 in H. lra. Qed.
(** Every mode has a squared frequency that is real and not negative, and either it is zero or the mode has the strength that reproduces
    the static inverse dielectric matrix: omega2 = -(eps^-1 - 1) wtilde2. *)
Theorem C78_modes : forall wp2n rho d d0 v e ig igp,
  let om := gpp_fix (gpp_entry wp2n rho d d0 v e ig igp) e in
  0 <= snd om /\ (snd om = 0 \/ fst om = (- e * RtoC (snd om))%C).
Proof.
  intros wp2n rho d d0 v e ig igp. cbn zeta. assert (T := tol_pos).
  assert (F : forall o w, w = 0 \/ o = (- e * RtoC w)%C -> 0 <= snd (gpp_fix (o, w) e) /\ (snd (gpp_fix (o, w) e) = 0 \/ fst (gpp_fix (o, w) e) = (- e * RtoC (snd (gpp_fix (o, w) e)))%C)).
  { intros o w H. unfold gpp_fix. cbn [fst snd]. destruct (rltb w 0) eqn:E; cbn [fst snd].
    - split; [apply pow_le; lra|right; apply Cmult_comm].
    - apply rltb_false in E. split; [exact E|]. tauto. }
  unfold gpp_entry. set (rho' := if rltb tol (snd rho) then RtoC 0 else rho). destruct (rltb (Cmod e) tol) eqn:E1; [apply F; now left|]. apply rltb_false in E1.
  set (o0 := if _ && _ && _ then _ else _). set (o := if rltb (Cmod o0) tol then RtoC 0 else o0). set (t := (o / - e)%C).
  destruct (rltb (Cmod t) tol) eqn:E2; [apply F; now left|]. apply rltb_false in E2. destruct (rltb (Rabs (fst t / Cmod t)) tol) eqn:E3; [apply F; now left|]. apply rltb_false in E3.
  cbn zeta. apply F. right. assert (Ne : e <> RtoC 0) by (apply Cmod_pos_neq; lra).
  assert (Nt : fst t <> 0). { intros H. rewrite H in E3. unfold Rdiv in E3. rewrite Rmult_0_l, Rabs_R0 in E3. lra. }
  assert (Eo : o = (- e * t)%C). { unfold t. field. intros H. apply Ne. replace e with (- - e)%C by ring. rewrite H. ring. }
  rewrite Eo, <- Cmult_assoc. f_equal. assert (L2 : Cmod t * Cmod t = fst t * fst t + snd t * snd t).
  { unfold Cmod. rewrite sqrt_sqrt; [cbn; ring|]. cbn. nra. }
  assert (Lp : Cmod t <> 0) by lra.
  replace (Cmod t / (fst t / Cmod t)) with ((fst t * fst t + snd t * snd t) / fst t) by (rewrite <- L2; field; split; assumption).
  clear -Nt. destruct t as [a b]. cbn [fst snd] in *. apply injective_projections; cbn; field; exact Nt.
Qed.
Print Assumptions C78_modes.

(** What the two methods add for an occupied state (half the Coulomb hole minus the screened exchange) is the same expression away from the pole
    and near it, so the branches are consistent: omega2 / (2 wtilde (x + wtilde)). *)
Lemma inv0_nz x : x <> 0 -> inv0 x = / x.
Proof. intros H. unfold inv0. destruct (reqb x 0) eqn:E; [apply reqb_iff in E; contradiction|reflexivity]. Qed.
Lemma inv0_0 : inv0 0 = 0. Proof. unfold inv0. replace (reqb 0 0) with true; [reflexivity|]. symmetry. now apply reqb_iff. Qed.
Theorem C78_branches_agree : forall x w e, 0 < w -> x + w <> 0 ->
  let o := (- e * RtoC (w * w))%C in
  branch_a x (w * w) = true \/ branch_b x (w * w) = true ->
  (RtoC (1 / 2) * sch x (w * w) e - ssx_raw x (w * w) o)%C = (o * RtoC (/ (2 * w * (x + w))))%C.
Proof.
  intros x w e Hw Hx o H. assert (Sw : sqrt (w * w) = w) by (apply sqrt_square; lra).
  assert (D : x - w <> 0).
  { intros D. unfold branch_a, branch_b, delw in H. rewrite Sw, D, inv0_0 in H. destruct H as [H|H].
    - apply andb_true_iff in H as [H _]. apply rltb_iff in H. lra.
    - apply rltb_iff in H. assert (T := tol_pos). lra. }
  assert (W : delw x (w * w) = w / (x - w)) by (unfold delw; rewrite Sw, inv0_nz by exact D; reflexivity).
  unfold sch, ssx_raw. destruct (branch_a x (w * w)) eqn:A.
  - rewrite W, inv0_nz. 2:{ replace (x * x - w * w) with ((x - w) * (x + w)) by ring. now apply Rmult_integral_contrapositive. }
    replace (x * x - w * w) with ((x - w) * (x + w)) by ring. unfold o. destruct e as [a b].
    apply injective_projections; cbn; field; repeat split; try assumption; lra.
  - destruct H as [H|H]; [congruence|]. rewrite H, W. rewrite inv0_nz.
    2:{ replace (4 * (w * w * (w / (x - w) + / 2))) with (2 * (w * w) * (x + w) * / (x - w)) by (field; exact D). apply Rmult_integral_contrapositive. split; [|now apply Rinv_neq_0_compat].
        apply Rmult_integral_contrapositive. split; [nra|exact Hx]. }
    unfold o. destruct e as [a b]. 
    replace (/ (4 * (w * w * (w / (x - w) + / 2))) * (w / (x - w))) with (/ (2 * w * (x + w))).
    2:{ field. repeat split; try assumption; try lra. }
    apply injective_projections; cbn; ring.
Qed.
Print Assumptions C78_branches_agree.
(** Only where neither branch applies is the contribution dropped: exactly on the pole, or for a tiny frequency close to x. *)
Theorem C78_dropped : forall x w e o, 0 <= w -> branch_a x (w * w) = false -> branch_b x (w * w) = false ->
  ssx x (w * w) o e = RtoC 0 /\ sch x (w * w) e = RtoC 0 /\ (x = w \/ (Rabs (x - w) <= 1 / 2 /\ w * w <= / 10 ^ 5 * ((x - w) * (x - w)))).
Proof.
  intros x w e o Hw A B. assert (Sw : sqrt (w * w) = w) by (now apply sqrt_square).
  split; [unfold ssx, ssx_raw; rewrite A, B; now destruct (rltb _ _ && _)|]. split; [unfold sch; now rewrite A|].
  destruct (Req_dec x w) as [->|N]; [now left|right]. assert (D : x - w <> 0) by lra.
  unfold branch_a, branch_b, delw in A, B. rewrite Sw, inv0_nz in A, B by exact D. apply rltb_false in B. change tol with (/ 10 ^ 5) in B.
  assert (P : 0 < (x - w) * (x - w)) by nra.
  assert (W : w * w = w * / (x - w) * (w * / (x - w)) * ((x - w) * (x - w))) by (field; exact D).
  split.
  - apply andb_false_iff in A as [A|A]; apply rltb_false in A.
    + apply Rabs_le_between. nra.
    + exfalso. change tol with (/ 10 ^ 5) in A. rewrite Rinv_inv in A. lra.
  - rewrite W. now apply Rmult_le_compat_r; [lra|].
Qed.
Print Assumptions C78_dropped.
(** For equal energies and a frequency above half an electronvolt both weights are the static ones, eps^-1 - 1. *)
Theorem C78_static_limit : forall w e, 1 / 2 < w -> ssx 0 (w * w) (- e * RtoC (w * w))%C e = e /\ sch 0 (w * w) e = e.
Proof.
  intros w e Hw. assert (Sw : sqrt (w * w) = w) by (apply sqrt_square; lra).
  assert (W : delw 0 (w * w) = -1) by (unfold delw; rewrite Sw, inv0_nz by lra; field; lra).
  assert (A : branch_a 0 (w * w) = true).
  { unfold branch_a. rewrite W, Sw. apply andb_true_iff. split; apply rltb_iff; [nra|]. unfold tol. rewrite Rinv_inv. lra. }
  split.
  - unfold ssx, ssx_raw. rewrite A, inv0_nz by nra. replace (rltb 0 0) with false by (symmetry; apply rltb_f; lra). rewrite andb_false_r.
    destruct e as [a b]. apply injective_projections; cbn; field; nra.
  - unfold sch. rewrite A, W. destruct e as [a b]. apply injective_projections; cbn; ring.
Qed.
Print Assumptions C78_static_limit.

(** REFUTED: entries that the method skips (wtilde2 left at zero) do not contribute.  When the phase is the reason, omega2 keeps its value and
    the screened exchange receives omega2/x^2. *)
Theorem C78_skipped_contributes_refuted :
  exists wp2n rho d d0 v e, let om := gpp_fix (gpp_entry wp2n rho d d0 v e 1 1) e in
  snd om = 0 /\ fst om = RtoC 1 /\ ssx 1 (snd om) (fst om) e = RtoC 1.
Proof.
  exists (8 * PI), (RtoC 1), 1, 1, 1, (0, 1). cbn zeta. assert (T := tol_pos). assert (P := PI_neq0).
  assert (T1 : tol < 1) by (unfold tol; apply Rmult_lt_reg_r with (10 ^ 5); [lra|]; rewrite Rinv_l by lra; lra).
  assert (M1 : Cmod (0, 1) = 1). { unfold Cmod. cbn [fst snd]. replace (0 ^ 2 + 1 ^ 2) with 1 by ring. apply sqrt_1. }
  assert (O : (RtoC (8 * PI * 1 * 1 / (8 * PI)) * RtoC 1)%C = RtoC 1) by (apply injective_projections; cbn; field; exact P).
  assert (E : gpp_entry (8 * PI) (RtoC 1) 1 1 1 (0, 1) 1 1 = (RtoC 1, 0)).
  { unfold gpp_entry. cbn [snd RtoC]. rewrite (rltb_f tol 0) by lra. rewrite M1, (rltb_f 1 tol) by lra. cbn [Nat.eqb andb]. rewrite O.
    rewrite Cmod_1, (rltb_f 1 tol) by lra.
    assert (TT : (RtoC 1 / - ((0, 1) : C))%C = ((0, 1) : C)).
    { apply injective_projections; cbn; field. }
    rewrite TT, M1, (rltb_f 1 tol) by lra. cbn [fst]. replace (0 / 1) with 0 by field. rewrite Rabs_R0, (rltb_t 0 tol) by lra. reflexivity. }
  rewrite E. unfold gpp_fix. cbn [fst snd]. rewrite (rltb_f 0 0) by lra. cbn [fst snd]. split; [reflexivity|]. split; [reflexivity|].
  unfold ssx, ssx_raw, branch_a, delw. rewrite sqrt_0, Rmult_0_l. replace ((1 - 0) * (1 - 0)) with 1 by ring. rewrite (rltb_t (1 / 4) 1) by lra.
  replace (0 * 0) with 0 by ring. rewrite (rltb_t 0 (/ tol / 4)) by (apply Rdiv_lt_0_compat; [now apply Rinv_0_lt_compat|lra]). cbn [andb].
  rewrite (rltb_f 1 0) by lra. rewrite andb_false_r. replace (1 * 1 - 0) with 1 by ring. rewrite inv0_nz by lra. apply injective_projections; cbn; field.
Qed.
Print Assumptions C78_skipped_contributes_refuted.
(** REFUTED: the contribution is continuous in the energy.  Exactly on a pole it drops to zero, although on both sides it is close to omega2/(4 wtilde^2). *)
Theorem C78_pole_refuted : forall w e o, 0 < w -> ssx w (w * w) o e = RtoC 0 /\ sch w (w * w) e = RtoC 0.
Proof.
  intros w e o Hw. assert (Sw : sqrt (w * w) = w) by (apply sqrt_square; lra). assert (D : w - w = 0) by ring. assert (T := tol_pos).
  destruct (C78_dropped w w e o) as (A & B & _); [lra| | |auto].
  - unfold branch_a. rewrite Sw, D. rewrite (rltb_f (1 / 4) (0 * 0)) by lra. reflexivity.
  - unfold branch_b, delw. rewrite Sw, D, inv0_0. apply rltb_f. lra.
Qed.
Print Assumptions C78_pole_refuted.

(** ---- the density lookup ---- *)
Definition in_box (n : nat) (a : Z) : Prop := (- (Z.of_nat n / 2) <= a < Z.of_nat n - Z.of_nat n / 2)%Z.
Definition boxed (nx ny nz : nat) (g : vec3) : Prop := let '(a, b, c) := g in in_box nx a /\ in_box ny b /\ in_box nz c.
Lemma rhohash_inj nx ny nz g h : boxed nx ny nz g -> boxed nx ny nz h -> rhohash nx ny nz g = rhohash nx ny nz h -> g = h.
Proof.
  destruct g as [[a b] c], h as [[a' b'] c']. unfold boxed, in_box, rhohash.
  set (x := Z.of_nat nx). set (y := Z.of_nat ny). set (hx := (x / 2)%Z). set (hy := (y / 2)%Z). set (hz := (Z.of_nat nz / 2)%Z). clearbody x y hx hy hz.
  intros (A & B & _) (A' & B' & _) H.
  assert (E1 : (a + hx = a' + hx)%Z).
  { rewrite <- (Z.mod_small (a + hx) x), <- (Z.mod_small (a' + hx) x) by lia.
    rewrite <- (Z.mod_add (a + hx) ((b + hy) + (c + hz) * y) x), <- (Z.mod_add (a' + hx) ((b' + hy) + (c' + hz) * y) x) by lia. f_equal. nia. }
  assert (E2 : ((b + hy) + (c + hz) * y = (b' + hy) + (c' + hz) * y)%Z).
  { assert (X : (x <> 0)%Z) by lia. apply (Z.mul_reg_l _ _ x X). nia. }
  assert (E3 : (b + hy = b' + hy)%Z).
  { rewrite <- (Z.mod_small (b + hy) y), <- (Z.mod_small (b' + hy) y) by lia.
    rewrite <- (Z.mod_add (b + hy) (c + hz) y), <- (Z.mod_add (b' + hy) (c' + hz) y) by lia. now f_equal. }
  assert (E4 : (c + hz = c' + hz)%Z). { assert (Y : (y <> 0)%Z) by lia. apply (Z.mul_reg_r _ _ y Y). lia. }
  f_equal; [f_equal|]; lia.
Qed.
(** Inside the FFT box the density of a difference of G-vectors is found at its own position; a difference that is not listed raises KeyError. *)
Theorem C78_density_lookup : forall nx ny nz gs g, (forall h, In h gs -> boxed nx ny nz h) -> NoDup gs -> boxed nx ny nz g ->
  (forall i, nth_error gs i = Some g -> rho_index nx ny nz gs g = Ok i) /\ (~ In g gs -> rho_index nx ny nz gs g = Err KeyError).
Proof.
  intros nx ny nz gs g Hb Hn Hg. unfold rho_index.
  assert (F : forall i, In i (filter (fun i => (rhohash nx ny nz (nth i gs (0, 0, 0)%Z) =? rhohash nx ny nz g)%Z) (rev (seq 0 (length gs)))) <-> nth_error gs i = Some g).
  { intros i. rewrite filter_In, <- in_rev, in_seq, Z.eqb_eq. split.
    - intros [Hi E]. assert (Li : (i < length gs)%nat) by lia. assert (X : nth i gs (0, 0, 0)%Z = g) by (apply (rhohash_inj nx ny nz); [apply Hb, nth_In; exact Li|exact Hg|exact E]).
      rewrite <- X. apply nth_error_nth'. exact Li.
    - intros E. assert (i < length gs)%nat by (apply nth_error_Some; congruence). split; [lia|]. now rewrite (nth_error_nth gs i (0, 0, 0)%Z E). }
  destruct (filter _ _) as [|j l] eqn:Ef.
  - split; [|reflexivity]. intros i Hi. apply F in Hi. easy.
  - assert (Hj : nth_error gs j = Some g) by (apply F; now left). split.
    + intros i Hi. f_equal. apply (proj1 (NoDup_nth_error gs) Hn); [apply nth_error_Some; congruence|congruence].
    + intros N. exfalso. apply N. now apply nth_error_In in Hj.
Qed.
Print Assumptions C78_density_lookup.
(** REFUTED outside the box: the density of (2,0,0) on a 4x4x4 grid is silently read from (-2,1,0). *)
Theorem C78_density_alias_refuted : rho_index 4 4 4 [(0, 0, 0)%Z; (-2, 1, 0)%Z] (2, 0, 0)%Z = Ok 1%nat.
Proof. reflexivity. Qed.
Print Assumptions C78_density_alias_refuted.

(** ---- the sums ---- *)
Theorem C78_schedule_independent : forall P p p' y y' dE, procs_ok p -> procs_ok p' ->
  agree (sigma_sx_gpp p y P dE) (sigma_sx_gpp p' y' P dE) /\ agree (sigma_ch_gpp p y P dE) (sigma_ch_gpp p' y' P dE) /\
  agree (sigma_ch_static_exact p P) (sigma_ch_static_exact p' P).
Proof.
  intros P p p' y y' dE H H'.
  assert (K : forall y y' sign f nq c, agree (do m <- run p y sign f nq; Ok (scaled c m)) (do m <- run p' y' sign f nq; Ok (scaled c m))).
  { intros z z' sign f nq c. apply agree_scaled. apply (agree_trans _ _ _ (run_sum p z sign f nq H)). apply agree_sym. now apply run_sum. }
  split; [|split]; apply K.
Qed.
Print Assumptions C78_schedule_independent.
(** With static weights the plasmon-pole sum is the static one when v (eps^-1 - 1) is symmetric ... *)
Theorem C78_static_sum : forall v e m M i j, (forall k l, (k < length m)%nat -> (l < length m)%nat -> wmat v e k l = wmat v e l k) ->
  gpp_term (length m) m v M (fun _ _ g p => ent e p g) i j = w_term v e m M i j.
Proof.
  intros v e m M i j H. rewrite w_term_quad. unfold gpp_term, band_screened, quad. cbn zeta. apply csum_ext. intros g Hg. apply csum_ext. intros p Hp. rewrite !pick_nth by assumption.
  specialize (H g p Hg Hp). unfold wmat in H. unfold wmat, ent.
  set (a := nth (nth g m O) (M i j) (RtoC 0)). set (b := nth (nth p m O) (M i j) (RtoC 0)).
  transitivity (Cconj a * b * (RtoC (nth p v 0%R) * nth g (nth p e []) (RtoC 0)))%C; [generalize (nth g (nth p e []) (RtoC 0)) (RtoC (nth p v 0%R)) (Cconj a); intros; ring|].
  rewrite <- H. generalize (nth p (nth g e []) (RtoC 0)) (RtoC (nth g v 0%R)) (Cconj a). intros. ring.
Qed.
Print Assumptions C78_static_sum.
(** ... but REFUTED for a Hermitian one: the plasmon-pole methods take the transposed matrix, the static ones do not. *)
Theorem C78_static_sum_refuted : exists v e M, hermitian 2 (wmat v e) /\
  w_term v e [0; 1]%nat M 0%nat 0%nat = RtoC (-3) /\ gpp_term 2 [0; 1]%nat v M (fun _ _ g p => ent e p g) 0%nat 0%nat = RtoC (-1).
Proof.
  exists [1; 1], [[(-1, 0); (0, 1 / 2)]; [(0, - 1 / 2); (-1, 0)]], (fun _ _ => [(1, 0); (0, 1)]). split; [|split].
  - intros [|[|i]] [|[|j]] Hi Hj; try lia; unfold wmat; cbn [nth]; apply injective_projections; cbn; lra.
  - unfold w_term, pick, ent. cbn [map nth length csum]. apply injective_projections; cbn; lra.
  - unfold gpp_term, pick, ent. cbn [map nth length csum]. apply injective_projections; cbn; lra.
Qed.
Print Assumptions C78_static_sum_refuted.

(** ================= C79: quasiparticle energies ================= *)
(** The returned Eqp1 is the one solution of the quasiparticle equation linearised at the mean-field energy,
    E = Emf - Vxc + Sigma(Emf) + (dSigma/dE) (E - Emf), and equals Emf + Z (Eqp0 - Emf). *)
Theorem C79_linearised : forall l,
  let sigma0 := caround (lv_x l + lv_sx l + lv_ch l + (lv_che l - lv_chs l) / RtoC 2)%C in
  let slope := ((lv_sx2 l + lv_ch2 l) - (lv_sx l + lv_ch l))%C in let emf := RtoC (lv_emf l) in
  slope <> RtoC 1 ->
  (forall E, E = (emf - lv_vxc l + sigma0 + slope * (E - emf))%C <-> E = eqp1 l) /\
  eqp0 l = (emf - lv_vxc l + sigma0)%C /\
  eqp1 l = (emf + (eqp0 l - emf) / (RtoC 1 - slope))%C.
Proof.
  intros l s0 sl m0 Hd. assert (E0 : s0 = sig_of l).
  { unfold s0, sig_of, remainder. do 2 f_equal. apply injective_projections; cbn; field. }
  rewrite E0. assert (ES : sl = dsig l) by reflexivity. rewrite ES in *. clearbody sl s0. subst sl. unfold m0. clear s0 E0 m0. unfold eqp1, slope, zfac, eqp0. generalize (sig_of l) (lv_vxc l) (RtoC (lv_emf l)) (dsig l) Hd. clear. intros s v m d Hd.
  assert (N : (RtoC 1 - d)%C <> RtoC 0). { intros H. apply Hd. replace d with (RtoC 1 - (RtoC 1 - d))%C by ring. rewrite H. ring. }
  split; [|split; [ring|field; exact N]]. intros E. split; intros H.
  - assert (H' : ((RtoC 1 - d) * E = m - v + s - d * m)%C).
    { transitivity (E - d * E)%C; [ring|]. rewrite H at 1. ring. }
    transitivity ((RtoC 1 - d) * E / (RtoC 1 - d))%C; [field; exact N|]. rewrite H'. field. exact N.
  - rewrite H. field. exact N.
Qed.
Print Assumptions C79_linearised.
(** Of each level the returned dictionary holds the values printed in the first eight columns ... *)
Theorem C79_returned_columns : forall l, let a := returned l in let b := printed l in
  r_x a = r_x b /\ r_sx a = r_sx b /\ r_ch a = r_ch b /\ r_sig a = r_sig b /\ r_vxc a = r_vxc b /\ r_eqp0 a = r_eqp0 b /\ r_eqp1 a = r_eqp1 b /\
  r_eqp0 a = r_sig a + lv_emf l - r_vxc a.
Proof. intros l. cbn. repeat split; try reflexivity; try (unfold eqp0; destruct (sig_of l), (lv_vxc l); cbn; ring). Qed.
Print Assumptions C79_returned_columns.
(** ... but REFUTED for the primed columns and Znk: they are copies of unprimed ones, the primed Eqp1 is the first-order Eqp0, and Znk is always 1. *)
Definition lv1 : level := MkLevel (RtoC 0) (RtoC 0) (RtoC 0) (RtoC 0) (RtoC 2) (RtoC 0) (RtoC (1 / 2)) 0 (RtoC 0).
Lemma around_Z n : np_around 6 (IZR n) = IZR n.
Proof.
  unfold np_around. assert (E : IZR n * 10 ^ 6 = IZR (n * 10 ^ 6)). { rewrite mult_IZR. change (10 ^ 6)%Z with 1000000%Z. simpl pow. ring. }
  rewrite E. rewrite PropsSymm.rint_IZR. rewrite <- E. field.
Qed.
Theorem C79_primed_columns_refuted :
  (forall l, r_ch' (returned l) = r_ch (returned l) /\ r_sig' (returned l) = r_sig (returned l) /\ r_eqp0' (returned l) = r_eqp0 (returned l) /\ r_eqp1' (returned l) = r_eqp0 (returned l) /\ r_z (returned l) = 1) /\
  r_z (printed lv1) = 2 /\ r_ch' (printed lv1) = 0 /\ r_ch' (returned lv1) = 1 /\ r_eqp0' (printed lv1) = 0 /\ r_eqp0' (returned lv1) = 1.
Proof.
  split; [intros l; repeat split|].
  assert (R1 : caround (RtoC 1) = RtoC 1) by (unfold caround; cbn [fst snd RtoC]; now rewrite (around_Z 1), (around_Z 0)).
  assert (R0 : caround (RtoC 0) = RtoC 0) by (unfold caround; cbn [fst snd RtoC]; now rewrite (around_Z 0)).
  assert (D : dsig lv1 = RtoC (1 / 2)) by (unfold dsig, lv1; cbn [lv_sx lv_ch lv_sx2 lv_ch2]; apply injective_projections; cbn; ring).
  assert (Q : remainder lv1 = RtoC 1) by (unfold remainder, lv1; cbn [lv_che lv_chs]; apply injective_projections; cbn; field).
  assert (S : sig_of lv1 = RtoC 1). { unfold sig_of. rewrite Q. cbn [lv1 lv_x lv_sx lv_ch]. replace (RtoC 0 + RtoC 0 + RtoC 0 + RtoC 1)%C with (RtoC 1) by ring. exact R1. }
  assert (CHR : caround (lv_ch lv1 + remainder lv1)%C = RtoC 1) by (rewrite Q; cbn [lv1 lv_ch]; replace (RtoC 0 + RtoC 1)%C with (RtoC 1) by ring; exact R1).
  assert (E0 : eqp0 lv1 = RtoC 1) by (unfold eqp0; rewrite S; cbn [lv1 lv_emf lv_vxc]; ring).
  unfold printed, returned. cbn [r_z r_ch' r_eqp0']. rewrite CHR, E0. unfold eqp0_prime, zfac. rewrite D, Q, E0. cbn [lv1 lv_ch]. rewrite R0.
  assert (ZZ : (RtoC 1 / (RtoC 1 - RtoC (1 / 2)))%C = RtoC 2). { rewrite <- RtoC_minus, <- RtoC_div by lra. f_equal. lra. }
  rewrite ZZ. cbn. repeat split; lra.
Qed.
Print Assumptions C79_primed_columns_refuted.
(** REFUTED: the labels are the requested bands.  They agree with the columns only when band_index_min is 1. *)
Theorem C79_labels : forall bmin bmax, (1 <= bmin <= bmax)%nat ->
  (band_labels bmin bmax = seq (bmin - 1) (bmax - bmin + 1) <-> bmin = 1%nat) /\
  length (band_labels bmin bmax) = (bmax + 2 - 2 * bmin)%nat.
Proof.
  intros bmin bmax H. unfold band_labels. split; [split|].
  - intros E. apply (f_equal (@length nat)) in E. rewrite !seq_length in E. lia.
  - intros ->. f_equal. lia.
  - rewrite seq_length. lia.
Qed.
Print Assumptions C79_labels.
(** REFUTED: every process gets the result.  Only the printing one does. *)
Theorem C79_other_processes_refuted : forall bmin bmax lk levels, calculate_gpp false bmin bmax lk levels = None /\ calculate_gpp true bmin bmax [] levels = None /\
  (lk <> [] -> exists d, calculate_gpp true bmin bmax lk levels = Some d /\ (length lk = length levels -> map fst d = lk)).
Proof.
  intros bmin bmax lk levels. split; [reflexivity|]. split; [reflexivity|]. intros H. unfold calculate_gpp. destruct lk as [|k lk]; [easy|]. cbn [length Nat.eqb negb andb].
  eexists. split; [reflexivity|]. intros L. change (length (k :: lk) = length levels) in L. rewrite map_map. cbn [fst].
  change (map (fun x : nat * list level => fst x) (combine (k :: lk) levels) = k :: lk). generalize (k :: lk) L. clear. intros l. revert levels. induction l as [|a l IH]; intros [|b m] L; try discriminate; [reflexivity|].
  cbn [combine map fst]. f_equal. apply IH. now injection L.
Qed.
Print Assumptions C79_other_processes_refuted.
(** REFUTED: the exact Coulomb hole is computed for the requested bands.  Its value does not depend on band_index_min: the lowest bands are always used. *)
Definition with_b0 (P : gpp_in) (b0 : nat) : gpp_in :=
  let S := p_sig P in MkGpp (MkSig (g_nx S) (g_ny S) (g_nz S) (g_kpts S) (g_lk S) (g_nbands S) b0 (g_nket S) (g_q S) (g_isq0 S) (g_iq0 S) (g_gq S) (g_v S) (g_eps S) (g_factor S))
    (p_rhog P) (p_rho P) (p_vol P) (p_metric P) (p_ryd P) (p_cut P).
Theorem C79_exact_hole_bands_refuted : forall p P b0, sigma_ch_static_exact p (with_b0 P b0) = sigma_ch_static_exact p P.
Proof. intros p P b0. reflexivity. Qed.
Print Assumptions C79_exact_hole_bands_refuted.

(** What it is instead: for the j-th band from the bottom (not the j-th requested one) of a k-point whose number is below the number of q-points,
    half the prefactor times sum over q, G, G' of rho(G'-G) (eps^-1-1)(G',G) v(G'), where rho(G) is the Fourier component of the density of the level,
    dropped beyond the dielectric cutoff; zero for the other k-points. *)
Definition level_density (S : sigma_obj) (k j : nat) (G : vec3) : C :=
  let w := kp_wfn (nth k (g_kpts S) k0) in let c := nth j (w_evc w) [] in
  csum (length c) (fun a => csum (length c) (fun b =>
    if same_on_gridb (g_nx S) (g_ny S) (g_nz S) (zsub3 (nth b (gs_cryst (w_gk w)) (0, 0, 0)%Z) (nth a (gs_cryst (w_gk w)) (0, 0, 0)%Z)) G
    then (Cconj (nth a c (RtoC 0)) * nth b c (RtoC 0))%C else RtoC 0)).
Definition exact_sum (P : gpp_in) (q k j : nat) : C :=
  let S := p_sig P in let g := nth q (g_gq S) [] in let e := nth q (g_eps S) [] in let v := nth q (g_v S) [] in
  csum (length g) (fun a => csum (length g) (fun b =>
    let D := zsub3 (nth b g (0, 0, 0)%Z) (nth a g (0, 0, 0)%Z) in
    (if rltb (p_cut P) (p_metric P (zvec D) (zvec D)) then RtoC 0 else level_density S k j D) * nth a (nth b e []) (RtoC 0) * RtoC (nth b v 0%R)))%C.
Lemma same_zero3b nx ny nz a b g : zero3b nx ny nz (zadd3 (zadd3 b (zneg3 a)) (zneg3 g)) = same_on_gridb nx ny nz (zsub3 b a) g.
Proof.
  destruct a as [[a1 a2] a3], b as [[b1 b2] b3], g as [[g1 g2] g3]. unfold zero3b, same_on_gridb, zadd3, zneg3, zsub3.
  replace (b1 + - a1 + - g1)%Z with (b1 - a1 - g1)%Z by ring. replace (b2 + - a2 + - g2)%Z with (b2 - a2 - g2)%Z by ring. replace (b3 + - a3 + - g3)%Z with (b3 - a3 - g3)%Z by ring. reflexivity.
Qed.
Lemma nth_differences (g : list vec3) k m : (k < length g)%nat -> (m < length g)%nat ->
  nth (length g * k + m) (differences g) (0, 0, 0)%Z = zsub3 (nth m g (0, 0, 0)%Z) (nth k g (0, 0, 0)%Z) /\ (length g * k + m < length (differences g))%nat.
Proof.
  unfold differences. intros Hk Hm. set (n := length g) in *.
  assert (G : forall l : list vec3, forall k, (k < length l)%nat -> nth (n * k + m) (flat_map (fun gk => map (fun gm => zsub3 gm gk) g) l) (0, 0, 0)%Z = zsub3 (nth m g (0, 0, 0)%Z) (nth k l (0, 0, 0)%Z)
            /\ (n * k + m < length (flat_map (fun gk => map (fun gm => zsub3 gm gk) g) l))%nat).
  { induction l as [|x l IH]; intros [|k'] H; cbn [length] in H; try lia; cbn [flat_map]; rewrite app_length, map_length; fold n.
    - rewrite Nat.mul_0_r. cbn [Nat.add]. split; [|lia]. rewrite app_nth1 by (rewrite map_length; exact Hm). cbn [nth]. exact (nth_map_lt (fun gm : vec3 => zsub3 gm x) g m (0, 0, 0)%Z _ Hm).
    - destruct (IH k') as [I1 I2]; [lia|]. split; [|lia]. rewrite app_nth2 by (rewrite map_length; fold n; lia). rewrite map_length. fold n. cbn [nth].
      replace (n * S k' + m - n)%nat with (n * k' + m)%nat by lia. exact I1. }
  apply G. exact Hk.
Qed.
Lemma cutoff_nth P gs l k : length l = length gs -> (k < length gs)%nat ->
  nth k (cutoff P gs l) (RtoC 0) = (if rltb (p_cut P) (p_metric P (zvec (nth k gs (0, 0, 0)%Z)) (zvec (nth k gs (0, 0, 0)%Z))) then RtoC 0 else nth k l (RtoC 0)).
Proof.
  intros L H. unfold cutoff. rewrite (nth_map_lt _ (combine gs l) k ((0, 0, 0)%Z, RtoC 0)) by (rewrite combine_length; lia).
  rewrite combine_nth by (symmetry; exact L). reflexivity.
Qed.
Definition sphere_ok (S : sigma_obj) (k : nat) : Prop :=
  let w := kp_wfn (nth k (g_kpts S) k0) in
  (exists gs, gspace_base (zshape (g_nx S) (g_ny S) (g_nz S)) gs = Ok (w_gk w)) /\ forall c, In c (w_evc w) -> length c = length (gs_cryst (w_gk w)).
Lemma exact_el_density S k b gs l : sphere_ok S k -> exact_el S k b gs = Ok l ->
  length l = length gs /\ INR (g_nx S * g_ny S * g_nz S) <> 0 /\ forall n, (n < length gs)%nat -> nth n l (RtoC 0) = (RtoC (INR (g_nx S * g_ny S * g_nz S)) * level_density S k b (nth n gs (0, 0, 0)%Z))%C.
Proof.
  intros [[g0 H0] HL] H. unfold exact_el in H. apply bind_ok in H as (idx & HI & H). apply bind_ok in H as (u & HB & H). apply ok_inj in H.
  set (w := kp_wfn (nth k (g_kpts S) k0)) in *. set (c := nth b (w_evc w) []) in *.
  assert (Lc : length c = length (gs_cryst (w_gk w))). { apply HL. apply nth_In. unfold has_band in HB. destruct (Nat.ltb_spec b (length (w_evc w))); [assumption|discriminate]. }
  change (e_shape (at_q S 0)) with (zshape (g_nx S) (g_ny S) (g_nz S)) in HI.
  destruct (driver_inv _ _ _ _ _ HI) as (P1 & P2 & P3 & -> & HG).
  assert (FF : forall idx c, snd (full_call (fft (at_q S 0) idx) c) = full_fun (g_nx S) (g_ny S) (g_nz S) idx false c).
  { intros idx0 c0. unfold fft. apply (full_stateless (g_nx S) (g_ny S) (g_nz S) idx0 false _ []). }
  assert (Fg : forall idx v, snd (full_g2r (fft (at_q S 0) idx) v) = full_fun (g_nx S) (g_ny S) (g_nz S) idx false (G2R v)) by (intros; apply (FF _ (G2R v))).
  assert (Fr : forall idx v, snd (full_r2g (fft (at_q S 0) idx) v) = full_fun (g_nx S) (g_ny S) (g_nz S) idx false (R2G v)) by (intros; apply (FF _ (R2G v))).
  unfold phi in H. rewrite Fr, !Fg in H. fold c in H. subst l. split; [|split].
  - cbn [full_fun]. unfold taken. now rewrite !map_length.
  - apply not_0_INR. nia.
  - intros n Hn. rewrite (overlap_sum _ _ _ g0 g0 (w_gk w) (w_gk w) c c gs n) by assumption. f_equal. unfold level_density. fold w. fold c.
    apply csum_ext. intros a _. apply csum_ext. intros b' _. now rewrite same_zero3b.
Qed.
Theorem C79_exact_hole_formula : forall p P m i j, procs_ok p -> sigma_ch_static_exact p P = Ok m ->
  let S := p_sig P in let k := nth i (g_lk S) O in
  (forall k, In k (g_lk S) -> sphere_ok S k) -> NoDup (g_lk S) -> (i < length (g_lk S))%nat -> (j < g_nket S)%nat ->
  m i j = if (k <? length (g_q S))%nat then (RtoC (g_factor S / 2) * csum (length (g_q S)) (fun q => exact_sum P q k j))%C else RtoC 0.
Proof.
  intros p P m i j Hp H S k HS ND Hi Hj. unfold sigma_ch_static_exact in H. apply bind_ok in H as (m0 & HR & H). apply ok_inj in H. subst m.
  apply run_ok in HR as (ts & HF & Hm); [|exact Hp]. unfold scaled. rewrite Hm. fold S in HF.
  assert (Hk : In k (g_lk S)) by now apply nth_In.
  assert (Pos : position k (g_lk S) = i).
  { destruct (position_first k (g_lk S) Hk) as [Q1 Q2]. assert (Q3 : nth_error (g_lk S) i = Some k) by now apply nth_error_nth'.
    apply (proj1 (NoDup_nth_error _) ND); [apply nth_error_Some; congruence|congruence]. }
  set (val := fun q => if (k <? length (g_q S))%nat then exact_sum P q k j else RtoC 0).
  assert (K : Forall2 (fun q t => tot t i j = val q) (seq 0 (length (g_q S))) ts).
  { revert HF. generalize (seq 0 (length (g_q S))). intros l HF. clear Hm; induction HF as [|q t l ts0 HQ _ IH]; [constructor|]. constructor; [|exact IH].
    unfold exact_q in HQ. fold S in HQ. apply bind_ok in HQ as (g & E1 & HQ). apply bind_ok in HQ as (e & E2 & HQ). apply bind_ok in HQ as (v & E3 & HQ). apply bind_ok in HQ as (rows & E4 & HQ).
    apply bind_ok in HQ as (u & E5 & HQ). apply ok_inj in HQ. subst t. 
    assert (EG : nth q (g_gq S) [] = g) by (apply item_nth in E1; now apply nth_error_nth). assert (EE : nth q (g_eps S) [] = e) by (apply item_nth in E2; now apply nth_error_nth).
    assert (EV : nth q (g_v S) [] = v) by (apply item_nth in E3; now apply nth_error_nth).
    match goal with |- tot [?f] i j = _ => change (tot [f] i j) with (f i j + RtoC 0)%C end. cbv beta.
    apply sequence_ok in E4.
    assert (ER : exists r, exact_row S (differences g) i j = Ok r /\ nth j (nth i rows []) [] = cutoff P (differences g) r).
    { assert (Q := f_equal (fun l => nth_error l i) E4). cbv beta in Q. rewrite !nth_error_map in Q. rewrite (nth_error_nth' (seq 0 (length (g_lk S))) O) in Q by (rewrite seq_length; exact Hi). rewrite seq_nth in Q by exact Hi. cbn [option_map Nat.add] in Q.
      destruct (nth_error rows i) as [row|] eqn:ER; [|discriminate]. cbn [option_map] in Q. apply some_inj in Q. rewrite (nth_error_nth _ _ _ ER).
      apply sequence_ok in Q. apply (f_equal (fun l => nth_error l j)) in Q. rewrite !nth_error_map in Q. rewrite (nth_error_nth' (seq 0 (g_nket S)) O) in Q by (rewrite seq_length; exact Hj). rewrite seq_nth in Q by exact Hj. cbn [option_map Nat.add] in Q.
      destruct (nth_error row j) as [x|] eqn:EX; [|discriminate]. cbn [option_map] in Q. apply some_inj in Q. apply bind_ok in Q as (r & Q1 & Q2). apply ok_inj in Q2. exists r. split; [exact Q1|]. now rewrite (nth_error_nth _ _ _ EX). }
    destruct ER as (r & ER & ->). unfold exact_row in ER. fold k in ER. rewrite Pos, Nat.eqb_refl, andb_true_r in ER. unfold val.
    destruct (k <? length (g_q S))%nat.
    - destruct (exact_el_density _ _ _ _ _ (HS k Hk) ER) as (L & NZ & D). unfold exact_sum. fold S. rewrite EG, EE, EV. rewrite Cplus_0_r.
      apply csum_ext. intros a Ha. apply csum_ext. intros b Hb. destruct (nth_differences g a b Ha Hb) as [N1 N2].
      rewrite cutoff_nth by (try exact N2; exact L). rewrite N1. rewrite D by exact N2. rewrite N1. unfold ent. destruct (rltb _ _).
      + unfold Cdiv. ring.
      + field. intros X. apply NZ. now apply RtoC_inj in X.
    - apply ok_inj in ER. subst r. rewrite Cplus_0_r. apply csum_zero. intros a Ha. apply csum_zero. intros b Hb. destruct (nth_differences g a b Ha Hb) as [N1 N2].
      rewrite cutoff_nth by (try exact N2; apply map_length). rewrite (nth_map_lt _ _ _ (0, 0, 0)%Z) by exact N2. destruct (rltb _ _); unfold Cdiv; ring. }
  assert (Q : qsum ts (fun t => tot t i j) = csum (length (g_q S)) val).
  {
    assert (G : forall n s ts, Forall2 (fun q t => tot t i j = val q) (seq s n) ts -> qsum ts (fun t => tot t i j) = csum n (fun a => val (s + a)%nat)).
    { clear. induction n as [|n IH]; intros s ts K; inversion K as [|q t l ts' Q1 Q2]; subst; [reflexivity|].
      change (tot t i j + qsum ts' (fun t => tot t i j) = csum (Datatypes.S n) (fun a => val (s + a)%nat))%C. rewrite Q1, (IH _ _ Q2). change (Datatypes.S n) with (1 + n)%nat. rewrite csum_app. change (csum 1 (fun a => val (s + a)%nat)) with (RtoC 0 + val (s + 0)%nat)%C. rewrite Nat.add_0_r, Cplus_0_l. f_equal. apply csum_ext. intros a _. f_equal. lia. }
    exact (G _ _ _ K). }
  rewrite Q. unfold val. destruct (k <? length (g_q S))%nat.
  - fold S. generalize (csum (length (g_q S)) (fun q => exact_sum P q k j)) (g_factor S). intros [x y] fa. apply injective_projections; cbn; field.
  - rewrite csum_zero by (intros; reflexivity). ring.
Qed.
Print Assumptions C79_exact_hole_formula.
(** A concrete case: the one-k-point self-energy of PropsSigmaQ; the density of each level is 1, so the exact hole is 1/2 * (1 * (-1/2) * 2). *)
Definition gone : gpp_in := MkGpp one [(0, 0, 0)%Z] [RtoC 1] 1 (fun a b => vdot a b) 1 10.
Lemma gone_sphere : forall k, In k (g_lk one) -> sphere_ok one k.
Proof. intros k [<-|[]]. split; [exists [(0, 0, 0)%Z]; reflexivity|]. intros c [<-|[<-|[]]]; reflexivity. Qed.
Example C79_exact_hole_instance : exists m, sigma_ch_static_exact None gone = Ok m /\ forall j, (j < 2)%nat -> m 0%nat j = RtoC (- 1 / 2).
Proof.
  assert (EX : exists m, sigma_ch_static_exact None gone = Ok m).
  { eexists. reflexivity. }
  destruct EX as [m E]. exists m. split; [exact E|]. intros j Hj.
  rewrite (C79_exact_hole_formula None gone m 0 j I E gone_sphere) by (try (cbn; lia); repeat constructor; intros []).
  change (nth 0 (g_lk (p_sig gone)) O) with O. change (length (g_q (p_sig gone))) with 1%nat. cbn [Nat.ltb Nat.leb csum].
  assert (D : level_density one 0 j (0, 0, 0)%Z = RtoC 1).
  { unfold level_density. change (kp_wfn (nth 0 (g_kpts one) k0)) with occ2. replace (nth j (w_evc occ2) []) with [RtoC 1] by (destruct j as [|[|j]]; [reflexivity|reflexivity|lia]).
    cbn [length csum nth]. change (same_on_gridb _ _ _ _ _) with true. cbn iota. apply injective_projections; cbn; ring. }
  unfold exact_sum. change (p_sig gone) with one. change (nth 0 (g_gq one) []) with [(0, 0, 0)%Z]. change (nth 0 (g_eps one) []) with [[RtoC (- 1 / 2)]]. change (nth 0 (g_v one) []) with [2].
  cbn [length csum nth]. change (zsub3 (0, 0, 0)%Z (0, 0, 0)%Z) with ((0, 0, 0)%Z : vec3). rewrite D. replace (rltb (p_cut gone) (p_metric gone (zvec (0, 0, 0)%Z) (zvec (0, 0, 0)%Z))) with false by (symmetry; apply rltb_f; unfold gone, vdot, zvec; cbn [p_cut p_metric vx vy vz]; lra). apply injective_projections; cbn; field.
Qed.

(** ================= C78, continued: the sums that are returned ================= *)
(** The mode of G, G': from the bare strength wp^2 (q+G).(q+G') v(G)/(8 pi) rho(G-G')/N (for the head of q = 0: wp^2/N rho) and e = (eps^-1 - 1)(G',G), the
    frequency w satisfies w^2 Re t = |t|^2 where t = - strength / e, and the strength used is -e w^2. *)
Definition bare_strength (P : gpp_in) (q : rvec) (g : list vec3) (v : list R) (ig igp n : nat) : C :=
  let G k := vadd (zvec (nth k g (0, 0, 0)%Z)) q in let wp2 := p_ryd P * p_ryd P * 16 * PI / p_vol P in
  if (ig =? 0)%nat && (igp =? 0)%nat && rltb (Rabs (p_metric P (G O) (G O))) tol then (RtoC wp2 * nth n (p_rho P) (RtoC 0))%C
  else (RtoC (wp2 * p_metric P (G ig) (G igp) * nth ig v 0 / (8 * PI)) * nth n (p_rho P) (RtoC 0))%C.
Theorem C78_mode_parameters : forall P q g v e om ig igp, omegas P q g v e = Ok om -> (ig < length g)%nat -> (igp < length g)%nat ->
  exists n, rho_index (g_nx (p_sig P)) (g_ny (p_sig P)) (g_nz (p_sig P)) (p_rhog P) (zsub3 (nth ig g (0, 0, 0)%Z) (nth igp g (0, 0, 0)%Z)) = Ok n /\
  let s := bare_strength P q g v ig igp n in let t := (s / - e ig igp)%C in
  (snd (nth n (p_rho P) (RtoC 0)) <= tol -> tol <= Cmod (e ig igp) -> tol <= Cmod s -> tol <= Cmod t -> tol * Cmod t <= fst t ->
   snd (om ig igp) * fst t = Cmod t * Cmod t /\ fst (om ig igp) = (- e ig igp * RtoC (snd (om ig igp)))%C).
Proof.
  intros P q g v e om ig igp H Hi Hj. unfold omegas in H. apply bind_ok in H as (i0 & _ & H). apply bind_ok in H as (idx & HI & H). apply ok_inj in H.
  apply sequence_ok in HI.
  assert (EN : rho_index (g_nx (p_sig P)) (g_ny (p_sig P)) (g_nz (p_sig P)) (p_rhog P) (zsub3 (nth ig g (0, 0, 0)%Z) (nth igp g (0, 0, 0)%Z)) = Ok (nth ig (nth igp idx []) O)).
  { apply (f_equal (fun l => nth_error l igp)) in HI. rewrite !nth_error_map in HI. rewrite (nth_error_nth' g (0, 0, 0)%Z Hj) in HI. cbn [option_map] in HI.
    destruct (nth_error idx igp) as [row|] eqn:ER; [|discriminate]. cbn [option_map] in HI. apply some_inj in HI. apply sequence_ok in HI. rewrite (nth_error_nth _ _ _ ER).
    apply (f_equal (fun l => nth_error l ig)) in HI. rewrite !nth_error_map in HI. rewrite (nth_error_nth' g (0, 0, 0)%Z Hi) in HI. cbn [option_map] in HI.
    destruct (nth_error row ig) as [n|] eqn:EN; [|discriminate]. cbn [option_map] in HI. apply some_inj in HI. rewrite (nth_error_nth _ _ _ EN). exact HI. }
  exists (nth ig (nth igp idx []) O). split; [exact EN|]. set (n := nth ig (nth igp idx []) O). intros s t H1 H2 H3 H4 H5.
  assert (T0 : 0 < tol) by exact tol_pos.
  assert (PT : 0 < fst t) by nra.
  assert (FE : om ig igp = ((s * ((1%R, (- (snd t / fst t))%R) : C))%C, Cmod t / (fst t / Cmod t))).
  { rewrite <- H. cbv beta. unfold gpp_entry. fold n.
    rewrite (rltb_f tol _ H1). rewrite (rltb_f (Cmod (e ig igp)) tol) by exact H2. unfold gpp_fix.
    match goal with |- context [if (ig =? 0)%nat && rltb ?d tol && (igp =? 0)%nat then ?x else ?y] => replace (if (ig =? 0)%nat && rltb d tol && (igp =? 0)%nat then x else y) with s end.
    2:{ unfold s, bare_strength. destruct (Nat.eqb_spec ig 0) as [->|]; [|reflexivity]. destruct (igp =? 0)%nat; cbn [andb Nat.eqb]; rewrite ?andb_true_r, ?andb_false_r; reflexivity. }
    rewrite (rltb_f (Cmod s) tol) by exact H3. fold t. rewrite (rltb_f (Cmod t) tol) by exact H4.
    rewrite (rltb_f (Rabs (fst t / Cmod t)) tol).
    2:{ rewrite Rabs_right by (apply Rle_ge, Rlt_le, Rdiv_lt_0_compat; lra). apply (Rmult_le_reg_r (Cmod t)); [lra|]. replace (fst t / Cmod t * Cmod t) with (fst t) by (field; lra). exact H5. }
    cbn [snd]. rewrite rltb_f; [reflexivity|]. apply Rlt_le, Rdiv_lt_0_compat; [lra|]. apply Rdiv_lt_0_compat; lra. }
  rewrite FE. cbn [fst snd].
  assert (N : e ig igp <> RtoC 0) by (apply Cmod_pos_neq; lra).
  assert (Q : Cmod t / (fst t / Cmod t) * fst t = Cmod t * Cmod t) by (field; lra).
  split; [exact Q|].
  assert (Es : s = (- e ig igp * t)%C) by (unfold t; field; intros X; apply N; replace (e ig igp) with (- - e ig igp)%C by ring; rewrite X; ring).
  rewrite Es. rewrite <- Cmult_assoc. f_equal.
  assert (M : Cmod t * Cmod t = fst t * fst t + snd t * snd t).
  { unfold Cmod. rewrite sqrt_sqrt; [cbn; ring|]. cbn. nra. }
  replace (Cmod t / (fst t / Cmod t)) with (Cmod t * Cmod t / fst t) by (field; lra). rewrite M. generalize PT. clear. destruct t as [a b]. cbn [fst snd]. intros PT. apply injective_projections; cbn; field; lra.
Qed.
Print Assumptions C78_mode_parameters.

(** What is summed for a q-point: the transfer list (index of -q and map m of the G-vectors), Coulomb factors, eps^-1 - 1, mode parameters,
    the k-points nearest to k-q of the requested ones, and the matrix elements. *)
Definition gpp_data (P : gpp_in) (all : bool) (iq : nat) (d : nat * list nat * list R * list (list C) * (nat -> nat -> C * R) * list nat * list marr) : Prop :=
  let '(im, m, v, e, om, kbs, Ms) := d in let S := p_sig P in
  prepare S iq = Ok (im, m) /\ nth_error (g_v S) iq = Some v /\ nth_error (g_eps S) iq = Some e /\
  omegas P (if (iq =? g_iq0 S)%nat then V 0 0 0 else nth iq (g_q S) (V 0 0 0)) (nth iq (g_gq S) []) v (fun g g' => ent e g' g) = Ok om /\
  Forall2 (fun k kb => bra_of (at_q S im) k = Ok kb) (g_lk S) kbs /\
  matrix_elements S im all = Ok Ms /\ length v = length m /\ length e = length m.
(** Energy difference, in eV, of ket band j of the i-th requested k-point (shifted by dE) and bra band b. *)
Definition energy_difference (P : gpp_in) (kbs : list nat) (dE : nat -> nat -> R) (b i j : nat) : R :=
  let S := p_sig P in let en k n := nth n (w_evl (kp_wfn (nth k (g_kpts S) k0))) 0 in
  p_ryd P * (2 * en (nth i (g_lk S) O) (g_b0 S + j)%nat + dE i j - 2 * en (nth i kbs O) b).
Definition gpp_sum (P : gpp_in) (kernel : R -> C * R -> C -> C) (dE : nat -> nat -> R) (i j : nat)
    (d : nat * list nat * list R * list (list C) * (nat -> nat -> C * R) * list nat * list marr) : C :=
  let '(_, m, v, e, om, kbs, Ms) := d in
  csum (length Ms) (fun b => let M := nth b Ms (fun _ _ => []) i j in
    csum (length m) (fun g => csum (length m) (fun g' =>
      Cconj (nth (nth g m O) M (RtoC 0)) * nth (nth g' m O) M (RtoC 0) * kernel (energy_difference P kbs dE b i j) (om g g') (ent e g' g) * RtoC (nth g' v 0))))%C.
Lemma gpp_q_data P all wt dE iq t : gpp_q P all wt dE iq = Ok t ->
  exists d, gpp_data P all iq d /\ forall i j, (i < length (g_lk (p_sig P)))%nat -> tot t i j = gpp_sum P wt dE i j d.
Proof.
  intros H. unfold gpp_q in H. apply bind_ok in H as ([im m] & P1 & H). apply bind_ok in H as (e & P2 & H). apply bind_ok in H as (v & P3 & H). apply bind_ok in H as (q & P4 & H).
  apply bind_ok in H as (om & P5 & H). apply bind_ok in H as (ps & P6 & H). apply bind_ok in H as (Ms & P7 & H). apply bind_ok in H as (u & P8 & H). apply ok_inj in H. cbn [fst snd] in *.
  apply axis_ok in P8. apply andb_prop in P8 as [P8 P9]. apply Nat.eqb_eq in P8. unfold square_n in P9. apply andb_prop in P9 as [P9 _]. apply Nat.eqb_eq in P9.
  assert (PS : Forall2 (fun k p => fst p = k /\ bra_of (at_q (p_sig P) im) k = Ok (snd p)) (g_lk (p_sig P)) ps).
  { unfold mel_pairs in P6. apply PropsParseInp.sequence_forall2 in P6. clear - P6. induction P6 as [|a p l ps H _ IH]; constructor; [|exact IH].
    apply bind_ok in H as (kb & H1 & H). apply ok_inj in H. subst p. split; [reflexivity|exact H1]. }
  exists (im, m, v, e, om, map snd ps, Ms). split.
  - repeat split; auto; try (now apply item_nth).
    + match type of P5 with omegas _ q _ _ _ = _ => match goal with |- omegas _ ?x _ _ _ = _ => assert (X : q = x); [|rewrite <- X; exact P5] end end. apply item_nth in P4. unfold zeroed in P4. rewrite nth_error_map in P4.
      destruct (nth_error (combine (seq 0 (length (g_q (p_sig P)))) (g_q (p_sig P))) iq) as [[a b]|] eqn:En; [|discriminate]. cbn [option_map fst snd] in P4. apply some_inj in P4.
      assert (Ln : (iq < length (g_q (p_sig P)))%nat).
      { assert (X : (iq < length (combine (seq 0 (length (g_q (p_sig P)))) (g_q (p_sig P))))%nat) by (apply nth_error_Some; congruence). rewrite combine_length, seq_length in X. lia. }
      apply (nth_error_nth _ _ (0%nat, V 0 0 0)) in En. rewrite combine_nth in En by apply seq_length. rewrite seq_nth in En by exact Ln. cbn [Nat.add] in En. injection En as <- <-.
      rewrite <- P4. destruct (iq =? g_iq0 (p_sig P))%nat; [|reflexivity]. destruct (nth iq (g_q (p_sig P)) (V 0 0 0)). unfold vscale. cbn. f_equal; ring.
    + clear - PS. induction PS as [|k p l ps [_ H] _ IH]; constructor; auto.
  - intros i j Hi. subst t. unfold gpp_sum. rewrite <- tot_csum. rewrite map_length, combine_length, seq_length, Nat.min_id. apply csum_ext. intros b Hb.
    set (term := fun bM : nat * marr => _). rewrite (nth_map_lt term (combine (seq 0 (length Ms)) Ms) b (O, fun _ _ => [])) by (rewrite combine_length, seq_length, Nat.min_id; exact Hb).
    rewrite combine_nth by apply seq_length. rewrite seq_nth by exact Hb. cbn [Nat.add]. unfold term, gpp_term. cbn [fst snd]. apply csum_ext. intros g Hg. apply csum_ext. intros g' Hg'. rewrite !pick_nth by assumption.
    replace (wxt P ps dE b i j) with (energy_difference P (map snd ps) dE b i j); [reflexivity|].
    unfold energy_difference, wxt, evl_of. f_equal.
    assert (X : fst (nth i ps (O, O)) = nth i (g_lk (p_sig P)) O /\ snd (nth i ps (O, O)) = nth i (map snd ps) O).
    { clear - PS Hi. revert i Hi. induction PS as [|k p l ps [H1 H2] _ IH]; intros [|i] Hi; cbn in Hi; try lia; cbn; [now split|]. apply IH. lia. }
    destruct X as [-> ->]. rewrite (Nat.add_comm j). ring.
Qed.
(** The plasmon-pole self-energies are these sums: -1 times the prefactor for the screened exchange, over the bands up to the highest occupied one,
    and half of it for the Coulomb hole, over all bands; x is the energy difference and (Omega2, w2) the mode. *)
Theorem C78_self_energy_formula : forall P p y dE, procs_ok p -> let S := p_sig P in
  (forall sig, sigma_sx_gpp p y P dE = Ok sig -> exists ds, Forall2 (gpp_data P false) (seq 0 (length (g_q S))) ds /\
     forall i j, (i < length (g_lk S))%nat -> sig i j = (RtoC (- g_factor S) * qsum ds (gpp_sum P (fun x om e => ssx x (snd om) (fst om) e) dE i j))%C) /\
  (forall sig, sigma_ch_gpp p y P dE = Ok sig -> exists ds, Forall2 (gpp_data P true) (seq 0 (length (g_q S))) ds /\
     forall i j, (i < length (g_lk S))%nat -> sig i j = (RtoC (g_factor S / 2) * qsum ds (gpp_sum P (fun x om e => sch x (snd om) e) dE i j))%C).
Proof.
  intros P p y dE Hp S.
  assert (K : forall all wt m, run p y (RtoC 1) (gpp_q P all wt dE) (length (g_q S)) = Ok m -> exists ds, Forall2 (gpp_data P all) (seq 0 (length (g_q S))) ds /\
     forall i j, (i < length (g_lk S))%nat -> m i j = qsum ds (gpp_sum P wt dE i j)).
  { intros all wt m H. apply run_ok in H as (ts & F & H); [|exact Hp].
    assert (G : exists ds, Forall2 (gpp_data P all) (seq 0 (length (g_q S))) ds /\ forall i j, (i < length (g_lk S))%nat -> qsum ts (fun t => tot t i j) = qsum ds (gpp_sum P wt dE i j)).
    { clear H. induction F as [|iq t l ts Hq F (ds & D & IH)]; [exists []; split; [constructor|reflexivity]|]. apply gpp_q_data in Hq as (d & D1 & D2).
      exists (d :: ds). split; [now constructor|]. intros i j Hi. change (tot t i j + qsum ts (fun t => tot t i j) = gpp_sum P wt dE i j d + qsum ds (gpp_sum P wt dE i j))%C. rewrite D2 by exact Hi. now rewrite IH. }
    destruct G as (ds & D & G). exists ds. split; [exact D|]. intros i j Hi. rewrite H, (G i j Hi). ring. }
  split; intros sig H.
  - unfold sigma_sx_gpp in H. apply bind_ok in H as (m & H & E). apply ok_inj in E. subst sig. apply K in H as (ds & D & H). exists ds. split; [exact D|]. intros i j Hi. unfold scaled. rewrite (H i j Hi), Cmult_comm. fold S. do 2 f_equal. ring.
  - unfold sigma_ch_gpp in H. apply bind_ok in H as (m & H & E). apply ok_inj in E. subst sig. apply K in H as (ds & D & H). exists ds. split; [exact D|]. intros i j Hi. unfold scaled. rewrite (H i j Hi), Cmult_comm. fold S. do 2 f_equal. field.
Qed.
Print Assumptions C78_self_energy_formula.

(** C78: the mode parameters exist exactly when the density file lists every difference G - G' of the sphere (G = 0
    among them); a missing one is a KeyError. *)
Theorem C78_modes_defined : forall P q g v e, g <> [] ->
  let find := rho_index (g_nx (p_sig P)) (g_ny (p_sig P)) (g_nz (p_sig P)) (p_rhog P) in
  ((exists om, omegas P q g v e = Ok om) <-> forall a b, In a g -> In b g -> exists n, find (zsub3 a b) = Ok n)
  /\ (forall x, omegas P q g v e = Err x -> x = KeyError).
Proof.
  intros P q g v e NE find. assert (KE : forall a x, find a = Err x -> x = KeyError).
  { intros a x. unfold find, rho_index. destruct (filter _ _); [congruence|discriminate]. }
  assert (SE : forall (A B : Type) (f : A -> res B) l x, (forall a y, In a l -> f a = Err y -> y = KeyError) -> sequence (map f l) = Err x -> x = KeyError).
  { intros A B f l x. induction l as [|a l IH]; cbn [map sequence]; [discriminate|]. intros H E. destruct (f a) as [y|y] eqn:F; cbn [bind] in E.
    - destruct (sequence (map f l)) as [r|y'] eqn:F'; cbn [bind] in E; [discriminate|]. injection E as <-. apply IH; [|reflexivity]. intros b z Hb. apply H. now right.
    - injection E as <-. apply (H a); [now left|exact F]. }
  assert (SO : forall (A B : Type) (f : A -> res B) l, (exists r, sequence (map f l) = Ok r) <-> forall a, In a l -> exists b, f a = Ok b).
  { intros A B f l. induction l as [|a l IH]; cbn [map sequence]; [split; [intros _ b []|now exists []]|]. split.
    - intros (r & E). destruct (f a) as [y|y] eqn:F; cbn [bind] in E; [|discriminate]. destruct (sequence (map f l)) as [r'|y'] eqn:F'; cbn [bind] in E; [|discriminate].
      intros b [<-|Hb]; [eauto|]. apply (proj1 IH); [eauto|exact Hb].
    - intros H. destruct (H a (or_introl eq_refl)) as (y & ->). destruct (proj2 IH) as (r & ->); [intros b Hb; apply H; now right|]. cbn [bind]. eauto. }
  assert (Z0 : forall a, zsub3 a a = (0, 0, 0)%Z) by (intros [[x y] z]; unfold zsub3; rewrite !Z.sub_diag; reflexivity).
  unfold omegas. fold find. split; [split|].
  - intros (om & H). apply bind_ok in H as (i0 & _ & H). apply bind_ok in H as (idx & HI & _). intros a b Ha Hb.
    destruct (proj1 (SO _ _ _ _) (ex_intro _ idx HI) b Hb) as (r & Hr). exact (proj1 (SO _ _ _ _) (ex_intro _ r Hr) a Ha).
  - intros H. destruct g as [|g0 g']; [congruence|]. destruct (H g0 g0 (or_introl eq_refl) (or_introl eq_refl)) as (n & Hn). rewrite Z0 in Hn. rewrite Hn. cbn [bind].
    destruct (proj2 (SO _ _ (fun gp => sequence (map (fun gv => find (zsub3 gv gp)) (g0 :: g'))) (g0 :: g'))) as (idx & ->); [|cbn [bind]; eauto].
    intros b Hb. apply SO. intros a Ha. now apply H.
  - intros x. destruct (find (0, 0, 0)%Z) as [n|y] eqn:F; cbn [bind]; [|intros E; injection E as <-; now apply (KE (0, 0, 0)%Z)].
    destruct (sequence _) as [idx|y] eqn:F2; cbn [bind]; [discriminate|]. intros E. injection E as <-. revert F2. apply SE.
    intros b y' _. apply SE. intros a y2 _. apply KE.
Qed.
Print Assumptions C78_modes_defined.
