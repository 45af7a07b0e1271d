(** C95: exact static Coulomb hole and the static COHSEX driver. *)
From Coq Require Import Reals Lra Lia.
From Verif Require PropsParseInp PropsPot.
From Verif Require Import Base SortModel LatModel LatProofs GIndexModel GIndexProofs FFTModel FFTSpec FFTProofs FFTProofs2 GwModel GwSpec GwProofs GwProofs2 PropsUpf PropsGw PropsVcoul SigmaModel SigmaProofs PropsSigma PropsSigmaQ GppModel CohsexModel CohsexSpec CohsexProofs CBase.
Open Scope R_scope.

Lemma qsum_seq n f a : qsum (seq a n) f = csum n (fun q => f (a + q)%nat).
Proof.
  revert a. induction n as [|n IH]; intros a; [reflexivity|]. rewrite csum_head. cbn [seq]. change (qsum (a :: seq (S a) n) f) with (f a + qsum (seq (S a) n) f)%C.
  rewrite IH, Nat.add_0_r. f_equal. apply csum_ext. intros q _. f_equal. lia.
Qed.
Lemma exact_q_data S L cutoff q t : exact_q S L cutoff q = Ok t -> exists M,
  (q < length (g_gq S))%nat /\ (q < length (g_eps S))%nat /\ (q < length (g_v S))%nat /\
  let gs := nth q (g_gq S) [] in let n := length gs in
  matrix_elements_sigma_exact S L cutoff (gpmg gs) = Ok M /\ length (nth q (g_v S) []) = n /\ length (nth q (g_eps S) []) = n /\
  t = [fun i j => (csum n (fun k => csum n (fun m => nth (n * k + m) (M i j) (RtoC 0) * SigmaModel.ent (nth q (g_eps S) []) m k * RtoC (nth m (nth q (g_v S) []) 0)))
                  / RtoC (INR (g_nx S * g_ny S * g_nz S)))%C].
Proof.
  unfold exact_q. intros H. apply bind_ok in H as (g & Hg & H). apply bind_ok in H as (e & He & H). apply bind_ok in H as (v & Hv & H). apply bind_ok in H as (M & HM & H). apply bind_ok in H as (u & HA & H). apply ok_inj in H.
  apply item_nth in Hg, He, Hv. apply axis_ok in HA. apply andb_true_iff in HA as [A1 A2]. apply Nat.eqb_eq in A1. unfold square_n in A2. apply andb_true_iff in A2 as [A2 _]. apply Nat.eqb_eq in A2.
  exists M. split; [apply nth_error_Some; congruence|]. split; [apply nth_error_Some; congruence|]. split; [apply nth_error_Some; congruence|].
  cbv zeta. rewrite (nth_error_nth _ _ [] Hg), (nth_error_nth _ _ [] He), (nth_error_nth _ _ [] Hv). split; [exact HM|]. split; [exact A1|]. split; [exact A2|]. now subst t.
Qed.
Lemma exact_sum p S L cutoff sig : procs_ok p -> sigma_ch_static_exact p S L cutoff = Ok sig ->
  exists T, (forall q, (q < length (g_q S))%nat -> exact_q S L cutoff q = Ok [T q]) /\
  forall i j, sig i j = (RtoC (g_factor S / 2) * csum (length (g_q S)) (fun q => T q i j))%C.
Proof.
  intros Hp H. unfold sigma_ch_static_exact in H. apply bind_ok in H as (m & H & E). apply ok_inj in E. subst sig.
  apply run_ok in H as (ts & F & H); [|exact Hp].
  assert (K : exists Ts, ts = map (fun T => [T]) Ts).
  { clear - F. induction F as [|q t l ts Hq F (Ts & ->)]; [now exists []|]. apply exact_q_data in Hq as (M & _ & _ & _ & _ & _ & _ & ->). eexists (_ :: Ts). reflexivity. }
  destruct K as (Ts & ->).
  assert (LT : length Ts = length (g_q S)).
  { clear - F. assert (X : length (seq 0 (length (g_q S))) = length (map (fun T : cmat => [T]) Ts)) by (clear - F; induction F; cbn; congruence). rewrite seq_length, map_length in X. now symmetry. }
  exists (fun q => nth q Ts (fun _ _ => RtoC 0)). split.
  - intros q Hq. assert (X : forall a n ts, Forall2 (fun i t => exact_q S L cutoff i = Ok t) (seq a n) ts -> forall q, (q < n)%nat -> exact_q S L cutoff (a + q) = Ok (nth q ts [])).
    { clear. intros a n. revert a. induction n as [|n IH]; intros a ts F q Hq; [lia|]. cbn [seq] in F. inversion F as [|? t ? ts' Ha Ft]; subst. destruct q as [|q]; [now rewrite Nat.add_0_r|].
      replace (a + Datatypes.S q)%nat with (Datatypes.S a + q)%nat by lia. cbn [nth]. apply IH; [exact Ft|lia]. }
    specialize (X _ _ _ F q Hq). cbn [Nat.add] in X. rewrite X. f_equal. apply (nth_map_lt (fun T : cmat => [T]) Ts q (fun _ _ => RtoC 0)). lia.
  - intros i j. unfold scaled. rewrite H, Cmult_1_l, Cmult_comm. f_equal; [f_equal; field|]. rewrite qsum_map.
    transitivity (qsum Ts (fun T => T i j)). { apply qsum_ext. intros T _. unfold tot. cbn. ring. }
    rewrite <- LT. clear. induction Ts as [|T Ts IH]; [reflexivity|]. cbn [length]. rewrite csum_head. cbn [nth]. rewrite <- IH. reflexivity.
Qed.

(** The result does not depend on the number of processes. *)
Theorem C95_schedule_independent : forall S L cutoff p p', procs_ok p -> procs_ok p' ->
  agree (sigma_ch_static_exact p S L cutoff) (sigma_ch_static_exact p' S L cutoff).
Proof.
  intros S L cutoff p p' H H'. unfold sigma_ch_static_exact. apply agree_scaled. apply (agree_trans _ _ _ (run_sum p true _ _ _ H)). apply agree_sym. now apply run_sum.
Qed.
Print Assumptions C95_schedule_independent.

(** The value for the k-point in position [i] of the list and the band in position [j]: half the prefactor times the sum over q, G, G' of
    the density component G' - G of band number [j] (counted from the LOWEST band) times (eps^-1 - 1)(G', G) v(q + G'), differences longer
    than the dielectric cutoff being left out. *)
Theorem C95_exact_formula : forall S P L cutoff p sig i j gs,
  procs_ok p -> mk_lattice P = Ok L -> sigma_ch_static_exact p S L cutoff = Ok sig ->
  NoDup (g_lk S) -> (i < length (g_lk S))%nat -> (j < g_nket S)%nat ->
  let k := nth i (g_lk S) O in let w := kp_wfn (nth k (g_kpts S) k0) in
  (k < length (g_q S))%nat -> alone (g_kpts S) (length (g_q S)) k ->
  gspace_base (Z.of_nat (g_nx S), Z.of_nat (g_ny S), Z.of_nat (g_nz S)) gs = Ok (w_gk w) -> length (nth j (w_evc w) []) = length (gs_cryst (w_gk w)) ->
  sig i j = (RtoC (g_factor S / 2) * csum (length (g_q S)) (fun q =>
     hole P cutoff (nth q (g_gq S) []) (nth q (g_v S) []) (nth q (g_eps S) [])
       (component (g_nx S) (g_ny S) (g_nz S) (gs_cryst (w_gk w)) (nth j (w_evc w) []))))%C.
Proof.
  intros S P L cutoff p sig i j gs Hp HP H ND Hi Hj k w Hk HA HG HL. apply exact_sum in H as (T & HT & ->); [|exact Hp]. f_equal. apply csum_ext. intros q Hq.
  specialize (HT q Hq). apply exact_q_data in HT as (M & _ & _ & _ & HM & Lv & Le & ET). injection ET as ->. set (g := nth q (g_gq S) []) in *.
  unfold matrix_elements_sigma_exact in HM. apply bind_ok in HM as (M0 & HM & EM). apply ok_inj in EM. subst M.
  apply (loop_row S (gpmg g) i j ND Hi) in HM as (idx & HI & _ & EM); [|exact Hk|exact HA|apply in_prod_iff; split; apply in_seq; lia].
  fold k w in EM. set (N := (g_nx S * g_ny S * g_nz S)%nat).
  assert (NZ : RtoC (INR N) <> RtoC 0).
  { destruct (exact_idx_inv _ _ _ HI) as (P1 & P2 & P3 & _). intros X. apply (f_equal fst) in X. cbn in X. assert (0 < N)%nat by (unfold N; nia). apply lt_INR in H. cbn in H. lra. }
  unfold hole, Cdiv. rewrite <- csum_scal_r. apply csum_ext. intros a Ha. rewrite <- csum_scal_r. apply csum_ext. intros b Hb. cbv zeta.
  rewrite (cut_row_nth P L cutoff (gpmg g)); [|exact HP|rewrite EM; now apply pair_row_length|rewrite gpmg_length; now apply gpmg_bound].
  rewrite gpmg_nth by assumption. destruct (Rle_dec (len2 P (gminus (nth b g o3) (nth a g o3))) cutoff); [|ring].
  rewrite EM, (pair_row_component S (gpmg g) idx w j gs) by (try assumption; rewrite gpmg_length; now apply gpmg_bound).
  rewrite gpmg_nth by assumption. fold N. unfold SigmaModel.ent. field. exact NZ.
Qed.
Print Assumptions C95_exact_formula.

(** REFUTED: the value belongs to the band asked for.  The lowest requested band does not enter at all: with band_index_min > 1 the rows
    are those of the lowest bands. *)
Definition with_first_band (S : sigma_obj) (b : nat) : sigma_obj :=
  MkSig (g_nx S) (g_ny S) (g_nz S) (g_kpts S) (g_lk S) (g_nbands S) b (g_nket S) (g_q S) (g_isq0 S) (g_iq0 S) (g_gq S) (g_v S) (g_eps S) (g_factor S).
Theorem C95_first_band_ignored_refuted : forall S L cutoff p b,
  sigma_ch_static_exact p (with_first_band S b) L cutoff = sigma_ch_static_exact p S L cutoff.
Proof. reflexivity. Qed.
Print Assumptions C95_first_band_ignored_refuted.

(** REFUTED: every listed k-point gets its value.  Only k-points whose number is below the number of q-points are filled in; the other
    rows are zero, and a list of k-points shorter than the list of q-points makes the call fail. *)
Theorem C95_later_kpoints_refuted : forall S L cutoff p sig, procs_ok p -> sigma_ch_static_exact p S L cutoff = Ok sig -> NoDup (g_lk S) ->
  (forall i j, (i < length (g_lk S))%nat -> (length (g_q S) <= nth i (g_lk S) O)%nat -> sig i j = RtoC 0) /\
  (forall k, In k (g_lk S) -> (k < length (g_q S))%nat -> (0 < g_nket S)%nat -> (length (g_q S) <= length (g_kpts S))%nat).
Proof.
  intros S L cutoff p sig Hp H ND. apply exact_sum in H as (T & HT & H); [|exact Hp]. split.
  - intros i j Hi Hk. rewrite H. rewrite csum_zero; [ring|]. intros q Hq. specialize (HT q Hq). apply exact_q_data in HT as (M & _ & _ & _ & HM & _ & _ & ET). injection ET as ->.
    unfold matrix_elements_sigma_exact in HM. apply bind_ok in HM as (M0 & HM & EM). apply ok_inj in EM. subst M.
    apply (loop_none S _ i j) in HM; [|intros I; apply in_prod_iff in I as [I _]; apply in_seq in I; lia].
    rewrite HM. unfold Cdiv. rewrite csum_zero; [ring|]. intros a Ha. apply csum_zero. intros b Hb.
    replace (nth _ (cut_row _ _ _ _) (RtoC 0)) with (RtoC 0); [ring|]. symmetry. unfold cut_row.
    match goal with |- nth ?t ?l _ = _ => destruct (nth_in_or_default t l (RtoC 0)) as [I|I]; [|exact I]; apply in_map_iff in I as ([g c] & <- & I) end.
    apply in_combine_r in I. apply in_map_iff in I as (? & <- & _). cbn [fst snd]. now destruct (Rlt_dec _ _).
  - intros k Hin Hk Hn. specialize (HT 0%nat ltac:(lia)). apply exact_q_data in HT as (M & _ & _ & _ & HM & _).
    unfold matrix_elements_sigma_exact in HM. apply bind_ok in HM as (M0 & HM & _). set (lg := gpmg _) in *. clearbody lg.
    assert (I : In (k, 0%nat) (list_prod (seq 0 (length (g_q S))) (seq 0 (g_nket S)))) by (apply in_prod_iff; split; apply in_seq; lia).
    revert HM I. generalize (fun _ _ : nat => map (fun _ : vec3 => RtoC 0) lg). generalize (list_prod (seq 0 (length (g_q S))) (seq 0 (g_nket S))). intros l.
    induction l as [|x l IH]; intros m HM I; [destruct I|]. cbn [fold_res] in HM. apply bind_ok in HM as (m1 & H1 & HM). destruct I as [->|I]; [|now apply (IH m1)].
    unfold exact_step in H1. replace (existsb (Nat.eqb k) (g_lk S)) with true in H1 by (symmetry; now apply existsb_In).
    apply bind_ok in H1 as (kp_ & _ & H1). apply bind_ok in H1 as (u & _ & H1). apply bind_ok in H1 as (idx & _ & H1). apply bind_ok in H1 as (ks & HS & _).
    unfold same_k in HS. apply bind_ok in HS as (l' & HS & _). now apply (items_seq _ _ _ k0) in HS as [HS _].
Qed.
Print Assumptions C95_later_kpoints_refuted.

(** ---- real-space form ---- *)
Lemma exact_real_space S P L cutoff q T i j gs : exact_q S L cutoff q = Ok [T] -> mk_lattice P = Ok L ->
  NoDup (g_lk S) -> (i < length (g_lk S))%nat -> (j < g_nket S)%nat ->
  let k := nth i (g_lk S) O in let w := kp_wfn (nth k (g_kpts S) k0) in
  (k < length (g_q S))%nat -> alone (g_kpts S) (length (g_q S)) k ->
  gspace_base (Z.of_nat (g_nx S), Z.of_nat (g_ny S), Z.of_nat (g_nz S)) gs = Ok (w_gk w) -> length (nth j (w_evc w) []) = length (gs_cryst (w_gk w)) ->
  let g := nth q (g_gq S) [] in let n := length g in let N := (g_nx S * g_ny S * g_nz S)%nat in
  (forall a b, In a g -> In b g -> len2 P (gminus b a) <= cutoff) ->
  length (nth q (g_v S) []) = n /\ (0 < N)%nat /\
  T i j = (/ RtoC (INR N) * csum N (fun r => let f := wvf (g_nx S) (g_ny S) (g_nz S) (gs_cryst (w_gk w)) (nth j (w_evc w) []) r in
     Cconj f * f * quad n (wmat (nth q (g_v S) []) (nth q (g_eps S) [])) (fun a => pwf (g_nx S) (g_ny S) (g_nz S) (nth a g o3) r)))%C.
Proof.
  intros HT HP ND Hi Hj k w Hk HA HG HL g n N HC.
  apply exact_q_data in HT as (M & _ & _ & _ & HM & Lv & Le & ET). injection ET as ->. fold g in HM, Lv, Le |- *. fold n in HM, Lv, Le |- *.
  unfold matrix_elements_sigma_exact in HM. apply bind_ok in HM as (M0 & HM & EM). apply ok_inj in EM. subst M.
  apply (loop_row S (gpmg g) i j ND Hi) in HM as (idx & HI & _ & EM); [|exact Hk|exact HA|apply in_prod_iff; split; apply in_seq; lia].
  fold k w in EM. split; [exact Lv|]. split; [destruct (exact_idx_inv _ _ _ HI) as (P1 & P2 & P3 & _); unfold N; nia|].
  unfold Cdiv. fold N. rewrite Cmult_comm. f_equal.
  transitivity (csum n (fun a => csum n (fun b => csum N (fun r => let f := wvf (g_nx S) (g_ny S) (g_nz S) (gs_cryst (w_gk w)) (nth j (w_evc w) []) r in
     Cconj f * f * (Cconj (pwf (g_nx S) (g_ny S) (g_nz S) (nth b g o3) r) * wmat (nth q (g_v S) []) (nth q (g_eps S) []) b a * pwf (g_nx S) (g_ny S) (g_nz S) (nth a g o3) r))%C))).
  - apply csum_ext. intros a Ha. apply csum_ext. intros b Hb.
    rewrite (cut_row_nth P L cutoff (gpmg g)); [|exact HP|rewrite EM; now apply pair_row_length|rewrite gpmg_length; now apply gpmg_bound].
    unfold n in Ha, Hb |- *. rewrite gpmg_nth by assumption.
    destruct (Rle_dec (len2 P (gminus (nth b g o3) (nth a g o3))) cutoff) as [_|X]; [|exfalso; apply X; apply HC; now apply nth_In].
    rewrite EM, (pair_row_nth S (gpmg g) idx w j gs) by (try assumption; rewrite gpmg_length; now apply gpmg_bound).
    rewrite gpmg_nth by assumption. rewrite <- !csum_scal_r. apply csum_ext. intros r _. cbv zeta. unfold SigmaModel.ent, wmat.
    replace (pwf (g_nx S) (g_ny S) (g_nz S) (gminus (nth b g o3) (nth a g o3)) r)
      with (pwf (g_nx S) (g_ny S) (g_nz S) (nth b g o3) r * Cconj (pwf (g_nx S) (g_ny S) (g_nz S) (nth a g o3) r))%C.
    2:{ rewrite pwf_conj, pwf_prod. f_equal. destruct (nth b g o3) as [[? ?] ?], (nth a g o3) as [[? ?] ?]. reflexivity. }
    generalize (pwf (g_nx S) (g_ny S) (g_nz S) (nth b g o3) r) (pwf (g_nx S) (g_ny S) (g_nz S) (nth a g o3) r). intros c1_ c2_.
    replace (Cconj (c1_ * Cconj c2_)%C) with (Cconj c1_ * c2_)%C by (destruct c1_, c2_; apply C_ext; cbn; ring). ring.
  - rewrite (csum_ext n _ (fun a => csum N (fun r => csum n (fun b => let f := wvf (g_nx S) (g_ny S) (g_nz S) (gs_cryst (w_gk w)) (nth j (w_evc w) []) r in
       Cconj f * f * (Cconj (pwf (g_nx S) (g_ny S) (g_nz S) (nth b g o3) r) * wmat (nth q (g_v S) []) (nth q (g_eps S) []) b a * pwf (g_nx S) (g_ny S) (g_nz S) (nth a g o3) r))%C))) by (intros a _; apply csum_swap).
    rewrite csum_swap. apply csum_ext. intros r _. cbv zeta. unfold quad. rewrite csum_swap. rewrite <- csum_scal. apply csum_ext. intros b _. rewrite <- csum_scal. apply csum_ext. intros a _. reflexivity.
Qed.

(** With a Hermitian, negative semi-definite screening, and no difference of two vectors cut off, the exact Coulomb hole lowers every level:
    it is real and not positive. *)
Theorem C95_exact_sign : forall S P L cutoff p sig i j gs,
  procs_ok p -> mk_lattice P = Ok L -> sigma_ch_static_exact p S L cutoff = Ok sig ->
  NoDup (g_lk S) -> (i < length (g_lk S))%nat -> (j < g_nket S)%nat ->
  let k := nth i (g_lk S) O in let w := kp_wfn (nth k (g_kpts S) k0) in
  (k < length (g_q S))%nat -> alone (g_kpts S) (length (g_q S)) k ->
  gspace_base (Z.of_nat (g_nx S), Z.of_nat (g_ny S), Z.of_nat (g_nz S)) gs = Ok (w_gk w) -> length (nth j (w_evc w) []) = length (gs_cryst (w_gk w)) ->
  0 <= g_factor S -> screening S ->
  (forall q a b, (q < length (g_q S))%nat -> In a (nth q (g_gq S) []) -> In b (nth q (g_gq S) []) -> len2 P (gminus b a) <= cutoff) ->
  exists x, sig i j = RtoC x /\ x <= 0.
Proof.
  intros S P L cutoff p sig i j gs Hp HP H ND Hi Hj k w Hk HA HG HL Hf HW HC. apply exact_sum in H as (T & HT & H); [|exact Hp].
  assert (Q : forall q, (q < length (g_q S))%nat -> exists x, T q i j = RtoC x /\ x <= 0).
  { intros q Hq. pose proof (HT q Hq) as Hx. pose proof Hx as Hd. apply exact_q_data in Hd as (_ & _ & De & Dv & _).
    destruct (exact_real_space S P L cutoff q (T q) i j gs Hx HP ND Hi Hj Hk HA HG HL (fun a b => HC q a b Hq)) as (Lv & PN & E). fold k w in E. rewrite E.
    set (N := (g_nx S * g_ny S * g_nz S)%nat) in *. set (g := nth q (g_gq S) []) in *.
    destruct (HW q _ _ (nth_error_nth' _ [] Dv) (nth_error_nth' _ [] De)) as [Hh Hn]. rewrite Lv in Hh, Hn.
    set (A := wmat (nth q (g_v S) []) (nth q (g_eps S) [])) in *. set (f := wvf (g_nx S) (g_ny S) (g_nz S) (gs_cryst (w_gk w)) (nth j (w_evc w) [])).
    set (X := fun r => quad (length g) A (fun a => pwf (g_nx S) (g_ny S) (g_nz S) (nth a g o3) r)).
    exists (/ INR N * rsum N (fun r => (fst (f r) * fst (f r) + snd (f r) * snd (f r)) * fst (X r))). split.
    - rewrite RtoC_mult, <- RtoC_inv by (apply not_0_INR; lia). f_equal. rewrite <- csum_RtoC. apply csum_ext. intros r Hr. cbv zeta. fold (f r) (X r).
      assert (I : snd (X r) = 0) by (apply quad_real; exact Hh). destruct (X r) as [a b]. cbn [fst snd] in I |- *. subst b. destruct (f r) as [u v]. apply C_ext; cbn; ring.
    - assert (0 < / INR N) by (apply Rinv_0_lt_compat, lt_0_INR; exact PN).
      assert (rsum N (fun r => (fst (f r) * fst (f r) + snd (f r) * snd (f r)) * fst (X r)) <= rsum N (fun _ => 0)).
      { apply rsum_le. intros r Hr. assert (fst (X r) <= 0) by apply Hn. assert (0 <= fst (f r) * fst (f r) + snd (f r) * snd (f r)) by nra. nra. }
      assert (Z0 : rsum N (fun _ => 0) = 0) by (clear; induction N as [|N IH]; cbn; [reflexivity|rewrite IH; ring]). rewrite Z0 in H1. nra. }
  assert (Q' : exists F, forall q, (q < length (g_q S))%nat -> T q i j = RtoC (F q) /\ F q <= 0).
  { exists (fun q => fst (T q i j)). intros q Hq. destruct (Q q Hq) as (x & E & Hx). rewrite E. now split. }
  destruct Q' as (F & HF). exists (g_factor S / 2 * rsum (length (g_q S)) F). split.
  - rewrite H, RtoC_mult, <- csum_RtoC. f_equal. apply csum_ext. intros q Hq. now apply HF.
  - assert (rsum (length (g_q S)) F <= rsum (length (g_q S)) (fun _ => 0)) by (apply rsum_le; intros q Hq; now apply HF).
    assert (Z0 : forall n, rsum n (fun _ => 0) = 0) by (clear; induction n as [|n IH]; cbn; [reflexivity|rewrite IH; ring]). rewrite Z0 in H0. nra.
Qed.
Print Assumptions C95_exact_sign.

(** ---- the partial sum in the limit of complete bands ---- *)
Lemma mel_flat E kb bb kk bk M gsk gsb : mel E kb bb kk bk = Ok M ->
  let wk := kp_wfn (kp E kk) in let wb := wfn_v E kb in
  gspace_base (e_shape E) gsk = Ok (w_gk wk) -> gspace_base (e_shape E) gsb = Ok (w_gk wb) ->
  length (nth bk (w_evc wk) []) = length (gs_cryst (w_gk wk)) -> length (nth bb (w_evc wb) []) = length (gs_cryst (w_gk wb)) ->
  let N := (e_nx E * e_ny E * e_nz E)%nat in
  forall g, (g < length (e_gq E))%nat -> nth g M (RtoC 0) =
   (/ RtoC (INR N) * csum N (fun r => Cconj (wvf (e_nx E) (e_ny E) (e_nz E) (gs_cryst (w_gk wk)) (nth bk (w_evc wk) []) r)
      * wvf (e_nx E) (e_ny E) (e_nz E) (gs_cryst (w_gk wb)) (nth bb (w_evc wb) []) r
      * Cconj (pwf (e_nx E) (e_ny E) (e_nz E) (gminus (nth g (e_gq E) o3) (umklapp E (kp_cryst (kp E kk)))) r)))%C.
Proof.
  intros H wk wb HGk HGb HLk HLb N g Hg. unfold mel in H. destruct (driver_idx E kk) as [idx|] eqn:HD; [|discriminate]. cbn [bind] in H.
  apply bind_ok in H as (? & _ & H). apply bind_ok in H as (? & _ & H). apply ok_inj in H. subst M. fold wk wb N.
  unfold driver_idx in HD. set (u := umklapp E (kp_cryst (kp E kk))) in *. set (gs := map (fun g => zsub3 g u) (e_gq E)) in *.
  destruct (cryst2idxgrid (e_shape E) gs) as [idx0|] eqn:HI; [|discriminate]. cbn [bind] in HD.
  destruct (check_g_idxgrid (e_shape E) idx0); [|discriminate]. cbn [bind] in HD. injection HD as <-.
  destruct (driver_inv _ _ _ _ _ HI) as (P1 & P2 & P3 & -> & HO).
  assert (PN : (0 < N)%nat) by (unfold N; nia). assert (NZ : INR N <> 0) by (apply not_0_INR; lia).
  assert (Lg : (g < length gs)%nat) by (unfold gs; rewrite map_length; exact Hg).
  rewrite (nth_map_lt _ _ g (RtoC 0)).
  2:{ change (full_r2g ?o ?v) with (full_call o (R2G v)). rewrite fftE_fun. cbn [full_fun]. unfold taken. rewrite !map_length. exact Lg. }
  change (full_r2g ?o ?v) with (full_call o (R2G v)). rewrite fftE_fun, r2g_flat by assumption. fold N.
  rewrite <- !csum_scal. apply csum_ext. intros r Hr.
  rewrite combine_nth_map by (rewrite !map_length, ?phi_length; try easy). cbn [fst snd].
  rewrite !(nth_map_lt (fun z : C => (z / RtoC (INR N))%C) _ r (RtoC 0)) by (rewrite phi_length; exact Hr).
  rewrite (phi_flat E wk bk gsk r HGk HLk Hr), (phi_flat E wb bb gsb r HGb HLb Hr).
  replace (nth g gs o3) with (gminus (nth g (e_gq E) o3) u).
  2:{ unfold gs. rewrite (nth_map_lt (fun g => zsub3 g u) (e_gq E) g o3) by exact Hg. reflexivity. }
  set (fa := wvf _ _ _ (gs_cryst (w_gk wk)) _ r). set (fb := wvf _ _ _ (gs_cryst (w_gk wb)) _ r). set (fc := pwf _ _ _ _ r). unfold Cdiv.
  replace (Cconj (fa * / RtoC (INR N))%C) with (Cconj fa * / RtoC (INR N))%C.
  - field. intros X. apply NZ. now apply (f_equal fst) in X.
  - rewrite <- RtoC_inv by exact NZ. destruct fa. apply C_ext; cbn; ring.
Qed.
Lemma complete_flat nx ny nz gs evc nb r r' : complete nx ny nz gs evc nb -> (r < nx * ny * nz)%nat -> (r' < nx * ny * nz)%nat ->
  csum nb (fun b => Cconj (wvf nx ny nz gs (nth b evc []) r) * wvf nx ny nz gs (nth b evc []) r')%C = if (r =? r')%nat then RtoC (INR (nx * ny * nz)) else RtoC 0.
Proof.
  intros HC Hr Hr'. destruct (flat_decomp _ _ _ _ Hr) as (X1 & X2 & X3 & E). destruct (flat_decomp _ _ _ _ Hr') as (Y1 & Y2 & Y3 & E').
  unfold wvf. rewrite (HC _ _ _ _ _ _ X1 X2 X3 Y1 Y2 Y3). destruct (Nat.eqb_spec r r') as [->|N]; [now rewrite !Nat.eqb_refl|].
  destruct (Nat.eqb_spec (r / (ny * nz)) (r' / (ny * nz))) as [A|]; [|reflexivity]. destruct (Nat.eqb_spec ((r / nz) mod ny) ((r' / nz) mod ny)) as [B|]; [|reflexivity].
  destruct (Nat.eqb_spec (r mod nz) (r' mod nz)) as [D|]; [|reflexivity]. exfalso. apply N. rewrite <- E, <- E', A, B, D. reflexivity.
Qed.
(** Resolution of the identity between two plane waves. *)
Lemma closure N nb (f : nat -> C) (B : nat -> nat -> C) (s t : nat -> C) : (0 < N)%nat ->
  (forall r r', (r < N)%nat -> (r' < N)%nat -> csum nb (fun b => Cconj (B b r) * B b r')%C = if (r =? r')%nat then RtoC (INR N) else RtoC 0) ->
  csum nb (fun b => Cconj (/ RtoC (INR N) * csum N (fun r => Cconj (f r) * B b r * Cconj (s r))) * (/ RtoC (INR N) * csum N (fun r => Cconj (f r) * B b r * Cconj (t r))))%C
  = (/ RtoC (INR N) * csum N (fun r => Cconj (f r) * f r * (s r * Cconj (t r))))%C.
Proof.
  intros PN HC. assert (NZ : INR N <> 0) by (apply not_0_INR; lia). assert (NC : RtoC (INR N) <> RtoC 0) by (intros X; apply NZ; now apply (f_equal fst) in X).
  rewrite <- RtoC_inv by exact NZ. set (c := RtoC (/ INR N)).
  transitivity (c * c * csum nb (fun b => csum N (fun r => csum N (fun r' => f r * s r * Cconj (f r') * Cconj (t r') * (Cconj (B b r) * B b r')))))%C.
  { rewrite <- csum_scal. apply csum_ext. intros b _. rewrite (csum_ext N (fun r => csum N _) (fun r => (f r * s r * Cconj (B b r)) * csum N (fun r' => Cconj (f r') * B b r' * Cconj (t r')))%C).
    - rewrite csum_scal_r. replace (Cconj (c * csum N (fun r => Cconj (f r) * B b r * Cconj (s r)))%C) with (c * csum N (fun r => f r * s r * Cconj (B b r)))%C; [ring|].
      rewrite (csum_ext N (fun r => f r * s r * Cconj (B b r))%C (fun r => Cconj (Cconj (f r) * B b r * Cconj (s r))%C)).
      + rewrite <- csum_conj. unfold c. match goal with |- context [csum N ?h] => generalize (csum N h) end. intros z. destruct z. apply C_ext; cbn; ring.
      + intros r _. destruct (f r), (s r), (B b r). apply C_ext; cbn; ring.
    - intros r _. rewrite <- csum_scal. apply csum_ext. intros r' _. ring. }
  rewrite csum_swap. rewrite (csum_ext N _ (fun r => RtoC (INR N) * (Cconj (f r) * f r * (s r * Cconj (t r))))%C).
  - rewrite csum_scal. unfold c. rewrite RtoC_inv by exact NZ. field. exact NC.
  - intros r Hr. rewrite csum_swap. rewrite (csum_delta N r).
    + rewrite csum_scal, HC by assumption. rewrite Nat.eqb_refl. ring.
    + exact Hr.
    + intros r' Hr' Hne. rewrite csum_scal, HC by assumption. destruct (Nat.eqb_spec r r'); [congruence|]. ring.
Qed.

(** The set of bands at every k-point is well formed and complete on the grid. *)
Definition complete_sets (S : sigma_obj) : Prop := forall k w, In k (g_kpts S) -> w = kp_wfn k \/ w = kp_wfnq k ->
  (exists gs, gspace_base (Z.of_nat (g_nx S), Z.of_nat (g_ny S), Z.of_nat (g_nz S)) gs = Ok (w_gk w)) /\
  (forall b, (b < g_nbands S)%nat -> length (nth b (w_evc w) []) = length (gs_cryst (w_gk w))) /\
  complete (g_nx S) (g_ny S) (g_nz S) (gs_cryst (w_gk w)) (w_evc w) (g_nbands S).
(** -q is an entry of the list up to a lattice vector, and the lists of G-vectors are complete spheres around -q and q (q0 counting as 0). *)
Definition minus_q_present (S : sigma_obj) : Prop :=
  exists flags size cut, g_isq0 S = Some flags /\ (forall n, nth n flags false = (n =? g_iq0 S)%nat) /\ (forall v, size (vopp v) = size v) /\
  let q n := if (n =? g_iq0 S)%nat then V 0 0 0 else nth n (g_q S) (V 0 0 0) in
  forall i im m, prepare S i = Ok (im, m) ->
    is_integer (vx (q i) + vx (q im)) /\ is_integer (vy (q i) + vy (q im)) /\ is_integer (vz (q i) + vz (q im)) /\
    sphere size cut (q i) (nth i (g_gq S) []) /\ sphere size cut (q im) (nth im (g_gq S) []).

(** The Coulomb hole summed over bands (sigma_ch_static) converges to the exact one: as soon as the bands are complete on the FFT grid
    both are equal, level by level, for bands counted from the lowest. *)
Theorem C95_complete_bands : forall S P L cutoff p p' y ch che i j,
  procs_ok p -> procs_ok p' -> mk_lattice P = Ok L ->
  sigma_ch_static p y S = Ok ch -> sigma_ch_static_exact p' S L cutoff = Ok che ->
  g_b0 S = 0%nat -> (g_nket S <= g_nbands S)%nat -> complete_sets S -> minus_q_present S ->
  (forall q a b, (q < length (g_q S))%nat -> In a (nth q (g_gq S) []) -> In b (nth q (g_gq S) []) -> len2 P (gminus b a) <= cutoff) ->
  NoDup (g_lk S) -> (i < length (g_lk S))%nat -> (j < g_nket S)%nat ->
  (nth i (g_lk S) O < length (g_q S))%nat -> alone (g_kpts S) (length (g_q S)) (nth i (g_lk S) O) ->
  ch i j = che i j.
Proof.
  intros S P L cutoff p p' y ch che i j Hp Hp' HP Hch Hche HB HN HCS HMQ HC ND Hi Hj Hk HA.
  set (k := nth i (g_lk S) O) in *. pose proof (proj2 (C95_later_kpoints_refuted S L cutoff p' che Hp' Hche ND) k (nth_In _ _ Hi) Hk ltac:(lia)) as Hlen.
  assert (Hkk : (k < length (g_kpts S))%nat) by lia. assert (Ik : In (nth k (g_kpts S) k0) (g_kpts S)) by now apply nth_In.
  set (wk := kp_wfn (nth k (g_kpts S) k0)). destruct (HCS _ wk Ik (or_introl eq_refl)) as ((gsk & HGk) & HLk & _). specialize (HLk j ltac:(lia)).
  apply exact_sum in Hche as (T & HT & ->); [|exact Hp'].
  destruct (proj2 (C76_screened_formula S p y Hp) ch Hch) as (ds & HD & ->). f_equal. unfold screened_sum.
  assert (SQ : forall l ds (f : _ -> C) (h : nat -> C), Forall2 (screened_data S true) l ds -> (forall q d, In q l -> screened_data S true q d -> f d = h q) -> qsum ds f = qsum l h).
  { clear. intros l ds f h F. induction F as [|q d l ds Hd F IH]; intros H; [reflexivity|]. change (f d + qsum ds f = h q + qsum l h)%C. rewrite (H q d) by (try (now left); exact Hd). rewrite IH; [reflexivity|]. intros; apply H; [now right|assumption]. }
  rewrite (SQ _ _ _ (fun q => T q i j) HD).
  { rewrite qsum_seq. apply csum_ext. reflexivity. }
  clear SQ HD ds Hch. intros q [[[[im m] v] e] Ms] Hq D. apply in_seq in Hq. destruct D as (D1 & D2 & D3 & D4 & D5 & D6 & D7).
  assert (Hq' : (q < length (g_q S))%nat) by lia. specialize (HT q Hq').
  destruct (exact_real_space S P L cutoff q (T q) i j gsk HT HP ND Hi Hj Hk HA HGk HLk (fun a b => HC q a b Hq')) as (Lv & PN & E). fold k wk in E. rewrite E. clear E HT.
  rewrite (nth_error_nth _ _ [] D2) in *. rewrite (nth_error_nth _ _ [] D3).
  set (N := (g_nx S * g_ny S * g_nz S)%nat) in *. set (g := nth q (g_gq S) []) in *.
  destruct HMQ as (flags & size & cut & F1 & F2 & F3 & F4). cbv zeta in F4. destruct (F4 q im m D1) as (I1 & I2 & I3 & S1 & S2).
  destruct (C77_transfer_is_minus_q S q im m size cut flags D1 F1 F2 F3 I1 I2 I3 S1 S2) as (Lm & Pm & Tr). fold g in Lm, Tr. set (E := at_q S im) in *.
  (* bra *)
  assert (LMs : length Ms = g_nbands S).
  { unfold matrix_elements in D4. apply bind_ok in D4 as (nv & _ & D4). apply bind_ok in D4 as (cb & _ & D4). apply bind_ok in D4 as (ps & _ & D4). apply sequence_length in D4. now rewrite map_length, seq_length in D4. }
  set (zero := (fun _ _ => []) : marr).
  assert (BR : exists kb, bra_of E k = Ok kb /\ forall b, (b < g_nbands S)%nat -> mel E kb b k j = Ok (nth b Ms zero i j)).
  { destruct (C77_element_labels S im true Ms i j 0 D4 ND Hi Hj ltac:(lia)) as (_ & kb & B1 & _). exists kb. split; [exact B1|]. intros b Hb.
    destruct (C77_element_labels S im true Ms i j b D4 ND Hi Hj ltac:(lia)) as (_ & kb' & B1' & B2'). fold E k in B1, B1', B2'. rewrite B1 in B1'. apply ok_inj in B1'. subst kb'. rewrite HB in B2'. exact B2'. }
  destruct BR as (kb & BR & ML).
  assert (Hkb : (kb < length (g_kpts S))%nat).
  { pose proof (C77_bra_kpoint E k) as X. cbv zeta in X. rewrite BR in X. apply X. }
  set (wb := wfn_v E kb).
  destruct (HCS (nth kb (g_kpts S) k0) wb) as ((gsb & HGb) & HLb & HCb).
  { now apply nth_In. } { unfold wb, wfn_v. change (kp E kb) with (nth kb (g_kpts S) k0). destruct (e_isq0 E); [now right|now left]. }
  set (u := umklapp E (kp_cryst (kp E k))).
  set (f := wvf (g_nx S) (g_ny S) (g_nz S) (gs_cryst (w_gk wk)) (nth j (w_evc wk) [])).
  set (B := fun b => wvf (g_nx S) (g_ny S) (g_nz S) (gs_cryst (w_gk wb)) (nth b (w_evc wb) [])).
  set (s := fun a r => pwf (g_nx S) (g_ny S) (g_nz S) (gminus (nth (nth a m O) (e_gq E) o3) u) r).
  assert (MV : forall b a, (b < g_nbands S)%nat -> (a < length m)%nat -> nth (nth a m O) (nth b Ms zero i j) (RtoC 0) = (/ RtoC (INR N) * csum N (fun r => Cconj (f r) * B b r * Cconj (s a r)))%C).
  { intros b a Hb Ha. rewrite (mel_flat E kb b k j _ gsk gsb (ML b Hb)); [reflexivity|exact HGk|exact HGb|exact HLk|now apply HLb|].
    assert (X : In (nth a m O) (seq 0 (length (e_gq E)))) by (apply (Permutation_in _ Pm); now apply nth_In). apply in_seq in X. lia. }
  assert (SH : forall a b r, (a < length m)%nat -> (b < length m)%nat -> (s a r * Cconj (s b r))%C = (Cconj (pwf (g_nx S) (g_ny S) (g_nz S) (nth a g o3) r) * pwf (g_nx S) (g_ny S) (g_nz S) (nth b g o3) r)%C).
  { intros a b r Ha Hb. unfold s. rewrite !pwf_conj, !pwf_prod. f_equal. pose proof (Tr a Ha) as Ta. pose proof (Tr b Hb) as Tb.
    change (nth (nth a m O) (e_gq E) (0, 0, 0)%Z) with (nth (nth a m O) (e_gq E) o3) in Ta. change (nth (nth b m O) (e_gq E) (0, 0, 0)%Z) with (nth (nth b m O) (e_gq E) o3) in Tb.
    change (nth a g (0, 0, 0)%Z) with (nth a g o3) in Ta. change (nth b g (0, 0, 0)%Z) with (nth b g o3) in Tb.
    clear - Ta Tb. revert Ta Tb. generalize (nth (nth a m O) (e_gq E) o3) (nth (nth b m O) (e_gq E) o3) (nth a g o3) (nth b g o3) u.
    match goal with |- context [vadd ?x (zvec _)] => generalize x end. match goal with |- context [vopp (vadd ?x _)] => generalize x end.
    intros [q1 q2 q3] [p1 p2 p3] [[a1 a2] a3] [[b1 b2] b3] [[c1 c2] c3] [[d1 d2] d3] [[u1 u2] u3]. unfold vadd, vopp. cbn. intros Ta Tb. injection Ta as A1 A2 A3. injection Tb as B1 B2 B3.
    assert (Z1 : forall a b c d p q : R, p + a = - (q + c) -> p + b = - (q + d) -> a - b = d - c) by (intros; lra).
    assert (Z2 : forall a b c d : Z, IZR a - IZR b = IZR d - IZR c -> (a - b = d - c)%Z) by (intros * X; apply eq_IZR; rewrite !minus_IZR; exact X).
    pose proof (Z2 _ _ _ _ (Z1 _ _ _ _ _ _ A1 B1)). pose proof (Z2 _ _ _ _ (Z1 _ _ _ _ _ _ A2 B2)). pose proof (Z2 _ _ _ _ (Z1 _ _ _ _ _ _ A3 B3)).
    f_equal; [f_equal|]; lia. }
  (* exchange the sums *)
  transitivity (csum (length m) (fun a => csum (length m) (fun c => wmat v e a c * csum (g_nbands S) (fun b => Cconj (nth (nth a m O) (nth b Ms zero i j) (RtoC 0)) * nth (nth c m O) (nth b Ms zero i j) (RtoC 0)))))%C.
  { transitivity (csum (g_nbands S) (fun b => band_screened v e m (nth b Ms zero) i j)).
    - rewrite <- LMs. clear. induction Ms as [|M Ms IH]; [reflexivity|]. cbn [length]. rewrite csum_head. cbn [nth]. rewrite <- IH. reflexivity.
    - unfold band_screened, quad. rewrite csum_swap. apply csum_ext. intros a _. rewrite csum_swap. apply csum_ext. intros c _. rewrite <- csum_scal. apply csum_ext. intros b _. ring. }
  transitivity (csum (length m) (fun a => csum (length m) (fun c => wmat v e a c * (/ RtoC (INR N) * csum N (fun r => Cconj (f r) * f r * (s a r * Cconj (s c r)))))))%C.
  { apply csum_ext. intros a Ha. apply csum_ext. intros c Hc. f_equal.
    rewrite <- (closure N (g_nbands S) f B (s a) (s c) PN).
    - apply csum_ext. intros b Hb. now rewrite !MV.
    - intros r r' Hr Hr'. now apply complete_flat. }
  rewrite <- Lm. rewrite (csum_ext N _ (fun r => csum (length m) (fun a => csum (length m) (fun c => Cconj (f r) * f r * (wmat v e a c * (s a r * Cconj (s c r))))))%C).
  - rewrite (csum_swap N (length m)). rewrite <- csum_scal. apply csum_ext. intros a Ha. rewrite (csum_swap N (length m)). rewrite <- csum_scal. apply csum_ext. intros c Hc.
    rewrite (csum_ext N (fun r => Cconj (f r) * f r * (wmat v e a c * (s a r * Cconj (s c r))))%C (fun r => wmat v e a c * (Cconj (f r) * f r * (s a r * Cconj (s c r))))%C) by (intros; ring). rewrite csum_scal. ring.
  - intros r Hr. cbv zeta. fold (f r). unfold quad. rewrite <- csum_scal. apply csum_ext. intros a Ha. rewrite <- csum_scal. apply csum_ext. intros c Hc. rewrite SH by assumption. ring.
Qed.
Print Assumptions C95_complete_bands.

(** ---- the driver ---- *)
Lemma slice_at {A} (l : list A) b n j d : length (firstn n (skipn b l)) = n -> (j < n)%nat ->
  nth_error l (b + j) = Some (nth j (firstn n (skipn b l)) d).
Proof.
  intros H Hj. assert (X : nth_error (firstn n (skipn b l)) j = Some (nth j (firstn n (skipn b l)) d)) by (apply nth_error_nth'; lia). rewrite <- X. clear X.
  revert l n H Hj. induction b as [|b IH]; intros l n H Hj.
  - cbn [skipn Nat.add] in *. revert l n H Hj. induction j as [|j IHj]; intros [|x l] [|n] H Hj; cbn in *; try lia; try reflexivity. apply IHj; lia.
  - destruct l as [|x l]; [destruct n; cbn in H; lia|]. cbn [skipn Nat.add nth_error] in *. now apply IH.
Qed.
(** Decimal rounding as shown in the table. *)
Definition shown (v r : R) : Prop := (exists n : Z, r = IZR n / 10 ^ 6) /\ Rabs (v - r) <= / 10 ^ 6 / 2.
Theorem C95_report : forall S L cutoff ev vxc p d, calculate_static_cohsex p S L cutoff ev vxc = Ok d ->
  exists x sx ch che, sigma_x p true S = Ok x /\ sigma_sx_static p true S = Ok sx /\ sigma_ch_static p true S = Ok ch /\ sigma_ch_static_exact p S L cutoff = Ok che /\
  map fst d = g_lk S /\
  forall i, (i < length (g_lk S))%nat -> let k := nth i (g_lk S) O in
  exists rows, nth_error d i = Some (k, (band_labels (g_b0 S + 1) (g_b0 S + g_nket S), rows)) /\ length rows = g_nket S /\
  forall j, (j < g_nket S)%nat -> exists E V r,
    nth_error (w_evl (kp_wfn (nth k (g_kpts S) k0))) (g_b0 S + j) = Some E /\ nth_error (nth k vxc []) (g_b0 S + j) = Some V /\ nth_error rows j = Some (E / ev, r) /\
    shown (fst (x i j)) (r_x r) /\ shown (fst (sx i j)) (r_sx r) /\ shown (fst (che i j)) (r_ch r) /\ shown (fst (ch i j)) (r_ch' r) /\
    r_vxc r = fst V /\ r_z r = 1 /\
    r_sig r = fst (x i j) + fst (sx i j) + fst (che i j) /\ r_eqp0 r = E / ev - fst V + r_sig r /\ r_eqp1 r = r_eqp0 r /\
    r_sig' r = fst (x i j) + fst (sx i j) + fst (ch i j) /\ r_eqp0' r = E / ev - fst V + r_sig' r /\ r_eqp1' r = r_eqp0' r.
Proof.
  intros S L cutoff ev vxc p d H. unfold calculate_static_cohsex in H.
  apply bind_ok in H as (vs & HV & H). apply bind_ok in H as (es & HE & H). apply bind_ok in H as (x & Hx & H). apply bind_ok in H as (sx & Hsx & H).
  apply bind_ok in H as (ch & Hch & H). apply bind_ok in H as (che & Hche & H). apply bind_ok in H as (u & HA & H). apply axis_ok in HA. apply andb_true_iff in HA as [A1 A2]. apply ok_inj in H.
  rewrite forallb_forall in A1, A2.
  exists x, sx, ch, che. split; [exact Hx|]. split; [exact Hsx|]. split; [exact Hch|]. split; [exact Hche|]. split.
  { subst d. rewrite map_map. cbn [fst]. apply (nth_ext _ _ O O); [now rewrite map_length, seq_length|]. intros n Hn. rewrite map_length, seq_length in Hn.
    rewrite (nth_map_lt (fun i => nth i (g_lk S) O) _ n O) by now rewrite seq_length. now rewrite seq_nth. }
  intros i Hi k. eexists. split.
  { subst d. rewrite nth_error_map. rewrite (nth_error_nth' (seq 0 (length (g_lk S))) O) by now rewrite seq_length. rewrite seq_nth by exact Hi. reflexivity. }
  split; [now rewrite map_length, seq_length|]. intros j Hj.
  assert (LE : length es = length (g_lk S)) by (apply sequence_length in HE; now rewrite map_length in HE).
  assert (LV : length vs = length (g_lk S)) by (apply sequence_length in HV; now rewrite map_length in HV).
  assert (NE : length (nth i es []) = g_nket S) by (apply Nat.eqb_eq, A1, nth_In; lia).
  assert (NV : length (nth i vs []) = g_nket S) by (apply Nat.eqb_eq, A2, nth_In; lia).
  assert (PE : exists kp_, nth_error (g_kpts S) k = Some kp_ /\ nth i es [] = map (fun x => x * (1 / ev)) (firstn (g_nket S) (skipn (g_b0 S) (w_evl (kp_wfn kp_))))).
  { unfold emf_rows in HE. apply sequence_ok in HE. assert (X := f_equal (fun l => nth_error l i) HE). cbn beta in X. rewrite !nth_error_map in X. rewrite (nth_error_nth' (g_lk S) O Hi), (nth_error_nth' es []) in X by lia.
    cbn [option_map] in X. injection X as X. apply bind_ok in X as (kp_ & I & X). apply ok_inj in X. exists kp_. split; [now apply item_nth in I|now symmetry]. }
  assert (PV : exists r, nth_error vxc k = Some r /\ nth i vs [] = firstn (g_nket S) (skipn (g_b0 S) r)).
  { unfold vxc_rows in HV. apply sequence_ok in HV. assert (X := f_equal (fun l => nth_error l i) HV). cbn beta in X. rewrite !nth_error_map in X. rewrite (nth_error_nth' (g_lk S) O Hi), (nth_error_nth' vs []) in X by lia.
    cbn [option_map] in X. injection X as X. apply bind_ok in X as (r & I & X). apply ok_inj in X. exists r. split; [now apply item_nth in I|now symmetry]. }
  destruct PE as (kp_ & K1 & K2). destruct PV as (vr & V1 & V2). rewrite K2 in NE. rewrite map_length in NE. rewrite V2 in NV.
  exists (nth j (firstn (g_nket S) (skipn (g_b0 S) (w_evl (kp_wfn kp_)))) 0), (nth j (nth i vs []) (RtoC 0)). eexists.
  split. { rewrite (nth_error_nth _ _ k0 K1). now apply slice_at. }
  split. { rewrite (nth_error_nth _ _ [] V1), V2. now apply slice_at. }
  split.
  { rewrite nth_error_map. rewrite (nth_error_nth' (seq 0 (g_nket S)) O) by now rewrite seq_length. rewrite seq_nth by exact Hj. cbn [option_map Nat.add]. rewrite K2.
    rewrite (nth_map_lt (fun x => x * (1 / ev)) _ j 0) by (rewrite NE; exact Hj). unfold Rdiv. rewrite Rmult_1_l. reflexivity. }
  unfold cohsex_row. cbn [r_x r_sx r_ch r_sig r_vxc r_eqp0 r_eqp1 r_ch' r_sig' r_eqp0' r_eqp1' r_z cl_x cl_sx cl_ch cl_che cl_emf cl_vxc]. unfold caround. cbn [fst].
  assert (SH : forall v, shown v (np_around 6 v)) by (intros v; apply around_spec).
  generalize (nth j (firstn (g_nket S) (skipn (g_b0 S) (w_evl (kp_wfn kp_)))) 0) (nth j (nth i vs []) (RtoC 0)). intros E V.
  destruct (x i j) as [x1 x2], (sx i j) as [y1 y2], (ch i j) as [z1 z2], (che i j) as [w1 w2], V as [v1 v2]. cbn [fst]. unfold Rdiv.
  repeat (split; [first [apply SH|cbn; ring|reflexivity]|]). reflexivity.
Qed.
Print Assumptions C95_report.

(** ---- a concrete self-energy: two grid points, the two plane waves as an occupied and an empty band, q0 only ---- *)
Definition wtwo : wfn := MkWfn [1; 0] [0; 1] (MkGSpace (2, 1, 1)%Z [(0, 0, 0)%Z; (-1, 0, 0)%Z] [0; 1]%Z [0; 1]%nat true) [[RtoC 1; RtoC 0]; [RtoC 0; RtoC 1]].
Definition two : sigma_obj := MkSig 2 1 1 [MkKpt (V 0 0 0) wtwo wtwo] [0%nat] 2 0 2 [V 0 0 0] (Some [true]) 0 [[(0, 0, 0)%Z]] [[2]] [[[RtoC (- 1 / 2)]]] 1.
Lemma two_space : gspace_base (2, 1, 1)%Z [(0, 0, 0)%Z; (-1, 0, 0)%Z] = Ok (w_gk wtwo). Proof. vm_compute. reflexivity. Qed.
Lemma two_kq : l_kplusq (at_q two 0) (V 0 0 0) = V 0 0 0 /\ umklapp (at_q two 0) (V 0 0 0) = (0, 0, 0)%Z.
Proof. unfold l_kplusq, umklapp, kplusq_raw. change (e_isq0 (at_q two 0)) with true. cbn [vx vy vz]. rewrite !umk0. split; [f_equal; lra|reflexivity]. Qed.
Lemma two_driver : exists idx, driver_idx (at_q two 0) 0 = Ok idx.
Proof. unfold driver_idx. change (kp_cryst (kp (at_q two 0) 0)) with (V 0 0 0). rewrite (proj2 two_kq). eexists. reflexivity. Qed.
Lemma two_bra : bra_of (at_q two 0) 0 = Ok 0%nat.
Proof. unfold bra_of. change (length (e_kpts (at_q two 0))) with 1%nat. cbn [seq filter]. change (kp_cryst (kp (at_q two 0) 0)) with (V 0 0 0). rewrite (proj1 two_kq), close8_refl. reflexivity. Qed.
Lemma two_mel bb bk : (bb < 2)%nat -> (bk < 2)%nat -> exists M, mel (at_q two 0) 0 bb 0 bk = Ok M.
Proof.
  intros Hb Hk. destruct two_driver as (idx & HI). unfold mel. rewrite HI. cbn [bind]. unfold has_band. replace (bb <? _)%nat with true by (symmetry; apply Nat.ltb_lt; exact Hb).
  replace (bk <? _)%nat with true by (symmetry; apply Nat.ltb_lt; exact Hk). cbn [axis bind]. eexists. reflexivity.
Qed.
Lemma two_states x b : (x = 1 /\ b = 0%nat \/ x = 0 /\ b = 1%nat) -> states_with (at_q two 0) x = [(0%nat, b)].
Proof.
  intros H. unfold states_with. change (length (e_kpts (at_q two 0))) with 1%nat. cbn [seq flat_map]. unfold occ_of. change (kp (at_q two 0) 0) with (MkKpt (V 0 0 0) wtwo wtwo).
  change (e_nbands (at_q two 0)) with 2%nat. cbn [kp_wfn wtwo w_occ length Nat.min seq filter nth].
  destruct H as [[-> ->]|[-> ->]]; [rewrite (reqb_t 1 1), (reqb_f 0 1) by lra|rewrite (reqb_f 1 0), (reqb_t 0 0) by lra]; reflexivity.
Qed.
Lemma two_elements all : exists Ms, matrix_elements two 0 all = Ok Ms.
Proof.
  unfold matrix_elements. unfold n_v_max, n_c_beg, l_i_v, l_i_c. rewrite (two_states 1 0), (two_states 0 1) by auto.
  cbn [seq map snd list_max_res list_min_res fold_right rmap bind]. unfold mel_pairs. change (g_lk two) with [0%nat]. cbn [map]. rewrite two_bra. cbn [bind sequence fold_res].
  assert (F : forall bb m, (bb < 2)%nat -> exists M, fill_row two (at_q two 0) bb m (0%nat, 0%nat) = Ok M).
  { intros bb m Hb. unfold fill_row. change (g_nket two) with 2%nat. change (g_b0 two) with 0%nat. cbn [seq map fst snd Nat.add].
    destruct (two_mel bb 0 Hb ltac:(lia)) as (M0 & ->). destruct (two_mel bb 1 Hb ltac:(lia)) as (M1 & ->). cbn [sequence bind]. eexists. reflexivity. }
  destruct (F 0%nat (fun _ _ => map (fun _ => RtoC 0) (e_gq (at_q two 0))) ltac:(lia)) as (Z0 & E0). destruct (F 1%nat (fun _ _ => map (fun _ => RtoC 0) (e_gq (at_q two 0))) ltac:(lia)) as (Z1 & E1).
  change (e_gq (at_q two 0)) with (e_gq (at_q two 0)) in *.
  destruct all; [change (g_nbands two) with 2%nat|]; cbn [seq map]; rewrite ?E0, ?E1; cbn [bind sequence]; eexists; reflexivity.
Qed.
Lemma two_prepare : prepare two 0 = Ok (0%nat, [0%nat]).
Proof. unfold prepare. unfold index_minusq, item. cbn [g_q two nth_error bind g_iq0 Nat.eqb]. rewrite orb_true_r. cbn [bind]. reflexivity. Qed.
Lemma two_complete : complete_sets two.
Proof.
  intros k w [<-|[]] Hw. assert (w = wtwo) as -> by (destruct Hw as [->| ->]; reflexivity). split; [|split].
  - exists [(0, 0, 0)%Z; (-1, 0, 0)%Z]. exact two_space.
  - intros [|[|b]] Hb; [reflexivity|reflexivity|cbn in Hb; lia].
  - intros x y z x' y' z' Hx Hy Hz Hx' Hy' Hz'. cbn [g_nx g_ny g_nz two] in *. assert (y = 0 /\ z = 0 /\ y' = 0 /\ z' = 0)%nat as (-> & -> & -> & ->) by lia.
    change (g_nbands two) with 2%nat.
    assert (P0 : forall u, plane_wave 2 1 1 (0, 0, 0)%Z u 0 0 = RtoC 1) by (intros u; unfold plane_wave; replace (2 * PI * _) with 0 by ring; apply cis_0).
    assert (P1 : forall u, (u < 2)%nat -> plane_wave 2 1 1 (-1, 0, 0)%Z u 0 0 = RtoC (if (u =? 1)%nat then -1 else 1)).
    { intros u Hu. unfold plane_wave. destruct u as [|[|u]]; [| |lia]; cbn [Nat.eqb INR].
      - replace (2 * PI * _) with 0 by field. apply cis_0.
      - replace (2 * PI * _) with (- PI) by field. rewrite <- cis_conj. unfold cis. rewrite cos_PI, sin_PI. apply C_ext; cbn; ring. }
    cbn [csum wtwo w_gk gs_cryst w_evc nth]. unfold wave. cbn [length csum nth]. rewrite !P0, !P1 by lia.
    destruct x as [|[|x]]; [| |lia]; (destruct x' as [|[|x']]; [| |lia]); cbn [Nat.eqb andb]; apply C_ext; cbn; ring.
Qed.
Lemma two_minus_q : minus_q_present two.
Proof.
  exists [true], (fun v => vdot v v), (1 / 2). split; [reflexivity|]. split; [intros [|[|n]]; reflexivity|]. split; [intros [a b c]; unfold vdot, vopp; cbn; ring|].
  cbv zeta. intros i im m H. assert (i = 0 /\ im = 0)%nat as [-> ->].
  { destruct i as [|i]; [rewrite two_prepare in H; injection H as <- _; now split|]. unfold prepare, index_minusq, item in H. cbn [g_q two nth_error] in H. destruct i; discriminate. }
  cbn [g_iq0 two Nat.eqb g_gq nth vx vy vz].
  assert (I0 : is_integer (0 + 0)) by (exists 0%Z; lra).
  assert (SP : sphere (fun v => vdot v v) (1 / 2) (V 0 0 0) [(0, 0, 0)%Z]).
  { split; [repeat constructor; intros []|]. intros [[a b] c]. unfold vdot, vadd, zvec. cbn. split.
    - intros [E|[]]. injection E as <- <- <-. lra.
    - intros H0. left.
      assert (Q : forall n s : R, forall z : Z, n = IZR z -> 0 <= s -> n * n + s <= 1 / 2 -> z = 0%Z).
      { intros n s z -> Hs Hn. assert (X : IZR (z * z) < IZR 1) by (rewrite mult_IZR; lra). apply lt_IZR in X. nia. }
      rewrite !Rplus_0_r in H0. assert (0 <= IZR a * IZR a) by nra. assert (0 <= IZR b * IZR b) by nra. assert (0 <= IZR c * IZR c) by nra.
      rewrite (Q (IZR a) (IZR b * IZR b + IZR c * IZR c) a), (Q (IZR b) (IZR a * IZR a + IZR c * IZR c) b), (Q (IZR c) (IZR b * IZR b + IZR a * IZR a) c) by (try reflexivity; lra). reflexivity. }
  split; [exact I0|]. split; [exact I0|]. split; [exact I0|]. split; exact SP.
Qed.
Lemma two_same : same_k two 0 = Ok [0%nat].
Proof.
  unfold same_k. change (length (g_q two)) with 1%nat. cbn [seq map item g_kpts two nth_error sequence bind filter nth]. change (kp_cryst (kp (at_q two 0) 0)) with (V 0 0 0). cbn [kp_cryst].
  replace (isclose3 (V 0 0 0) (V 0 0 0)) with true; [reflexivity|]. symmetry. unfold isclose3. cbn [vx vy vz].
  assert (X : isclose 0 0 = true) by (unfold isclose; apply rleb_iff; rewrite Rminus_eq_0, Rabs_R0; lra). now rewrite X.
Qed.
Lemma two_exact L cutoff : exists t, exact_q two L cutoff 0 = Ok [t].
Proof.
  assert (ST : forall m b, (b < 2)%nat -> exists m', exact_step two (gpmg [(0, 0, 0)%Z]) m (0%nat, b) = Ok m').
  { intros m b Hb. unfold exact_step. change (existsb (Nat.eqb 0) (g_lk two)) with true. cbn match. rewrite two_same.
    assert (EI : exists idx, exact_idx two (gpmg [(0, 0, 0)%Z]) = Ok idx) by (eexists; reflexivity). destruct EI as (idx & ->).
    assert (HB : has_band wtwo b = Ok tt) by (unfold has_band; replace (b <? length (w_evc wtwo))%nat with true by (symmetry; apply Nat.ltb_lt; exact Hb); reflexivity).
    cbn [item g_kpts two nth_error bind kp_wfn fold_res]. rewrite HB. cbn [bind]. eexists. reflexivity. }
  unfold exact_q. cbn [item g_gq g_eps g_v two nth_error bind]. unfold matrix_elements_sigma_exact. change (list_prod _ _) with [(0, 0); (0, 1)]%nat. cbn [fold_res].
  match goal with |- context [exact_step two _ ?m (0%nat, 0%nat)] => destruct (ST m 0%nat ltac:(lia)) as (m1 & E1) end. rewrite E1. cbn [bind].
  destruct (ST m1 1%nat ltac:(lia)) as (m2 & E2). rewrite E2. cbn [bind]. eexists. reflexivity.
Qed.
Lemma two_w all : exists t, w_q two all 0 = Ok t.
Proof. unfold w_q. rewrite two_prepare. cbn [bind fst snd item g_eps g_v two nth_error]. destruct (two_elements all) as (Ms & ->). cbn [bind]. eexists. reflexivity. Qed.
Lemma two_run p y s c (f : nat -> res (list cmat)) t : f 0%nat = Ok t -> procs_ok p -> exists m, (do m <- run p y s f 1; Ok (scaled c m)) = Ok m.
Proof.
  intros Hf Hp. assert (A := run_sum p y s f 1 Hp). cbn [seq map sequence] in A. rewrite Hf in A. cbn [bind summed rmap] in A. unfold agree in A.
  destruct (run p y s f 1) as [m|]; [|easy]. eexists. reflexivity.
Qed.
Lemma two_levels p L cutoff : procs_ok p -> exists x sx ch che,
  sigma_x p true two = Ok x /\ sigma_sx_static p true two = Ok sx /\ sigma_ch_static p true two = Ok ch /\ sigma_ch_static_exact p two L cutoff = Ok che.
Proof.
  intros Hp. assert (SX : sx_q two 0 = w_q two false 0) by (unfold sx_q; rewrite two_prepare; reflexivity). destruct (two_w false) as (t1 & W1). destruct (two_w true) as (t2 & W2). destruct (two_exact L cutoff) as (t3 & W3).
  assert (XQ : exists t, x_q two 0 = Ok t). { unfold x_q. rewrite two_prepare. cbn [bind fst snd item g_v two nth_error]. destruct (two_elements false) as (Ms & ->). cbn [bind]. eexists. reflexivity. }
  destruct XQ as (t4 & W4).
  assert (X : exists x, sigma_x p true two = Ok x).
  { exact (two_run p true (RtoC (-1)) (g_factor two) (x_q two) t4 W4 Hp). }
  destruct X as (x & X). destruct (two_run p true (RtoC 1) (-1 * g_factor two) (sx_q two) t1) as (sx & S1); [congruence|exact Hp|]. destruct (two_run p true (RtoC 1) (1 / 2 * g_factor two) (w_q two true) t2 W2 Hp) as (ch & C1).
  destruct (two_run p true (RtoC 1) (1 / 2 * g_factor two) (exact_q two L cutoff) [t3] W3 Hp) as (che & H1).
  exists x, sx, ch, che. split; [exact X|]. split; [exact S1|]. split; [exact C1|exact H1].
Qed.
Lemma two_screening : screening two.
Proof.
  intros i v e Hv He. destruct i as [|[|i]]; try discriminate. injection Hv as <-. injection He as <-. split.
  - intros [|i] [|j] Hi Hj; cbn in Hi, Hj; try lia. unfold wmat. cbn [nth]. apply C_ext; cbn; lra.
  - intros x. unfold quad, wmat. cbn [length csum nth]. destruct (x 0%nat) as [a b]. cbn. nra.
Qed.
(** The hypotheses of the theorems of C95 hold for it, for every number of processes. *)
Example C95_instance : forall p cutoff, procs_ok p -> 0 <= cutoff -> exists L, mk_lattice mid = Ok L /\
  (exists x sx ch che, sigma_x p true two = Ok x /\ sigma_sx_static p true two = Ok sx /\ sigma_ch_static p true two = Ok ch /\ sigma_ch_static_exact p two L cutoff = Ok che /\
     (forall j, (j < 2)%nat -> ch 0%nat j = che 0%nat j /\ che 0%nat j = RtoC (- 1 / 2))) /\
  complete_sets two /\ minus_q_present two /\ screening two /\ alone (g_kpts two) (length (g_q two)) 0 /\
  (forall q a b, (q < length (g_q two))%nat -> In a (nth q (g_gq two) []) -> In b (nth q (g_gq two) []) -> len2 mid (gminus b a) <= cutoff) /\
  exists d, calculate_static_cohsex p two L cutoff (1 / 2) [[RtoC 1; RtoC 3]] = Ok d.
Proof.
  intros p cutoff Hp HC. exists PropsPot.ex_lat. split; [exact PropsPot.ex_lat_ok|].
  assert (AL : alone (g_kpts two) (length (g_q two)) 0) by (intros k' Hk'; cbn in Hk'; lia).
  assert (LC : forall q a b, (q < length (g_q two))%nat -> In a (nth q (g_gq two) []) -> In b (nth q (g_gq two) []) -> len2 mid (gminus b a) <= cutoff).
  { intros q a b Hq Ha Hb. cbn in Hq. assert (q = 0)%nat as -> by lia. destruct Ha as [<-|[]]. destruct Hb as [<-|[]]. unfold len2, gminus, zvec, mv, vdot, mid. cbn. lra. }
  destruct (two_levels p PropsPot.ex_lat cutoff Hp) as (x & sx & ch & che & E1 & E2 & E3 & E4).
  split; [|split; [exact two_complete|split; [exact two_minus_q|split; [exact two_screening|split; [exact AL|split; [exact LC|]]]]]].
  - exists x, sx, ch, che. split; [exact E1|]. split; [exact E2|]. split; [exact E3|]. split; [exact E4|]. intros j Hj. split.
    + apply (C95_complete_bands two mid PropsPot.ex_lat cutoff p p true ch che 0 j Hp Hp PropsPot.ex_lat_ok E3 E4); try assumption; try reflexivity; [exact two_complete|exact two_minus_q|repeat constructor; intros []|cbn; lia|cbn; lia].
    + rewrite (C95_exact_formula two mid PropsPot.ex_lat cutoff p che 0 j [(0, 0, 0)%Z; (-1, 0, 0)%Z] Hp PropsPot.ex_lat_ok E4); [|repeat constructor; intros []|cbn; lia|exact Hj|cbn; lia|exact AL|exact two_space|destruct j as [|[|j]]; [reflexivity|reflexivity|lia]].
      cbn [g_lk two nth g_kpts kp_wfn g_nx g_ny g_nz g_gq g_v g_eps g_factor g_q length csum]. unfold hole. cbn [length csum nth]. cbv zeta.
      destruct (Rle_dec _ _) as [_|N]; [|exfalso; apply N; apply (LC 0%nat); [cbn; lia|now left|now left]].
      destruct j as [|[|j]]; [| |lia]; unfold component; cbn [wtwo w_evc nth w_gk gs_cryst length csum gminus]; cbn; apply C_ext; cbn; field.
  - unfold calculate_static_cohsex. rewrite E1, E2, E3, E4. cbn [bind]. eexists. reflexivity.
Qed.
