(** Properties C28-C30 and C82 for the three smearing functions of smear.py. *)
From Coq Require Import Reals String Lra Lia.
From Coquelicot Require Import Coquelicot.
From Verif Require Import Base LatModel KPtsModel KPtsProofs ErfBase OccModel OccProofs PropsOcc SmearModel SmearProofs.
Open Scope R_scope.

(** C28.  Gaussian occupations as the code computes them: between 0 and 1, non-increasing
    in the energy, 1/2 at the chemical potential, symmetric about it, and equal to
    (1 - erf((e - mu)/degauss)) / 2 up to exp(-2500). *)
Theorem C28_gaussian : forall degauss mu, 0 < degauss ->
  (forall e, 0 <= occ_one gauss_occ degauss mu e <= 1)
  /\ (forall e e', e <= e' -> occ_one gauss_occ degauss mu e' <= occ_one gauss_occ degauss mu e)
  /\ occ_one gauss_occ degauss mu mu = 1 / 2
  /\ (forall d, occ_one gauss_occ degauss mu (mu + d) + occ_one gauss_occ degauss mu (mu - d) = 1)
  /\ (forall e, Rabs ((e - mu) / degauss) <= 50 -> occ_one gauss_occ degauss mu e = (1 - erf ((e - mu) / degauss)) / 2)
  /\ (forall e, Rabs (occ_one gauss_occ degauss mu e - (1 - erf ((e - mu) / degauss)) / 2) <= exp (-2500)).
Proof.
  intros degauss mu Hd.
  assert (HB : forall f, 0 <= gauss_occ f <= 1) by (intros f; pose proof (gauss_bounds f); lra).
  assert (HE : forall f, (1 - erf f) / 2 = gauss_occ f) by (intros f; unfold gauss_occ, erfc; field).
  split; [intros e; now apply occ_one_bounds|].
  split; [intros e e' H; apply occ_one_decr; try assumption; apply gauss_decr|].
  assert (Q0 : (mu - mu) / degauss = 0) by (unfold Rdiv; ring).
  split.
  { unfold occ_one. rewrite Q0, Rabs_R0. destruct (Rle_dec 0 SMEAR_THRESHOLD) as [|L].
    - rewrite <- HE, erf_0. field.
    - exfalso. apply L. unfold SMEAR_THRESHOLD. lra. }
  split.
  { intros d. unfold occ_one. replace ((mu + d - mu) / degauss) with (d / degauss) by (unfold Rdiv; ring).
    replace ((mu - d - mu) / degauss) with (- (d / degauss)) by (unfold Rdiv; ring).
    set (f := d / degauss). rewrite Rabs_Ropp. destruct (Rle_dec (Rabs f) SMEAR_THRESHOLD) as [|L]; [apply gauss_symm|].
    apply Rnot_le_lt in L. assert (PT : 0 < SMEAR_THRESHOLD) by (unfold SMEAR_THRESHOLD; lra).
    unfold Rabs in L. destruct (Rcase_abs f).
    - destruct (Rlt_dec f (- SMEAR_THRESHOLD)); destruct (Rlt_dec (- f) (- SMEAR_THRESHOLD)); lra.
    - destruct (Rlt_dec f (- SMEAR_THRESHOLD)); destruct (Rlt_dec (- f) (- SMEAR_THRESHOLD)); lra. }
  split.
  { intros e H. rewrite HE. unfold occ_one. destruct (Rle_dec _ SMEAR_THRESHOLD) as [|L]; [reflexivity|]. exfalso. apply L. exact H. }
  intros e. rewrite HE. apply clamp_close; [left; apply exp_pos|apply gauss_right|apply gauss_left].
Qed.
Print Assumptions C28_gaussian.

(** C28 fails for Marzari-Vanderbilt (cold) smearing, as the code computes it: the
    occupation is never negative, but every level between 50 and sqrt 2 widths below the
    chemical potential holds more than one electron per spin, occupations increase with
    the energy there (they decrease only above mu - sqrt 2 degauss), and a level at the
    chemical potential holds less than one half. *)
Theorem C28_cold_refuted : forall degauss mu, 0 < degauss ->
  (forall e, 0 <= occ_one mv_occ degauss mu e)
  /\ (forall e, mu - 50 * degauss <= e <= mu - sqrt 2 * degauss -> 1 < occ_one mv_occ degauss mu e)
  /\ (forall e e', mu - 50 * degauss <= e -> e < e' -> e' <= mu - sqrt 2 * degauss ->
        occ_one mv_occ degauss mu e < occ_one mv_occ degauss mu e')
  /\ (forall e e', mu - sqrt 2 * degauss <= e -> e <= e' -> occ_one mv_occ degauss mu e' <= occ_one mv_occ degauss mu e)
  /\ occ_one mv_occ degauss mu mu < 1 / 2
  /\ (forall e, Rabs ((e - mu) / degauss) <= 50 -> let g := - ((e - mu) / degauss + 1 / sqrt 2) in
        occ_one mv_occ degauss mu e = (erf g + 1) / 2 + exp (- (g * g)) / sqrt (2 * PI)).
Proof.
  intros degauss mu Hd. pose proof sqrt2_pos as P2. pose proof sqrt2_sq as S2. assert (S3 : sqrt 2 < 2) by nra.
  pose proof (Rinv_0_lt_compat _ Hd) as Pi.
  assert (F : forall e k, (e <= mu + k * degauss <-> (e - mu) / degauss <= k)).
  { intros e k. split; intros H.
    - apply Rmult_le_reg_r with degauss; [exact Hd|]. unfold Rdiv. rewrite Rmult_assoc, Rinv_l by lra. lra.
    - apply Rmult_le_compat_r with (r := degauss) in H; [|lra]. unfold Rdiv in H. rewrite Rmult_assoc, Rinv_l in H by lra. lra. }
  assert (F' : forall e k, (mu + k * degauss <= e <-> k <= (e - mu) / degauss)).
  { intros e k. split; intros H.
    - apply Rmult_le_reg_r with degauss; [exact Hd|]. unfold Rdiv. rewrite Rmult_assoc, Rinv_l by lra. lra.
    - apply Rmult_le_compat_r with (r := degauss) in H; [|lra]. unfold Rdiv in H. rewrite Rmult_assoc, Rinv_l in H by lra. lra. }
  assert (IN : forall e, Rabs ((e - mu) / degauss) <= 50 -> occ_one mv_occ degauss mu e = mv_occ ((e - mu) / degauss)).
  { intros e H. unfold occ_one, SMEAR_THRESHOLD. destruct (Rle_dec _ 50); [reflexivity|contradiction]. }
  assert (RG : forall e, mu - 50 * degauss <= e -> e <= mu - sqrt 2 * degauss ->
     Rabs ((e - mu) / degauss) <= 50 /\ (e - mu) / degauss <= - sqrt 2).
  { intros e H1 H2. assert (A : -50 <= (e - mu) / degauss) by (apply F'; lra).
    assert (B : (e - mu) / degauss <= - sqrt 2) by (apply F; lra). split; [apply Rabs_le; lra|exact B]. }
  split.
  { intros e. unfold occ_one. destruct (Rle_dec _ _); [left; apply mv_pos|]. destruct (Rlt_dec _ _); lra. }
  split.
  { intros e [H1 H2]. destruct (RG e H1 H2) as [A B]. rewrite IN by exact A. now apply mv_over_one. }
  split.
  { intros e e' H1 H2 H3. destruct (RG e H1 ltac:(lra)) as [A B]. destruct (RG e' ltac:(lra) H3) as [A' B'].
    rewrite !IN by assumption. apply mv_incr; [exact B'|]. unfold Rdiv. apply Rmult_lt_compat_r; lra. }
  split.
  { intros e e' H1 H2. assert (A : - sqrt 2 <= (e - mu) / degauss) by (apply F'; lra).
    assert (B : (e - mu) / degauss <= (e' - mu) / degauss) by (unfold Rdiv; apply Rmult_le_compat_r; lra).
    unfold occ_one, SMEAR_THRESHOLD. set (f := (e - mu) / degauss) in *. set (f' := (e' - mu) / degauss) in *.
    destruct (Rle_dec (Rabs f') 50) as [L'|L'].
    - destruct (Rle_dec (Rabs f) 50) as [L|L].
      + destruct B as [B|<-]; [left; now apply mv_decr|lra].
      + exfalso. apply L. apply Rabs_le. apply Rabs_le_between in L'. lra.
    - destruct (Rlt_dec f' (- (50))); [lra|]. destruct (Rle_dec (Rabs f) 50); [left; apply mv_pos|].
      destruct (Rlt_dec f (- (50))); lra. }
  split.
  { assert (Q0 : (mu - mu) / degauss = 0) by (unfold Rdiv; ring). rewrite IN; rewrite Q0; [pose proof mv_at_mu; lra|rewrite Rabs_R0; lra]. }
  intros e H g. rewrite IN by exact H. unfold mv_occ. fold g. unfold Rdiv. ring.
Qed.
Print Assumptions C28_cold_refuted.

(** C29.  With Fermi-Dirac and Gaussian smearing the electron count grows with the chemical
    potential and stays between 0 and the capacity of the bands. *)
Theorem C29_count_fd_gauss : forall typ occf enf degauss world, 0 < degauss -> typ = "fd"%string \/ typ = "gauss"%string ->
  l_smear_func typ = Some (occf, enf) -> (forall w, In w (wfns world) -> 0 <= k_weight w) ->
  (forall mu mu', mu <= mu' -> compute_numel occf degauss world mu <= compute_numel occf degauss world mu')
  /\ forall mu, 0 <= compute_numel occf degauss world mu <= capacity world.
Proof.
  intros typ occf enf degauss world Hd Ht Hf Hw.
  assert (P : (forall f, 0 <= occf f <= 1) /\ (forall a b, a <= b -> occf b <= occf a)).
  { destruct Ht as [-> | ->]; injection Hf as <- <-; split.
    - intros f. pose proof (fd_bounds f). lra.
    - apply fd_decr.
    - intros f. pose proof (gauss_bounds f). lra.
    - apply gauss_decr. }
  destruct P as [Pb Pd]. split.
  { intros mu mu' H. now apply C29_numel_monotone. }
  intros mu.
  assert (Nf : compute_numel occf degauss world mu = rsum (map (fun w => rsum (map (fun e => occ_one occf degauss mu e * k_weight w) (evl w))) (wfns world))).
  { unfold compute_numel, group_numel, wfns. clear. induction world as [|g ws IH]; [reflexivity|].
    cbn [concat map]. rewrite concat_app, map_app, rsum_app, rsum_cons, IH. reflexivity. }
  rewrite Nf. split.
  - apply rsum_nonneg. intros x Hx. apply in_map_iff in Hx as (w & <- & Hin). apply rsum_nonneg.
    intros y Hy. apply in_map_iff in Hy as (e & <- & _). apply Rmult_le_pos; [|now apply Hw].
    pose proof (occ_one_bounds occf degauss Pb mu e). lra.
  - unfold capacity. fold (rsum (map (fun w => k_weight w * INR (length (evl w))) (wfns world))).
    apply rsum_le. intros w Hin. rewrite (Rmult_comm (k_weight w)), <- rsum_const. apply rsum_le. intros e _.
    pose proof (occ_one_bounds occf degauss Pb mu e). specialize (Hw w Hin). nra.
Qed.
Print Assumptions C29_count_fd_gauss.

(** Cold smearing: one level of capacity 2 holds more than 2 electrons when the chemical
    potential is sqrt 2 widths above it, and exactly 2 when it is 51 widths above: the
    count is not monotone and exceeds the capacity. *)
Theorem C29_cold_count_refuted : forall degauss, 0 < degauss ->
  let world := [[[MkKS [0] 2 [0]]]] in
  capacity world = 2
  /\ 2 < compute_numel mv_occ degauss world (sqrt 2 * degauss)
  /\ compute_numel mv_occ degauss world (51 * degauss) = 2
  /\ sqrt 2 * degauss < 51 * degauss.
Proof.
  intros degauss Hd world. pose proof sqrt2_pos as P2. pose proof sqrt2_sq as S2. assert (S3 : sqrt 2 < 2) by nra.
  split; [unfold capacity, wfns, world; cbn; lra|]. split; [|split].
  - unfold compute_numel, group_numel, world. cbn [map concat app evl k_weight rsum fold_right].
    destruct (C28_cold_refuted degauss (sqrt 2 * degauss) Hd) as (_ & O & _). specialize (O 0).
    assert (1 < occ_one mv_occ degauss (sqrt 2 * degauss) 0); [apply O; nra|]. lra.
  - unfold compute_numel, group_numel, world. cbn [map concat app evl k_weight rsum fold_right].
    unfold occ_one, SMEAR_THRESHOLD. replace ((0 - 51 * degauss) / degauss) with (- (51)) by (field; lra).
    rewrite Rabs_Ropp, Rabs_pos_eq by lra. destruct (Rle_dec 51 50); [lra|]. destruct (Rlt_dec (- (51)) (- (50))); lra.
  - apply Rmult_lt_compat_r; lra.
Qed.
Print Assumptions C29_cold_count_refuted.

(** C29.  The smearing correction reported for Fermi-Dirac and Gaussian smearing is never positive ... *)
Theorem C29_entropy_fd_gauss : forall typ degauss fuel world numel world' e_fermi e_smear, 0 < degauss ->
  typ = "fd"%string \/ typ = "gauss"%string -> (forall w, In w (wfns world) -> 0 <= k_weight w) ->
  compute_occ fuel world numel typ degauss = Ok (Some (world', (e_fermi, e_smear))) -> e_smear <= 0.
Proof.
  intros typ degauss fuel world numel world' e_fermi e_smear Hd [-> | ->] Hw H.
  - exact (C29_entropy_sign degauss fuel world numel world' e_fermi e_smear Hd Hw H).
  - apply C29_smearing_energy in H. rewrite H.
    assert (NP : forall l, (forall x, In x l -> x <= 0) -> rsum l <= 0).
    { clear. induction l as [|x l IH]; intros H; [cbn; lra|]. rewrite rsum_cons.
      pose proof (H x (or_introl eq_refl)). pose proof (IH (fun y Hy => H y (or_intror Hy))). lra. }
    apply NP. intros x Hx. apply in_map_iff in Hx as (w & <- & Hin).
    assert (A : rsum (map (fun e => if Rle_dec (Rabs ((e - e_fermi) / degauss)) 50 then gauss_en ((e - e_fermi) / degauss) else 0) (evl w)) <= 0).
    { apply NP. intros x Hx. apply in_map_iff in Hx as (e & <- & _). destruct (Rle_dec _ _); [|lra].
      unfold gauss_en. set (f := (e - e_fermi) / degauss). pose proof (exp_pos (- (f * f))). pose proof inv_sqrt_PI.
      assert (0 < exp (- (f * f)) * / sqrt PI) by (apply Rmult_lt_0_compat; lra). unfold Rdiv. lra. }
    specialize (Hw w Hin). revert A. unfold rsum. generalize (fold_right Rplus 0 (map (fun e => if Rle_dec (Rabs ((e - e_fermi) / degauss)) 50 then gauss_en ((e - e_fermi) / degauss) else 0) (evl w))). intros q A.
    assert (0 <= k_weight w * (degauss * - q)) by (apply Rmult_le_pos; [lra|apply Rmult_le_pos; lra]). lra.
Qed.
Print Assumptions C29_entropy_fd_gauss.

(** ... but with cold smearing it can be: three levels, width 1, Fermi level 100. *)
Theorem C29_cold_entropy_refuted : exists world numel world' e_smear,
  compute_occ 0 world numel "mv" 1 = Ok (Some (world', (100, e_smear)))
  /\ (forall w, In w (wfns world) -> k_weight w = 2) /\ electrons world' = numel /\ 0 < e_smear.
Proof.
  set (w0 := MkKS [0; 99; 200] 2 [0; 0; 0]). set (world := [[[w0]]]).
  exists world, (2 * (1 + mv_occ (-1))).
  assert (O1 : occ_one mv_occ 1 100 0 = 1).
  { unfold occ_one, SMEAR_THRESHOLD. replace ((0 - 100) / 1) with (- (100)) by field. rewrite Rabs_Ropp, Rabs_pos_eq by lra.
    destruct (Rle_dec 100 50); [lra|]. destruct (Rlt_dec (- (100)) (- (50))); lra. }
  assert (O2 : occ_one mv_occ 1 100 99 = mv_occ (-1)).
  { unfold occ_one, SMEAR_THRESHOLD. replace ((99 - 100) / 1) with (-1) by field. rewrite Rabs_left by lra.
    destruct (Rle_dec (- -1) 50); [reflexivity|lra]. }
  assert (O3 : occ_one mv_occ 1 100 200 = 0).
  { unfold occ_one, SMEAR_THRESHOLD. replace ((200 - 100) / 1) with 100 by field. rewrite Rabs_pos_eq by lra.
    destruct (Rle_dec 100 50); [lra|]. destruct (Rlt_dec 100 (- (50))); lra. }
  assert (CN : compute_numel mv_occ 1 world 100 = 2 * (1 + mv_occ (-1))).
  { unfold compute_numel, group_numel, world, w0. cbn [map concat app evl k_weight rsum fold_right]. rewrite O1, O2, O3. ring. }
  eexists. exists (2 * mv_en (-1)). split; [|split; [|split]].
  - unfold compute_occ. cbn [l_smear_func String.eqb Ascii.eqb Bool.eqb]. unfold smear_compute_occ, world.
    cbn [map sequence bind rminimum rmaximum concat app fold_left evl w0].
    rewrite (Rmin_left 0 99), (Rmin_left 0 200), (Rmax_right 0 99), (Rmax_right 99 200) by lra.
    cbn [bisect]. replace ((0 + 200) / 2) with 100 by field. fold w0. fold world. rewrite CN.
    rewrite Rminus_diag_eq, Rabs_R0 by reflexivity. destruct (Rlt_dec EPS 0) as [L|_].
    { exfalso. unfold EPS in L. assert (0 < / 10 ^ 10) by (apply Rinv_0_lt_compat, pow_lt; lra). lra. }
    do 3 f_equal. f_equal. cbn [rsum map concat app fold_right world w0 k_weight]. unfold en_wfn.
    change (map (fun e : R => (e - 100) / 1) (evl w0)) with [(0 - 100) / 1; (99 - 100) / 1; (200 - 100) / 1].
    replace ((0 - 100) / 1) with (- (100)) by field. replace ((99 - 100) / 1) with (-1) by field. replace ((200 - 100) / 1) with 100 by field.
    cbn [filter]. unfold SMEAR_THRESHOLD. rewrite Rabs_Ropp, (Rabs_pos_eq 100), (Rabs_left (-1)) by lra.
    destruct (Rle_dec 100 50); [lra|]. destruct (Rle_dec (- -1) 50); [|lra]. cbn [map rsum fold_right]. ring.
  - intros w Hin. unfold wfns, world in Hin. cbn in Hin. destruct Hin as [<-|[]]. reflexivity.
  - unfold electrons, wfns, world. cbn [map concat app set_occ w0 occ k_weight evl fold_right]. rewrite O1, O2, O3. ring.
  - unfold mv_en. set (g := - (-1 + 1 / sqrt 2)). assert (0 < g) by (unfold g, Rdiv; pose proof inv_sqrt2; lra).
    assert (0 < 1 / sqrt (2 * PI)) by (rewrite sqrt_2PI; unfold Rdiv; pose proof inv_sqrt_2PI; lra).
    pose proof (exp_pos (- (g * g))). apply Rmult_lt_0_compat; [lra|]. apply Rmult_lt_0_compat; [|lra]. now apply Rmult_lt_0_compat.
Qed.
Print Assumptions C29_cold_entropy_refuted.

(** An unknown smearing name is refused before anything is computed. *)
Theorem C29_unknown_smearing : forall fuel world numel typ degauss,
  typ <> "gauss"%string -> typ <> "fd"%string -> typ <> "mv"%string ->
  compute_occ fuel world numel typ degauss = Err AssertionError.
Proof.
  intros fuel world numel typ degauss H1 H2 H3. unfold compute_occ, l_smear_func.
  apply String.eqb_neq in H1, H2, H3. now rewrite H1, H2, H3.
Qed.
Print Assumptions C29_unknown_smearing.

Lemma smear_regular typ occf enf : l_smear_func typ = Some (occf, enf) ->
  (forall x y, Rabs (occf x - occf y) <= 2 * Rabs (x - y))
  /\ (forall x, 50 <= x -> Rabs (occf x) <= exp (-50)) /\ (forall x, x <= -50 -> Rabs (1 - occf x) <= exp (-50)).
Proof.
  unfold l_smear_func. assert (T : forall k x, k <= -50 -> Rabs x <= exp k -> Rabs x <= exp (-50)).
  { intros k x Hk Hx. eapply Rle_trans; [exact Hx|]. now apply exp_le. }
  destruct (String.eqb typ "gauss"); [|destruct (String.eqb typ "fd"); [|destruct (String.eqb typ "mv"); [|discriminate]]];
    intros H; injection H as <- <-.
  - split; [|split].
    + apply lipschitz_of with gauss_slope; [apply gauss_occ_derive|]. intros x. pose proof (gauss_slope_bound x). lra.
    + intros x Hx. apply (T (-2500)); [lra|]. now apply gauss_right.
    + intros x Hx. apply (T (-2500)); [lra|]. now apply gauss_left.
  - split; [|split; [apply fd_right|apply fd_left]].
    apply lipschitz_of with fd_slope; [apply fd_occ_derive|]. intros x. pose proof (fd_slope_bound x). lra.
  - split; [|split].
    + apply lipschitz_of with mv_slope; [apply mv_occ_derive|]. apply mv_slope_bound.
    + intros x Hx. apply (T (-2400)); [lra|]. now apply mv_right.
    + intros x Hx. apply (T (-2400)); [lra|]. now apply mv_left.
Qed.

(** C30.  All three smearings: the search ends whenever the counts at the lowest and the
    highest eigenvalue enclose the request, for any capacity up to about 2.5e11 electrons. *)
Theorem C30_all_smearings_terminate : forall typ degauss world numel occf enf, 0 < degauss ->
  l_smear_func typ = Some (occf, enf) ->
  world <> [] -> (forall g, In g world -> exists wk w e, In wk g /\ In w wk /\ In e (evl w)) ->
  (forall w, In w (wfns world) -> 0 <= k_weight w) ->
  2 * capacity world * exp (-50) < / 10 ^ 10 ->
  (forall lo, (forall w e, In w (wfns world) -> In e (evl w) -> lo <= e) ->
      (exists w, In w (wfns world) /\ In lo (evl w)) -> compute_numel occf degauss world lo <= numel) ->
  (forall hi, (forall w e, In w (wfns world) -> In e (evl w) -> e <= hi) ->
      (exists w, In w (wfns world) /\ In hi (evl w)) -> numel <= compute_numel occf degauss world hi) ->
  exists fuel r, compute_occ fuel world numel typ degauss = Ok (Some r).
Proof.
  intros typ degauss world numel occf enf Hd Hf Hne Hg Hw Hcap Hlo Hhi. destruct (smear_regular typ occf enf Hf) as (HL & HR & HT).
  unfold compute_occ. rewrite Hf.
  apply (C30_terminates occf enf 2 (exp (-50)) degauss world numel); try assumption; [lra|left; apply exp_pos].
Qed.
Print Assumptions C30_all_smearings_terminate.

(** C30.  With Fermi-Dirac or Gaussian smearing, a request outside that range by more than
    the tolerance makes the search run forever: however many passes are allowed, it has not
    returned. *)
Theorem C30_outside_never_returns : forall typ degauss world numel occf enf mu_ext, 0 < degauss ->
  typ = "fd"%string \/ typ = "gauss"%string -> l_smear_func typ = Some (occf, enf) ->
  world <> [] -> (forall g, In g world -> exists wk w e, In wk g /\ In w wk /\ In e (evl w)) ->
  (forall w, In w (wfns world) -> 0 <= k_weight w) ->
  ((forall w e, In w (wfns world) -> In e (evl w) -> mu_ext <= e) /\ numel < compute_numel occf degauss world mu_ext - / 10 ^ 10
   \/ (forall w e, In w (wfns world) -> In e (evl w) -> e <= mu_ext) /\ numel > compute_numel occf degauss world mu_ext + / 10 ^ 10) ->
  forall fuel, compute_occ fuel world numel typ degauss = Ok None.
Proof.
  intros typ degauss world numel occf enf m Hd Ht Hf Hne Hg Hw HX fuel.
  destruct (C29_count_fd_gauss typ occf enf degauss world Hd Ht Hf Hw) as [Mono _].
  destruct (smear_unfold world Hne Hg) as (lo & hi & LE & (wl & L1 & L2) & (wh & H1 & H2) & UNF).
  unfold compute_occ. rewrite Hf, UNF.
  assert (LH : lo <= hi) by (pose proof (LE wl lo L1 L2); lra).
  rewrite (C30_unbracketed_diverges_refuted (compute_numel occf degauss world) numel lo hi); try assumption; [reflexivity|].
  destruct HX as [[A B]|[A B]].
  - right. pose proof (Mono m lo (A wl lo L1 L2)). lra.
  - left. pose proof (Mono hi m (A wh hi H1 H2)). lra.
Qed.
Print Assumptions C30_outside_never_returns.

(** C30.  When all eigenvalues coincide the search never moves: it returns exactly when the
    count at that eigenvalue - capacity times the smearing function at 0, one half for
    Fermi-Dirac and Gaussian, less for cold smearing - already meets the request. *)
Theorem C30_degenerate_exact : forall typ degauss world numel occf enf e0, 0 < degauss ->
  l_smear_func typ = Some (occf, enf) ->
  world <> [] -> (forall g, In g world -> exists wk w e, In wk g /\ In w wk /\ In e (evl w)) ->
  (forall w e, In w (wfns world) -> In e (evl w) -> e = e0) ->
  (forall fuel, (exists r, compute_occ fuel world numel typ degauss = Ok (Some r))
     <-> Rabs (numel - capacity world * occf 0) <= / 10 ^ 10)
  /\ (typ = "fd"%string \/ typ = "gauss"%string -> occf 0 = 1 / 2) /\ (typ = "mv"%string -> 0 < occf 0 < 1 / 2).
Proof.
  intros typ degauss world numel occf enf e0 Hd Hf Hne Hg He. split; [|split].
  - destruct (smear_unfold world Hne Hg) as (lo & hi & LE & (wl & L1 & L2) & (wh & H1 & H2) & UNF).
    rewrite (He wl lo L1 L2), (He wh hi H1 H2) in UNF. clear lo hi LE L2 H2.
    assert (Nf : compute_numel occf degauss world e0 = capacity world * occf 0).
    { assert (E : compute_numel occf degauss world e0 = rsum (map (fun w => rsum (map (fun e => occ_one occf degauss e0 e * k_weight w) (evl w))) (wfns world))).
      { unfold compute_numel, group_numel, wfns. clear. induction world as [|g ws IH]; [reflexivity|].
        cbn [concat map]. rewrite concat_app, map_app, rsum_app, rsum_cons, IH. reflexivity. }
      rewrite E. unfold capacity. rewrite Rmult_comm.
      change (rsum (map (fun w => rsum (map (fun e => occ_one occf degauss e0 e * k_weight w) (evl w))) (wfns world)) =
        occf 0 * rsum (map (fun w => k_weight w * INR (length (evl w))) (wfns world))).
      rewrite <- rsum_scale. apply rsum_ext. intros w Hw.
      rewrite (rsum_ext _ (fun _ => occf 0 * k_weight w)).
      - rewrite (rsum_const (occf 0 * k_weight w)). ring.
      - intros e Hin. rewrite (He w e Hw Hin). unfold occ_one, SMEAR_THRESHOLD. replace ((e0 - e0) / degauss) with 0 by (unfold Rdiv; ring).
        rewrite Rabs_R0. destruct (Rle_dec 0 50); [reflexivity|lra]. }
    intros fuel. unfold compute_occ. rewrite Hf, UNF. fold EPS. rewrite <- Nf.
    assert (B : (e0 + e0) / 2 = e0) by field. 
    assert (BS : bisect fuel (compute_numel occf degauss world) numel e0 e0 =
       if Rlt_dec EPS (Rabs (numel - compute_numel occf degauss world e0)) then None else Some e0).
    { clear UNF. induction fuel as [|fuel IH]; cbn [bisect]; rewrite B; destruct (Rlt_dec EPS _) as [L|L]; try reflexivity.
      destruct (Rlt_dec 0 _); exact IH. }
    rewrite BS. destruct (Rlt_dec EPS _) as [L|L]; split.
    + intros (r & X). discriminate.
    + intros X. lra.
    + intros _. lra.
    + intros _. eauto.
  - intros [-> | ->]; injection Hf as <- <-; [rewrite fd_zero; lra|]. unfold gauss_occ, erfc. rewrite erf_0. field.
  - intros ->. injection Hf as <- <-. pose proof (mv_pos 0). pose proof mv_at_mu. lra.
Qed.
Print Assumptions C30_degenerate_exact.
