(** Lemmas for C108: parity of the angles and of the spherical harmonics. *)
From Coq Require Import Reals Lra Permutation.
From Verif Require Import Base GIndexModel LatModel LatProofs GSphereModel GSphereProofs NlocModel NlocSpec NlocProofs PropsNloc FFTModel FFTSpec KSHamModel KSHamSpec KSHamProofs HamSymModel HamSymSpec CBase.
Local Open Scope R_scope.

Lemma pow_neg1_sq n : (-1) ^ n * (-1) ^ n = 1.
Proof. rewrite <- Rpow_mult_distr. replace (-1 * -1) with 1 by ring. apply pow1. Qed.
Lemma pow_neg x n : (- x) ^ n = (-1) ^ n * x ^ n.
Proof. rewrite <- Rpow_mult_distr. f_equal. ring. Qed.
Lemma rltb_true x y : x < y -> rltb x y = true.
Proof. unfold rltb. now destruct (Rlt_dec x y). Qed.
Lemma rltb_false x y : y <= x -> rltb x y = false.
Proof. unfold rltb. destruct (Rlt_dec x y); [lra|reflexivity]. Qed.
Lemma rleb_true' x y : x <= y -> rleb x y = true.
Proof. unfold rleb. now destruct (Rle_dec x y). Qed.
Lemma rleb_false' x y : y < x -> rleb x y = false.
Proof. unfold rleb. destruct (Rle_dec x y); [lra|reflexivity]. Qed.

(** ---- spherical harmonics ---- *)
Lemma term_neg l m k x : legendre_term l m k (- x) = (-1) ^ (l + m) * legendre_term l m k x.
Proof.
  unfold legendre_term. destruct (2 * k + m <=? l)%nat eqn:E; [|ring]. apply Nat.leb_le in E. rewrite pow_neg.
  assert (S0 : (-1) ^ (l - 2 * k - m) = (-1) ^ (l + m)).
  { replace (l + m)%nat with (l - 2 * k - m + 2 * (k + m))%nat by lia. rewrite pow_add, pow_mult. replace ((-1) ^ 2) with 1 by ring. rewrite pow1. ring. }
  rewrite S0. ring.
Qed.
Lemma legendre_neg l m s c : legendre l m s (- c) = (-1) ^ (l + m) * legendre l m s c.
Proof.
  unfold legendre. rewrite (rsum_ext (S l) _ (fun k => (-1) ^ (l + m) * legendre_term l m k c)) by (intros; apply term_neg).
  rewrite rsum_scal. ring.
Qed.
Lemma cis_PI_nat m : cis (INR m * PI) = RtoC ((-1) ^ m).
Proof.
  induction m as [|m IH]; [rewrite Rmult_0_l; apply cis_0|]. rewrite S_INR, Rmult_plus_distr_r, Rmult_1_l, cis_plus, IH.
  unfold cis. rewrite cos_PI, sin_PI. unfold Cmult, RtoC. cbn [fst snd pow]. f_equal; ring.
Qed.
Lemma cos_PI_minus x : cos (PI - x) = - cos x.
Proof. rewrite cos_minus, cos_PI, sin_PI. ring. Qed.
Lemma sph_parity l m t p : sph_harm_y l m (PI - t) (p + PI) = (RtoC ((-1) ^ l) * sph_harm_y l m t p)%C.
Proof.
  unfold sph_harm_y. rewrite sin_PI_x, cos_PI_minus, legendre_neg, Rmult_plus_distr_l, cis_plus, cis_PI_nat.
  set (n := sqrt _). set (a := legendre _ _ _ _). rewrite pow_add.
  replace (n * ((-1) ^ l * (-1) ^ m * a)) with ((-1) ^ l * ((n * a) * (-1) ^ m)) by ring. rewrite !RtoC_mult.
  replace (RtoC ((-1) ^ l) * (RtoC n * RtoC a * RtoC ((-1) ^ m)) * (cis (INR m * p) * RtoC ((-1) ^ m)))%C
    with (RtoC ((-1) ^ l) * (RtoC n * RtoC a * cis (INR m * p)) * (RtoC ((-1) ^ m) * RtoC ((-1) ^ m)))%C by ring.
  rewrite <- (RtoC_mult ((-1) ^ m)), pow_neg1_sq. ring.
Qed.
Lemma sph_period l m t p : sph_harm_y l m t (p + 2 * PI) = sph_harm_y l m t p.
Proof.
  unfold sph_harm_y. rewrite Rmult_plus_distr_l, cis_plus. replace (INR m * (2 * PI)) with (2 * PI * INR m) by ring. rewrite cis_2PI_nat. ring.
Qed.
Lemma sph_parity_minus l m t p : sph_harm_y l m (PI - t) (p - PI) = (RtoC ((-1) ^ l) * sph_harm_y l m t p)%C.
Proof. rewrite <- sph_parity, <- (sph_period l m (PI - t) (p - PI)). f_equal. ring. Qed.
Lemma sph_pole l m t p q : sin t = 0 -> sph_harm_y l m t p = sph_harm_y l m t q.
Proof.
  intros H. unfold sph_harm_y, legendre. rewrite H. destruct m as [|m]; [cbn [INR]; now rewrite !Rmult_0_l|].
  cbn [pow]. rewrite !Rmult_0_l, !Rmult_0_r, !Rmult_0_l, !Rmult_0_r. ring.
Qed.
Lemma sph_real l t p : snd (sph_harm_y l 0 t p) = 0.
Proof. unfold sph_harm_y. cbn [INR]. rewrite Rmult_0_l, cis_0. unfold Cmult, RtoC. cbn [fst snd]. ring. Qed.

(** ---- angles ---- *)
Lemma vnorm_neg c : vnorm (vneg c) = vnorm c.
Proof. unfold vnorm, vneg, vdot. cbn [vx vy vz]. f_equal. ring. Qed.
Lemma vnorm_sq c : vnorm c * vnorm c = vdot c c.
Proof. apply sqrt_sqrt. unfold vdot. nra. Qed.
Lemma polar_neg c : / 10 ^ 7 < vnorm c -> polar (vneg c) = PI - polar c.
Proof.
  intros H. unfold polar. rewrite vnorm_neg, rltb_true by exact H. rewrite <- acos_opp. f_equal. unfold vneg. cbn [vz].
  unfold Rdiv. ring.
Qed.
Lemma polar_pole c : / 10 ^ 7 < vnorm c -> vx c = 0 -> vy c = 0 -> sin (polar c) = 0.
Proof.
  intros H X Y0. assert (0 < / 10 ^ 7) by (apply Rinv_0_lt_compat, pow_lt; lra).
  unfold polar. rewrite rltb_true by exact H. pose proof (vnorm_sq c) as Q. unfold vdot in Q. rewrite X, Y0 in Q.
  set (n := vnorm c) in *. assert (Z2 : (vz c / n) * (vz c / n) = 1).
  { replace (vz c / n * (vz c / n)) with (vz c * vz c / (n * n)) by (field; lra). replace (vz c * vz c) with (n * n) by lra. field. lra. }
  rewrite sin_acos by nra. replace (1 - (vz c / n)²) with 0 by (unfold Rsqr; lra). apply sqrt_0.
Qed.
Lemma atan2_neg y x : x <> 0 \/ y <> 0 -> atan2 (- y) (- x) = atan2 y x + PI \/ atan2 (- y) (- x) = atan2 y x - PI.
Proof.
  intros N. unfold atan2.
  destruct (Rtotal_order x 0) as [L|[->|G]].
  - rewrite (rltb_true 0 (- x)), (rltb_false 0 x), (rltb_true x 0) by lra.
    replace (- y / - x) with (y / x) by (field; lra). destruct (rleb 0 y); [right|left]; ring.
  - destruct N as [N|N]; [lra|]. rewrite Ropp_0, !(rltb_false 0 0) by lra.
    destruct (Rtotal_order y 0) as [L|[->|G]]; [|lra|].
    + rewrite (rltb_true 0 (- y)), (rltb_false 0 y), (rltb_true y 0) by lra. left. lra.
    + rewrite (rltb_false 0 (- y)), (rltb_true 0 y), (rltb_true (- y) 0) by lra. right. lra.
  - rewrite (rltb_false 0 (- x)), (rltb_true (- x) 0), (rltb_true 0 x) by lra.
    replace (- y / - x) with (y / x) by (field; lra). destruct (rleb 0 (- y)); [left|right]; ring.
Qed.
Lemma harm_neg l m c : / 10 ^ 7 < vnorm c ->
  sph_harm_y l m (polar (vneg c)) (azimuth (vneg c)) = (RtoC ((-1) ^ l) * sph_harm_y l m (polar c) (azimuth c))%C.
Proof.
  intros H. rewrite polar_neg by exact H. unfold azimuth. unfold vneg at 1 2. cbn [vx vy].
  destruct (Req_EM_T (vx c) 0) as [X|X]; [destruct (Req_EM_T (vy c) 0) as [Y0|Y0]|].
  - rewrite (sph_pole l m (PI - polar c) _ (atan2 (vy c) (vx c) + PI)); [apply sph_parity|]. rewrite sin_PI_x. now apply polar_pole.
  - destruct (atan2_neg (vy c) (vx c)) as [-> | ->]; [now right|apply sph_parity|apply sph_parity_minus].
  - destruct (atan2_neg (vy c) (vx c)) as [-> | ->]; [now left|apply sph_parity|apply sph_parity_minus].
Qed.
Lemma real_harm_neg l m c : / 10 ^ 7 < vnorm c ->
  real_harmonic sph_harm_y l m (polar (vneg c)) (azimuth (vneg c)) = (RtoC ((-1) ^ l) * real_harmonic sph_harm_y l m (polar c) (azimuth c))%C.
Proof.
  intros H. unfold real_harmonic, Y. change (0 <? 0)%Z with false. destruct (m =? 0)%Z; [now apply harm_neg|].
  destruct (m <? 0)%Z; rewrite harm_neg by exact H; destruct (sph_harm_y _ _ (polar c) (azimuth c)) as [u v]; unfold Cmult, RtoC; cbn [fst snd]; f_equal; ring.
Qed.
Lemma real_harm_real l m t p : Cconj (real_harmonic sph_harm_y l m t p) = real_harmonic sph_harm_y l m t p.
Proof.
  unfold real_harmonic, Y. change (0 <? 0)%Z with false. destruct (m =? 0)%Z; [|unfold Cconj, RtoC; cbn [fst snd]; f_equal; ring].
  pose proof (sph_real l t p) as E. change (Z.to_nat 0) with O. destruct (sph_harm_y l 0 t p) as [u v]. cbn [snd] in E. subst v. unfold Cconj. cbn [fst snd]. f_equal. ring.
Qed.

Lemma rint_IZR' k : rint (IZR k) = k.
Proof.
  unfold rint. assert (E : rfloor (IZR k) = k) by (apply rfloor_unique; lra). rewrite E.
  destruct (Rlt_dec (IZR k - IZR k) (1 / 2)); [reflexivity|lra].
Qed.
(** ---- projectors as functions of the vector G+k ---- *)
Definition rad (N : nonloc) (L : lattice) (b : nat) (w : rvec) : R := match radial N L b w with Ok x => x | Err _ => 0 end.
Definition vkx (N : nonloc) (L : lattice) (p : nat) (w : rvec) : C :=
  let n := numvkb (nl_l N) in let i := (p mod n)%nat in
  let b := nth i (vkb_idxbeta (nl_l N)) O in let l := nth i (vkb_l (nl_l N)) O in let m := nth i (vkb_m (nl_l N)) 0%Z in
  let H := real_harmonic sph_harm_y l m (polar (gk_cart L w)) (azimuth (gk_cart L w)) in
  (phase (nth (p / n) (nl_pos N) (V 0 0 0)) w * ((if (m =? 0)%Z then H else - H) * RtoC (rad N L b w)) * - ipow l)%C.
Lemma label_of ls i : (i < numvkb ls)%nat -> nth_error ls (nth i (vkb_idxbeta ls) O) = Some (nth i (vkb_l ls) O).
Proof.
  intros H. destruct (C43_projector_enumeration ls) as (_ & L1 & L2 & _ & E). apply (proj1 (E _ _ (nth i (vkb_m ls) 0%Z))).
  assert (LL : length (vkb_l ls) = numvkb ls) by reflexivity.
  replace (nth i (vkb_idxbeta ls) O, nth i (vkb_l ls) O, nth i (vkb_m ls) 0%Z) with (nth i (combine (combine (vkb_idxbeta ls) (vkb_l ls)) (vkb_m ls)) (O, O, 0%Z)).
  - apply nth_In. rewrite !combine_length. lia.
  - rewrite combine_nth by (rewrite combine_length; lia). rewrite combine_nth by lia. reflexivity.
Qed.
Lemma kpoint_of_beta N L ws K : kpoint_of N L ws = Ok K -> forall b g, (b < length (nl_l N))%nat -> (g < length ws)%nat ->
  radial N L b (nth g ws (V 0 0 0)) = Ok (k_beta K b g).
Proof.
  unfold kpoint_of. destruct (sequence _) as [betas|] eqn:E; [|discriminate]. cbn [bind]. intros H b g Hb Hg. injection H as <-. cbn [k_beta].
  apply sequence_ok in E. 
  assert (Lb : length betas = length (nl_l N)) by (apply (f_equal (@length _)) in E; rewrite !map_length, seq_length in E; lia).
  assert (E1 : sequence (map (radial N L b) ws) = Ok (nth b betas [])).
  { transitivity (nth b (map (fun b => sequence (map (radial N L b) ws)) (seq 0 (length (nl_l N)))) (Err TypeError)).
    - rewrite (nth_indep _ _ (sequence (map (radial N L 0%nat) ws))) by (rewrite map_length, seq_length; lia).
      rewrite (map_nth (fun b => sequence (map (radial N L b) ws))). now rewrite seq_nth by lia.
    - rewrite E, (nth_indep _ _ (Ok [])) by (rewrite map_length; lia). apply (map_nth Ok). }
  apply sequence_ok in E1.
  assert (Lg : length (nth b betas []) = length ws) by (apply (f_equal (@length _)) in E1; rewrite !map_length in E1; lia).
  transitivity (nth g (map (radial N L b) ws) (Err TypeError)).
  - rewrite (nth_indep _ _ (radial N L b (V 0 0 0))) by (rewrite map_length; lia). now rewrite (map_nth (radial N L b)).
  - rewrite E1, (nth_indep _ _ (Ok 0)) by (rewrite map_length; lia). apply (map_nth Ok).
Qed.
Lemma vkb_explicit N L ws K p g : kpoint_of N L ws = Ok K -> (p < num_full (species_of N))%nat -> (g < length ws)%nat ->
  vkb_full sph_harm_y (species_of N) K p g = vkx N L p (nth g ws (V 0 0 0)).
Proof.
  intros HK Hp Hg. unfold num_full in Hp. cbn [species_of s_pos s_l] in Hp.
  assert (Hn : (0 < numvkb (nl_l N))%nat) by (destruct (numvkb (nl_l N)); lia).
  unfold vkb_full, vkx, vkb_iat. cbn [species_of s_l s_pos].
  assert (Hi : (p mod numvkb (nl_l N) < numvkb (nl_l N))%nat) by (apply Nat.mod_upper_bound; lia).
  destruct (C43_rows_carry_their_label sph_harm_y (species_of N) K (p mod numvkb (nl_l N)) g Hi) as (_ & E).
  cbv zeta in E. cbn [species_of s_l] in E. rewrite E. clear E.
  pose proof (label_of _ _ Hi) as LB. set (b := nth (p mod numvkb (nl_l N)) (vkb_idxbeta (nl_l N)) O) in *.
  assert (Hb : (b < length (nl_l N))%nat) by (apply nth_error_Some; congruence).
  unfold rad. rewrite (kpoint_of_beta _ _ _ _ HK b g Hb Hg).
  unfold kpoint_of in HK. destruct (sequence _) as [betas|]; [|discriminate]. cbn [bind] in HK. injection HK as <-. reflexivity.
Qed.

Lemma Copp_conj a : Cconj (- a)%C = (- Cconj a)%C.
Proof. unfold Cconj, Copp. cbn [fst snd]. reflexivity. Qed.
Lemma cart_neg L w : gk_cart L (vneg w) = vneg (gk_cart L w).
Proof. unfold gk_cart, cryst2cart, mv, vadd, vscale, vneg. destruct L as [[[a1 a2 a3] [b1 b2 b3] [d1 d2 d3]] ? ? ?]. cbn. f_equal; ring. Qed.
Lemma phase_neg tau w : phase tau (vneg w) = Cconj (phase tau w).
Proof. unfold phase. rewrite cis_conj. f_equal. unfold vdot, vneg. cbn [vx vy vz]. ring. Qed.
Lemma ipow_conj l : Cconj (ipow l) = (RtoC ((-1) ^ l) * ipow l)%C.
Proof.
  induction l as [|l IH]; [unfold Cconj, Cmult, RtoC; cbn [ipow fst snd pow RtoC]; f_equal; ring|].
  cbn [ipow pow]. rewrite Cmult_conj, IH, RtoC_mult. destruct (ipow l) as [u v]; unfold Ci, Cconj, Cmult, RtoC; cbn [fst snd]; f_equal; ring.
Qed.
Lemma simpson_zero n f : (forall i, f i = 0) -> simpson n f = 0.
Proof. intros H. unfold simpson. rewrite (rsum_ext _ _ (fun _ => 0)) by (intros; rewrite !H; ring). assert (Z0 : forall m, rsum m (fun _ => 0) = 0) by (induction m as [|m IH]; [reflexivity|cbn [rsum]; rewrite IH; ring]). rewrite Z0. ring. Qed.
Lemma table_zero P b l : (0 < l <= 6)%nat -> table_entry P b l 0 = 0.
Proof.
  intros Hl. unfold table_entry, spherical_jn. destruct (6 <? l)%nat eqn:E; [reflexivity|]. clear E.
  apply simpson_zero. intros i. set (xs := map (fun i => 0 * DEL_Q * p_r P i) (seq 0 (p_n P))).
  assert (X : forall x, In x xs -> x = 0) by (intros x Hx; unfold xs in Hx; apply in_map_iff in Hx as (j & <- & _); ring).
  assert (T0 : 0 < small_x_thr l).
  { unfold small_x_thr. destruct (2 <? l)%nat eqn:E; [|lra]. apply Nat.ltb_lt in E. assert (0 < (25 / 10) ^ (l - 2)) by (apply pow_lt; lra).
    assert (3 <= INR l) by (replace 3 with (INR 3) by (cbn; lra); apply le_INR; lia). nra. }
  assert (F : filter (le_thr (small_x_thr l)) xs = xs).
  { clearbody xs. clear -X T0. induction xs as [|x xs IH]; [reflexivity|]. cbn [filter]. rewrite (X x (or_introl eq_refl)) in *. unfold le_thr at 1. destruct (Rle_dec 0 (small_x_thr l)); [f_equal; apply IH; intros y Hy; apply X; now right|lra]. }
  rewrite F, firstn_all, skipn_all. cbn [map]. rewrite app_nil_r.
  assert (J : nth i (map (jn_series l) xs) 0 = 0).
  { destruct (Nat.lt_ge_cases i (length xs)) as [H|H]; [|apply nth_overflow; rewrite map_length; lia].
    rewrite (nth_indep _ _ (jn_series l 0)) by (rewrite map_length; lia). rewrite map_nth, (X (nth i xs 0)) by now apply nth_In.
    unfold jn_series. rewrite (pow_i l) by lia. unfold Rdiv. ring. }
  rewrite J. ring.
Qed.
Lemma rad_zero e N L b w l : made_from_file e N -> nth_error (nl_l N) b = Some l -> (0 < l)%nat -> gk_norm L w = 0 -> rad N L b w = 0.
Proof.
  intros (P & pos & H) Hb Hl Hw. unfold nonloc_init in H. destruct (forallb _ (p_l P)) eqn:E; [|discriminate]. injection H as <-. cbn [nl_l] in Hb.
  assert (L6 : (l <= 6)%nat). { apply nth_error_In in Hb. rewrite forallb_forall in E. apply E in Hb. now apply Nat.leb_le. }
  unfold rad, radial. cbn [nl_nq nl_tab]. rewrite Hw. unfold beta_gk, interp. rewrite (nth_error_nth _ _ _ Hb).
  replace (0 / DEL_Q) with (IZR 0) by (unfold DEL_Q; field). rewrite rint_IZR'.
  destruct ((0 <? 0)%Z || _)%bool; [reflexivity|]. cbn [rmap]. rewrite table_zero by lia.
  unfold lagrange4. change (IZR 0) with 0. unfold Rdiv. ring.
Qed.
Lemma vnorm_zero c : vnorm c = 0 -> vneg c = c.
Proof.
  intros H. pose proof (vnorm_sq c) as Q. rewrite H in Q. destruct c as [x y z]. unfold vdot, vneg in *. cbn [vx vy vz] in *.
  assert (x = 0) by nra. assert (y = 0) by nra. assert (z = 0) by nra. subst. f_equal; ring.
Qed.
Lemma vkx_neg e N L p w : made_from_file e N -> (p < num_full (species_of N))%nat -> gk_norm L w = 0 \/ / 10 ^ 7 < gk_norm L w ->
  vkx N L p (vneg w) = Cconj (vkx N L p w).
Proof.
  intros HN Hp Hw. unfold num_full in Hp. cbn [species_of s_pos s_l] in Hp.
  assert (Hn : (0 < numvkb (nl_l N))%nat) by (destruct (numvkb (nl_l N)); lia).
  assert (Hi : (p mod numvkb (nl_l N) < numvkb (nl_l N))%nat) by (apply Nat.mod_upper_bound; lia).
  pose proof (label_of _ _ Hi) as LB. unfold vkx. cbv zeta. set (n := numvkb (nl_l N)) in *.
  set (b := nth (p mod n) (vkb_idxbeta (nl_l N)) O) in *. set (l := nth (p mod n) (vkb_l (nl_l N)) O) in *. set (m := nth (p mod n) (vkb_m (nl_l N)) 0%Z) in *.
  assert (RE : rad N L b (vneg w) = rad N L b w) by (unfold rad, radial, gk_norm; now rewrite cart_neg, vnorm_neg).
  rewrite cart_neg, phase_neg, RE. rewrite !Cmult_conj, Copp_conj, ipow_conj.
  assert (CR : Cconj (RtoC (rad N L b w)) = RtoC (rad N L b w)) by (unfold Cconj, RtoC; cbn [fst snd]; f_equal; ring). rewrite CR.
  set (H1 := real_harmonic sph_harm_y l m (polar (gk_cart L w)) (azimuth (gk_cart L w))).
  assert (HR : Cconj (if (m =? 0)%Z then H1 else - H1)%C = (if (m =? 0)%Z then H1 else - H1)%C).
  { destruct (m =? 0)%Z; [apply real_harm_real|]. rewrite Copp_conj. f_equal. apply real_harm_real. }
  rewrite HR. destruct Hw as [Hw|Hw].
  - unfold gk_norm in Hw. rewrite (vnorm_zero _ Hw). fold H1. destruct l as [|l'] eqn:El.
    + cbn [ipow pow]. change (RtoC ((-1) ^ 0)) with (RtoC 1). ring.
    + rewrite (rad_zero e N L b w (S l') HN LB ltac:(lia) Hw). ring.
  - rewrite real_harm_neg by exact Hw. fold H1. destruct (m =? 0)%Z; ring.
Qed.
