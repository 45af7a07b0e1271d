(** Spherical Bessel functions: recurrence, closed forms, truncation error. *)
From Coq Require Import Reals Lra Lia.
From Verif Require Import Base LatModel NlocModel BesselSpec.
Open Scope R_scope.

Lemma odd_fact_pos m : 0 < odd_fact m.
Proof. induction m as [|m IH]; [cbn; lra|]. cbn [odd_fact]. apply Rmult_lt_0_compat; [|exact IH]. pose proof (pos_INR (S m)). lra. Qed.
Lemma odd_fact_S m : odd_fact (S m) = (2 * INR m + 3) * odd_fact m.
Proof. cbn [odd_fact]. rewrite S_INR. ring. Qed.
Lemma fact_pos' k : 0 < INR (fact k).
Proof. apply lt_0_INR, lt_O_fact. Qed.
Lemma pow2_pos k : 0 < 2 ^ k. Proof. apply pow_lt. lra. Qed.

Lemma fact_odd k : INR (fact (2 * k + 1)) = 2 ^ k * INR (fact k) * odd_fact k.
Proof.
  induction k as [|k IH]; [cbn; ring|].
  replace (2 * S k + 1)%nat with (S (S (2 * k + 1))) by lia.
  rewrite 2!fact_simpl, 2!mult_INR, IH. rewrite fact_simpl, mult_INR, odd_fact_S. cbn [pow].
  rewrite !S_INR, plus_INR, mult_INR. cbn [INR]. ring.
Qed.
Lemma fact_even k : INR (fact (2 * k)) * (2 * INR k + 1) = 2 ^ k * INR (fact k) * odd_fact k.
Proof.
  rewrite <- fact_odd. replace (2 * k + 1)%nat with (S (2 * k)) by lia.
  rewrite fact_simpl, mult_INR, S_INR, mult_INR. cbn [INR]. ring.
Qed.

(** infinite sums *)
Lemma isum_scal f l c : infinite_sum f l -> infinite_sum (fun k => c * f k) (c * l).
Proof.
  intros H. apply (Un_cv_ext (fun n => c * sum_f_R0 f n)).
  - intros n. rewrite scal_sum. apply sum_eq. intros. ring.
  - apply (CV_mult (fun _ => c)); [|exact H]. intros eps He. exists O. intros. now rewrite R_dist_eq.
Qed.
Lemma isum_minus f g l m : infinite_sum f l -> infinite_sum g m -> infinite_sum (fun k => f k - g k) (l - m).
Proof.
  intros H1 H2. apply (Un_cv_ext (fun n => sum_f_R0 f n - sum_f_R0 g n)).
  - intros n. now rewrite minus_sum.
  - now apply CV_minus.
Qed.
Lemma isum_ext f g l : (forall k, f k = g k) -> infinite_sum f l -> infinite_sum g l.
Proof. intros E H. apply (Un_cv_ext (sum_f_R0 f)); [|exact H]. intros n. apply sum_eq. intros; apply E. Qed.
Lemma isum_shift f l : infinite_sum f l -> infinite_sum (fun k => f (S k)) (l - f O).
Proof.
  intros H. apply (Un_cv_ext (fun n => sum_f_R0 f (S n) - f O)).
  - intros n. rewrite (decomp_sum f) by lia. cbn [Init.Nat.pred]. ring.
  - apply CV_minus.
    + intros eps He. destruct (H eps He) as (N & HN). exists N. intros n Hn. apply HN. lia.
    + intros eps He. exists O. intros. now rewrite R_dist_eq.
Qed.

(** j_(n+2) = (2n+3)/x j_(n+1) - j_n *)
Lemma rec_head n x : x <> 0 -> (2 * INR n + 3) / x * jn_term (S n) x 0 = jn_term n x 0.
Proof.
  intros Hx. unfold jn_term. change (2 * 0)%nat with O. rewrite !Nat.add_0_r, odd_fact_S. cbn [pow fact].
  pose proof (odd_fact_pos n). pose proof (pos_INR n). cbn [INR]. field. repeat split; try lra; exact Hx.
Qed.
Lemma rec_term n x k : x <> 0 ->
  jn_term (S (S n)) x k = (2 * INR n + 3) / x * jn_term (S n) x (S k) - jn_term n x (S k).
Proof.
  intros Hx. unfold jn_term.
  replace (S n + S k)%nat with (S (S (n + k))) by lia. replace (n + S k)%nat with (S (n + k)) by lia.
  replace (S (S n) + k)%nat with (S (S (n + k))) by lia. rewrite !odd_fact_S.
  replace (S n + 2 * S k)%nat with (S (n + 2 * k + 2)) by lia.
  replace (n + 2 * S k)%nat with (n + 2 * k + 2)%nat by lia.
  replace (S (S n) + 2 * k)%nat with (n + 2 * k + 2)%nat by lia.
  rewrite fact_simpl, mult_INR. rewrite !S_INR, plus_INR. cbn [pow]. 
  set (X := x ^ (n + 2 * k + 2)). set (O_ := odd_fact (n + k)).
  pose proof (odd_fact_pos (n + k)) as HO. fold O_ in HO. pose proof (fact_pos' k). pose proof (pow2_pos k).
  pose proof (pos_INR n). pose proof (pos_INR k).
  field. repeat split; try lra; exact Hx.
Qed.
Lemma bessel_rec n x a b : x <> 0 -> is_spherical_bessel n x a -> is_spherical_bessel (S n) x b ->
  is_spherical_bessel (S (S n)) x ((2 * INR n + 3) / x * b - a).
Proof.
  intros Hx Ha Hb. unfold is_spherical_bessel in *.
  apply (isum_ext (fun k => (2 * INR n + 3) / x * jn_term (S n) x (S k) - jn_term n x (S k))).
  { intros k. symmetry. now apply rec_term. }
  replace ((2 * INR n + 3) / x * b - a)
    with ((2 * INR n + 3) / x * (b - jn_term (S n) x 0) - (a - jn_term n x 0)).
  - apply isum_minus.
    + now apply isum_scal, (isum_shift (jn_term (S n) x)).
    + now apply (isum_shift (jn_term n x)).
  - rewrite <- (rec_head n x Hx). ring.
Qed.

Lemma bessel0 x : x <> 0 -> is_spherical_bessel 0 x (sin x / x).
Proof.
  intros Hx. unfold sin. destruct (exist_sin (Rsqr x)) as (a & Ha).
  replace (x * a / x) with a by (field; exact Hx). unfold sin_in in Ha.
  apply (isum_ext (fun i => sin_n i * Rsqr x ^ i)); [|exact Ha].
  intros k. unfold sin_n, jn_term. rewrite fact_odd. cbn [plus]. rewrite pow_mult, Rsqr_pow2. unfold Rdiv. ring.
Qed.
Lemma cos_series x : infinite_sum (fun i => cos_n i * Rsqr x ^ i) (cos x).
Proof. unfold cos. destruct (exist_cos (Rsqr x)) as (a & Ha). exact Ha. Qed.
Lemma bessel1 x : x <> 0 -> is_spherical_bessel 1 x (sin x / x ^ 2 - cos x / x).
Proof.
  intros Hx. pose proof (bessel0 x Hx) as H0. pose proof (cos_series x) as Hc.
  unfold is_spherical_bessel in *.
  apply isum_shift in H0. apply isum_shift in Hc.
  apply (isum_ext (fun k => / x * jn_term 0 x (S k) - / x * (cos_n (S k) * Rsqr x ^ S k))).
  { intros k. unfold jn_term, cos_n.
    assert (E : INR (fact (2 * S k)) = 2 * (INR k + 1) * (2 ^ k * INR (fact k) * odd_fact k)).
    { pose proof (fact_even (S k)) as F. rewrite odd_fact_S, fact_simpl, mult_INR, S_INR in F. cbn [pow] in F.
      pose proof (pos_INR k). apply (Rmult_eq_reg_r (2 * (INR k + 1) + 1)); [|lra]. rewrite F. ring. }
    rewrite E. replace (0 + S k)%nat with (S k) by lia. replace (1 + k)%nat with (S k) by lia.
    rewrite odd_fact_S, fact_simpl, mult_INR, S_INR.
    rewrite Rsqr_pow2, <- pow_mult. replace (0 + 2 * S k)%nat with (S (1 + 2 * k)) by lia.
    replace (2 * S k)%nat with (S (1 + 2 * k)) by lia. cbn [pow plus].
    set (X := x ^ (2 * k)).
    pose proof (odd_fact_pos k) as HO. pose proof (fact_pos' k). pose proof (pow2_pos k). pose proof (pos_INR k).
    field. repeat split; try lra; exact Hx. }
  replace (sin x / x ^ 2 - cos x / x)
    with (/ x * (sin x / x - jn_term 0 x 0) - / x * (cos x - cos_n 0 * Rsqr x ^ 0)).
  - apply isum_minus; apply isum_scal; assumption.
  - unfold jn_term, cos_n. cbn. field. exact Hx.
Qed.

(** The code's closed forms are the Bessel functions. *)
Lemma closed_forms n x : x <> 0 -> (n <= 6)%nat -> exists y, jn_closed n x = Some y /\ is_spherical_bessel n x y.
Proof.
  intros Hx Hn.
  pose proof (bessel0 x Hx) as B0. pose proof (bessel1 x Hx) as B1.
  assert (Step : forall n a b c, is_spherical_bessel n x a -> is_spherical_bessel (S n) x b ->
            c = (2 * INR n + 3) / x * b - a -> is_spherical_bessel (S (S n)) x c).
  { intros m a b c Ha Hb ->. now apply bessel_rec. }
  set (j2 := ((3 / x - x) * sin x - 3 * cos x) / x ^ 2).
  set (j3 := ((15 / x - 6 * x) * sin x + (x ^ 2 - 15) * cos x) / (x * x ^ 2)).
  set (j4 := ((105 - 45 * x ^ 2 + x ^ 2 * x ^ 2) * sin x + (10 * (x * x ^ 2) - 105 * x) * cos x) / (x ^ 2 * (x * x ^ 2))).
  set (j5 := (cos x * (-1 - 945 / (x ^ 2 * x ^ 2) + 105 / x ^ 2) + sin x * (945 / (x ^ 2 * (x * x ^ 2)) - 420 / (x * x ^ 2) + 15 / x)) / x).
  set (j6 := (cos x * (-10395 / (x ^ 2 * (x * x ^ 2)) + 1260 / (x * x ^ 2) - 21 / x) + sin x * (-1 + 10395 / ((x * x ^ 2) * (x * x ^ 2)) - 4725 / (x ^ 2 * x ^ 2) + 210 / x ^ 2)) / x).
  assert (B2 : is_spherical_bessel 2 x j2).
  { apply (Step _ _ _ _ B0 B1). unfold j2. cbn [INR]. field. exact Hx. }
  assert (B3 : is_spherical_bessel 3 x j3).
  { apply (Step _ _ _ _ B1 B2). unfold j2, j3. cbn [INR]. field. exact Hx. }
  assert (B4 : is_spherical_bessel 4 x j4).
  { apply (Step _ _ _ _ B2 B3). unfold j2, j3, j4. cbn [INR]. field. exact Hx. }
  assert (B5 : is_spherical_bessel 5 x j5).
  { apply (Step _ _ _ _ B3 B4). unfold j3, j4, j5. cbn [INR]. field. exact Hx. }
  assert (B6 : is_spherical_bessel 6 x j6).
  { apply (Step _ _ _ _ B4 B5). unfold j4, j5, j6. cbn [INR]. field. exact Hx. }
  destruct n as [|[|[|[|[|[|[|n]]]]]]]; try lia; eexists; (split; [reflexivity|]); assumption.
Qed.
Lemma bessel_exists n x : x <> 0 -> exists j, is_spherical_bessel n x j.
Proof.
  intros Hx. assert (G : exists a b, is_spherical_bessel n x a /\ is_spherical_bessel (S n) x b).
  { induction n as [|n (a & b & Ha & Hb)].
    - exists (sin x / x), (sin x / x ^ 2 - cos x / x). split; [now apply bessel0|now apply bessel1].
    - exists b. eexists. split; [exact Hb|]. now apply bessel_rec with (a := a) (b := b). }
  destruct G as (a & b & Ha & Hb). now exists a.
Qed.

(** Truncation error of the series. *)
Lemma semifact_odd n : IZR (semifact (2 * Z.of_nat n + 1)) = odd_fact n.
Proof.
  unfold semifact.
  assert (G : forall fuel m, (2 * m + 1 <= fuel)%nat -> IZR (semifact_from fuel (2 * Z.of_nat m + 1)) = odd_fact m).
  { intros fuel. induction fuel as [fuel IH] using lt_wf_ind. intros m Hm.
    destruct fuel as [|f]; [lia|]. cbn [semifact_from].
    replace (2 * Z.of_nat m + 1 <=? 0)%Z with false by lia. rewrite mult_IZR.
    destruct m as [|m].
    - destruct f; cbn; ring.
    - replace (2 * Z.of_nat (S m) + 1 - 2)%Z with (2 * Z.of_nat m + 1)%Z by lia.
      rewrite IH by lia. rewrite odd_fact_S. f_equal. rewrite plus_IZR, mult_IZR, <- INR_IZR_INZ, S_INR. ring. }
  apply G. lia.
Qed.

Definition jn_abs (n : nat) (x : R) (k : nat) : R := x ^ (n + 2 * k) / (2 ^ k * INR (fact k) * odd_fact (n + k)).
Lemma jn_abs_pos n x k : 0 <= x -> 0 <= jn_abs n x k.
Proof.
  intros Hx. unfold jn_abs. apply Rmult_le_pos; [now apply pow_le|]. left. apply Rinv_0_lt_compat.
  pose proof (odd_fact_pos (n + k)). pose proof (fact_pos' k). pose proof (pow2_pos k).
  repeat apply Rmult_lt_0_compat; assumption.
Qed.
Lemma jn_abs_step n x k : jn_abs n x (S k) = jn_abs n x k * (x ^ 2 / (2 * (INR k + 1) * (2 * INR (n + k) + 3))).
Proof.
  unfold jn_abs. replace (n + 2 * S k)%nat with (n + 2 * k + 2)%nat by lia. rewrite pow_add.
  replace (n + S k)%nat with (S (n + k)) by lia. rewrite odd_fact_S, fact_simpl, mult_INR, S_INR. cbn [pow].
  pose proof (odd_fact_pos (n + k)). pose proof (fact_pos' k). pose proof (pow2_pos k). pose proof (pos_INR k). pose proof (pos_INR (n + k)).
  field. repeat split; lra.
Qed.
Lemma ratio_bound n x k : 0 <= x -> x ^ 2 <= 6 -> 0 <= x ^ 2 / (2 * (INR k + 1) * (2 * INR (n + k) + 3)) <= 1.
Proof.
  intros Hx H6. pose proof (pos_INR k). pose proof (pos_INR (n + k)).
  assert (Hd : 6 <= 2 * (INR k + 1) * (2 * INR (n + k) + 3)) by nra.
  assert (Hx2 : 0 <= x ^ 2) by (apply pow_le; lra).
  split.
  - apply Rmult_le_pos; [lra|]. left. apply Rinv_0_lt_compat. lra.
  - apply (Rmult_le_reg_r (2 * (INR k + 1) * (2 * INR (n + k) + 3))); [lra|].
    unfold Rdiv. rewrite Rmult_assoc, Rinv_l by lra. lra.
Qed.
Lemma jn_abs_decr n x : 0 <= x -> x ^ 2 <= 6 -> Un_decreasing (jn_abs n x).
Proof.
  intros Hx H6 k. rewrite jn_abs_step. pose proof (jn_abs_pos n x k Hx). pose proof (ratio_bound n x k Hx H6).
  rewrite <- (Rmult_1_r (jn_abs n x k)) at 2. apply Rmult_le_compat_l; lra.
Qed.
Lemma jn_term_alt n x k : jn_term n x k = tg_alt (jn_abs n x) k.
Proof. unfold jn_term, tg_alt, jn_abs. unfold Rdiv. ring. Qed.

Lemma terms_to_zero f l : infinite_sum f l -> Un_cv f 0.
Proof.
  intros H. intros eps He. destruct (H (eps / 2) ltac:(lra)) as (N & HN). exists (S N). intros n Hn.
  destruct n as [|n]; [lia|]. pose proof (HN n ltac:(lia)) as H1. pose proof (HN (S n) ltac:(lia)) as H2.
  cbn [sum_f_R0] in H2. unfold R_dist in *. rewrite Rminus_0_r.
  replace (f (S n)) with ((sum_f_R0 f n + f (S n) - l) - (sum_f_R0 f n - l)) by ring.
  unfold Rminus at 1. eapply Rle_lt_trans; [apply Rabs_triang|]. rewrite Rabs_Ropp. lra.
Qed.

Lemma series_is_partial_sum n x : jn_series n x = sum_f_R0 (jn_term n x) 4.
Proof.
  cbn [sum_f_R0]. rewrite !jn_term_alt. unfold tg_alt. rewrite !jn_abs_step.
  assert (E0 : jn_abs n x 0 = x ^ n / odd_fact n).
  { unfold jn_abs. change (2 * 0)%nat with O. rewrite !Nat.add_0_r. cbn [pow fact INR]. f_equal. ring. }
  rewrite E0. unfold jn_series. rewrite semifact_odd. rewrite !plus_INR.
  pose proof (odd_fact_pos n). pose proof (pos_INR n). cbn [INR pow]. field. repeat split; lra.
Qed.
Lemma series_error n x j : 0 <= x -> x ^ 2 <= 6 -> is_spherical_bessel n x j ->
  0 <= jn_series n x - j <= jn_abs n x 5.
Proof.
  intros Hx H6 Hj.
  assert (Hs : Un_cv (fun N => sum_f_R0 (tg_alt (jn_abs n x)) N) j).
  { apply (Un_cv_ext (sum_f_R0 (jn_term n x))); [|exact Hj]. intros N. apply sum_eq. intros. apply jn_term_alt. }
  assert (Hz : Un_cv (jn_abs n x) 0).
  { pose proof (terms_to_zero _ _ Hj) as H0. intros eps He. destruct (H0 eps He) as (N & HN). exists N. intros m Hm.
    specialize (HN m Hm). unfold R_dist in *. rewrite Rminus_0_r in *. rewrite jn_term_alt in HN. unfold tg_alt in HN.
    rewrite Rabs_mult, pow_1_abs, Rmult_1_l in HN. exact HN. }
  pose proof (alternated_series_ineq (jn_abs n x) j 2 (jn_abs_decr n x Hx H6) Hz Hs) as [H1 H2].
  change (S (2 * 2)) with 5%nat in H1. change (2 * 2)%nat with 4%nat in H2.
  rewrite tech5 in H1. rewrite series_is_partial_sum.
  assert (E : sum_f_R0 (jn_term n x) 4 = sum_f_R0 (tg_alt (jn_abs n x)) 4) by (apply sum_eq; intros; apply jn_term_alt).
  rewrite E. assert (E5 : tg_alt (jn_abs n x) 5 = - jn_abs n x 5) by (unfold tg_alt; cbn [pow]; ring).
  rewrite E5 in H1. lra.
Qed.
Lemma thr_range n : (n <= 6)%nat -> 0 < small_x_thr n /\ small_x_thr n ^ 2 <= 6.
Proof.
  intros Hn. destruct n as [|[|[|[|[|[|[|n]]]]]]]; try lia; unfold small_x_thr; cbn -[pow]; cbn [pow]; lra.
Qed.

(** An ascending list is cut by the threshold exactly at the counted position. *)
Lemma split_sorted thr xs : Sorted.StronglySorted Rle xs ->
  (forall x, In x (firstn (length (filter (le_thr thr) xs)) xs) -> x <= thr) /\
  (forall x, In x (skipn (length (filter (le_thr thr) xs)) xs) -> thr < x).
Proof.
  induction 1 as [|a t Hs IH Ha]; [split; intros x []|]. cbn [filter].
  destruct (le_thr thr a) eqn:El; unfold le_thr in El; destruct (Rle_dec a thr) as [Hle|Hgt]; try discriminate.
  - cbn [length firstn skipn]. destruct IH as [I1 I2]. split; [|exact I2].
    intros x [<-|Hx]; [exact Hle|now apply I1].
  - assert (F : filter (le_thr thr) t = []).
    { rewrite Forall_forall in Ha. clear -Ha Hgt. induction t as [|b t IH]; [reflexivity|]. cbn [filter].
      unfold le_thr at 1. destruct (Rle_dec b thr) as [H|H].
      - specialize (Ha b (or_introl eq_refl)). lra.
      - apply IH. intros x Hx. apply Ha. now right. }
    rewrite F. cbn [length firstn skipn]. split; [intros x []|].
    rewrite Forall_forall in Ha. intros x [<-|Hx]; [lra|]. specialize (Ha x Hx). lra.
Qed.

(** Simpson sums are exact for cubics in the mesh index. *)
Definition cubic (a0 a1 a2 a3 t : R) : R := a0 + a1 * t + a2 * t ^ 2 + a3 * t ^ 3.
Definition quartic (a0 a1 a2 a3 t : R) : R := a0 * t + a1 / 2 * t ^ 2 + a2 / 3 * t ^ 3 + a3 / 4 * t ^ 4.
Lemma simpson_sum m a0 a1 a2 a3 :
  / 3 * CBase.rsum m (fun j => cubic a0 a1 a2 a3 (INR (2 * j)) + 4 * cubic a0 a1 a2 a3 (INR (2 * j + 1)) + cubic a0 a1 a2 a3 (INR (2 * j + 2)))
  = quartic a0 a1 a2 a3 (INR (2 * m)).
Proof.
  induction m as [|m IH].
  - cbn. unfold quartic. field.
  - cbn [CBase.rsum]. rewrite Rmult_plus_distr_l, IH. unfold cubic, quartic.
    replace (2 * S m)%nat with (2 * m + 2)%nat by lia. rewrite !plus_INR. cbn [INR]. field.
Qed.
