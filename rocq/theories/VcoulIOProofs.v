(** Lemmas about number formatting and table reading (C100). *)
From Coq Require Import Reals Ascii String Lra.
From Verif Require Import Base LatModel LatProofs QeInpModel QeInpSpec QeInpProofs PropsQeInp PropsBgwInp SigmaHpModel VcoulIOModel VcoulIOSpec.
Import ListNotations.
Local Open Scope nat_scope.
Notation length := List.length.
Local Notation ln := Rpower.ln.

(** ---- digits ---- *)
Lemma dchar_digit z : digits_text [Z.to_nat (z mod 10)] = [dchar (Z.to_nat (z mod 10))].
Proof. reflexivity. Qed.
Lemma digit_lt z : Z.to_nat (z mod 10) < 10.
Proof. pose proof (Z.mod_pos_bound z 10). lia. Qed.
Lemma digit_ok1 z : digits_ok [Z.to_nat (z mod 10)].
Proof. intros d [<-|[]]. apply digit_lt. Qed.
Lemma denotes1 z : denotes [Z.to_nat (z mod 10)] = (z mod 10)%Z.
Proof. cbn [denotes length]. change (10 ^ Z.of_nat 0)%Z with 1%Z. pose proof (Z.mod_pos_bound z 10). lia. Qed.

Lemma padded_spec k : forall z, (0 <= z)%Z -> exists ds, length ds = k /\ digits_ok ds /\ padded k z = digits_text ds /\ denotes ds = (z mod 10 ^ Z.of_nat k)%Z.
Proof.
  induction k as [|k IH]; intros z Hz.
  - exists []. repeat split; [easy|]. cbn [denotes]. change (10 ^ Z.of_nat 0)%Z with 1%Z. now rewrite Z.mod_1_r.
  - destruct (IH (z / 10)%Z) as (ds & L & K & E & D); [apply Z.div_pos; lia|].
    exists (ds ++ [Z.to_nat (z mod 10)]). repeat split.
    + rewrite app_length, L. cbn. lia.
    + apply digits_ok_app; [exact K|apply digit_ok1].
    + cbn [padded]. rewrite E, digits_app. reflexivity.
    + rewrite denotes_app, D, denotes1. cbn [length]. change (10 ^ Z.of_nat 1)%Z with 10%Z.
      replace (Z.of_nat (Datatypes.S k)) with (1 + Z.of_nat k)%Z by lia. rewrite Z.pow_add_r by lia. change (10 ^ 1)%Z with 10%Z.
      assert (P : (0 < 10 ^ Z.of_nat k)%Z) by (apply Z.pow_pos_nonneg; lia).
      rewrite Z.rem_mul_r by lia. lia.
Qed.
Lemma decimal_f_spec fuel : forall z, (0 <= z < 10 ^ Z.of_nat fuel)%Z -> (0 < fuel) ->
  exists ds, ds <> [] /\ digits_ok ds /\ decimal_f fuel z = digits_text ds /\ denotes ds = z
    /\ (forall k, (z < 10 ^ Z.of_nat (Datatypes.S k))%Z -> length ds <= Datatypes.S k).
Proof.
  induction fuel as [|f IH]; intros z Hz Hf; [lia|]. cbn [decimal_f]. destruct (Z.ltb_spec z 10) as [L|L].
  - exists [Z.to_nat (z mod 10)]. repeat split; [easy|apply digit_ok1| |intros k _; cbn; lia].
    rewrite denotes1. apply Z.mod_small. lia.
  - assert (F : 0 < f). { destruct f; [|lia]. change (10 ^ Z.of_nat 1)%Z with 10%Z in Hz. lia. }
    destruct (IH (z / 10)%Z) as (ds & N & K & E & D & B); [|exact F|].
    { split; [apply Z.div_pos; lia|]. apply Z.div_lt_upper_bound; [lia|].
      replace (Z.of_nat (Datatypes.S f)) with (1 + Z.of_nat f)%Z in Hz by lia. rewrite Z.pow_add_r in Hz by lia. lia. }
    exists (ds ++ [Z.to_nat (z mod 10)]). repeat split.
    + now destruct ds.
    + apply digits_ok_app; [exact K|apply digit_ok1].
    + rewrite E, digits_app. reflexivity.
    + rewrite denotes_app, D, denotes1. cbn [length]. change (10 ^ Z.of_nat 1)%Z with 10%Z. pose proof (Z.div_mod z 10). lia.
    + intros k Hk. rewrite app_length. cbn [length]. destruct k as [|k]; [change (10 ^ Z.of_nat 1)%Z with 10%Z in Hk; lia|].
      assert (length ds <= Datatypes.S k); [|lia]. apply B. apply Z.div_lt_upper_bound; [lia|].
      replace (Z.of_nat (Datatypes.S (Datatypes.S k))) with (1 + Z.of_nat (Datatypes.S k))%Z in Hk by lia. rewrite Z.pow_add_r in Hk by lia. lia.
Qed.
Lemma decimal_spec z : (0 <= z)%Z ->
  exists ds, ds <> [] /\ digits_ok ds /\ decimal z = digits_text ds /\ denotes ds = z
    /\ (forall k, (z < 10 ^ Z.of_nat (Datatypes.S k))%Z -> length ds <= Datatypes.S k).
Proof.
  intros Hz. unfold decimal. apply decimal_f_spec; [|lia]. split; [exact Hz|].
  destruct (Z.eq_dec z 0) as [-> |NZ]; [reflexivity|].
  pose proof (Z.log2_spec z ltac:(lia)) as (_ & H). pose proof (Z.log2_nonneg z).
  replace (Z.of_nat (Datatypes.S (Z.to_nat (Z.log2 z)))) with (Z.succ (Z.log2 z)) by lia.
  apply Z.lt_le_trans with (1 := H). apply Z.pow_le_mono_l. lia.
Qed.
Lemma denotes_nonneg ds : (0 <= denotes ds)%Z.
Proof.
  induction ds as [|d ds IH]; [easy|]. cbn [denotes]. assert (0 <= Z.of_nat d * 10 ^ Z.of_nat (length ds))%Z; [|lia].
  apply Z.mul_nonneg_nonneg; [lia|]. apply Z.pow_nonneg. lia.
Qed.

(** ---- fmt_int, fmt_f8, fmt_E7 ---- *)
Definition sgn_if (b : bool) : sgn := if b then Minus else NoSign.
Lemma minus_text b : minus_if b = sgn_text (sgn_if b). Proof. now destruct b. Qed.
Lemma sgn_if_len b : length (sgn_text (sgn_if b)) <= 1. Proof. destruct b; cbn; lia. Qed.
Lemma sgn_if_not b : sgn_if b <> Plus. Proof. now destruct b. Qed.

Lemma fmt_int_spec z : exists s ds, int_ok ds /\ s <> Plus /\ fmt_int z = int_text s ds /\ signed s (denotes ds) = z
  /\ ((Z.abs z < 100000)%Z -> length (int_text s ds) <= 6).
Proof.
  destruct (decimal_spec (Z.abs z)) as (ds & N & K & E & D & B); [lia|].
  exists (sgn_if (z <? 0)%Z), ds. repeat split; try assumption; [apply sgn_if_not|unfold fmt_int; now rewrite minus_text, E| |].
  - rewrite D. destruct (Z.ltb_spec z 0); cbn [sgn_if signed]; lia.
  - intros H. unfold int_text. rewrite app_length, digits_len. pose proof (sgn_if_len (z <? 0)%Z). specialize (B 4). change (10 ^ Z.of_nat 5)%Z with 100000%Z in B. specialize (B H). lia.
Qed.

Local Open Scope R_scope.
Lemma Rabs_le_inv a b : Rabs a <= b -> - b <= a <= b.
Proof. unfold Rabs. destruct (Rcase_abs a); lra. Qed.
Lemma rint_nonneg x : 0 <= x -> (0 <= rint x)%Z.
Proof.
  intros H. pose proof (rint_close x) as C. apply Rabs_le_inv in C. assert (-1 < IZR (rint x)) by lra. apply lt_IZR in H0. lia.
Qed.
Definition fixed_lit (b : bool) (ip fp : list nat) : real_lit := MkReal (sgn_if b) ip (Some fp) None.
Lemma sign_if_r x : IZR (signed (sgn_if (neg_r x)) 1) * Rabs x = x.
Proof.
  unfold neg_r. destruct (Rlt_dec x 0); cbn [sgn_if signed Z.opp]; [rewrite Rabs_left by lra|rewrite Rabs_right by lra]; lra.
Qed.
Lemma sign_if_abs b y : Rabs (IZR (signed (sgn_if b) 1) * y) = Rabs y.
Proof. destruct b; cbn [sgn_if signed Z.opp]; [replace (IZR (-1) * y) with (- y) by lra; apply Rabs_Ropp|f_equal; lra]. Qed.
Lemma fmt_f8_spec x : exists ip fp, fmt_f8 x = real_text (fixed_lit (neg_r x) ip fp) /\ real_ok (fixed_lit (neg_r x) ip fp)
  /\ ip <> [] /\ length fp = 8%nat
  /\ Rabs (real_value (fixed_lit (neg_r x) ip fp) - x) <= 5 / 10 ^ 9
  /\ (Rabs x < 9.99999999 -> (length (fmt_f8 x) <= 11)%nat).
Proof.
  set (n := rint (Rabs x * 10 ^ 8)).
  assert (N0 : (0 <= n)%Z) by (apply rint_nonneg; apply Rmult_le_pos; [apply Rabs_pos|apply pow_le; lra]).
  assert (P8 : (0 < 10 ^ 8)%Z) by reflexivity.
  destruct (decimal_spec (n / 10 ^ 8)%Z) as (ip & Ni & Ki & Ei & Di & Bi); [apply Z.div_pos; lia|].
  destruct (padded_spec 8 (n mod 10 ^ 8)%Z) as (fp & Lf & Kf & Ef & Df); [apply Z.mod_pos_bound; lia|].
  assert (Df' : denotes fp = (n mod 10 ^ 8)%Z). { rewrite Df. change (Z.of_nat 8) with 8%Z. apply Z.mod_small. now apply Z.mod_pos_bound. }
  exists ip, fp.
  assert (TE : fmt_f8 x = real_text (fixed_lit (neg_r x) ip fp)).
  { unfold fmt_f8, real_text, fixed_lit. cbn [r_sgn r_int r_frac r_exp]. fold n. rewrite minus_text, Ei, Ef. now rewrite app_nil_r. }
  assert (RV : real_value (fixed_lit (neg_r x) ip fp) = IZR (signed (sgn_if (neg_r x)) 1) * (IZR n / 10 ^ 8)).
  { unfold real_value, fixed_lit, real_exponent, frac_digits. cbn [r_sgn r_int r_frac r_exp]. rewrite Di, Df', Lf. cbn [powerRZ]. rewrite Rmult_1_r. f_equal.
    rewrite (Z.div_mod n (10 ^ 8)) at 3 by lia. rewrite plus_IZR, mult_IZR. change (IZR (10 ^ 8)) with (IZR (100000000)). replace (10 ^ 8) with (IZR 100000000) by (cbn; lra). field. }
  pose proof (rint_close (Rabs x * 10 ^ 8)) as RC. fold n in RC.
  repeat split.
  - exact TE.
  - exact Ki.
  - exact Kf.
  - cbn. intros H. apply app_eq_nil in H as (H & _). now apply Ni.
  - exact Ni.
  - exact Lf.
  - rewrite RV. rewrite <- (sign_if_r x) at 2. rewrite <- Rmult_minus_distr_l, sign_if_abs.
    replace (IZR n / 10 ^ 8 - Rabs x) with (- ((Rabs x * 10 ^ 8 - IZR n) * / 10 ^ 8)) by (field; apply pow_nonzero; lra).
    rewrite Rabs_Ropp, Rabs_mult, (Rabs_right (/ 10 ^ 8)) by (left; apply Rinv_0_lt_compat, pow_lt; lra).
    apply Rle_trans with (1 / 2 * / 10 ^ 8); [apply Rmult_le_compat_r; [left; apply Rinv_0_lt_compat, pow_lt; lra|exact RC]|]. cbn. lra.
  - intros H. rewrite TE. unfold real_text, fixed_lit. cbn [r_sgn r_int r_frac r_exp]. rewrite app_nil_r, !app_length, digits_len. cbn [length]. rewrite digits_len, Lf.
    pose proof (sgn_if_len (neg_r x)). assert (length ip <= 1)%nat; [|lia]. apply (Bi 0%nat). change (10 ^ Z.of_nat 1)%Z with 10%Z.
    apply Z.div_lt_upper_bound; [lia|]. change (10 ^ 8 * 10)%Z with 1000000000%Z. apply lt_IZR.
    apply Rabs_le_inv in RC. assert (Rabs x * 10 ^ 8 < 999999999) by (cbn; lra). cbn in *. lra.
Qed.

(** the decimal exponent *)
Lemma ln10 : 0 < ln 10. Proof. rewrite <- ln_1. apply ln_increasing; lra. Qed.
Lemma pow10_exp z : pow10 z = exp (IZR z * ln 10).
Proof.
  unfold pow10. rewrite powerRZ_Rpower by lra. reflexivity.
Qed.
Lemma pow10_pos z : 0 < pow10 z. Proof. rewrite pow10_exp. apply exp_pos. Qed.
Lemma pow10_add a b : pow10 (a + b) = pow10 a * pow10 b. Proof. unfold pow10. apply powerRZ_add. lra. Qed.
Lemma exponent10_spec x : x <> 0 -> pow10 (exponent10 x) <= Rabs x < pow10 (exponent10 x + 1).
Proof.
  intros H. assert (A : 0 < Rabs x) by now apply Rabs_pos_lt. pose proof ln10 as L.
  pose proof (rfloor_spec (ln (Rabs x) / ln 10)) as (F1 & F2). fold (exponent10 x) in F1, F2.
  rewrite !pow10_exp, plus_IZR.
  assert (E : Rabs x = exp (ln (Rabs x) / ln 10 * ln 10)).
  { rewrite <- (exp_ln (Rabs x)) at 1 by exact A. f_equal. field. lra. }
  split.
  - rewrite E. apply (Rmult_le_compat_r (ln 10)) in F1; [|lra]. destruct F1 as [F1|F1]; [left; now apply exp_increasing|right; now rewrite F1].
  - rewrite E at 1. apply exp_increasing. apply Rmult_lt_compat_r; lra.
Qed.
Definition sci_lit (b : bool) (d : nat) (fp : list nat) (es : bool) (ed : list nat) : real_lit :=
  MkReal (sgn_if b) [d] (Some fp) (Some ("E"%char, (if es then Minus else Plus, ed))).

Lemma fmt_E7_spec x : exists b d fp es ed, fmt_E7 x = real_text (sci_lit b d fp es ed) /\ real_ok (sci_lit b d fp es ed)
  /\ length fp = 7%nat /\ (2 <= length ed)%nat /\ (x <> 0 -> (1 <= d)%nat)
  /\ same_number x (Some (real_value (sci_lit b d fp es ed))).
Proof.
  unfold fmt_E7. destruct (Req_EM_T x 0) as [->|NZ].
  - exists false, 0%nat, [0;0;0;0;0;0;0]%nat, false, [0;0]%nat.
    assert (Z0 : real_value (sci_lit false 0 [0;0;0;0;0;0;0]%nat false [0;0]%nat) = 0).
    { unfold real_value. cbn. lra. }
    split; [reflexivity|]. split; [|split; [reflexivity|split; [cbn; lia|split; [easy|]]]].
    { split; [|split; [|split]]; cbn [sci_lit r_int frac_digits r_frac r_exp app].
      - intros d Hd. cbn in Hd. lia.
      - intros d Hd. cbn in Hd. lia.
      - discriminate.
      - split; [now right; left|]. split; [discriminate|]. intros d Hd. cbn in Hd. lia. }
    exists 0. rewrite Z0. repeat split; try lra. rewrite Rminus_0_r, Rabs_R0. lra.
  - pose proof (exponent10_spec x NZ) as (X1 & X2).
    set (e0 := exponent10 x) in *. set (m0 := rint (Rabs x * pow10 (7 - e0))).
    pose proof (rint_close (Rabs x * pow10 (7 - e0))) as RC. fold m0 in RC.
    pose proof (pow10_pos (7 - e0)) as P. pose proof (pow10_pos e0) as Pe.
    assert (P7 : pow10 e0 * pow10 (7 - e0) = 10 ^ 7). { rewrite <- pow10_add. replace (e0 + (7 - e0))%Z with 7%Z by lia. reflexivity. }
    assert (P8 : pow10 (e0 + 1) * pow10 (7 - e0) = 10 ^ 8). { rewrite <- pow10_add. replace (e0 + 1 + (7 - e0))%Z with 8%Z by lia. reflexivity. }
    assert (Y1 : 10 ^ 7 <= Rabs x * pow10 (7 - e0)) by (rewrite <- P7; apply Rmult_le_compat_r; lra).
    assert (Y2 : Rabs x * pow10 (7 - e0) < 10 ^ 8) by (rewrite <- P8; apply Rmult_lt_compat_r; lra).
    assert (T7 : 10 ^ 7 = IZR 10000000) by (cbn; lra). assert (T8 : 10 ^ 8 = IZR 100000000) by (cbn; lra).
    pose proof RC as RC'. apply Rabs_le_inv in RC'.
    assert (M1 : (10000000 <= m0)%Z). { apply Z.lt_succ_r. apply lt_IZR. rewrite succ_IZR. lra. }
    assert (M2 : (m0 <= 100000000)%Z). { apply Z.lt_succ_r. apply lt_IZR. rewrite succ_IZR. lra. }
    set (me := if (m0 =? 10 ^ 8)%Z then ((10 ^ 7)%Z, (e0 + 1)%Z) else (m0, e0)).
    assert (ME : (10000000 <= fst me < 100000000)%Z /\ IZR (fst me) * pow10 (snd me - 7) = IZR m0 * pow10 (e0 - 7)).
    { unfold me. change (10 ^ 8)%Z with 100000000%Z. change (10 ^ 7)%Z with 10000000%Z. destruct (Z.eqb_spec m0 100000000) as [EQ|NE]; cbn [fst snd].
      - split; [lia|]. rewrite EQ. replace (e0 + 1 - 7)%Z with (1 + (e0 - 7))%Z by lia. rewrite pow10_add. change (pow10 1) with (10 * 1). lra.
      - split; [lia|reflexivity]. }
    destruct me as [m e]. cbn [fst snd] in ME. destruct ME as (MB & MV).
    destruct (padded_spec 1 (m / 10 ^ 7)%Z) as (ip & Li & Ki & Ei & Di); [apply Z.div_pos; lia|].
    destruct (padded_spec 7 (m mod 10 ^ 7)%Z) as (fp & Lf & Kf & Ef & Df); [apply Z.mod_pos_bound; lia|].
    assert (D7 : (1 <= m / 10 ^ 7 < 10)%Z). { change (10 ^ 7)%Z with 10000000%Z. split; [apply Z.div_le_lower_bound; lia|apply Z.div_lt_upper_bound; lia]. }
    assert (Di' : denotes ip = (m / 10 ^ 7)%Z). { rewrite Di. change (10 ^ Z.of_nat 1)%Z with 10%Z. apply Z.mod_small. lia. }
    assert (Df' : denotes fp = (m mod 10 ^ 7)%Z). { rewrite Df. change (Z.of_nat 7) with 7%Z. apply Z.mod_small. now apply Z.mod_pos_bound. }
    destruct ip as [|d [|d' ip]]; try discriminate Li.
    assert (EX : exists ed, (2 <= length ed)%nat /\ digits_ok ed /\ @eq (list ascii) (if (Z.abs e <? 100)%Z then padded 2 (Z.abs e) else decimal (Z.abs e)) (digits_text ed) /\ denotes ed = Z.abs e).
    { destruct (Z.ltb_spec (Z.abs e) 100) as [L|L].
      - destruct (padded_spec 2 (Z.abs e)) as (ed & Le & Ke & Ee & De); [lia|]. exists ed. repeat split; [lia|exact Ke|exact Ee|]. rewrite De. change (10 ^ Z.of_nat 2)%Z with 100%Z. apply Z.mod_small. lia.
      - destruct (decimal_spec (Z.abs e)) as (ed & Ne & Ke & Ee & De & _); [lia|]. exists ed. repeat split; [|exact Ke|exact Ee|exact De].
        destruct ed as [|u [|u' ed]]; [easy| |cbn; lia]. exfalso. cbn [denotes length] in De. change (10 ^ Z.of_nat 0)%Z with 1%Z in De. assert (u < 10)%nat by (apply Ke; now left). lia. }
    destruct EX as (ed & Le & Ke & Ee & De).
    exists (neg_r x), d, fp, (e <? 0)%Z, ed.
    assert (RV : real_value (sci_lit (neg_r x) d fp (e <? 0)%Z ed) = IZR (signed (sgn_if (neg_r x)) 1) * (IZR m0 * pow10 (e0 - 7))).
    { rewrite <- MV. unfold real_value, sci_lit, real_exponent, frac_digits. cbn [r_sgn r_int r_frac r_exp]. rewrite Di', Df', Lf, De.
      replace (signed (if (e <? 0)%Z then Minus else Plus) (Z.abs e)) with e by (destruct (Z.ltb_spec e 0); cbn [signed]; lia).
      replace e with (7 + (e - 7))%Z at 1 by lia. fold (pow10 (7 + (e - 7))). rewrite pow10_add, Rmult_assoc. f_equal. rewrite <- Rmult_assoc. f_equal.
      rewrite (Z.div_mod m (10 ^ 7)) at 3 by lia. rewrite plus_IZR, mult_IZR. change (10 ^ 7)%Z with 10000000%Z. rewrite T7. change (pow10 7) with (10 * (10 * (10 * (10 * (10 * (10 * (10 * 1))))))). field. }
    assert (V : real_value (sci_lit (neg_r x) d fp (e <? 0)%Z ed) = IZR (signed (sgn_if (neg_r x)) 1) * (IZR m0 / pow10 (7 - e0))).
    { rewrite RV. f_equal. unfold Rdiv. f_equal. unfold pow10. replace (e0 - 7)%Z with (- (7 - e0))%Z by lia. apply powerRZ_neg'. }
    repeat split.
    + unfold real_text, sci_lit, int_text. cbn [r_sgn r_int r_frac r_exp]. rewrite minus_text, Ei, Ef, Ee. cbn [digits_text map app]. now destruct (e <? 0)%Z.
    + exact Ki.
    + exact Kf.
    + discriminate.
    + cbn. auto.
    + destruct ed; [cbn in Le; lia|discriminate].
    + exact Ke.
    + exact Lf.
    + exact Le.
    + intros _. cbn [denotes length] in Di'. change (10 ^ Z.of_nat 0)%Z with 1%Z in Di'. lia.
    + eexists. split; [reflexivity|]. rewrite V. assert (0 < Rabs x) by now apply Rabs_pos_lt.
      assert (MP : 0 < IZR m0 / pow10 (7 - e0)). { apply Rdiv_lt_0_compat; [|exact P]. apply (IZR_lt 0). lia. }
      split; [|split].
      * rewrite <- (sign_if_r x) at 2. rewrite <- Rmult_minus_distr_l, sign_if_abs.
        replace (IZR m0 / pow10 (7 - e0) - Rabs x) with (- ((Rabs x * pow10 (7 - e0) - IZR m0) * / pow10 (7 - e0))) by (field; lra).
        rewrite Rabs_Ropp, Rabs_mult, (Rabs_right (/ pow10 (7 - e0))) by (left; now apply Rinv_0_lt_compat).
        apply (Rmult_le_reg_r (pow10 (7 - e0))); [exact P|]. rewrite Rmult_assoc, Rinv_l, Rmult_1_r by lra.
        apply Rle_trans with (1 := RC). rewrite Rmult_assoc. rewrite T7 in Y1. rewrite T8. lra.
      * intros HX. unfold neg_r. destruct (Rlt_dec x 0); [lra|]. cbn [sgn_if signed Z.opp]. lra.
      * intros HX. unfold neg_r. destruct (Rlt_dec x 0); [|lra]. cbn [sgn_if signed Z.opp]. lra.
Qed.
