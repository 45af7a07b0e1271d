(** Number formatting for C107. *)
From Coq Require Import Reals Ascii String Lra.
From Verif Require Import Base LatModel LatProofs QeInpModel QeInpSpec QeInpProofs PropsQeInp PropsBgwInp SigmaHpModel VcoulIOModel VcoulIOSpec VcoulIOProofs ReportModel ReportSpec.
Import ListNotations.
Local Notation length := List.length.
Local Notation ln := Rpower.ln.
Local Open Scope R_scope.

Lemma pow10_nat k : 10 ^ k = IZR (10 ^ Z.of_nat k).
Proof. induction k as [|k IH]; [reflexivity|]. rewrite Nat2Z.inj_succ, Z.pow_succ_r, mult_IZR by lia. cbn [pow]. now rewrite IH. Qed.
Lemma zpow_pos k : (0 < 10 ^ Z.of_nat k)%Z.
Proof. apply Z.pow_pos_nonneg; lia. Qed.
Lemma pow_pos10 k : 0 < 10 ^ k.
Proof. apply pow_lt. lra. Qed.
Lemma fmt_f_spec k x : exists ip fp, fmt_f k x = real_text (fixed_lit (neg_r x) ip fp) /\ real_ok (fixed_lit (neg_r x) ip fp)
  /\ ip <> [] /\ length fp = k
  /\ real_value (fixed_lit (neg_r x) ip fp) = IZR (signed (sgn_if (neg_r x)) 1) * (IZR (rint (Rabs x * 10 ^ k)) / 10 ^ k)
  /\ Rabs (real_value (fixed_lit (neg_r x) ip fp) - x) <= 1 / 2 / 10 ^ k.
Proof.
  set (n := rint (Rabs x * 10 ^ k)).
  assert (N0 : (0 <= n)%Z) by (apply rint_nonneg; apply Rmult_le_pos; [apply Rabs_pos|left; apply pow_pos10]).
  pose proof (zpow_pos k) as P. pose proof (pow_pos10 k) as PR. set (p := (10 ^ Z.of_nat k)%Z) in *.
  destruct (decimal_spec (n / p)%Z) as (ip & Ni & Ki & Ei & Di & Bi); [apply Z.div_pos; lia|].
  destruct (padded_spec k (n mod p)%Z) as (fp & Lf & Kf & Ef & Df); [apply Z.mod_pos_bound; lia|].
  assert (Df' : denotes fp = (n mod p)%Z). { rewrite Df. apply Z.mod_small. fold p. now apply Z.mod_pos_bound. }
  exists ip, fp.
  assert (TE : fmt_f k x = real_text (fixed_lit (neg_r x) ip fp)).
  { unfold fmt_f, real_text, fixed_lit. cbn [r_sgn r_int r_frac r_exp]. cbv zeta. fold n p. rewrite minus_text, Ei, Ef. now rewrite app_nil_r. }
  assert (RV : real_value (fixed_lit (neg_r x) ip fp) = IZR (signed (sgn_if (neg_r x)) 1) * (IZR n / 10 ^ k)).
  { unfold real_value, fixed_lit, real_exponent, frac_digits. cbn [r_sgn r_int r_frac r_exp]. rewrite Di, Df', Lf. cbn [powerRZ]. rewrite Rmult_1_r. f_equal.
    rewrite (Z.div_mod n p) at 3 by lia. rewrite plus_IZR, mult_IZR. rewrite pow10_nat. fold p. field. apply not_0_IZR. lia. }
  pose proof (rint_close (Rabs x * 10 ^ k)) as RC. fold n in RC.
  repeat split.
  - exact TE.
  - exact Ki.
  - exact Kf.
  - cbn. intros H. apply app_eq_nil in H as (H & _). now apply Ni.
  - exact Ni.
  - exact Lf.
  - exact RV.
  - rewrite RV. rewrite <- (sign_if_r x) at 2. rewrite <- Rmult_minus_distr_l, sign_if_abs.
    replace (IZR n / 10 ^ k - Rabs x) with (- ((Rabs x * 10 ^ k - IZR n) * / 10 ^ k)) by (field; lra).
    rewrite Rabs_Ropp, Rabs_mult, (Rabs_right (/ 10 ^ k)) by (left; now apply Rinv_0_lt_compat).
    apply Rmult_le_compat_r; [left; now apply Rinv_0_lt_compat|exact RC].
Qed.
Lemma rjust_spaces w t : exists b, spaces b /\ rjust w t = b ++ t.
Proof.
  exists (repeat " "%char (w - length t)). split; [|reflexivity]. intros c Hc. apply repeat_spec in Hc. now subst.
Qed.
(** Python reads a fixed number back within half a unit of its last digit. *)
Lemma read_fixed w k x : exists y, py_float (rjust w (fmt_f k x)) = Ok y /\ decimals k y /\ Rabs (y - x) <= 1 / 2 / 10 ^ k.
Proof.
  destruct (fmt_f_spec k x) as (ip & fp & E & K & N & L & V & C1). destruct (rjust_spaces w (fmt_f k x)) as (b & B & ->).
  exists (real_value (fixed_lit (neg_r x) ip fp)). split; [|split; [|exact C1]].
  - rewrite <- (app_nil_r (fmt_f k x)). rewrite py_float_ws; [|exact B|intros c []]. rewrite E. now apply py_float_text.
  - rewrite V. exists (signed (sgn_if (neg_r x)) 1 * rint (Rabs x * 10 ^ k))%Z. rewrite mult_IZR. unfold Rdiv. ring.
Qed.
Lemma read_sci k x : exists y, py_float (fmt_e k x) = Ok y /\ Rabs (y - x) <= 1 / 2 / 10 ^ k * Rabs x.
Proof.
  pose proof (zpow_pos k) as P. pose proof (pow_pos10 k) as PR. unfold fmt_e. cbv zeta. set (p := (10 ^ Z.of_nat k)%Z) in *.
  assert (PE : 10 ^ k = IZR p) by (rewrite pow10_nat; reflexivity).
  assert (M : exists m e, (if Req_EM_T x 0 then (0%Z, 0%Z) else
      if (rint (Rabs x * pow10 (Z.of_nat k - exponent10 x)) =? 10 * p)%Z then (p, (exponent10 x + 1)%Z)
      else (rint (Rabs x * pow10 (Z.of_nat k - exponent10 x)), exponent10 x)) = (m, e) /\ (0 <= m < 10 * p)%Z
      /\ Rabs (IZR m * pow10 (e - Z.of_nat k) - Rabs x) <= 1 / 2 / 10 ^ k * Rabs x).
  { destruct (Req_EM_T x 0) as [->|NZ].
    - exists 0%Z, 0%Z. split; [reflexivity|]. split; [lia|]. rewrite Rabs_R0, Rmult_0_l, Rminus_0_r, Rabs_R0. lra.
    - pose proof (exponent10_spec x NZ) as (X1 & X2). set (e0 := exponent10 x) in *.
      set (K := Z.of_nat k) in *. set (m0 := rint (Rabs x * pow10 (K - e0))).
      pose proof (rint_close (Rabs x * pow10 (K - e0))) as RC. fold m0 in RC.
      pose proof (pow10_pos (K - e0)) as Q. pose proof (pow10_pos e0) as Qe.
      assert (PK : pow10 K = 10 ^ k) by (unfold pow10, K; now rewrite <- pow_powerRZ).
      assert (P7 : pow10 e0 * pow10 (K - e0) = IZR p). { rewrite <- pow10_add, <- PE, <- PK. f_equal. lia. }
      assert (P8 : pow10 (e0 + 1) * pow10 (K - e0) = 10 * IZR p).
      { rewrite <- pow10_add, <- PE, <- PK. replace (e0 + 1 + (K - e0))%Z with (1 + K)%Z by lia. rewrite pow10_add. change (pow10 1) with (10 * 1). lra. }
      assert (Y1 : IZR p <= Rabs x * pow10 (K - e0)) by (rewrite <- P7; apply Rmult_le_compat_r; lra).
      assert (Y2 : Rabs x * pow10 (K - e0) < 10 * IZR p) by (rewrite <- P8; apply Rmult_lt_compat_r; lra).
      pose proof RC as RC'. apply Rabs_le_inv in RC'.
      assert (M1 : (p <= m0)%Z). { apply Z.lt_succ_r. apply lt_IZR. rewrite succ_IZR. lra. }
      assert (M2 : (m0 <= 10 * p)%Z). { apply Z.lt_succ_r. apply lt_IZR. rewrite succ_IZR, mult_IZR. lra. }
      assert (BND : Rabs (IZR m0 * pow10 (e0 - K) - Rabs x) <= 1 / 2 / 10 ^ k * Rabs x).
      { assert (I : pow10 (e0 - K) = / pow10 (K - e0)).
        { unfold pow10. replace (e0 - K)%Z with (- (K - e0))%Z by lia. apply powerRZ_neg'. }
        rewrite I. replace (IZR m0 * / pow10 (K - e0) - Rabs x) with (- ((Rabs x * pow10 (K - e0) - IZR m0) * / pow10 (K - e0))) by (field; lra).
        rewrite Rabs_Ropp, Rabs_mult, (Rabs_right (/ pow10 (K - e0))) by (left; now apply Rinv_0_lt_compat).
        apply (Rmult_le_reg_r (pow10 (K - e0))); [exact Q|]. rewrite Rmult_assoc, Rinv_l, Rmult_1_r by lra.
        apply Rle_trans with (1 := RC). rewrite Rmult_assoc. rewrite PE in *.
        apply (Rmult_le_compat_l (1 / 2 / IZR p)) in Y1; [|apply Rlt_le; apply Rdiv_lt_0_compat; lra].
        replace (1 / 2 / IZR p * IZR p) with (1 / 2) in Y1 by (field; lra). exact Y1. }
      destruct (Z.eqb_spec m0 (10 * p)) as [EQ|NE].
      + exists p, (e0 + 1)%Z. split; [reflexivity|]. split; [lia|].
        replace (IZR p * pow10 (e0 + 1 - K)) with (IZR m0 * pow10 (e0 - K)); [exact BND|].
        rewrite EQ, mult_IZR. replace (e0 + 1 - K)%Z with (1 + (e0 - K))%Z by lia. rewrite pow10_add. change (pow10 1) with (10 * 1). lra.
      + exists m0, e0. split; [reflexivity|]. split; [lia|]. exact BND. }
  destruct M as (m & e & -> & MB & BND).
  destruct (padded_spec 1 (m / p)%Z) as (ip & Li & Ki & Ei & Di); [apply Z.div_pos; lia|].
  destruct (padded_spec k (m mod p)%Z) as (fp & Lf & Kf & Ef & Df); [apply Z.mod_pos_bound; lia|].
  assert (Di' : denotes ip = (m / p)%Z).
  { rewrite Di. change (10 ^ Z.of_nat 1)%Z with 10%Z. apply Z.mod_small. split; [apply Z.div_pos; lia|apply Z.div_lt_upper_bound; lia]. }
  assert (Df' : denotes fp = (m mod p)%Z). { rewrite Df. apply Z.mod_small. now apply Z.mod_pos_bound. }
  assert (EX : exists ed, (2 <= length ed)%nat /\ digits_ok ed /\ @eq (list ascii) (if (Z.abs e <? 100)%Z then padded 2 (Z.abs e) else decimal (Z.abs e)) (digits_text ed) /\ denotes ed = Z.abs e).
  { destruct (Z.ltb_spec (Z.abs e) 100) as [L|L].
    - destruct (padded_spec 2 (Z.abs e)) as (ed & Le & Ke & Ee & De); [lia|]. exists ed. repeat split; [lia|exact Ke|exact Ee|]. rewrite De. change (10 ^ Z.of_nat 2)%Z with 100%Z. apply Z.mod_small. lia.
    - destruct (decimal_spec (Z.abs e)) as (ed & Ne & Ke & Ee & De & _); [lia|]. exists ed. repeat split; [|exact Ke|exact Ee|exact De].
      destruct ed as [|u [|u' ed]]; [easy| |cbn; lia]. exfalso. cbn [denotes length] in De. change (10 ^ Z.of_nat 0)%Z with 1%Z in De. assert (u < 10)%nat by (apply Ke; now left). lia. }
  destruct EX as (ed & Le & Ke & Ee & De).
  set (r := MkReal (sgn_if (neg_r x)) ip (Some fp) (Some ("e"%char, (if (e <? 0)%Z then Minus else Plus, ed)))).
  assert (RO : real_ok r).
  { split; [exact Ki|split; [exact Kf|split]].
    - cbn. destruct ip; [discriminate Li|discriminate].
    - cbn. split; [now left|]. split; [|exact Ke]. destruct ed; [cbn in Le; lia|discriminate]. }
  assert (RT : real_text r = minus_if (neg_r x) ++ padded 1 (m / p) ++ "."%char :: padded k (m mod p) ++ "e"%char ::
     (if (e <? 0)%Z then "-"%char else "+"%char) :: (if (Z.abs e <? 100)%Z then padded 2 (Z.abs e) else decimal (Z.abs e))).
  { unfold real_text, r, int_text. cbn [r_sgn r_int r_frac r_exp]. rewrite minus_text, Ei, Ef, Ee. cbn [app]. now destruct (e <? 0)%Z. }
  rewrite <- RT. exists (real_value r). split; [apply py_float_text; [exact RO|now left]|].
  assert (RV : real_value r = IZR (signed (sgn_if (neg_r x)) 1) * (IZR m * pow10 (e - Z.of_nat k))).
  { unfold real_value, r, real_exponent, frac_digits. cbn [r_sgn r_int r_frac r_exp]. rewrite Di', Df', Lf, De.
    replace (signed (if (e <? 0)%Z then Minus else Plus) (Z.abs e)) with e by (destruct (Z.ltb_spec e 0); cbn [signed]; lia).
    replace e with (Z.of_nat k + (e - Z.of_nat k))%Z at 1 by lia. fold (pow10 (Z.of_nat k + (e - Z.of_nat k))). rewrite pow10_add, Rmult_assoc. f_equal. rewrite <- Rmult_assoc. f_equal.
    rewrite (Z.div_mod m p) at 3 by lia. rewrite plus_IZR, mult_IZR. unfold pow10. rewrite <- pow_powerRZ, PE. field. lra. }
  rewrite RV. rewrite <- (sign_if_r x) at 2. rewrite <- Rmult_minus_distr_l, sign_if_abs. exact BND.
Qed.
