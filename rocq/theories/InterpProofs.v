(** Error of four-point interpolation, by repeated use of Rolle's theorem. *)
From Coq Require Import Reals Lra.
From Coquelicot Require Import Coquelicot.
From Verif Require Import Base LatModel LatProofs NlocModel CBase.
Open Scope R_scope.

Definition deriv_on (a b : R) (f f' : R -> R) : Prop :=
  forall c, a <= c <= b -> derivable_pt_lim f c (f' c).
Lemma deriv_sub a b a' b' f f' : deriv_on a b f f' -> a <= a' -> b' <= b -> deriv_on a' b' f f'.
Proof. intros H ? ? c Hc. apply H. lra. Qed.
Lemma rolle f f' a b : a < b -> deriv_on a b f f' -> f a = 0 -> f b = 0 -> exists c, a < c < b /\ f' c = 0.
Proof.
  intros Hab Hd Ha Hb. destruct (MVT_cor2 f f' a b Hab Hd) as (c & E & Hc). exists c. split; [exact Hc|].
  rewrite Ha, Hb in E. assert (H : f' c * (b - a) = 0) by lra. apply Rmult_integral in H. destruct H; lra.
Qed.
Lemma rolle4 g0 g1 g2 g3 g4 a b c d e :
  a < b -> b < c -> c < d -> d < e ->
  deriv_on a e g0 g1 -> deriv_on a e g1 g2 -> deriv_on a e g2 g3 -> deriv_on a e g3 g4 ->
  g0 a = 0 -> g0 b = 0 -> g0 c = 0 -> g0 d = 0 -> g0 e = 0 -> exists x, a < x < e /\ g4 x = 0.
Proof.
  intros Hab Hbc Hcd Hde D0 D1 D2 D3 Ga Gb Gc Gd Ge.
  assert (R0 : forall u v f f', a <= u -> u < v -> v <= e -> deriv_on a e f f' -> f u = 0 -> f v = 0 ->
                exists x, u < x < v /\ f' x = 0).
  { intros u v f f' Hu Huv Hv Hd. apply rolle; [exact Huv|]. now apply (deriv_sub a e). }
  destruct (R0 a b g0 g1) as (p1 & ? & ?); try assumption; try lra.
  destruct (R0 b c g0 g1) as (p2 & ? & ?); try assumption; try lra.
  destruct (R0 c d g0 g1) as (p3 & ? & ?); try assumption; try lra.
  destruct (R0 d e g0 g1) as (p4 & ? & ?); try assumption; try lra.
  destruct (R0 p1 p2 g1 g2) as (q1 & ? & ?); try assumption; try lra.
  destruct (R0 p2 p3 g1 g2) as (q2 & ? & ?); try assumption; try lra.
  destruct (R0 p3 p4 g1 g2) as (q3 & ? & ?); try assumption; try lra.
  destruct (R0 q1 q2 g2 g3) as (r1 & ? & ?); try assumption; try lra.
  destruct (R0 q2 q3 g2 g3) as (r2 & ? & ?); try assumption; try lra.
  destruct (R0 r1 r2 g3 g4) as (x & ? & ?); try assumption; try lra.
  exists x. split; [lra|assumption].
Qed.

Lemma poly_deriv a0 a1 a2 a3 a4 t :
  derivable_pt_lim (fun t => a0 + a1 * t + a2 * t ^ 2 + a3 * t ^ 3 + a4 * t ^ 4) t
    (a1 + 2 * a2 * t + 3 * a3 * t ^ 2 + 4 * a4 * t ^ 3 + 0 * t ^ 4).
Proof. apply is_derive_Reals. auto_derive; [exact I|]. cbn. ring. Qed.
Lemma deriv_minus_poly f f' a b a0 a1 a2 a3 a4 :
  deriv_on a b f f' ->
  deriv_on a b (fun t => f t - (a0 + a1 * t + a2 * t ^ 2 + a3 * t ^ 3 + a4 * t ^ 4))
    (fun t => f' t - (a1 + 2 * a2 * t + 3 * a3 * t ^ 2 + 4 * a4 * t ^ 3 + 0 * t ^ 4)).
Proof.
  intros H c Hc. apply (derivable_pt_lim_minus f); [now apply H|]. apply poly_deriv.
Qed.

(** w(s) = s (s-1)(s-2)(s-3) *)
Definition w4 (s : R) : R := s * (s - 1) * (s - 2) * (s - 3).
Lemma w4_bound s : Rabs s <= 1 / 2 -> Rabs (w4 s) <= 105 / 16.
Proof.
  intros H. apply Rabs_le_between in H. unfold w4. apply Rabs_le.
  assert (Q : s * (s - 1) * (s - 2) * (s - 3) = (s * s - 3 * s) * (s * s - 3 * s + 2)) by ring. rewrite Q.
  set (z := s * s - 3 * s).
  assert (Hz : -5/4 <= z <= 7/4) by (unfold z; split; nra).
  split; nra.
Qed.

Lemma interp_error f f1 f2 f3 f4 s :
  Rabs s <= 1 / 2 ->
  deriv_on (Rmin s 0) 3 f f1 -> deriv_on (Rmin s 0) 3 f1 f2 ->
  deriv_on (Rmin s 0) 3 f2 f3 -> deriv_on (Rmin s 0) 3 f3 f4 ->
  exists x, Rmin s 0 <= x <= 3 /\
    f s - lagrange4 (f 0) (f 1) (f 2) (f 3) s = f4 x / 24 * w4 s.
Proof.
  intros Hs D0 D1 D2 D3. apply Rabs_le_between in Hs.
  destruct (Req_dec s 0) as [->|Hne].
  { exists 0. split; [rewrite Rmin_left; lra|]. unfold lagrange4, w4. field. }
  assert (Hw : w4 s <> 0).
  { unfold w4. repeat apply Rmult_integral_contrapositive_currified; lra. }
  set (Kc := (f s - lagrange4 (f 0) (f 1) (f 2) (f 3) s) / w4 s).
  set (b1 := - (11/6) * f 0 + 3 * f 1 - 3/2 * f 2 + / 3 * f 3).
  set (b2 := f 0 - 5/2 * f 1 + 2 * f 2 - / 2 * f 3).
  set (b3 := - / 6 * f 0 + / 2 * f 1 - / 2 * f 2 + / 6 * f 3).
  pose (a0 := f 0). pose (a1 := b1 - 6 * Kc). pose (a2 := b2 + 11 * Kc). pose (a3 := b3 - 6 * Kc). pose (a4 := Kc).
  assert (P : forall t, a0 + a1 * t + a2 * t ^ 2 + a3 * t ^ 3 + a4 * t ^ 4
              = lagrange4 (f 0) (f 1) (f 2) (f 3) t + Kc * w4 t).
  { intros t. unfold a0, a1, a2, a3, a4, b1, b2, b3, lagrange4, w4. field. }
  pose proof (deriv_minus_poly _ _ _ _ a0 a1 a2 a3 a4 D0) as E0.
  pose proof (deriv_minus_poly _ _ _ _ a1 (2*a2) (3*a3) (4*a4) 0 D1) as E1.
  pose proof (deriv_minus_poly _ _ _ _ (2*a2) (2*(3*a3)) (3*(4*a4)) (4*0) 0 D2) as E2.
  pose proof (deriv_minus_poly _ _ _ _ (2*(3*a3)) (2*(3*(4*a4))) (3*(4*0)) (4*0) 0 D3) as E3.
  set (g0 := fun t => f t - _) in E0.
  set (g1 := fun t => f1 t - _) in E0.
  set (g1' := fun t => f1 t - _) in E1. set (g2 := fun t => f2 t - _) in E1.
  set (g2' := fun t => f2 t - _) in E2. set (g3 := fun t => f3 t - _) in E2.
  set (g3' := fun t => f3 t - _) in E3. set (g4 := fun t => f4 t - _) in E3.
  assert (X1 : deriv_on (Rmin s 0) 3 g1 g2).
  { intros c Hc. replace g1 with g1'; [now apply E1|]. apply FunctionalExtensionality.functional_extensionality. intros t. unfold g1, g1'. ring. }
  assert (X2 : deriv_on (Rmin s 0) 3 g2 g3).
  { intros c Hc. replace g2 with g2'; [now apply E2|]. apply FunctionalExtensionality.functional_extensionality. intros t. unfold g2, g2'. ring. }
  assert (X3 : deriv_on (Rmin s 0) 3 g3 g4).
  { intros c Hc. replace g3 with g3'; [now apply E3|]. apply FunctionalExtensionality.functional_extensionality. intros t. unfold g3, g3'. ring. }
  assert (Z0 : g0 0 = 0) by (unfold g0; rewrite P; unfold lagrange4, w4; field).
  assert (Z1 : g0 1 = 0) by (unfold g0; rewrite P; unfold lagrange4, w4; field).
  assert (Z2 : g0 2 = 0) by (unfold g0; rewrite P; unfold lagrange4, w4; field).
  assert (Z3 : g0 3 = 0) by (unfold g0; rewrite P; unfold lagrange4, w4; field).
  assert (Zs : g0 s = 0) by (unfold g0; rewrite P; unfold Kc; field; exact Hw).
  assert (F : exists x, Rmin s 0 <= x <= 3 /\ g4 x = 0).
  { destruct (Rlt_dec s 0) as [Hlt|Hge].
    - rewrite Rmin_left in * by lra.
      destruct (rolle4 g0 g1 g2 g3 g4 s 0 1 2 3) as (x & Hx & Hg); try assumption; try lra.
      exists x. split; [lra|exact Hg].
    - rewrite Rmin_right in * by lra.
      destruct (rolle4 g0 g1 g2 g3 g4 0 s 1 2 3) as (x & Hx & Hg); try assumption; try lra.
      exists x. split; [lra|exact Hg]. }
  destruct F as (x & Hx & Hg). exists x. split; [exact Hx|].
  assert (HK : Kc = f4 x / 24) by (unfold g4, a4 in Hg; lra).
  rewrite <- HK. unfold Kc. field. exact Hw.
Qed.

Lemma deriv_affine F F' a b h o : 0 < h ->
  deriv_on (o + a * h) (o + b * h) F F' ->
  deriv_on a b (fun s => F (o + s * h)) (fun s => h * F' (o + s * h)).
Proof.
  intros Hh H c Hc. assert (Hr : o + a * h <= o + c * h <= o + b * h) by nra.
  apply is_derive_Reals.
  apply (is_derive_comp F (fun s => o + s * h) c (F' (o + c * h)) h).
  - apply is_derive_Reals. now apply H.
  - auto_derive; [exact I|]. ring.
Qed.
Lemma deriv_scal F F' a b k : deriv_on a b F F' -> deriv_on a b (fun s => k * F s) (fun s => k * F' s).
Proof. intros H c Hc. apply derivable_pt_lim_scal. now apply H. Qed.

Lemma DEL_Q_pos : 0 < DEL_Q. Proof. unfold DEL_Q. lra. Qed.
Lemma rint_nonneg x : 0 <= x -> (0 <= rint x)%Z.
Proof.
  intros H. pose proof (rint_close x) as Hc. apply Rabs_le_between in Hc.
  apply le_IZR. destruct (Z_lt_ge_dec (rint x) 0) as [Hn|Hn]; [|apply IZR_le; lia].
  assert (Hle : (rint x <= -1)%Z) by lia. apply IZR_le in Hle. lra.
Qed.

Lemma interp_bound F F1 F2 F3 F4 M nq tab q y :
  0 <= q -> interp nq tab q = Ok y ->
  (forall k, (0 <= k < nq)%Z -> tab k = F (IZR k * DEL_Q)) ->
  deriv_on 0 (q + 4 * DEL_Q) F F1 -> deriv_on 0 (q + 4 * DEL_Q) F1 F2 ->
  deriv_on 0 (q + 4 * DEL_Q) F2 F3 -> deriv_on 0 (q + 4 * DEL_Q) F3 F4 ->
  (forall x, 0 <= x <= q + 4 * DEL_Q -> Rabs (F4 x) <= M) ->
  Rabs (y - F q) <= M / 24 * DEL_Q ^ 4 * (105 / 16).
Proof.
  intros Hq Hi Ht D0 D1 D2 D3 HM. unfold interp in Hi.
  set (idx := rint (q / DEL_Q)) in *.
  destruct ((idx <? 0) || (nq <=? idx + 3))%Z eqn:E; [discriminate|].
  apply orb_false_iff in E. destruct E as [E1 E2].
  injection Hi as Hy. set (s := q / DEL_Q - IZR idx) in *.
  pose proof DEL_Q_pos as Hd.
  assert (Hs : Rabs s <= 1 / 2) by (unfold s, idx; apply rint_close).
  assert (Hq2 : IZR idx * DEL_Q + s * DEL_Q = q) by (unfold s; field; lra).
  set (o := IZR idx * DEL_Q) in *.
  assert (Ho : 0 <= o) by (unfold o; apply Rmult_le_pos; [apply IZR_le; lia|lra]).
  pose proof Hs as Hs'. apply Rabs_le_between in Hs'.
  assert (Hlo : 0 <= o + Rmin s 0 * DEL_Q).
  { unfold Rmin. destruct (Rle_dec s 0); lra. }
  assert (Hhi : o + 3 * DEL_Q <= q + 4 * DEL_Q) by nra.
  assert (Sub : forall G G', deriv_on 0 (q + 4 * DEL_Q) G G' ->
            deriv_on (Rmin s 0) 3 (fun s => G (o + s * DEL_Q)) (fun s => DEL_Q * G' (o + s * DEL_Q))).
  { intros G G' HG. apply deriv_affine; [exact Hd|]. now apply (deriv_sub _ _ _ _ _ _ HG). }
  destruct (interp_error (fun s => F (o + s * DEL_Q)) (fun s => DEL_Q * F1 (o + s * DEL_Q))
     (fun s => DEL_Q * (DEL_Q * F2 (o + s * DEL_Q))) (fun s => DEL_Q * (DEL_Q * (DEL_Q * F3 (o + s * DEL_Q))))
     (fun s => DEL_Q * (DEL_Q * (DEL_Q * (DEL_Q * F4 (o + s * DEL_Q))))) s Hs) as (x & Hx & Hxe).
  - now apply Sub.
  - apply deriv_scal. now apply Sub.
  - do 2 apply deriv_scal. now apply Sub.
  - do 3 apply deriv_scal. now apply Sub.
  - cbv beta in Hxe.
    assert (T : forall k, (0 <= k <= 3)%Z -> tab (idx + k)%Z = F (o + IZR k * DEL_Q)).
    { intros k Hk. rewrite Ht by lia. f_equal. unfold o. rewrite plus_IZR. ring. }
    replace idx with (idx + 0)%Z in Hy at 1 by lia.
    rewrite !T in Hy by lia. rewrite Hq2 in Hxe.
    replace (y - F q) with (- (F q - y)) by ring. rewrite Rabs_Ropp, <- Hy.
    match goal with |- Rabs ?a <= _ => replace a with (F q - lagrange4 (F (o + 0 * DEL_Q)) (F (o + 1 * DEL_Q)) (F (o + 2 * DEL_Q)) (F (o + 3 * DEL_Q)) s) by reflexivity end.
    rewrite Hxe.
    replace (DEL_Q * (DEL_Q * (DEL_Q * (DEL_Q * F4 (o + x * DEL_Q)))) / 24 * w4 s)
      with (F4 (o + x * DEL_Q) * (DEL_Q ^ 4 / 24 * w4 s)) by field.
    rewrite Rabs_mult.
    assert (B1 : Rabs (F4 (o + x * DEL_Q)) <= M).
    { apply HM. assert (Rmin s 0 * DEL_Q <= x * DEL_Q) by (apply Rmult_le_compat_r; lra).
      assert (x * DEL_Q <= 3 * DEL_Q) by (apply Rmult_le_compat_r; lra). lra. }
    assert (B2 : Rabs (DEL_Q ^ 4 / 24 * w4 s) <= DEL_Q ^ 4 / 24 * (105 / 16)).
    { assert (P4 : 0 < DEL_Q ^ 4 / 24) by (assert (0 < DEL_Q ^ 4) by (apply pow_lt; lra); lra).
      rewrite Rabs_mult, Rabs_pos_eq by lra. apply Rmult_le_compat_l; [lra|]. now apply w4_bound. }
    replace (M / 24 * DEL_Q ^ 4 * (105 / 16)) with (M * (DEL_Q ^ 4 / 24 * (105 / 16))) by field.
    apply Rmult_le_compat; try apply Rabs_pos; assumption.
Qed.
