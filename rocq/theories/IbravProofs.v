(** Lemmas for the lattice table. *)
From Coq Require Import Reals Lra.
From Verif Require Import Base LatModel IbravModel IbravSpec.
Open Scope R_scope.

Lemma rvec_ext u v : vx u = vx v -> vy u = vy v -> vz u = vz v -> u = v.
Proof. destruct u, v; cbn; intros; subst; reflexivity. Qed.

(** A point given in halves of the conventional axes. *)
Definition hv (A B C : rvec) (h1 h2 h3 : Z) : rvec :=
  vadd (vadd (vscale (IZR h1 / 2) A) (vscale (IZR h2 / 2) B)) (vscale (IZR h3 / 2) C).

Definition okc (c : centring) (h1 h2 h3 : Z) : Prop :=
  match c with
  | CP => h1 mod 2 = 0 /\ h2 mod 2 = 0 /\ h3 mod 2 = 0
  | CI => (h1 + h2) mod 2 = 0 /\ (h2 + h3) mod 2 = 0
  | CF => (h1 + h2 + h3) mod 2 = 0
  | CA => h1 mod 2 = 0 /\ (h2 + h3) mod 2 = 0
  | CB => h2 mod 2 = 0 /\ (h1 + h3) mod 2 = 0
  | CC => h3 mod 2 = 0 /\ (h1 + h2) mod 2 = 0
  end%Z.

Lemma half_split n t h : h = (2 * n + t)%Z -> IZR n + IZR t / 2 = IZR h / 2.
Proof. intros ->. rewrite plus_IZR, mult_IZR. lra. Qed.

Lemma in_centred_iff c A B C x :
  in_centred c A B C x <-> exists h1 h2 h3, okc c h1 h2 h3 /\ x = hv A B C h1 h2 h3.
Proof.
  split.
  - intros (t1 & t2 & t3 & Ht & n1 & n2 & n3 & ->).
    exists (2 * n1 + t1)%Z, (2 * n2 + t2)%Z, (2 * n3 + t3)%Z. split.
    + destruct c; cbn in Ht; repeat (destruct Ht as [Ht|Ht]; [inversion Ht; subst; cbn [okc]; lia|]); destruct Ht.
    + unfold hv. rewrite <- !(half_split _ _ _ eq_refl). reflexivity.
  - intros (h1 & h2 & h3 & Hok & ->).
    assert (exists t1 t2 t3, In (t1, t2, t3) (translations c) /\ exists n1 n2 n3,
      h1 = 2 * n1 + t1 /\ h2 = 2 * n2 + t2 /\ h3 = 2 * n3 + t3)%Z as (t1 & t2 & t3 & Ht & n1 & n2 & n3 & E1 & E2 & E3).
    { exists (h1 mod 2)%Z, (h2 mod 2)%Z, (h3 mod 2)%Z. split.
      - assert (h1 mod 2 = 0 \/ h1 mod 2 = 1)%Z as [H1|H1] by lia;
        assert (h2 mod 2 = 0 \/ h2 mod 2 = 1)%Z as [H2|H2] by lia;
        assert (h3 mod 2 = 0 \/ h3 mod 2 = 1)%Z as [H3|H3] by lia;
        destruct c; cbn [okc] in Hok; rewrite H1, H2, H3; cbn; try (exfalso; lia); tauto.
      - exists (h1 / 2)%Z, (h2 / 2)%Z, (h3 / 2)%Z. lia. }
    exists t1, t2, t3. split; [exact Ht|]. exists n1, n2, n3. unfold hv.
    now rewrite (half_split _ _ _ E1), (half_split _ _ _ E2), (half_split _ _ _ E3).
Qed.

(** Columns of [P] in halves of A, B, C by an integer matrix [f]. *)
Lemma centred_basis c A B C P (f : Z -> Z -> Z -> Z * Z * Z) :
  (forall i j k, vadd (vadd (vscale (IZR i) (c1 P)) (vscale (IZR j) (c2 P))) (vscale (IZR k) (c3 P))
     = let '(h1, h2, h3) := f i j k in hv A B C h1 h2 h3) ->
  (forall i j k, let '(h1, h2, h3) := f i j k in okc c h1 h2 h3) ->
  (forall h1 h2 h3, okc c h1 h2 h3 -> exists i j k, f i j k = (h1, h2, h3)) ->
  forall x, in_lattice P x <-> in_centred c A B C x.
Proof.
  intros Hf Hok Hinv x. rewrite in_centred_iff. split.
  - intros (i & j & k & ->). specialize (Hf i j k). specialize (Hok i j k).
    destruct (f i j k) as [[h1 h2] h3]. exists h1, h2, h3. auto.
  - intros (h1 & h2 & h3 & H & ->). destruct (Hinv _ _ _ H) as (i & j & k & E).
    exists i, j, k. rewrite Hf, E. reflexivity.
Qed.

Lemma npsqrt_pos x : 0 <= x -> npsqrt x = Some (sqrt x).
Proof. intros H. unfold npsqrt. destruct (Rlt_dec x 0); [lra|reflexivity]. Qed.
Lemma npdiv_pos x y : 0 < y -> npdiv x y = Some (x / y).
Proof. intros H. unfold npdiv. destruct (Req_EM_T y 0); [lra|reflexivity]. Qed.

(** The right-hand side of the volume: a positive number with the right square. *)
Lemma shape_volume_of A B C s :
  has_shape s A B C -> 0 < vdot A (vcross B C) -> 0 < la s -> 0 < lb s -> 0 < lc s ->
  vdot A (vcross B C) = shape_volume s.
Proof.
  intros (H1 & H2 & H3 & H4 & H5 & H6) Hv Ha Hb Hc.
  set (d := vdot A (vcross B C)) in *.
  assert (E : d * d = vdot A A * vdot B B * vdot C C + 2 * vdot B C * vdot A C * vdot A B
     - vdot A A * (vdot B C * vdot B C) - vdot B B * (vdot A C * vdot A C) - vdot C C * (vdot A B * vdot A B)).
  { unfold d, vdot, vcross. cbn. ring. }
  rewrite H1, H2, H3, H4, H5, H6 in E.
  set (g := 1 + 2 * cbc s * cac s * cab s - cbc s * cbc s - cac s * cac s - cab s * cab s).
  assert (E2 : d * d = (la s * lb s * lc s) * (la s * lb s * lc s) * g) by (rewrite E; unfold g; ring).
  assert (Hp : 0 < la s * lb s * lc s) by (apply Rmult_lt_0_compat; [apply Rmult_lt_0_compat|]; assumption).
  unfold shape_volume. fold g.
  assert (Hg : g = (d / (la s * lb s * lc s)) * (d / (la s * lb s * lc s))).
  { apply (Rmult_eq_reg_l ((la s * lb s * lc s) * (la s * lb s * lc s))); [|nra]. rewrite <- E2.
    field. split; [|split]; lra. }
  rewrite Hg, sqrt_square. { field. split; [|split]; lra. }
  apply Rlt_le. apply Rdiv_lt_0_compat; assumption.
Qed.

Lemma primitive_intro c s A B C P (f : Z -> Z -> Z -> Z * Z * Z) :
  0 < la s -> 0 < lb s -> 0 < lc s ->
  has_shape s A B C -> 0 < vdot A (vcross B C) ->
  (forall i j k, vadd (vadd (vscale (IZR i) (c1 P)) (vscale (IZR j) (c2 P))) (vscale (IZR k) (c3 P))
     = let '(h1, h2, h3) := f i j k in hv A B C h1 h2 h3) ->
  (forall i j k, let '(h1, h2, h3) := f i j k in okc c h1 h2 h3) ->
  (forall h1 h2 h3, okc c h1 h2 h3 -> exists i j k, f i j k = (h1, h2, h3)) ->
  mdet P * INR (length (translations c)) = vdot A (vcross B C) ->
  primitive_basis c s P.
Proof.
  intros Ha Hb Hc Hs Hv Hf Hok Hinv Hd. exists A, B, C.
  split; [exact Hs|]. split; [exact Hv|]. split; [exact (centred_basis _ _ _ _ _ _ Hf Hok Hinv)|].
  rewrite <- (shape_volume_of A B C s) by assumption. split; [|exact Hd].
  assert (0 < INR (length (translations c))) by (apply lt_0_INR; destruct c; cbn; lia).
  destruct (Rlt_dec 0 (mdet P)) as [|n]; [assumption|]. exfalso. nra.
Qed.

Lemma sqrt_sq' x : 0 <= x -> sqrt x * sqrt x = x.
Proof. apply sqrt_sqrt. Qed.

Lemma sincos x : -1 < x < 1 -> 0 < 1 - x ^ 2.
Proof. intros H. nra. Qed.

Ltac izr := rewrite ?minus_IZR, ?plus_IZR, ?opp_IZR, ?mult_IZR, ?opp_IZR, ?plus_IZR, ?minus_IZR.
Ltac vec_eq := intros; apply rvec_ext; cbn [vx vy vz c1 c2 c3 vadd vscale hv]; unfold vscale, vadd, hv;
  cbn [vx vy vz vscale vadd]; izr; try field.
Ltac inv_sol := intros h1 h2 h3 H; cbn [okc] in H.

Definition f_P (i j k : Z) := (2 * i, 2 * j, 2 * k)%Z.
Lemma f_P_ok i j k : let '(h1, h2, h3) := f_P i j k in okc CP h1 h2 h3.
Proof. unfold f_P. cbn [okc]. lia. Qed.
Lemma f_P_inv h1 h2 h3 : okc CP h1 h2 h3 -> exists i j k, f_P i j k = (h1, h2, h3).
Proof. intros H. cbn [okc] in H. exists (h1 / 2)%Z, (h2 / 2)%Z, (h3 / 2)%Z. unfold f_P. repeat f_equal; lia. Qed.

Definition f_2 (i j k : Z) := (- i - k, j + k, i + j)%Z.
Lemma f_2_ok i j k : let '(h1, h2, h3) := f_2 i j k in okc CF h1 h2 h3.
Proof. unfold f_2. cbn [okc]. lia. Qed.
Lemma f_2_inv h1 h2 h3 : okc CF h1 h2 h3 -> exists i j k, f_2 i j k = (h1, h2, h3).
Proof.
  intros H. cbn [okc] in H. exists ((h3 - h2 - h1) / 2)%Z, ((h3 + h2 + h1) / 2)%Z, ((h2 - h1 - h3) / 2)%Z.
  unfold f_2. repeat f_equal; lia.
Qed.
Definition f_3 (i j k : Z) := (i - j - k, i + j - k, i + j + k)%Z.
Lemma f_3_ok i j k : let '(h1, h2, h3) := f_3 i j k in okc CI h1 h2 h3.
Proof. unfold f_3. cbn [okc]. lia. Qed.
Lemma f_3_inv h1 h2 h3 : okc CI h1 h2 h3 -> exists i j k, f_3 i j k = (h1, h2, h3).
Proof.
  intros H. cbn [okc] in H. exists ((h1 + h3) / 2)%Z, ((h2 - h1) / 2)%Z, ((h3 - h2) / 2)%Z.
  unfold f_3. repeat f_equal; lia.
Qed.
Definition f_m3 (i j k : Z) := (- i + j + k, i - j + k, i + j - k)%Z.
Lemma f_m3_ok i j k : let '(h1, h2, h3) := f_m3 i j k in okc CI h1 h2 h3.
Proof. unfold f_m3. cbn [okc]. lia. Qed.
Lemma f_m3_inv h1 h2 h3 : okc CI h1 h2 h3 -> exists i j k, f_m3 i j k = (h1, h2, h3).
Proof.
  intros H. cbn [okc] in H. exists ((h2 + h3) / 2)%Z, ((h1 + h3) / 2)%Z, ((h1 + h2) / 2)%Z.
  unfold f_m3. repeat f_equal; lia.
Qed.
Definition f_7 (i j k : Z) := (i + j - k, - i + j - k, i + j + k)%Z.
Lemma f_7_ok i j k : let '(h1, h2, h3) := f_7 i j k in okc CI h1 h2 h3.
Proof. unfold f_7. cbn [okc]. lia. Qed.
Lemma f_7_inv h1 h2 h3 : okc CI h1 h2 h3 -> exists i j k, f_7 i j k = (h1, h2, h3).
Proof.
  intros H. cbn [okc] in H. exists ((h1 - h2) / 2)%Z, ((h2 + h3) / 2)%Z, ((h3 - h1) / 2)%Z.
  unfold f_7. repeat f_equal; lia.
Qed.
Definition f_9 (i j k : Z) := (i - j, i + j, 2 * k)%Z.
Lemma f_9_ok i j k : let '(h1, h2, h3) := f_9 i j k in okc CC h1 h2 h3.
Proof. unfold f_9. cbn [okc]. lia. Qed.
Lemma f_9_inv h1 h2 h3 : okc CC h1 h2 h3 -> exists i j k, f_9 i j k = (h1, h2, h3).
Proof.
  intros H. cbn [okc] in H. exists ((h1 + h2) / 2)%Z, ((h2 - h1) / 2)%Z, (h3 / 2)%Z.
  unfold f_9. repeat f_equal; lia.
Qed.
Definition f_m9 (i j k : Z) := (i + j, j - i, 2 * k)%Z.
Lemma f_m9_ok i j k : let '(h1, h2, h3) := f_m9 i j k in okc CC h1 h2 h3.
Proof. unfold f_m9. cbn [okc]. lia. Qed.
Lemma f_m9_inv h1 h2 h3 : okc CC h1 h2 h3 -> exists i j k, f_m9 i j k = (h1, h2, h3).
Proof.
  intros H. cbn [okc] in H. exists ((h1 - h2) / 2)%Z, ((h1 + h2) / 2)%Z, (h3 / 2)%Z.
  unfold f_m9. repeat f_equal; lia.
Qed.
Definition f_91 (i j k : Z) := (2 * i, j + k, k - j)%Z.
Lemma f_91_ok i j k : let '(h1, h2, h3) := f_91 i j k in okc CA h1 h2 h3.
Proof. unfold f_91. cbn [okc]. lia. Qed.
Lemma f_91_inv h1 h2 h3 : okc CA h1 h2 h3 -> exists i j k, f_91 i j k = (h1, h2, h3).
Proof.
  intros H. cbn [okc] in H. exists (h1 / 2)%Z, ((h2 - h3) / 2)%Z, ((h2 + h3) / 2)%Z.
  unfold f_91. repeat f_equal; lia.
Qed.
Definition f_10 (i j k : Z) := (i + j, j + k, i + k)%Z.
Lemma f_10_ok i j k : let '(h1, h2, h3) := f_10 i j k in okc CF h1 h2 h3.
Proof. unfold f_10. cbn [okc]. lia. Qed.
Lemma f_10_inv h1 h2 h3 : okc CF h1 h2 h3 -> exists i j k, f_10 i j k = (h1, h2, h3).
Proof.
  intros H. cbn [okc] in H. exists ((h1 + h3 - h2) / 2)%Z, ((h1 + h2 - h3) / 2)%Z, ((h2 + h3 - h1) / 2)%Z.
  unfold f_10. repeat f_equal; lia.
Qed.
Definition f_13 (i j k : Z) := (i + k, 2 * j, k - i)%Z.
Lemma f_13_ok i j k : let '(h1, h2, h3) := f_13 i j k in okc CB h1 h2 h3.
Proof. unfold f_13. cbn [okc]. lia. Qed.
Lemma f_13_inv h1 h2 h3 : okc CB h1 h2 h3 -> exists i j k, f_13 i j k = (h1, h2, h3).
Proof.
  intros H. cbn [okc] in H. exists ((h1 - h3) / 2)%Z, (h2 / 2)%Z, ((h1 + h3) / 2)%Z.
  unfold f_13. repeat f_equal; lia.
Qed.

Ltac shape := repeat split; unfold vdot; cbn [vx vy vz la lb lc cbc cac cab]; try ring.
Ltac prim A B C f fok finv :=
  apply (primitive_intro _ _ A B C _ f);
  [cbn [la lb lc]; assumption | cbn [la lb lc]; assumption | cbn [la lb lc]; assumption | | |
   unfold f; vec_eq | exact fok | exact finv | unfold mdet, vdot, vcross; cbn; try field].
Lemma pos3 a b c : 0 < a -> 0 < b -> 0 < c -> 0 < a * b * c.
Proof. intros. apply Rmult_lt_0_compat; [apply Rmult_lt_0_compat|]; assumption. Qed.

Section Cells.
Variables a b c : R.
Hypotheses (Ha : 0 < a) (Hb : 0 < b) (Hc : 0 < c).
Let A := V a 0 0.
Let B := V 0 b 0.
Let C := V 0 0 c.
Lemma ortho_shape : has_shape (Cell a b c 0 0 0) A B C.
Proof. unfold A, B, C. shape. Qed.
Lemma ortho_vol : 0 < vdot A (vcross B C).
Proof. unfold A, B, C, vdot, vcross; cbn. pose proof (pos3 a b c Ha Hb Hc). lra. Qed.
Ltac ortho f fok finv := prim (V a 0 0) (V 0 b 0) (V 0 0 c) f fok finv; first [exact ortho_shape | exact ortho_vol].
Lemma cell_P : primitive_basis CP (Cell a b c 0 0 0) (Mat (V a 0 0) (V 0 b 0) (V 0 0 c)).
Proof. ortho f_P f_P_ok f_P_inv. Qed.
Lemma cell_9 : primitive_basis CC (Cell a b c 0 0 0) (Mat (V (a / 2) (b / 2) 0) (V (- a / 2) (b / 2) 0) (V 0 0 c)).
Proof. ortho f_9 f_9_ok f_9_inv. Qed.
Lemma cell_m9 : primitive_basis CC (Cell a b c 0 0 0) (Mat (V (a / 2) (- b / 2) 0) (V (a / 2) (b / 2) 0) (V 0 0 c)).
Proof. ortho f_m9 f_m9_ok f_m9_inv. Qed.
Lemma cell_91 : primitive_basis CA (Cell a b c 0 0 0) (Mat (V a 0 0) (V 0 (b / 2) (- c / 2)) (V 0 (b / 2) (c / 2))).
Proof. ortho f_91 f_91_ok f_91_inv. Qed.
Lemma cell_10 : primitive_basis CF (Cell a b c 0 0 0) (Mat (V (a / 2) 0 (c / 2)) (V (a / 2) (b / 2) 0) (V 0 (b / 2) (c / 2))).
Proof. ortho f_10 f_10_ok f_10_inv. Qed.
Lemma cell_11 : primitive_basis CI (Cell a b c 0 0 0)
  (Mat (V (a / 2) (b / 2) (c / 2)) (V (- a / 2) (b / 2) (c / 2)) (V (- a / 2) (- b / 2) (c / 2))).
Proof. ortho f_3 f_3_ok f_3_inv. Qed.
Lemma cell_7 : primitive_basis CI (Cell a b c 0 0 0)
  (Mat (V (a / 2) (- b / 2) (c / 2)) (V (a / 2) (b / 2) (c / 2)) (V (- a / 2) (- b / 2) (c / 2))).
Proof. ortho f_7 f_7_ok f_7_inv. Qed.
Lemma cell_2 : primitive_basis CF (Cell a b c 0 0 0)
  (Mat (V (- (a / 2)) 0 (c / 2)) (V 0 (b / 2) (c / 2)) (V (- (a / 2)) (b / 2) 0)).
Proof. ortho f_2 f_2_ok f_2_inv. Qed.
Lemma cell_3 : primitive_basis CI (Cell a b c 0 0 0)
  (Mat (V (a / 2) (b / 2) (c / 2)) (V (- (a / 2)) (b / 2) (c / 2)) (V (- (a / 2)) (- (b / 2)) (c / 2))).
Proof. ortho f_3 f_3_ok f_3_inv. Qed.
Lemma cell_m3 : primitive_basis CI (Cell a b c 0 0 0)
  (Mat (V (- (a / 2)) (b / 2) (c / 2)) (V (a / 2) (- (b / 2)) (c / 2)) (V (a / 2) (b / 2) (- (c / 2)))).
Proof. ortho f_m3 f_m3_ok f_m3_inv. Qed.

Section Mono.
Variables x s : R.
Hypotheses (Hs : 0 < s) (Hxs : s * s = 1 - x ^ 2).
Ltac mono A' B' C' f fok finv := prim A' B' C' f fok finv;
  first [ shape; nra | unfold vdot, vcross; cbn; pose proof (pos3 a b c Ha Hb Hc); nra ].
Lemma cell_12 : primitive_basis CP (Cell a b c 0 0 x) (Mat (V a 0 0) (V (b * x) (b * s) 0) (V 0 0 c)).
Proof. mono (V a 0 0) (V (b * x) (b * s) 0) (V 0 0 c) f_P f_P_ok f_P_inv. Qed.
Lemma cell_m12 : primitive_basis CP (Cell a b c 0 x 0) (Mat (V a 0 0) (V 0 b 0) (V (c * x) 0 (c * s))).
Proof. mono (V a 0 0) (V 0 b 0) (V (c * x) 0 (c * s)) f_P f_P_ok f_P_inv. Qed.
Lemma cell_13 : primitive_basis CB (Cell a b c 0 0 x)
  (Mat (V (a / 2) 0 (- c / 2)) (V (b * x) (b * s) 0) (V (a / 2) 0 (c / 2))).
Proof. mono (V a 0 0) (V (b * x) (b * s) 0) (V 0 0 c) f_13 f_13_ok f_13_inv. Qed.
Lemma cell_m13 : primitive_basis CC (Cell a b c 0 x 0)
  (Mat (V (a / 2) (b / 2) 0) (V (- a / 2) (b / 2) 0) (V (c * x) 0 (c * s))).
Proof. mono (V a 0 0) (V 0 b 0) (V (c * x) 0 (c * s)) f_9 f_9_ok f_9_inv. Qed.
End Mono.
End Cells.

Lemma cell_4 a c : 0 < a -> 0 < c ->
  primitive_basis CP (Cell a a c 0 0 (- / 2)) (Mat (V a 0 0) (V (- a / 2) (a * sqrt 3 / 2) 0) (V 0 0 c)).
Proof.
  intros Ha Hc. pose proof (sqrt_sqrt 3 ltac:(lra)) as E. pose proof (sqrt_lt_R0 3 ltac:(lra)) as Hp.
  prim (V a 0 0) (V (- a / 2) (a * sqrt 3 / 2) 0) (V 0 0 c) f_P f_P_ok f_P_inv.
  - shape; try field.
    replace (- a / 2 * (- a / 2) + a * sqrt 3 / 2 * (a * sqrt 3 / 2) + 0 * 0)
      with (a * a / 4 + a * a * (sqrt 3 * sqrt 3) / 4) by field. rewrite E. field.
  - unfold vdot, vcross; cbn. pose proof (pos3 a (a * sqrt 3 / 2) c Ha ltac:(nra) Hc). lra.
Qed.

Lemma cell_5 a tx ty tz x : 0 < a -> 0 < tx -> 0 < ty -> 0 < tz ->
  tx * tx = (1 - x) / 2 -> ty * ty = (1 - x) / 6 -> tz * tz = (1 + 2 * x) / 3 ->
  primitive_basis CP (Cell a a a x x x)
    (Mat (V (a * tx) (- a * ty) (a * tz)) (V 0 (2 * a * ty) (a * tz)) (V (- a * tx) (- a * ty) (a * tz))).
Proof.
  intros Ha Hx Hy Hz Ex Ey Ez.
  prim (V (a * tx) (- a * ty) (a * tz)) (V 0 (2 * a * ty) (a * tz)) (V (- a * tx) (- a * ty) (a * tz))
    f_P f_P_ok f_P_inv.
  - shape.
    + transitivity (a * a * (tx * tx + ty * ty + tz * tz)); [ring|]. rewrite Ex, Ey, Ez. field.
    + transitivity (a * a * (4 * (ty * ty) + tz * tz)); [ring|]. rewrite Ey, Ez. field.
    + transitivity (a * a * (tx * tx + ty * ty + tz * tz)); [ring|]. rewrite Ex, Ey, Ez. field.
    + transitivity (a * a * (- 2 * (ty * ty) + tz * tz)); [ring|]. rewrite Ey, Ez. field.
    + transitivity (a * a * (- (tx * tx) + ty * ty + tz * tz)); [ring|]. rewrite Ex, Ey, Ez. field.
    + transitivity (a * a * (- 2 * (ty * ty) + tz * tz)); [ring|]. rewrite Ey, Ez. field.
  - unfold vdot, vcross; cbn. pose proof (pos3 (a * tx) (a * ty) (a * tz)). nra.
Qed.

Lemma cell_m5 a ty tz x : 0 < a -> 0 < ty -> 0 < tz ->
  ty * ty = (1 - x) / 6 -> tz * tz = (1 + 2 * x) / 3 ->
  let aa := a / sqrt 3 in let u := tz - 2 * sqrt 2 * ty in let v := tz + sqrt 2 * ty in
  primitive_basis CP (Cell a a a x x x)
    (Mat (V (aa * u) (aa * v) (aa * v)) (V (aa * v) (aa * u) (aa * v)) (V (aa * v) (aa * v) (aa * u))).
Proof.
  intros Ha Hy Hz Ey Ez aa u v.
  pose proof (sqrt_sqrt 3 ltac:(lra)) as E3. pose proof (sqrt_lt_R0 3 ltac:(lra)) as Hp3.
  pose proof (sqrt_sqrt 2 ltac:(lra)) as E2. pose proof (sqrt_lt_R0 2 ltac:(lra)) as Hp2.
  assert (Eaa : aa * aa = a * a / 3).
  { unfold aa. rewrite <- E3 at 3. field. lra. }
  assert (Haa : 0 < aa) by (apply Rdiv_lt_0_compat; lra).
  assert (Euu : u * u + 2 * (v * v) = 3).
  { unfold u, v. transitivity (3 * (tz * tz) + 6 * (sqrt 2 * sqrt 2) * (ty * ty)); [ring|].
    rewrite E2, Ey, Ez. field. }
  assert (Euv : 2 * (u * v) + v * v = 3 * x).
  { unfold u, v. transitivity (3 * (tz * tz) - 3 * (sqrt 2 * sqrt 2) * (ty * ty)); [ring|].
    rewrite E2, Ey, Ez. field. }
  prim (V (aa * u) (aa * v) (aa * v)) (V (aa * v) (aa * u) (aa * v)) (V (aa * v) (aa * v) (aa * u))
    f_P f_P_ok f_P_inv.
  - shape;
      first [ transitivity (aa * aa * (u * u + 2 * (v * v))); [ring|]; rewrite Eaa, Euu; field
            | transitivity (aa * aa * (2 * (u * v) + v * v)); [ring|]; rewrite Eaa, Euv; field ].
  - unfold vdot, vcross; cbn.
    replace (aa * u * (aa * u * (aa * u) - aa * v * (aa * v)) + aa * v * (aa * v * (aa * v) - aa * v * (aa * u))
      + aa * v * (aa * v * (aa * v) - aa * u * (aa * v)))
      with (aa * aa * aa * (((u - v) * (u - v)) * (u + 2 * v))) by ring.
    apply Rmult_lt_0_compat; [apply pos3; assumption|]. unfold u, v.
    replace (tz - 2 * sqrt 2 * ty - (tz + sqrt 2 * ty)) with (- (3 * sqrt 2 * ty)) by ring.
    replace (tz - 2 * sqrt 2 * ty + 2 * (tz + sqrt 2 * ty)) with (3 * tz) by ring.
    assert (Hw : 0 < sqrt 2 * ty) by (apply Rmult_lt_0_compat; assumption).
    replace (- (3 * sqrt 2 * ty) * - (3 * sqrt 2 * ty) * (3 * tz)) with (27 * ((sqrt 2 * ty) * (sqrt 2 * ty) * tz)) by ring.
    pose proof (pos3 _ _ _ Hw Hw Hz). lra.
Qed.
