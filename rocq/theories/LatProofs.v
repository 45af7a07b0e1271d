From Verif Require Import Base LatModel.
From Coq Require Import Lra Psatz.
Open Scope R_scope.

Ltac vec_destruct :=
  repeat match goal with
  | v : rvec |- _ => destruct v
  | m : mat |- _ => destruct m
  end.
Ltac vec_unfold :=
  unfold minv, mmul, mid, mtrans, mscale, mdet, mv, vadd, vsub, vscale, vdot, vcross in *;
  cbn [c1 c2 c3 vx vy vz] in *.
Lemma V_ext a b c a' b' c' : a = a' -> b = b' -> c = c' -> V a b c = V a' b' c'.
Proof. intros; subst; reflexivity. Qed.
Lemma Mat_ext a b c a' b' c' : a = a' -> b = b' -> c = c' -> Mat a b c = Mat a' b' c'.
Proof. intros; subst; reflexivity. Qed.
Ltac vec_ext := vec_destruct; vec_unfold; repeat (apply Mat_ext || apply V_ext).

Lemma mv_mmul P Q v : mv (mmul P Q) v = mv P (mv Q v).
Proof. vec_ext; ring. Qed.
Lemma mv_mid v : mv mid v = v.
Proof. vec_ext; ring. Qed.
Definition madj (P : mat) : mat :=
  mtrans (Mat (vcross (c2 P) (c3 P)) (vcross (c3 P) (c1 P)) (vcross (c1 P) (c2 P))).
Lemma minv_madj P : minv P = mscale (/ mdet P) (madj P).
Proof. reflexivity. Qed.
Lemma madj_r P : mmul P (madj P) = mscale (mdet P) mid.
Proof. unfold madj. vec_ext; ring. Qed.
Lemma madj_l P : mmul (madj P) P = mscale (mdet P) mid.
Proof. unfold madj. vec_ext; ring. Qed.
Lemma mmul_mscale a b P Q : mmul (mscale a P) (mscale b Q) = mscale (a * b) (mmul P Q).
Proof. vec_ext; ring. Qed.
Lemma mscale_1 P : mscale 1 P = P.
Proof. vec_ext; ring. Qed.
Lemma mscale_mscale a b P : mscale a (mscale b P) = mscale (a * b) P.
Proof. vec_ext; ring. Qed.
Lemma minv_r P : mdet P <> 0 -> mmul P (minv P) = mid.
Proof.
  intros H. rewrite minv_madj, <- (mscale_1 P) at 1.
  rewrite mmul_mscale, madj_r, mscale_mscale, Rmult_1_l, Rinv_l, mscale_1 by exact H. reflexivity.
Qed.
Lemma minv_l P : mdet P <> 0 -> mmul (minv P) P = mid.
Proof.
  intros H. rewrite minv_madj. rewrite <- (mscale_1 P) at 3.
  rewrite mmul_mscale, madj_l, mscale_mscale, Rmult_1_r, Rinv_l, mscale_1 by exact H. reflexivity.
Qed.
Lemma mdet_mmul P Q : mdet (mmul P Q) = mdet P * mdet Q.
Proof. vec_destruct. vec_unfold. ring. Qed.
Lemma mdet_mtrans P : mdet (mtrans P) = mdet P.
Proof. vec_destruct. vec_unfold. ring. Qed.
Lemma mdet_mid : mdet mid = 1.
Proof. vec_unfold. ring. Qed.
Lemma mdet_minv P : mdet P <> 0 -> mdet (minv P) = / mdet P.
Proof.
  intros H. apply Rmult_eq_reg_l with (mdet P); [|exact H].
  rewrite <- mdet_mmul, minv_r, mdet_mid, Rinv_r by exact H. reflexivity.
Qed.
Lemma mmul_assoc P Q S : mmul P (mmul Q S) = mmul (mmul P Q) S.
Proof. vec_ext; ring. Qed.
Lemma mmul_mid_l P : mmul mid P = P.
Proof. vec_ext; ring. Qed.
Lemma mmul_mid_r P : mmul P mid = P.
Proof. vec_ext; ring. Qed.
Lemma mtrans_mmul P Q : mtrans (mmul P Q) = mmul (mtrans Q) (mtrans P).
Proof. vec_ext; ring. Qed.
Lemma mtrans_mid : mtrans mid = mid.
Proof. reflexivity. Qed.
Lemma minv_unique P Q : mdet P <> 0 -> mmul P Q = mid -> Q = minv P.
Proof.
  intros D H. rewrite <- (mmul_mid_r (minv P)), <- H, mmul_assoc, minv_l, mmul_mid_l by exact D. reflexivity.
Qed.
Lemma mdet_mscale a P : mdet (mscale a P) = a * a * a * mdet P.
Proof. vec_destruct. vec_unfold. ring. Qed.
Lemma mv_adj P u v : vdot (mv P u) v = vdot u (mv (mtrans P) v).
Proof. vec_destruct. vec_unfold. ring. Qed.

(** Facts available for every constructed lattice. *)
Lemma mk_lattice_ok P L : mk_lattice P = Ok L ->
  mdet P <> 0 /\ primvec L = P /\ primvec_inv L = minv P
  /\ metric L = mmul (mtrans P) P /\ cellvol L = Rabs (mdet P).
Proof.
  unfold mk_lattice. destruct (Req_EM_T (mdet P) 0); [discriminate|]. intros [= <-]. cbn. auto.
Qed.
Lemma mk_lattice_iff P :
  (mdet P = 0 -> mk_lattice P = Err ValueError) /\
  (mdet P <> 0 -> exists L, mk_lattice P = Ok L /\ primvec L = P).
Proof.
  unfold mk_lattice. destruct (Req_EM_T (mdet P) 0) as [E|E]; split; intros H; try contradiction; try reflexivity.
  eexists. split; reflexivity.
Qed.

Lemma cryst_cart_inverse P L v : mk_lattice P = Ok L ->
  cart2cryst L (cryst2cart L v) = v /\ cryst2cart L (cart2cryst L v) = v.
Proof.
  intros H. apply mk_lattice_ok in H as (D & HP & HI & _ & _).
  unfold cart2cryst, cryst2cart. rewrite HP, HI, <- !mv_mmul, minv_l, minv_r by exact D.
  now rewrite mv_mid.
Qed.

Lemma vscale_vscale a b v : vscale a (vscale b v) = vscale (a * b) v.
Proof. vec_ext; ring. Qed.
Lemma vscale_1 v : vscale 1 v = v.
Proof. vec_ext; ring. Qed.
Lemma mv_vscale P a v : mv P (vscale a v) = vscale a (mv P v).
Proof. vec_ext; ring. Qed.

Lemma unit_inverse P U unit_ v : mk_ulattice unit_ P = Ok U -> unit_ <> 0 ->
  unit2cart U (cart2unit U v) = v /\ cart2unit U (unit2cart U v) = v
  /\ unit2cryst U (cryst2unit U v) = v /\ cryst2unit U (unit2cryst U v) = v
  /\ cryst2unit U v = cart2unit U (cryst2cart (u_lat U) v)
  /\ unit2cryst U v = cart2cryst (u_lat U) (unit2cart U v).
Proof.
  unfold mk_ulattice. destruct (mk_lattice P) as [L|e] eqn:E; [|discriminate].
  cbn [rmap]. intros [= <-] Hu. unfold unit2cart, cart2unit, unit2cryst, cryst2unit. cbn [u_unit u_lat].
  destruct (cryst_cart_inverse P L v E) as [I1 I2].
  repeat split.
  - rewrite vscale_vscale, Rinv_r, vscale_1 by exact Hu. reflexivity.
  - rewrite vscale_vscale, Rinv_l, vscale_1 by exact Hu. reflexivity.
  - unfold cart2cryst in *. rewrite mv_vscale, I1, vscale_vscale, Rinv_r, vscale_1 by exact Hu. reflexivity.
  - unfold cryst2cart in *. rewrite mv_vscale, I2, vscale_vscale, Rinv_l, vscale_1 by exact Hu. reflexivity.
  - unfold cart2cryst. now rewrite mv_vscale.
Qed.

Lemma dot_cart P L unit_ u v : mk_lattice P = Ok L ->
  dot L unit_ u v Cryst = Ok (vdot (cryst2cart L u) (cryst2cart L v)).
Proof.
  intros H. apply mk_lattice_ok in H as (_ & HP & _ & HM & _).
  unfold dot, cryst2cart. rewrite HM, HP, mv_mmul, mv_adj. reflexivity.
Qed.
Lemma norm2_dot L unit_ u c : norm2 L unit_ u c = dot L unit_ u u c.
Proof. destruct c; reflexivity. Qed.

Lemma vdot_nonneg v : 0 <= vdot v v.
Proof. vec_destruct. vec_unfold. nra. Qed.
Lemma vdot_zero v : vdot v v = 0 -> v = V 0 0 0.
Proof.
  destruct v as [a b c]. vec_unfold. intros H.
  assert (a = 0) by nra. assert (b = 0) by nra. assert (c = 0) by nra. now subst.
Qed.

Lemma norm2_posdef P L unit_ u n : mk_lattice P = Ok L -> norm2 L unit_ u Cryst = Ok n ->
  0 <= n /\ (n = 0 <-> u = V 0 0 0).
Proof.
  intros H Hn. rewrite norm2_dot, (dot_cart P) in Hn by exact H. injection Hn as <-.
  split; [apply vdot_nonneg|]. split.
  - intros E. apply vdot_zero in E. destruct (cryst_cart_inverse P L u H) as [I _].
    rewrite <- I, E. unfold cart2cryst. vec_ext; ring.
  - intros ->. unfold cryst2cart. vec_destruct. vec_unfold. destruct (primvec L) as [[] [] []]. cbn. ring.
Qed.

Lemma scaled_dot L unit_ u v :
  dot L unit_ u v Scaled = Ok (vdot (vscale unit_ u) (vscale unit_ v)).
Proof. unfold dot. f_equal. vec_destruct. vec_unfold. ring. Qed.

Lemma norm_real_ok L unit_ u c n2 : 0 < unit_ -> norm2 L unit_ u c = Ok n2 -> 0 <= n2 ->
  norm_real L unit_ u c = Ok (sqrt n2) /\ norm_reci L unit_ u c = Ok (sqrt n2).
Proof.
  intros Hu Hn Hp. split.
  - unfold norm_real. destruct c; try (rewrite Hn; reflexivity); cbn in *.
    f_equal. injection Hn as <-. rewrite sqrt_mult, sqrt_square by (try apply vdot_nonneg; nra). reflexivity.
  - unfold norm_reci. now rewrite Hn.
Qed.

Lemma cellvol_metric P L : mk_lattice P = Ok L ->
  cellvol L * cellvol L = mdet (metric L) /\ 0 < cellvol L
  /\ cellvol L = Rabs (vdot (c1 P) (vcross (c2 P) (c3 P))).
Proof.
  intros H. apply mk_lattice_ok in H as (D & HP & _ & HM & HV).
  rewrite HV, HM, mdet_mmul, mdet_mtrans. split; [|split; [now apply Rabs_pos_lt|reflexivity]].
  destruct (Rcase_abs (mdet P)) as [h|h]; [rewrite Rabs_left|rewrite Rabs_right]; lra.
Qed.

(** Reciprocal lattice. *)
Lemma TPI_pos : 0 < TPI.
Proof. unfold TPI. pose proof PI_RGT_0. lra. Qed.

Lemma minv_mtrans P : mdet P <> 0 -> minv (mtrans P) = mtrans (minv P).
Proof.
  intros H. symmetry. apply minv_unique; [now rewrite mdet_mtrans|].
  now rewrite <- mtrans_mmul, minv_l, mtrans_mid.
Qed.

Lemma reci_det P : mdet P <> 0 -> mdet (mscale TPI (mtrans (minv P))) = TPI * TPI * TPI / mdet P.
Proof. intros H. rewrite mdet_mscale, mdet_mtrans, mdet_minv by exact H. reflexivity. Qed.

Lemma reci_exists P U unit_ : mk_ulattice unit_ P = Ok U ->
  exists B, from_reallat U = Ok B /\ u_unit B = TPI / unit_
    /\ primvec (u_lat B) = mscale TPI (mtrans (minv P)).
Proof.
  unfold mk_ulattice. destruct (mk_lattice P) as [L|e] eqn:E; [|discriminate].
  cbn. intros [= <-]. pose proof (mk_lattice_ok P L E) as (D & HP & HI & _).
  unfold from_reallat, mk_ulattice. cbn [u_lat u_unit]. rewrite HI.
  destruct (mk_lattice_iff (mscale TPI (mtrans (minv P)))) as [_ K].
  destruct K as (B & EB & PB).
  { rewrite reci_det by exact D. pose proof TPI_pos. unfold Rdiv.
    apply Rmult_integral_contrapositive_currified; [|now apply Rinv_neq_0_compat].
    assert (0 < TPI * TPI * TPI) by (apply Rmult_lt_0_compat; [apply Rmult_lt_0_compat|]; assumption). lra. }
  rewrite EB. eexists. split; [reflexivity|]. split; [reflexivity|exact PB].
Qed.

Definition nth_col (P : mat) (i : nat) : rvec :=
  match i with O => c1 P | S O => c2 P | _ => c3 P end.

Lemma mmul_col P Q i : nth_col (mmul P Q) i = mv P (nth_col Q i).
Proof. destruct i as [|[|i]]; reflexivity. Qed.
Lemma mtrans_col_dot P i j : (i < 3)%nat -> (j < 3)%nat ->
  vdot (nth_col (mtrans P) i) (nth_col mid j) = vdot (nth_col mid i) (nth_col P j).
Proof.
  intros Hi Hj. destruct i as [|[|[|i]]]; try lia; destruct j as [|[|[|j]]]; try lia;
    cbn [nth_col]; vec_destruct; vec_unfold; ring.
Qed.
Lemma col_mid_dot i j : (i < 3)%nat -> (j < 3)%nat ->
  vdot (nth_col mid i) (nth_col mid j) = if Nat.eqb i j then 1 else 0.
Proof.
  intros Hi Hj. destruct i as [|[|[|i]]]; try lia; destruct j as [|[|[|j]]]; try lia;
    cbn [nth_col Nat.eqb]; vec_unfold; ring.
Qed.
Lemma mscale_col a P i : nth_col (mscale a P) i = vscale a (nth_col P i).
Proof. destruct i as [|[|i]]; reflexivity. Qed.
Lemma mtrans_col_dot_v P i v : (i < 3)%nat ->
  vdot (nth_col (mtrans P) i) v = vdot (nth_col mid i) (mv P v).
Proof. intros Hi. destruct i as [|[|[|i]]]; try lia; cbn [nth_col]; vec_destruct; vec_unfold; ring. Qed.
Lemma vdot_scale_l a u v : vdot (vscale a u) v = a * vdot u v.
Proof. vec_destruct; vec_unfold; ring. Qed.

Lemma mscale_trans_cols P i j : (i < 3)%nat -> (j < 3)%nat -> mdet P <> 0 ->
  vdot (nth_col (mscale TPI (mtrans (minv P))) i) (nth_col P j) = if Nat.eqb i j then TPI else 0.
Proof.
  intros Hi Hj D. rewrite mscale_col, vdot_scale_l, mtrans_col_dot_v, <- mmul_col, minv_l by assumption.
  rewrite col_mid_dot by assumption. destruct (Nat.eqb i j); ring.
Qed.

Lemma reci_dual P U unit_ B : mk_ulattice unit_ P = Ok U -> from_reallat U = Ok B ->
  forall i j, (i < 3)%nat -> (j < 3)%nat ->
  vdot (nth_col (primvec (u_lat B)) i) (nth_col (primvec (u_lat U)) j)
  = if Nat.eqb i j then 2 * PI else 0.
Proof.
  intros HU HB i j Hi Hj. destruct (reci_exists _ _ _ HU) as (B' & HB' & _ & HP).
  rewrite HB in HB'. injection HB' as <-. rewrite HP.
  unfold mk_ulattice in HU. destruct (mk_lattice P) as [L|e] eqn:E; [|discriminate].
  cbn in HU. injection HU as <-. apply mk_lattice_ok in E as (D & HPP & _). cbn [u_lat]. rewrite HPP.
  now apply mscale_trans_cols.
Qed.

Lemma minv_mscale a P : a <> 0 -> mdet P <> 0 -> minv (mscale a P) = mscale (/ a) (minv P).
Proof.
  intros Ha H. symmetry. apply minv_unique.
  - rewrite mdet_mscale. repeat (apply Rmult_integral_contrapositive_currified; try assumption).
  - rewrite mmul_mscale, minv_r, Rinv_r, mscale_1 by assumption. reflexivity.
Qed.
Lemma minv_minv P : mdet P <> 0 -> minv (minv P) = P.
Proof.
  intros H. symmetry. apply minv_unique; [|now apply minv_l].
  rewrite mdet_minv by exact H. now apply Rinv_neq_0_compat.
Qed.
Lemma mtrans_mtrans P : mtrans (mtrans P) = P.
Proof. vec_ext; reflexivity. Qed.
Lemma mtrans_mscale a P : mtrans (mscale a P) = mscale a (mtrans P).
Proof. vec_ext; reflexivity. Qed.

Lemma reci_round_trip P U unit_ B : mk_ulattice unit_ P = Ok U -> unit_ <> 0 ->
  from_reallat U = Ok B ->
  exists U', from_recilat B = Ok U' /\ u_unit U' = unit_ /\ primvec (u_lat U') = P.
Proof.
  intros HU Hu HB. destruct (reci_exists _ _ _ HU) as (B' & HB' & HuB & HP).
  rewrite HB in HB'. injection HB' as <-.
  unfold mk_ulattice in HU. destruct (mk_lattice P) as [L|e] eqn:E; [|discriminate].
  cbn in HU. injection HU as <-. apply mk_lattice_ok in E as (D & HPP & _).
  pose proof TPI_pos.
  assert (DI : mdet (minv P) <> 0) by (rewrite mdet_minv by exact D; now apply Rinv_neq_0_compat).
  assert (HBinv : primvec_inv (u_lat B) = mscale (/ TPI) (mtrans P)).
  { unfold from_reallat, mk_ulattice in HB.
    destruct (mk_lattice _) as [LB|] eqn:EB in HB; [|discriminate]. injection HB as <-. cbn [u_lat] in *.
    apply mk_lattice_ok in EB as (DB & PB & IB & _). rewrite IB. rewrite PB in HP.
    rewrite HP. rewrite minv_mscale by (rewrite ?mdet_mtrans; lra || assumption).
    now rewrite minv_mtrans, minv_minv by assumption. }
  unfold from_recilat, mk_ulattice. rewrite HBinv, HuB.
  rewrite mtrans_mscale, mtrans_mtrans, mscale_mscale, Rinv_r, mscale_1 by lra.
  destruct (mk_lattice_iff P) as [_ K]. destruct (K D) as (L' & EL & PL). rewrite EL.
  eexists. split; [reflexivity|]. split; [cbn; field; split; lra|exact PL].
Qed.

Lemma reci_volume P U unit_ B : mk_ulattice unit_ P = Ok U -> from_reallat U = Ok B ->
  cellvol (u_lat U) * cellvol (u_lat B) = (2 * PI) ^ 3.
Proof.
  intros HU HB. destruct (reci_exists _ _ _ HU) as (B' & HB' & _ & HP).
  rewrite HB in HB'. injection HB' as <-.
  unfold mk_ulattice in HU. destruct (mk_lattice P) as [L|e] eqn:E; [|discriminate].
  cbn in HU. injection HU as <-. apply mk_lattice_ok in E as (D & _ & _ & _ & HV).
  unfold from_reallat, mk_ulattice in HB.
  destruct (mk_lattice _) as [LB|] eqn:EB in HB; [|discriminate]. injection HB as <-. cbn [u_lat] in *.
  apply mk_lattice_ok in EB as (_ & PB & _ & _ & VB). rewrite VB, HV, <- PB, HP, reci_det by exact D.
  rewrite <- Rabs_mult. pose proof TPI_pos.
  replace (mdet P * (TPI * TPI * TPI / mdet P)) with (TPI ^ 3) by (field; exact D).
  rewrite Rabs_right; [reflexivity|]. apply Rle_ge, pow_le. lra.
Qed.

(** Rounding. *)
Lemma rfloor_spec x : IZR (rfloor x) <= x < IZR (rfloor x) + 1.
Proof. unfold rfloor. pose proof (base_Int_part x). lra. Qed.
Lemma rfloor_unique x k : IZR k <= x < IZR k + 1 -> rfloor x = k.
Proof.
  intros H. pose proof (rfloor_spec x).
  assert (IZR (rfloor x) < IZR (k + 1)) by (rewrite plus_IZR; lra).
  assert (IZR k < IZR (rfloor x + 1)) by (rewrite plus_IZR; lra).
  apply lt_IZR in H1, H2. lia.
Qed.
Lemma rint_close x : Rabs (x - IZR (rint x)) <= 1 / 2.
Proof.
  unfold rint. pose proof (rfloor_spec x) as H.
  destruct (Rlt_dec (x - IZR (rfloor x)) (1/2)); [apply Rabs_le; lra|].
  destruct (Rlt_dec (1/2) (x - IZR (rfloor x))); [rewrite plus_IZR; apply Rabs_le; lra|].
  destruct (Z.even (rfloor x)); [|rewrite plus_IZR]; apply Rabs_le; lra.
Qed.

Lemma mesh_wrap_spec x : Rabs (mesh_wrap x) <= 1 / 2 /\ exists k : Z, mesh_wrap x = x - IZR k.
Proof. split; [apply rint_close|now exists (rint x)]. Qed.

Lemma get_mesh_default_origin U n1 n2 n3 v :
  (0 < n1)%Z -> (0 < n2)%Z -> (0 < n3)%Z ->
  get_mesh_coords U n1 n2 n3 Cryst (OTuple v) = Err AttributeError.
Proof.
  intros. unfold get_mesh_coords.
  replace (_ && _ && _)%Z with true by lia. reflexivity.
Qed.

Lemma flat_map_const_length {A B} (f : A -> list B) (l : list A) n :
  (forall x, In x l -> length (f x) = n) -> length (flat_map f l) = (length l * n)%nat.
Proof.
  induction l as [|x l IH]; intros H; [reflexivity|]. cbn. rewrite app_length, H by now left.
  rewrite IH by (intros y Hy; apply H; now right). reflexivity.
Qed.

Lemma get_mesh_cryst U n1 n2 n3 v :
  (0 < n1)%Z -> (0 < n2)%Z -> (0 < n3)%Z ->
  exists r, get_mesh_coords U n1 n2 n3 Cryst (OArray v) = Ok r
    /\ length r = Z.to_nat (n1 * n2 * n3)
    /\ Forall (fun p => Rabs (vx p) <= 1/2 /\ Rabs (vy p) <= 1/2 /\ Rabs (vz p) <= 1/2) r
    /\ (forall p, In p r <-> exists i j k, (0 <= i < n1 /\ 0 <= j < n2 /\ 0 <= k < n3)%Z /\
          p = V (mesh_wrap (IZR i / IZR n1 - vx v)) (mesh_wrap (IZR j / IZR n2 - vy v))
                (mesh_wrap (IZR k / IZR n3 - vz v))).
Proof.
  intros H1 H2 H3. unfold get_mesh_coords.
  replace (_ && _ && _)%Z with true by lia. cbn [negb bind].
  eexists. split; [reflexivity|].
  split; [|split].
  - rewrite map_length.
    rewrite (flat_map_const_length _ _ (Z.to_nat n2 * Z.to_nat n3)).
    + rewrite zrange_length, !Z.sub_0_r. rewrite !Z2Nat.inj_mul by lia. lia.
    + intros i _. rewrite (flat_map_const_length _ _ (Z.to_nat n3)).
      * now rewrite zrange_length, Z.sub_0_r.
      * intros j _. now rewrite map_length, zrange_length, Z.sub_0_r.
  - apply Forall_forall. intros p Hp. apply in_map_iff in Hp as ([[i j] k] & <- & _).
    cbn. repeat split; apply rint_close.
  - intros p. rewrite in_map_iff. split.
    + intros ([[i j] k] & <- & Hin). apply in_flat_map in Hin as (i' & Hi & Hin).
      apply in_flat_map in Hin as (j' & Hj & Hin). apply in_map_iff in Hin as (k' & [= -> -> ->] & Hk).
      apply in_zrange in Hi, Hj, Hk. exists i, j, k. split; [lia|reflexivity].
    + intros (i & j & k & Hr & ->). exists (i, j, k). split; [reflexivity|].
      apply in_flat_map. exists i. split; [apply in_zrange; lia|].
      apply in_flat_map. exists j. split; [apply in_zrange; lia|].
      apply in_map_iff. exists k. split; [reflexivity|apply in_zrange; lia].
Qed.
