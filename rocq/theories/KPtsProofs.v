From Verif Require Import Base LatModel CrystalModel CrystalProofs KPtsModel KPtsSpec.
From Coq Require Import Lra.
Open Scope R_scope.

Lemma rsum_app a b : rsum (a ++ b) = rsum a + rsum b.
Proof. unfold rsum. induction a as [|x a IH]; cbn; [ring|]. rewrite IH. ring. Qed.

Lemma rsum_scale {A} (f : A -> R) c l : rsum (map (fun x => c * f x) l) = c * rsum (map f l).
Proof. unfold rsum. induction l as [|x l IH]; cbn; [ring|]. rewrite IH. ring. Qed.

Lemma rsum_div {A} (f : A -> R) c l : rsum (map (fun x => f x / c) l) = rsum (map f l) / c.
Proof. unfold rsum, Rdiv. induction l as [|x l IH]; cbn; [ring|]. rewrite IH. ring. Qed.

Lemma rsum_const {A} c (l : list A) : rsum (map (fun _ => c) l) = INR (length l) * c.
Proof.
  induction l as [|x l IH]; [cbn; ring|]. cbn [map length]. unfold rsum in *. cbn [fold_right]. rewrite IH, S_INR. ring.
Qed.

Lemma rsum_ext {A} (f g : A -> R) l : (forall x, In x l -> f x = g x) -> rsum (map f l) = rsum (map g l).
Proof. intros H. f_equal. now apply map_ext_in. Qed.

Lemma sanitize_const {A} (l : list A) : l <> [] ->
  sanitize_weights (map (fun _ => 1 / INR (length l)) l) = Ok (map (fun _ => 1 / INR (length l)) l).
Proof.
  intros H. unfold sanitize_weights.
  assert (P : 0 < INR (length l)) by (apply lt_0_INR; destruct l; [congruence|cbn; lia]).
  replace (existsb _ _) with false.
  2:{ symmetry. apply Bool.not_true_is_false. intros E. apply existsb_exists in E as (x & Hx & E).
      apply in_map_iff in Hx as (y & <- & _). destruct (Rlt_dec _ 0) as [N|]; [|discriminate].
      assert (0 < 1 / INR (length l)) by (apply Rdiv_lt_0_compat; lra). lra. }
  f_equal. rewrite rsum_const, map_map. apply map_ext. intros _. field. lra.
Qed.

Definition prod3 (A B C : list Z) : list (Z * Z * Z) :=
  flat_map (fun i => flat_map (fun j => map (fun k => (i, j, k)) C) B) A.

Lemma prod3_in A B C i j k : In (i, j, k) (prod3 A B C) <-> In i A /\ In j B /\ In k C.
Proof.
  unfold prod3. rewrite in_flat_map. split.
  - intros (x & Hx & H). apply in_flat_map in H as (y & Hy & H). apply in_map_iff in H as (z & E & Hz).
    injection E as -> -> ->. tauto.
  - intros (Hi & Hj & Hk). exists i. split; [exact Hi|]. apply in_flat_map. exists j. split; [exact Hj|].
    apply in_map_iff. now exists k.
Qed.

Lemma prod3_NoDup A B C : NoDup A -> NoDup B -> NoDup C -> NoDup (prod3 A B C).
Proof.
  intros HA HB HC. unfold prod3. apply NoDup_flat_map; [exact HA| |].
  - intros i _. apply NoDup_flat_map; [exact HB| |].
    + intros j _. apply FinFun.Injective_map_NoDup; [|exact HC]. intros a b E. congruence.
    + intros j j' x _ _ Hx Hx'. apply in_map_iff in Hx as (? & <- & _). apply in_map_iff in Hx' as (? & E & _). congruence.
  - intros i i' x _ _ Hx Hx'. apply in_flat_map in Hx as (? & _ & Hx). apply in_map_iff in Hx as (? & <- & _).
    apply in_flat_map in Hx' as (? & _ & Hx'). apply in_map_iff in Hx' as (? & E & _). congruence.
Qed.

Lemma flat_map_length_const {A B} (f : A -> list B) n l : (forall x, length (f x) = n) -> length (flat_map f l) = (length l * n)%nat.
Proof. intros H. induction l as [|x l IH]; [reflexivity|]. cbn. rewrite app_length, H, IH. reflexivity. Qed.

Lemma prod3_length A B C : length (prod3 A B C) = (length A * (length B * length C))%nat.
Proof.
  unfold prod3. apply flat_map_length_const. intros i. apply flat_map_length_const. intros j. apply map_length.
Qed.

Definition axis_pt (n : Z) (s : bool) (i : Z) : R := (IZR i + / 2 * IZR (b2z s)) / IZR n.

Lemma mesh3_map n1 n2 n3 s1 s2 s3 A B C :
  mesh3 (map (axis_pt n1 s1) A) (map (axis_pt n2 s2) B) (map (axis_pt n3 s3) C)
  = map (mp_point n1 n2 n3 s1 s2 s3) (prod3 A B C).
Proof.
  unfold mesh3, prod3. induction A as [|i A IH]; [reflexivity|]. cbn [map flat_map]. rewrite map_app, IH. f_equal.
  clear IH. induction B as [|j B IH]; [reflexivity|]. cbn [map flat_map]. rewrite map_app, IH. f_equal.
  rewrite !map_map. reflexivity.
Qed.

Definition lo (n : Z) : Z := ((- n) / 2 + 1)%Z.
Lemma full_window n : (n / 2 + 1 = lo n + n)%Z.
Proof. unfold lo. lia. Qed.

Lemma mp_axis_full n s : mp_axis false n s = map (axis_pt n s) (zrange (lo n) (lo n + n)).
Proof. unfold mp_axis. rewrite <- full_window. reflexivity. Qed.

Lemma combine_const {A B} (l : list A) (c : B) : combine l (map (fun _ => c) l) = map (fun k => (k, c)) l.
Proof. induction l as [|x l IH]; [reflexivity|]. cbn. now rewrite IH. Qed.

(** Two mesh indices in the same window of length n giving equivalent points coincide. *)
Lemma axis_equiv n s i j a : (0 < n)%Z -> (lo n <= i < lo n + n)%Z -> (lo n <= j < lo n + n)%Z ->
  axis_pt n s j = axis_pt n s i + IZR a -> j = i.
Proof.
  intros Hn Hi Hj E. unfold axis_pt in E.
  assert (N : IZR n <> 0) by (apply IZR_neq; lia).
  assert (E' : IZR j = IZR (i + a * n)).
  { rewrite plus_IZR, mult_IZR. set (h := / 2 * IZR (b2z s)) in *.
    assert (K : (IZR j + h) / IZR n * IZR n = ((IZR i + h) / IZR n + IZR a) * IZR n) by now rewrite E.
    replace ((IZR j + h) / IZR n * IZR n) with (IZR j + h) in K by (field; exact N).
    replace (((IZR i + h) / IZR n + IZR a) * IZR n) with (IZR i + h + IZR a * IZR n) in K by (field; exact N). lra. }
  apply eq_IZR in E'. clear E N. revert Hi Hj. generalize (lo n) as m. intros m Hi Hj.
  assert (a = 0 \/ 1 <= a \/ a <= -1)%Z as [->|[K|K]] by lia; [lia| |]; exfalso.
  - assert (1 * n <= a * n)%Z by (apply Z.mul_le_mono_nonneg_r; lia). lia.
  - assert (a * n <= -1 * n)%Z by (apply Z.mul_le_mono_nonneg_r; lia). lia.
Qed.

Lemma mp_point_equiv n1 n2 n3 s1 s2 s3 g g' :
  (0 < n1)%Z -> (0 < n2)%Z -> (0 < n3)%Z ->
  In g (prod3 (zrange (lo n1) (lo n1 + n1)) (zrange (lo n2) (lo n2 + n2)) (zrange (lo n3) (lo n3 + n3))) ->
  In g' (prod3 (zrange (lo n1) (lo n1 + n1)) (zrange (lo n2) (lo n2 + n2)) (zrange (lo n3) (lo n3 + n3))) ->
  equivk (mp_point n1 n2 n3 s1 s2 s3 g) (mp_point n1 n2 n3 s1 s2 s3 g') -> g = g'.
Proof.
  intros H1 H2 H3. destruct g as [[i j] k], g' as [[i' j'] k']. rewrite !prod3_in, !in_zrange.
  intros (A1 & A2 & A3) (B1 & B2 & B3) (a & b & c & E). unfold mp_point in E. cbn [vx vy vz] in E.
  injection E as E1 E2 E3.
  apply (axis_equiv n1 s1 i i' a H1 A1 B1) in E1. apply (axis_equiv n2 s2 j j' b H2 A2 B2) in E2.
  apply (axis_equiv n3 s3 k k' c H3 A3 B3) in E3. congruence.
Qed.

Lemma axis_to_base n s i : (0 < n)%Z ->
  axis_pt n s i = (IZR (i mod n) + (if s then 1 else 0) / 2) / IZR n + IZR (i / n).
Proof.
  intros Hn. unfold axis_pt. assert (N : IZR n <> 0) by (apply IZR_neq; lia).
  rewrite (Z.div_mod i n) at 1 by lia. rewrite plus_IZR, mult_IZR. destruct s; cbn [b2z]; field; exact N.
Qed.

Lemma axis_from_base n s i : (0 < n)%Z -> (0 <= i < n)%Z -> exists j a, (lo n <= j < lo n + n)%Z
  /\ axis_pt n s j = (IZR i + (if s then 1 else 0) / 2) / IZR n + IZR a.
Proof.
  intros Hn Hi. assert (N : IZR n <> 0) by (apply IZR_neq; lia).
  destruct (Z_lt_dec i (lo n + n)) as [L|L].
  - exists i, 0%Z. split; [unfold lo in *; lia|]. unfold axis_pt. destruct s; cbn [b2z]; field; exact N.
  - exists (i - n)%Z, (-1)%Z. split; [unfold lo in *; lia|]. unfold axis_pt. rewrite minus_IZR. destruct s; cbn [b2z]; field; exact N.
Qed.

(** np.unique on the mapping table. *)
Lemma np_unique_in m i : In i (np_unique m) <-> In i m.
Proof.
  unfold np_unique. rewrite filter_In, existsb_exists. split.
  - intros (_ & x & Hx & E). apply Nat.eqb_eq in E. now subst.
  - intros H. split.
    + apply in_seq. split; [lia|]. cbn. apply le_n_S. pose proof (proj1 (list_max_le m (list_max m)) (le_n _)) as F.
      rewrite Forall_forall in F. now apply F.
    + exists i. split; [exact H|apply Nat.eqb_refl].
Qed.

Lemma np_unique_NoDup m : NoDup (np_unique m).
Proof. apply NoDup_filter, seq_NoDup. Qed.

Lemma sum_by_class (m : list nat) (F : nat -> R) (u : list nat) : NoDup u -> (forall i, In i m -> In i u) ->
  rsum (map (fun j => INR (count_occ Nat.eq_dec m j) * F j) u) = rsum (map F m).
Proof.
  intros Hu. induction m as [|i m IH]; intros Hm.
  - cbn. clear. induction u as [|x u IH]; [reflexivity|]. cbn. unfold rsum in *. cbn in IH. rewrite IH. ring.
  - assert (Hi : In i u) by (apply Hm; now left).
    cbn [map]. unfold rsum at 2. cbn [fold_right]. fold (rsum (map F m)). rewrite <- IH by (intros; apply Hm; now right).
    clear IH Hm. induction u as [|x u IHu]; [destruct Hi|].
    inversion Hu as [|? ? Hx Hu']; subst. cbn [map]. unfold rsum. cbn [fold_right].
    fold (rsum (map (fun j => INR (count_occ Nat.eq_dec (i :: m) j) * F j) u)).
    fold (rsum (map (fun j => INR (count_occ Nat.eq_dec m j) * F j) u)).
    destruct Hi as [->|Hi].
    + rewrite count_occ_cons_eq by reflexivity. rewrite S_INR.
      rewrite (rsum_ext (fun j => INR (count_occ Nat.eq_dec (i :: m) j) * F j) (fun j => INR (count_occ Nat.eq_dec m j) * F j)).
      * ring.
      * intros y Hy. rewrite count_occ_cons_neq; [reflexivity|]. intros <-. contradiction.
    + rewrite count_occ_cons_neq by (intros ->; contradiction). rewrite (IHu Hu' Hi). ring.
Qed.
