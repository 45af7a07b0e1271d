(** Round trips, the Fourier-sum meaning of the transforms, Parseval. *)
From Verif Require Import Base SortModel SortProofs GIndexModel GIndexProofs CBase FFTModel FFTSpec FFTProofs.
Open Scope nat_scope.

Lemma RtoC_INR_neq n : 0 < n -> RtoC (INR n) <> RtoC 0.
Proof. intros H E. apply RtoC_inj in E. apply INR_eq with (m := 0) in E. lia. Qed.

Lemma store_length n a : length (store n a) = n.
Proof. unfold store. now rewrite map_length, seq_length. Qed.

Lemma store_nth n a i : i < n -> nth i (store n a) (RtoC 0) = a i.
Proof.
  intros H. unfold store. rewrite (nth_indep _ _ (a 0)) by (rewrite map_length, seq_length; lia).
  rewrite map_nth, seq_nth by lia. reflexivity.
Qed.

Lemma load_store n a i : i < n -> load (store n a) i = a i.
Proof. apply store_nth. Qed.

Lemma nfac_scal norm n c : nfac norm n c = ((if norm then / RtoC (INR n) else RtoC 1) * c)%C.
Proof. unfold nfac. destruct norm; [unfold Cdiv|]; ring. Qed.

(** r2g after g2r. *)
Lemma roundtrip_at nx ny nz idx norm v i :
  i < nx * ny * nz ->
  dft_xyz (-1) nx ny nz (load (full_fun nx ny nz idx norm (G2R v))) i
  = ((if norm then RtoC 1 else RtoC (INR (nx * ny * nz))) * put zeros idx v i)%C.
Proof.
  intros Hi. destruct (flat_decomp nx ny nz i Hi) as (Ix & Iy & Iz & Ei).
  rewrite <- Ei. set (kx := i / (ny * nz)) in *. set (ky := (i / nz) mod ny) in *.
  set (kz := i mod nz) in *. rewrite dft_xyz_d3 by assumption.
  set (F := fun x y z => put zeros idx v ((x * ny + y) * nz + z)%nat).
  set (cc := (if norm then / RtoC (INR (nx * ny * nz)) else RtoC 1)%C).
  rewrite (d3_ext (-1) nx ny nz _ (fun x y z => (cc * d3 1 nx ny nz F x y z)%C)).
  - rewrite d3_scal, d3_inverse by assumption. unfold F, cc.
    rewrite !mult_INR, !RtoC_mult. destruct norm; [|ring].
    field. repeat split; apply RtoC_INR_neq; lia.
  - intros x y z Hx Hy Hz. cbn [full_fun]. rewrite load_store by now apply flat_bound.
    rewrite nfac_scal. fold cc. f_equal. now apply dft_xyz_d3.
Qed.

Lemma map_nth_seq {A} (d : A) l : map (fun k => nth k l d) (seq 0 (length l)) = l.
Proof. apply (take_perm_seq d l). Qed.

Lemma taken_put a idx v : NoDup idx -> length v = length idx -> taken (put a idx v) idx = v.
Proof.
  intros HN Hl. unfold taken.
  transitivity (map (put a idx v) (map (fun k => nth k idx 0) (seq 0 (length idx))));
    [now rewrite (map_nth_seq 0 idx)|].
  rewrite map_map. transitivity (map (fun k => nth k v (RtoC 0)) (seq 0 (length v)));
    [|apply map_nth_seq]. rewrite Hl.
  apply map_ext_in. intros k Hk. apply in_seq in Hk. apply put_nth; [assumption|lia|assumption].
Qed.

Theorem roundtrip nx ny nz idx norm v :
  NoDup idx -> (forall i, In i idx -> i < nx * ny * nz) -> length v = length idx ->
  full_fun nx ny nz idx norm (R2G (full_fun nx ny nz idx norm (G2R v)))
  = map (fun c => (if norm then RtoC 1 else RtoC (INR (nx * ny * nz))) * c)%C v.
Proof.
  intros HN HB Hl. cbn [full_fun].
  match goal with |- _ = map ?f v =>
    transitivity (map f (taken (put zeros idx v) idx)); [|now rewrite (taken_put zeros idx v HN Hl)] end.
  unfold taken. rewrite map_map.
  apply map_ext_in. intros i Hi. now apply (roundtrip_at nx ny nz idx norm v i), HB.
Qed.

(** g2r is the Fourier sum over the occupied grid positions. *)
Lemma g2r_sum nx ny nz idx norm v x y z :
  NoDup idx -> (forall i, In i idx -> i < nx * ny * nz) -> length v = length idx ->
  x < nx -> y < ny -> z < nz ->
  nth ((x * ny + y) * nz + z) (full_fun nx ny nz idx norm (G2R v)) (RtoC 0)
  = nfac norm (nx * ny * nz) (csum (length idx) (fun k =>
      let i := nth k idx 0 in
      nth k v (RtoC 0) * (kern 1 nx (i / (ny * nz)) x * (kern 1 ny ((i / nz) mod ny) y
                  * kern 1 nz (i mod nz) z)))%C).
Proof.
  intros HN HB Hl Hx Hy Hz. cbn [full_fun]. rewrite store_nth by now apply flat_bound.
  f_equal. cbv zeta.
  rewrite <- (put_sum (nx * ny * nz) (fun i => kern 1 nx (i / (ny * nz)) x *
     (kern 1 ny ((i / nz) mod ny) y * kern 1 nz (i mod nz) z))%C idx v HN HB Hl).
  unfold dft_xyz. rewrite flat_x, flat_y, flat_z by assumption.
  rewrite <- Nat.mul_assoc, csum_prod. apply csum_ext. intros kx Hkx.
  rewrite csum_prod. apply csum_ext. intros ky Hky. apply csum_ext. intros kz Hkz.
  replace (kx * (ny * nz) + (ky * nz + kz))%nat with ((kx * ny + ky) * nz + kz)%nat by ring.
  now rewrite flat_x, flat_y, flat_z.
Qed.

Lemma kern_cryst (n : nat) (i : Z) x : (0 < n) -> dim_ok (Z.of_nat n) i = true ->
  kern 1 n (Z.to_nat (fold1 (Z.of_nat n) i)) x = root n (i * Z.of_nat x).
Proof.
  intros Hn Hi. pose proof (fold1_range (Z.of_nat n) i ltac:(lia) Hi) as Hr.
  unfold kern. rewrite Z2Nat.id by lia. unfold fold1, b2z in *.
  destruct (Z.ltb_spec i 0).
  - replace (1 * (i + Z.of_nat n * 1) * Z.of_nat x)%Z
      with (i * Z.of_nat x + Z.of_nat n * Z.of_nat x)%Z by ring.
    now apply root_periodic.
  - f_equal. ring.
Qed.

Lemma plane_wave_roots nx ny nz g1 g2 g3 x y z :
  plane_wave nx ny nz (g1, g2, g3) x y z
  = (root nx (g1 * Z.of_nat x) * (root ny (g2 * Z.of_nat y) * root nz (g3 * Z.of_nat z)))%C.
Proof.
  unfold plane_wave, root. rewrite !mult_IZR, <- !INR_IZR_INZ, <- !cis_plus. f_equal.
  unfold Rdiv. ring.
Qed.

Lemma nat_unravel (n1 n2 n3 : nat) (j : Z) : (0 <= j)%Z ->
  unravel (Z.of_nat n1, Z.of_nat n2, Z.of_nat n3) j
  = (Z.of_nat (Z.to_nat j / (n2 * n3)), Z.of_nat ((Z.to_nat j / n3) mod n2), Z.of_nat (Z.to_nat j mod n3)).
Proof.
  intros Hj. unfold unravel.
  rewrite !Nat2Z.inj_div, !Nat2Z.inj_mod, Nat2Z.inj_div, Nat2Z.inj_mul, Z2Nat.id by assumption.
  reflexivity.
Qed.

(** Facts about the grid indices of a constructed G-space. *)
Lemma gspace_idx nx ny nz gs s :
  gspace_base (zshape nx ny nz) gs = Ok s ->
  let idx := map Z.to_nat (gs_idxgrid s) in
  NoDup idx /\ (forall i, In i idx -> i < nx * ny * nz) /\ length idx = length (gs_cryst s)
  /\ 0 < nx /\ 0 < ny /\ 0 < nz
  /\ forall k, k < length (gs_cryst s) ->
     let '(g1, g2, g3) := nth k (gs_cryst s) (0, 0, 0)%Z in
     let i := nth k idx 0 in
     dim_ok (Z.of_nat nx) g1 = true /\ dim_ok (Z.of_nat ny) g2 = true /\ dim_ok (Z.of_nat nz) g3 = true
     /\ i / (ny * nz) = Z.to_nat (fold1 (Z.of_nat nx) g1)
     /\ (i / nz) mod ny = Z.to_nat (fold1 (Z.of_nat ny) g2)
     /\ i mod nz = Z.to_nat (fold1 (Z.of_nat nz) g3).
Proof.
  intros H. pose proof (gspace_base_spec _ _ _ H) as (HP & HN & Hidx & HR).
  assert (Hok : shape_ok (zshape nx ny nz) = true /\ forallb (g_ok (zshape nx ny nz)) gs = true).
  { unfold gspace_base, check_g_cryst, assert_ in H.
    destruct (shape_ok (zshape nx ny nz)); [|discriminate]. split; [reflexivity|].
    destruct (forallb (g_ok (zshape nx ny nz)) gs); [reflexivity|discriminate]. }
  destruct Hok as [Hsh Hg]. rewrite forallb_forall in Hg.
  assert (Hg' : forall g, In g (gs_cryst s) -> g_ok (zshape nx ny nz) g = true).
  { intros g Hin. apply Hg. eapply Permutation_in; eassumption. }
  assert (Hpos : 0 < nx /\ 0 < ny /\ 0 < nz) by (apply shape_ok_pos in Hsh; lia).
  cbv zeta. rewrite Hidx, map_map.
  assert (HB : forall g, In g (gs_cryst s) -> (0 <= gidx (zshape nx ny nz) g < Z.of_nat (nx * ny * nz))%Z).
  { intros [[g1 g2] g3] Hin. pose proof (gidx_unravel _ _ _ _ _ _ Hsh (Hg' _ Hin)) as [_ HBB].
    unfold zshape. lia. }
  split; [|split; [|split; [|split; [|split; [|split]]]]]; try tauto.
  -
    assert (HNc : NoDup (gs_cryst s)) by (eapply Permutation_NoDup; [symmetry; exact HP|exact HN]).
    clear - HNc HB Hsh Hg'. induction (gs_cryst s) as [|g l IH]; [constructor|].
    inversion HNc as [|? ? Hn HNl]; subst. cbn [map]. constructor.
    + intros Hin. apply in_map_iff in Hin as (h & E & Hh). apply Hn.
      replace g with h; [assumption|].
      apply (gidx_inj (zshape nx ny nz)); [assumption|apply Hg'; now right|apply Hg'; now left|].
      pose proof (HB h (or_intror Hh)). pose proof (HB g (or_introl eq_refl)). apply Z2Nat.inj; [tauto|tauto|exact E].
    + apply IH; try assumption; intros; (apply HB || apply Hg'); now right.
  - intros i Hi. apply in_map_iff in Hi as (g & <- & Hgin). specialize (HB g Hgin). lia.
  - now rewrite map_length.
  - intros k Hk. pose proof (nth_In (gs_cryst s) (0, 0, 0)%Z Hk) as Hin.
    rewrite (nth_indep _ 0 (Z.to_nat (gidx (zshape nx ny nz) (0, 0, 0)%Z))) by (now rewrite map_length).
    rewrite (map_nth (fun g => Z.to_nat (gidx (zshape nx ny nz) g))).
    destruct (nth k (gs_cryst s) (0, 0, 0)%Z) as [[g1 g2] g3] eqn:E.
    specialize (HB _ Hin). specialize (Hg' _ Hin).
    pose proof (gidx_unravel _ _ _ _ _ _ Hsh Hg') as [HU _].
    unfold zshape in *. rewrite nat_unravel in HU by tauto. apply pair_equal_spec in HU as [HU U3]. apply pair_equal_spec in HU as [U1 U2].
    unfold g_ok in Hg'. apply andb_true_iff in Hg' as [Hg' G3]. apply andb_true_iff in Hg' as [G1 G2].
    rewrite <- U1, <- U2, <- U3, !Nat2Z.id. repeat split; assumption.
Qed.

Theorem g2r_gspace nx ny nz gs s norm v x y z :
  gspace_base (zshape nx ny nz) gs = Ok s -> length v = length (gs_cryst s) ->
  x < nx -> y < ny -> z < nz ->
  nth ((x * ny + y) * nz + z)
    (full_fun nx ny nz (map Z.to_nat (gs_idxgrid s)) norm (G2R v)) (RtoC 0)
  = nfac norm (nx * ny * nz) (csum (length v) (fun k =>
      nth k v (RtoC 0) * plane_wave nx ny nz (nth k (gs_cryst s) (0, 0, 0)%Z) x y z)%C).
Proof.
  intros H Hl Hx Hy Hz. destruct (gspace_idx nx ny nz gs s H) as (HN & HB & HL & P1 & P2 & P3 & HK).
  rewrite g2r_sum by (try assumption; lia). f_equal. rewrite HL, <- Hl.
  apply csum_ext. intros k Hk. cbv zeta. specialize (HK k ltac:(lia)).
  destruct (nth k (gs_cryst s) (0, 0, 0)%Z) as [[g1 g2] g3].
  destruct HK as (D1 & D2 & D3 & E1 & E2 & E3). rewrite E1, E2, E3.
  rewrite !kern_cryst by assumption. now rewrite plane_wave_roots.
Qed.

(** Forward transform against plane waves. *)
Theorem r2g_gspace nx ny nz gs s norm f k :
  gspace_base (zshape nx ny nz) gs = Ok s -> k < length (gs_cryst s) ->
  nth k (full_fun nx ny nz (map Z.to_nat (gs_idxgrid s)) norm (R2G f)) (RtoC 0)
  = csum nx (fun x => csum ny (fun y => csum nz (fun z =>
      nth ((x * ny + y) * nz + z) f (RtoC 0)
      * Cconj (plane_wave nx ny nz (nth k (gs_cryst s) (0, 0, 0)%Z) x y z))))%C.
Proof.
  intros H Hk. destruct (gspace_idx nx ny nz gs s H) as (HN & HB & HL & P1 & P2 & P3 & HK).
  cbn [full_fun]. unfold taken.
  set (idx := map Z.to_nat (gs_idxgrid s)) in *.
  rewrite (nth_indep _ _ (dft_xyz (-1) nx ny nz (load f) 0)) by (rewrite map_length; lia).
  rewrite map_nth. specialize (HK k Hk).
  destruct (nth k (gs_cryst s) (0, 0, 0)%Z) as [[g1 g2] g3].
  destruct HK as (D1 & D2 & D3 & E1 & E2 & E3).
  unfold dft_xyz. rewrite E1, E2, E3.
  apply csum_ext. intros x Hx. apply csum_ext. intros y Hy. apply csum_ext. intros z Hz.
  f_equal. rewrite plane_wave_roots.
  assert (KK : forall n i t, 0 < n -> dim_ok (Z.of_nat n) i = true ->
     kern (-1) n t (Z.to_nat (fold1 (Z.of_nat n) i)) = Cconj (root n (i * Z.of_nat t))).
  { intros n i t Hn Hi. rewrite <- kern_cryst by assumption. unfold kern. rewrite root_conj. f_equal. ring. }
  rewrite !KK by assumption. apply C_ext; cbn; ring.
Qed.

(** Parseval on the grid. *)
Lemma parseval_dft nx ny nz (A : nat -> C) : 0 < nx -> 0 < ny -> 0 < nz ->
  csum (nx * ny * nz) (fun i => dft_xyz 1 nx ny nz A i * Cconj (dft_xyz 1 nx ny nz A i))%C
  = (RtoC (INR (nx * ny * nz)) * csum (nx * ny * nz) (fun i => A i * Cconj (A i)))%C.
Proof.
  intros Px Py Pz. set (N := nx * ny * nz). set (D := dft_xyz 1 nx ny nz A).
  set (K := fun j i => (kern 1 nx (j / (ny * nz)) (i / (ny * nz)) *
    (kern 1 ny ((j / nz) mod ny) ((i / nz) mod ny) * kern 1 nz (j mod nz) (i mod nz)))%C).
  assert (ED : forall i, D i = csum N (fun j => A j * K j i)%C).
  { intros i. unfold D, dft_xyz, N, K. rewrite <- Nat.mul_assoc, csum_prod. apply csum_ext. intros kx Hkx.
    rewrite csum_prod. apply csum_ext. intros ky Hky. apply csum_ext. intros kz Hkz.
    replace (kx * (ny * nz) + (ky * nz + kz))%nat with ((kx * ny + ky) * nz + kz)%nat by ring.
    now rewrite flat_x, flat_y, flat_z. }
  assert (EI : forall j, j < N -> csum N (fun i => D i * Cconj (K j i))%C = (RtoC (INR N) * A j)%C).
  { intros j Hj.
    assert (EB : csum N (fun i => D i * Cconj (K j i))%C = dft_xyz (-1) nx ny nz D j).
    { unfold dft_xyz, N, K. rewrite <- Nat.mul_assoc, csum_prod. apply csum_ext. intros kx Hkx.
      rewrite csum_prod. apply csum_ext. intros ky Hky. apply csum_ext. intros kz Hkz.
      replace (kx * (ny * nz) + (ky * nz + kz))%nat with ((kx * ny + ky) * nz + kz)%nat by ring.
      rewrite flat_x, flat_y, flat_z by assumption. f_equal.
      assert (KC : forall n a b, Cconj (kern 1 n a b) = kern (-1) n b a).
      { intros. unfold kern. rewrite root_conj. f_equal. ring. }
      rewrite <- !KC. apply C_ext; cbn; ring. }
    rewrite EB. destruct (flat_decomp nx ny nz j Hj) as (Ix & Iy & Iz & Ej).
    rewrite <- Ej. rewrite dft_xyz_d3 by assumption.
    rewrite (d3_ext (-1) nx ny nz _ (d3 1 nx ny nz (fun x y z => A ((x * ny + y) * nz + z)%nat))).
    - rewrite d3_inverse by assumption. unfold N. rewrite !mult_INR, !RtoC_mult. ring.
    - intros x y z Hx Hy Hz. unfold D. now apply dft_xyz_d3. }
  rewrite (csum_ext N _ (fun i => csum N (fun j => D i * (Cconj (A j) * Cconj (K j i))))%C).
  2:{ intros i _. rewrite ED at 2. rewrite csum_conj, <- csum_scal. apply csum_ext. intros j _.
      f_equal. apply C_ext; cbn; ring. }
  rewrite csum_swap, <- csum_scal. apply csum_ext. intros j Hj.
  rewrite (csum_ext N _ (fun i => Cconj (A j) * (D i * Cconj (K j i)))%C) by (intros; ring).
  rewrite csum_scal, EI by assumption. ring.
Qed.

Lemma norm2_csum v : RtoC (norm2 v) = csum (length v) (fun k => nth k v (RtoC 0) * Cconj (nth k v (RtoC 0)))%C.
Proof.
  induction v as [|c v IH]; [reflexivity|].
  cbn [length]. rewrite csum_head. cbn [nth norm2 fold_right].
  change (fold_right _ _ v) with (norm2 v). rewrite RtoC_plus, IH. f_equal.
  apply C_ext; cbn; ring.
Qed.

Lemma put_conj_sum N idx : forall v, NoDup idx -> (forall p, In p idx -> p < N) ->
  length v = length idx ->
  csum N (fun i => (put zeros idx v i * Cconj (put zeros idx v i))%C)
  = csum (length idx) (fun k => (nth k v (RtoC 0) * Cconj (nth k v (RtoC 0)))%C).
Proof.
  intros v HN HB Hl.
  rewrite (put_sum N (fun i => Cconj (put zeros idx v i)) idx v HN HB Hl).
  apply csum_ext. intros k Hk. f_equal. f_equal. now apply put_nth.
Qed.

Theorem parseval_full nx ny nz idx norm v :
  0 < nx -> 0 < ny -> 0 < nz ->
  NoDup idx -> (forall i, In i idx -> i < nx * ny * nz) -> length v = length idx ->
  norm2 (full_fun nx ny nz idx norm (G2R v))
  = ((if norm then / INR (nx * ny * nz) else INR (nx * ny * nz)) * norm2 v)%R.
Proof.
  intros Px Py Pz HN HB Hl. apply RtoC_inj. rewrite norm2_csum. cbn [full_fun]. rewrite store_length.
  set (N := nx * ny * nz) in *.
  set (cc := (if norm then / RtoC (INR N) else RtoC 1)%C).
  set (A := put zeros idx v).
  rewrite (csum_ext N _ (fun i => cc * cc * (dft_xyz 1 nx ny nz A i * Cconj (dft_xyz 1 nx ny nz A i)))%C).
  - rewrite csum_scal. unfold N at 1. rewrite parseval_dft by assumption. fold N.
    unfold A. rewrite put_conj_sum by assumption. rewrite <- Hl, <- norm2_csum, RtoC_mult.
    assert (RtoC (INR N) <> RtoC 0) by (apply RtoC_INR_neq; unfold N; destruct nx, ny, nz; cbn; lia).
    unfold cc. destruct norm.
    + rewrite RtoC_inv by (apply not_0_INR; unfold N; destruct nx, ny, nz; cbn; lia).
      field. assumption.
    + ring.
  - intros i Hi. rewrite store_nth by assumption. rewrite nfac_scal. fold cc.
    assert (Cconj cc = cc).
    { unfold cc. destruct norm; [|apply C_ext; cbn; ring].
      rewrite <- RtoC_inv by (apply not_0_INR; unfold N; destruct nx, ny, nz; cbn; lia).
      apply C_ext; cbn; ring. }
    assert (EM : forall u w : C, Cconj (u * w)%C = (Cconj u * Cconj w)%C) by (intros; apply C_ext; cbn; ring).
    rewrite EM, H. unfold A. ring.
Qed.
