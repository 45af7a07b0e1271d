(** Lemmas about the FFT model. *)
From Verif Require Import Base SortModel SortProofs GIndexModel GIndexProofs CBase FFTModel.
Open Scope nat_scope.

(* ---------------- flat index arithmetic ---------------- *)
Lemma divmod_unique_div a b n : b < n -> (a * n + b) / n = a.
Proof. intros H. rewrite Nat.div_add_l by lia. rewrite Nat.div_small by lia. lia. Qed.
Lemma divmod_unique_mod a b n : b < n -> (a * n + b) mod n = b.
Proof. intros H. rewrite Nat.add_comm, Nat.mod_add by lia. now apply Nat.mod_small. Qed.

Lemma mixed_inj n a b c d : b < n -> d < n -> n * a + b = n * c + d -> a = c /\ b = d.
Proof.
  intros Hb Hd E. rewrite !(Nat.mul_comm n) in E.
  pose proof (divmod_unique_div a b n Hb) as H1. pose proof (divmod_unique_mod a b n Hb) as H2.
  rewrite E in H1, H2. rewrite divmod_unique_div in H1 by assumption.
  rewrite divmod_unique_mod in H2 by assumption. now split.
Qed.

Section Flat.
  Context (ny nz x y z : nat).
  Hypothesis Hy : y < ny.
  Hypothesis Hz : z < nz.
  Lemma flat_x : ((x * ny + y) * nz + z)%nat / (ny * nz) = x.
  Proof.
    rewrite (Nat.mul_comm ny nz), <- Nat.div_div by lia.
    rewrite divmod_unique_div by assumption. now apply divmod_unique_div.
  Qed.
  Lemma flat_y : (((x * ny + y) * nz + z)%nat / nz) mod ny = y.
  Proof. rewrite divmod_unique_div by assumption. now apply divmod_unique_mod. Qed.
  Lemma flat_z : ((x * ny + y) * nz + z)%nat mod nz = z.
  Proof. now apply divmod_unique_mod. Qed.
  Lemma flat_yz : ((x * ny + y) * nz + z)%nat mod (ny * nz) = y * nz + z.
  Proof.
    replace ((x * ny + y) * nz + z)%nat with (x * (ny * nz) + (y * nz + z)) by ring.
    apply divmod_unique_mod. nia.
  Qed.
  Lemma flat_iyz : iyz_of ny nz ((x * ny + y) * nz + z)%nat = y * nz + z.
  Proof. unfold iyz_of. now rewrite flat_y, flat_z. Qed.
End Flat.

Lemma flat_bound nx ny nz x y z : x < nx -> y < ny -> z < nz -> (x * ny + y) * nz + z < nx * ny * nz.
Proof. intros. assert (x * ny + y < nx * ny) by nia. nia. Qed.

Lemma flat_decomp nx ny nz i : i < nx * ny * nz ->
  i / (ny * nz) < nx /\ (i / nz) mod ny < ny /\ i mod nz < nz
  /\ (i / (ny * nz) * ny + (i / nz) mod ny) * nz + i mod nz = i.
Proof.
  intros H. assert (0 < ny /\ 0 < nz) as [Hy Hz] by (destruct ny, nz; nia).
  repeat split.
  - apply Nat.div_lt_upper_bound; nia.
  - apply Nat.mod_upper_bound; lia.
  - apply Nat.mod_upper_bound; lia.
  - rewrite (Nat.mul_comm ny nz), <- Nat.div_div by lia.
    pose proof (Nat.div_mod (i / nz) ny ltac:(lia)) as E1.
    pose proof (Nat.div_mod i nz ltac:(lia)) as E2.
    rewrite (Nat.mul_comm (i / nz / ny) ny), <- E1. lia.
Qed.

Lemma iyz_mod ny nz i : 0 < ny -> 0 < nz -> iyz_of ny nz i = i mod (ny * nz).
Proof.
  intros Hy Hz. unfold iyz_of.
  rewrite (Nat.mul_comm ny nz), Nat.mod_mul_r by lia. lia.
Qed.

(* ---------------- put ---------------- *)
Lemma put_notin idx : forall a v i, ~ In i idx -> put a idx v i = a i.
Proof.
  induction idx as [|p idx IH]; intros a v i H; [reflexivity|].
  destruct v as [|c v]; [reflexivity|]. cbn in *. rewrite IH by tauto.
  unfold upd. destruct (Nat.eqb_spec i p); [subst; tauto|reflexivity].
Qed.

Lemma put_ext idx : forall a b v i, a i = b i -> put a idx v i = put b idx v i.
Proof.
  induction idx as [|p idx IH]; intros a b v i H; [assumption|].
  destruct v as [|c v]; [assumption|]. cbn. apply IH. unfold upd. now destruct (Nat.eqb i p).
Qed.

Lemma put_map (f : nat -> nat) idx : forall a b v i,
  (forall p, In p idx -> f p = f i -> p = i) -> a (f i) = b i ->
  put a (map f idx) v (f i) = put b idx v i.
Proof.
  induction idx as [|p idx IH]; intros a b v i Hf H; [assumption|].
  destruct v as [|c v]; [assumption|]. cbn [map put]. apply IH.
  - intros q Hq. apply Hf. now right.
  - unfold upd. destruct (Nat.eqb_spec i p) as [->|Hne]; [now rewrite Nat.eqb_refl|].
    destruct (Nat.eqb_spec (f i) (f p)) as [E|_]; [|assumption].
    exfalso. apply Hne. symmetry. apply Hf; [now left|]. now symmetry.
Qed.

Lemma put_nth idx : forall a v k d, NoDup idx -> k < length idx -> length v = length idx ->
  put a idx v (nth k idx 0) = nth k v d.
Proof.
  induction idx as [|p idx IH]; intros a v k d HN Hk Hl; [cbn in Hk; lia|].
  destruct v as [|c v]; [discriminate|]. inversion HN as [|? ? Hp HN']; subst. cbn in *.
  destruct k as [|k].
  - rewrite put_notin by assumption. unfold upd. now rewrite Nat.eqb_refl.
  - apply IH; [assumption|lia|lia].
Qed.

Lemma csum_head n (f : nat -> C) : csum (S n) f = (f 0 + csum n (fun i => f (S i)))%C.
Proof.
  induction n as [|n IH]; [cbn; ring|].
  change (csum (S (S n)) f) with (csum (S n) f + f (S n))%C. rewrite IH. cbn [csum]. ring.
Qed.

(** Summing a sparse array against a kernel only sees the written entries. *)
Lemma put_sum N (K : nat -> C) idx : forall v, NoDup idx -> (forall p, In p idx -> p < N) ->
  length v = length idx ->
  csum N (fun i => (put zeros idx v i * K i)%C)
  = csum (length idx) (fun k => (nth k v (RtoC 0) * K (nth k idx O))%C).
Proof.
  induction idx as [|p idx IH]; intros v HN HB Hl.
  - cbn. apply csum_zero. intros i _. unfold zeros. ring.
  - destruct v as [|c v]; [discriminate|]. inversion HN as [|? ? Hp HN']; subst.
    cbn [length]. rewrite csum_head. cbn [nth].
    rewrite <- (IH v HN' (fun p Hp => HB p (or_intror Hp)) ltac:(cbn in Hl; lia)).
    cbn [put].
    assert (E : forall i, put (upd zeros p c) idx v i
                = (put zeros idx v i + (if Nat.eqb i p then c else RtoC 0))%C).
    { intros i. destruct (Nat.eqb_spec i p) as [->|Hne].
      - rewrite !put_notin by assumption. unfold upd, zeros. rewrite Nat.eqb_refl. ring.
      - rewrite (put_ext idx _ zeros v i); [ring|].
        unfold upd. now destruct (Nat.eqb_spec i p). }
    rewrite (csum_ext N _ (fun i => (put zeros idx v i * K i + (if Nat.eqb i p then c else RtoC 0) * K i)%C)).
    + rewrite csum_plus. rewrite Cplus_comm. f_equal.
      rewrite (csum_delta N p).
      * now rewrite Nat.eqb_refl.
      * apply HB. now left.
      * intros i _ Hi. destruct (Nat.eqb_spec i p); [congruence|]. ring.
    + intros i _. rewrite E. ring.
Qed.

(* ---------------- put_rowsT ---------------- *)
Lemma put_rowsT_notin nx nyz rows : forall a k vals i,
  ~ In (i mod nyz) rows -> put_rowsT a nx nyz rows k vals i = a i.
Proof.
  induction rows as [|r rows IH]; intros a k vals i H; [reflexivity|]. cbn [put_rowsT].
  cbn in H. rewrite IH by tauto. destruct (Nat.eqb_spec (i mod nyz) r); [subst; tauto|reflexivity].
Qed.

Lemma put_rowsT_in nx nyz rows : forall a k vals i s,
  NoDup rows -> s < length rows -> i mod nyz = nth s rows 0 ->
  put_rowsT a nx nyz rows k vals i = vals ((k + s) * nx + i / nyz).
Proof.
  induction rows as [|r rows IH]; intros a k vals i s HN Hs Hi; [cbn in Hs; lia|].
  cbn [put_rowsT]. inversion HN as [|? ? Hr HN']; subst. destruct s as [|s].
  - cbn in Hi. rewrite put_rowsT_notin by (now rewrite Hi).
    rewrite Hi, Nat.eqb_refl. f_equal. lia.
  - cbn in Hi, Hs. rewrite (IH _ (S k) vals i s) by (try assumption; lia). f_equal. lia.
Qed.

(* ---------------- DFT algebra ---------------- *)
Lemma kern_inverse n k j : k < n -> j < n ->
  csum n (fun x => (kern 1 n j x * kern (-1) n x k)%C)
  = if Nat.eqb j k then RtoC (INR n) else RtoC 0.
Proof.
  intros Hk Hj.
  rewrite (csum_ext n _ (fun x => root n (Z.of_nat x * (Z.of_nat j - Z.of_nat k))%Z)).
  - rewrite root_orthogonal by lia.
    destruct (Nat.eqb_spec j k) as [->|Hne].
    + rewrite Z.sub_diag. destruct (Z.of_nat n) eqn:E; try lia; now rewrite Z.mod_0_l by lia.
    + destruct (Z.eqb_spec ((Z.of_nat j - Z.of_nat k) mod Z.of_nat n) 0) as [E|]; [|reflexivity].
      apply Z.mod_divide in E as [q Hq]; [|lia]. assert (q = 0)%Z by nia. lia.
  - intros x _. unfold kern. rewrite <- root_add. f_equal. ring.
Qed.

(** One-dimensional inversion. *)
Lemma dft_inverse n (f : nat -> C) k : k < n ->
  csum n (fun x => (csum n (fun j => f j * kern 1 n j x) * kern (-1) n x k)%C)
  = (RtoC (INR n) * f k)%C.
Proof.
  intros Hk.
  rewrite (csum_ext n _ (fun x => csum n (fun j => f j * (kern 1 n j x * kern (-1) n x k)))%C).
  2:{ intros x _. rewrite <- csum_scal_r. apply csum_ext. intros j _. ring. }
  rewrite csum_swap.
  rewrite (csum_delta n k).
  - rewrite csum_scal, kern_inverse by assumption. rewrite Nat.eqb_refl. ring.
  - assumption.
  - intros j Hj Hne. rewrite csum_scal, kern_inverse by assumption.
    destruct (Nat.eqb_spec j k); [congruence|]. ring.
Qed.

(** The triple sum as nested one-dimensional transforms. *)
Definition d3 (s : Z) (nx ny nz : nat) (F : nat -> nat -> nat -> C) (kx ky kz : nat) : C :=
  csum nx (fun x => (csum ny (fun y => (csum nz (fun z =>
     F x y z * kern s nz z kz) * kern s ny y ky)) * kern s nx x kx))%C.

Lemma d3_ext s nx ny nz F G kx ky kz :
  (forall x y z, x < nx -> y < ny -> z < nz -> F x y z = G x y z) ->
  d3 s nx ny nz F kx ky kz = d3 s nx ny nz G kx ky kz.
Proof.
  intros H. unfold d3. apply csum_ext. intros x Hx. f_equal.
  apply csum_ext. intros y Hy. f_equal. apply csum_ext. intros z Hz. f_equal. now apply H.
Qed.

Lemma dft_xyz_d3 s nx ny nz a kx ky kz : ky < ny -> kz < nz ->
  dft_xyz s nx ny nz a ((kx * ny + ky) * nz + kz)%nat
  = d3 s nx ny nz (fun x y z => a ((x * ny + y) * nz + z)%nat) kx ky kz.
Proof.
  intros Hy Hz. unfold dft_xyz, d3. rewrite flat_x, flat_y, flat_z by assumption.
  apply csum_ext. intros x _. rewrite <- csum_scal_r. apply csum_ext. intros y _.
  rewrite <- !csum_scal_r. apply csum_ext. intros z _. ring.
Qed.

Lemma dft_yz_at s ny nz a x ky kz : ky < ny -> kz < nz ->
  dft_yz s ny nz a ((x * ny + ky) * nz + kz)%nat
  = csum ny (fun y => (csum nz (fun z => a ((x * ny + y) * nz + z)%nat * kern s nz z kz) * kern s ny y ky))%C.
Proof.
  intros Hy Hz. unfold dft_yz. rewrite flat_x, flat_y, flat_z by assumption.
  apply csum_ext. intros y _. rewrite <- csum_scal_r. apply csum_ext. intros z _. ring.
Qed.

Lemma d3_scal s nx ny nz F (c : C) kx ky kz :
  d3 s nx ny nz (fun x y z => (c * F x y z)%C) kx ky kz = (c * d3 s nx ny nz F kx ky kz)%C.
Proof.
  unfold d3. rewrite <- csum_scal. apply csum_ext. intros x _. rewrite Cmult_assoc. f_equal.
  rewrite <- csum_scal. apply csum_ext. intros y _. rewrite Cmult_assoc. f_equal.
  rewrite <- csum_scal. apply csum_ext. intros z _. ring.
Qed.

(** Three-dimensional inversion. *)
Lemma d3_inverse nx ny nz F kx ky kz : kx < nx -> ky < ny -> kz < nz ->
  d3 (-1) nx ny nz (d3 1 nx ny nz F) kx ky kz
  = (RtoC (INR nx) * RtoC (INR ny) * RtoC (INR nz) * F kx ky kz)%C.
Proof.
  intros Hx Hy Hz. unfold d3 at 1.
  (* invert z first: d3 1 as a z-transform of (x,y)-transforms *)
  assert (Ez : forall rx ry rz, d3 1 nx ny nz F rx ry rz
     = csum nz (fun z => csum nx (fun x => csum ny (fun y => F x y z * kern 1 ny y ry)
          * kern 1 nx x rx) * kern 1 nz z rz)%C).
  { intros rx ry rz. unfold d3.
    rewrite (csum_ext nz _ (fun z => csum nx (fun x => csum ny (fun y =>
       F x y z * kern 1 nz z rz * kern 1 ny y ry * kern 1 nx x rx)))%C).
    2:{ intros z _. rewrite <- csum_scal_r. apply csum_ext. intros x _.
        rewrite <- !csum_scal_r. apply csum_ext. intros y _. ring. }
    rewrite csum_swap. apply csum_ext. intros x _.
    rewrite <- csum_scal_r. rewrite csum_swap. apply csum_ext. intros y _.
    rewrite <- csum_scal_r. rewrite <- csum_scal_r. apply csum_ext. intros z _. ring. }
  rewrite (csum_ext nx _ (fun rx => csum ny (fun ry =>
      (RtoC (INR nz) * csum nx (fun x => csum ny (fun y => F x y kz * kern 1 ny y ry)
          * kern 1 nx x rx)) * kern (-1) ny ry ky) * kern (-1) nx rx kx)%C).
  2:{ intros rx _. f_equal. apply csum_ext. intros ry _. f_equal.
      etransitivity; [|apply (dft_inverse nz (fun z => csum nx (fun x => csum ny (fun y => F x y z * kern 1 ny y ry) * kern 1 nx x rx)%C) kz Hz)].
      apply csum_ext. intros rz _. now rewrite Ez. }
  rewrite (csum_ext nx _ (fun rx => (RtoC (INR nz) * RtoC (INR ny)) *
      csum nx (fun x => F x ky kz * kern 1 nx x rx) * kern (-1) nx rx kx)%C).
  2:{ intros rx _. f_equal.
      rewrite (csum_ext ny _ (fun ry => RtoC (INR nz) * (csum ny (fun y =>
           csum nx (fun x => F x y kz * kern 1 nx x rx) * kern 1 ny y ry) * kern (-1) ny ry ky))%C).
      - rewrite csum_scal, dft_inverse by assumption. ring.
      - intros ry _. rewrite <- Cmult_assoc. f_equal. f_equal.
        rewrite (csum_ext nx _ (fun x => csum ny (fun y => F x y kz * kern 1 ny y ry * kern 1 nx x rx))%C).
        + rewrite csum_swap. apply csum_ext. intros y _. rewrite <- csum_scal_r.
          apply csum_ext. intros x _. ring.
        + intros x _. now rewrite <- csum_scal_r. }
  rewrite (csum_ext nx _ (fun rx => (RtoC (INR nz) * RtoC (INR ny)) *
      (csum nx (fun x => F x ky kz * kern 1 nx x rx) * kern (-1) nx rx kx))%C).
  - rewrite csum_scal, dft_inverse by assumption. ring.
  - intros rx _. ring.
Qed.

(* ---------------- stateless descriptions ---------------- *)
Definition nfac (norm : bool) (n : nat) (v : C) : C :=
  if norm then Cdiv v (RtoC (INR n)) else v.

(** The result of one g2r/r2g call as a function of its input only. *)
Definition full_fun (nx ny nz : nat) (idx : list nat) (norm : bool) (c : call) : list C :=
  match c with
  | G2R v => store (nx * ny * nz)
      (fun i => nfac norm (nx * ny * nz) (dft_xyz 1 nx ny nz (put zeros idx v) i))
  | R2G v => taken (dft_xyz (-1) nx ny nz (load v)) idx
  end.

Definition full_inv (nx ny nz : nat) (idx : list nat) (norm : bool) (o : full) : Prop :=
  f_nx o = nx /\ f_ny o = ny /\ f_nz o = nz /\ f_idx o = idx /\ f_norm o = norm.

Lemma full_call_inv nx ny nz idx norm o c :
  full_inv nx ny nz idx norm o -> full_inv nx ny nz idx norm (fst (full_call o c)).
Proof. destruct c; intros H; exact H. Qed.

Lemma full_run_inv nx ny nz idx norm h : forall o,
  full_inv nx ny nz idx norm o -> full_inv nx ny nz idx norm (full_run o h).
Proof.
  induction h as [|c h IH]; intros o H; [assumption|]. cbn. now apply IH, full_call_inv.
Qed.

Lemma full_call_fun nx ny nz idx norm o c :
  full_inv nx ny nz idx norm o -> snd (full_call o c) = full_fun nx ny nz idx norm c.
Proof.
  intros (<- & <- & <- & <- & <-). destruct c as [v|v]; reflexivity.
Qed.

Theorem full_stateless nx ny nz idx norm g h c :
  snd (full_call (full_run (full_init nx ny nz idx norm g) h) c) = full_fun nx ny nz idx norm c.
Proof. apply full_call_fun, full_run_inv. unfold full_init, full_inv. cbn. tauto. Qed.

(** The same for the stick-based driver: it ends in the same function. *)
Definition sticks_inv (nx ny nz : nat) (idx : list nat) (norm : bool) (o : sticks) : Prop :=
  s_nx o = nx /\ s_ny o = ny /\ s_nz o = nz /\ s_norm o = norm
  /\ s_g2sticks o = s_g2sticks (sticks_init nx ny nz idx norm (s_fftx o) (s_fftyz o))
  /\ s_sticks2full o = s_sticks2full (sticks_init nx ny nz idx norm (s_fftx o) (s_fftyz o)).

Lemma sticks_run_inv nx ny nz idx norm h : forall o,
  sticks_inv nx ny nz idx norm o -> sticks_inv nx ny nz idx norm (sticks_run o h).
Proof.
  induction h as [|c h IH]; intros o H; [assumption|]. cbn. apply IH. destruct c; exact H.
Qed.

Section Sticks.
  Context (nx ny nz : nat) (idx : list nat) (norm : bool).
  Hypothesis Hidx : forall i, In i idx -> i < nx * ny * nz.

  Let st := np_unique (map (iyz_of ny nz) idx).
  Let g2s := fun i => nx * searchsorted st (iyz_of ny nz i) + ix_of ny nz i.

  Lemma st_sorted : StronglySorted (fun a b => a < b) st.
  Proof. apply np_unique_sorted. Qed.

  Lemma st_bound p : In p st -> p < ny * nz.
  Proof.
    intros H. apply (proj1 (np_unique_in _ _)) in H. apply in_map_iff in H as (i & <- & Hi).
    specialize (Hidx i Hi). destruct (flat_decomp nx ny nz i Hidx) as (H1 & H2 & H3 & H4).
    unfold iyz_of. clear - H2 H3. revert H2 H3.
    generalize ((i / nz) mod ny) as b, (i mod nz) as c. intros b c Hb Hc. nia.
  Qed.

  Lemma s2f_id : map (fun p => (p / nz) * nz + p mod nz) st = st.
  Proof.
    rewrite <- (map_id st) at 2. apply map_ext_in. intros p Hp. pose proof (st_bound p Hp).
    rewrite Nat.mul_comm. symmetry. apply Nat.div_mod. intros ->. rewrite Nat.mul_0_r in H. inversion H.
  Qed.

  Lemma in_st i : In i idx -> In (iyz_of ny nz i) st.
  Proof. intros H. apply np_unique_in. now apply in_map. Qed.

  Lemma g2s_inj i j : In i idx -> j < nx * ny * nz -> In (iyz_of ny nz j) st -> g2s i = g2s j -> i = j.
  Proof.
    intros Hi Hj Hst E. pose proof (Hidx i Hi) as Bi.
    destruct (flat_decomp nx ny nz i Bi) as (Ix & Iy & Iz & Ei).
    destruct (flat_decomp nx ny nz j Hj) as (Jx & Jy & Jz & Ej).
    destruct (searchsorted_spec st _ st_sorted (in_st i Hi)) as [Si Ni].
    destruct (searchsorted_spec st _ st_sorted Hst) as [Sj Nj].
    unfold g2s in E. unfold ix_of in E.
    destruct (mixed_inj nx _ _ _ _ Ix Jx E) as [E1 E2].
    rewrite E1 in Ni. rewrite Nj in Ni. unfold iyz_of in Ni.
    rewrite <- Ei, <- Ej, E2. rewrite !Nat.mul_add_distr_r, <- !Nat.add_assoc. f_equal. now symmetry.
  Qed.

  (** backward transform *)
  Lemma sticks_g2r_fun (wx wyz : worker) v x y z :
    x < nx -> y < ny -> z < nz ->
    let W := fun i => nfac norm nx (dft_rows 1 nx (put zeros (map g2s idx) v) i) in
    nfac norm (ny * nz) (dft_yz 1 ny nz
        (put_rowsT zeros nx (ny * nz) st 0 W) ((x * ny + y) * nz + z)%nat)
    = nfac norm (nx * ny * nz) (dft_xyz 1 nx ny nz (put zeros idx v) ((x * ny + y) * nz + z)%nat).
  Proof.
    intros Hx Hy Hz W.
    rewrite dft_yz_at, dft_xyz_d3 by assumption.
    set (A := put zeros idx v).
    assert (EW : forall ky kz, ky < ny -> kz < nz ->
      put_rowsT zeros nx (ny * nz) st 0 W ((x * ny + ky) * nz + kz)%nat
      = nfac norm nx (csum nx (fun kx => A ((kx * ny + ky) * nz + kz)%nat * kern 1 nx kx x)%C)).
    { intros ky kz Hky Hkz.
      assert (Emod : ((x * ny + ky) * nz + kz)%nat mod (ny * nz) = ky * nz + kz) by now apply flat_yz.
      destruct (in_dec Nat.eq_dec (ky * nz + kz) st) as [Hin|Hnin].
      - destruct (searchsorted_spec st _ st_sorted Hin) as [Hs Hn].
        rewrite (put_rowsT_in nx (ny * nz) st zeros 0 W _ (searchsorted st (ky * nz + kz)));
          [|apply sorted_lt_NoDup, st_sorted|assumption|now rewrite Emod, Hn].
        rewrite flat_x by assumption. cbn [Nat.add]. unfold W. f_equal.
        unfold dft_rows. rewrite divmod_unique_div, divmod_unique_mod by assumption.
        apply csum_ext. intros kx Hkx. f_equal.
        replace (searchsorted st (ky * nz + kz) * nx + kx) with (g2s ((kx * ny + ky) * nz + kz)%nat).
        + unfold A. apply put_map.
          * intros p Hp. apply g2s_inj; [assumption|now apply flat_bound|].
            now rewrite flat_iyz.
          * reflexivity.
        + unfold g2s, ix_of. rewrite flat_iyz, flat_x by assumption. lia.
      - rewrite put_rowsT_notin by (now rewrite Emod).
        rewrite csum_zero.
        + unfold nfac, zeros. destruct norm; [unfold Cdiv; ring|reflexivity].
        + intros kx Hkx. unfold A. rewrite put_notin; [unfold zeros; ring|].
          intros Hi. apply Hnin. rewrite <- (flat_iyz ny nz kx ky kz) by assumption.
          now apply in_st. }
    rewrite (csum_ext ny _ (fun ky => csum nz (fun kz =>
       nfac norm nx (csum nx (fun kx => A ((kx * ny + ky) * nz + kz)%nat * kern 1 nx kx x))
         * kern 1 nz kz z) * kern 1 ny ky y)%C).
    2:{ intros ky Hky. f_equal. apply csum_ext. intros kz Hkz. f_equal. now apply EW. }
    assert (ES : csum ny (fun ky => csum nz (fun kz =>
       csum nx (fun kx => A ((kx * ny + ky) * nz + kz)%nat * kern 1 nx kx x)
         * kern 1 nz kz z) * kern 1 ny ky y)%C
       = d3 1 nx ny nz (fun kx ky kz => A ((kx * ny + ky) * nz + kz)%nat) x y z).
    { unfold d3.
      rewrite (csum_ext ny _ (fun ky => csum nx (fun kx => csum nz (fun kz =>
         A ((kx * ny + ky) * nz + kz)%nat * kern 1 nx kx x * kern 1 nz kz z * kern 1 ny ky y)))%C).
      - rewrite csum_swap. apply csum_ext. intros kx _. rewrite <- csum_scal_r.
        apply csum_ext. intros ky _. rewrite <- !csum_scal_r. apply csum_ext. intros kz _. ring.
      - intros ky _. rewrite <- csum_scal_r. rewrite csum_swap. apply csum_ext. intros kz _.
        rewrite <- !csum_scal_r. apply csum_ext. intros kx _. ring. }
    rewrite <- ES. destruct norm; cbn [nfac].
    - rewrite (csum_ext ny _ (fun ky => / RtoC (INR nx) * (csum nz (fun kz =>
         csum nx (fun kx => A ((kx * ny + ky) * nz + kz)%nat * kern 1 nx kx x)
         * kern 1 nz kz z) * kern 1 ny ky y))%C).
      + rewrite csum_scal. rewrite !mult_INR, !RtoC_mult.
        assert (RtoC (INR nx) <> RtoC 0) by (intros E; apply RtoC_inj in E; apply INR_eq with (m := 0) in E; lia).
        assert (RtoC (INR ny) <> RtoC 0) by (intros E; apply RtoC_inj in E; apply INR_eq with (m := 0) in E; lia).
        assert (RtoC (INR nz) <> RtoC 0) by (intros E; apply RtoC_inj in E; apply INR_eq with (m := 0) in E; lia).
        field. tauto.
      + intros ky _. rewrite Cmult_assoc. f_equal. rewrite <- csum_scal.
        apply csum_ext. intros kz _. unfold Cdiv. ring.
    - reflexivity.
  Qed.

  (** forward transform *)
  Lemma sticks_r2g_fun a i : In i idx ->
    dft_rows (-1) nx (take_rowsT (dft_yz (-1) ny nz a) nx (ny * nz) st) (g2s i)
    = dft_xyz (-1) nx ny nz a i.
  Proof.
    intros Hi. pose proof (Hidx i Hi) as Bi.
    destruct (flat_decomp nx ny nz i Bi) as (Ix & Iy & Iz & Ei).
    set (kx := i / (ny * nz)) in *. set (ky := (i / nz) mod ny) in *. set (kz := i mod nz) in *.
    destruct (searchsorted_spec st _ st_sorted (in_st i Hi)) as [Si Ni].
    unfold g2s, ix_of. fold kx. rewrite (Nat.mul_comm nx).
    set (s := searchsorted st (iyz_of ny nz i)) in *.
    unfold dft_rows. rewrite divmod_unique_div, divmod_unique_mod by assumption.
    rewrite <- Ei. rewrite dft_xyz_d3 by assumption. unfold d3.
    apply csum_ext. intros x Hx. f_equal.
    unfold take_rowsT. rewrite divmod_unique_div, divmod_unique_mod by assumption.
    rewrite Ni. unfold iyz_of. fold ky kz.
    replace (x * (ny * nz) + (ky * nz + kz)) with ((x * ny + ky) * nz + kz)%nat by ring.
    now apply dft_yz_at.
  Qed.
End Sticks.

Theorem sticks_stateless nx ny nz idx norm gx gyz h c :
  (forall i, In i idx -> i < nx * ny * nz) ->
  snd (sticks_call (sticks_run (sticks_init nx ny nz idx norm gx gyz) h) c)
  = full_fun nx ny nz idx norm c.
Proof.
  intros Hidx.
  assert (HI : sticks_inv nx ny nz idx norm (sticks_run (sticks_init nx ny nz idx norm gx gyz) h)).
  { apply sticks_run_inv. unfold sticks_inv. cbn. tauto. }
  revert HI. generalize (sticks_run (sticks_init nx ny nz idx norm gx gyz) h) as o.
  intros o (Enx & Eny & Enz & Enorm & Eg & Es). cbn in Eg, Es.
  rewrite (s2f_id nx ny nz idx Hidx) in Es.
  destruct c as [v|v]; cbn [sticks_call full_fun].
  - unfold sticks_r2g. cbn [snd w_out w_fft set_fwd inp_fwd].
    rewrite Enx, Eny, Enz, Eg, Es. unfold taken. rewrite map_map.
    apply map_ext_in. intros i Hi. now apply sticks_r2g_fun.
  - unfold sticks_g2r. cbn [snd w_out w_ifft set_bwd inp_bwd].
    rewrite Enx, Eny, Enz, Enorm, Eg, Es. rewrite (Nat.mul_assoc nx).
    unfold store. apply map_ext_in. intros i Hi. apply in_seq in Hi.
    destruct (flat_decomp nx ny nz i ltac:(lia)) as (Ix & Iy & Iz & Ei).
    rewrite <- Ei. pose proof (sticks_g2r_fun nx ny nz idx norm Hidx gx gyz v _ _ _ Ix Iy Iz) as H.
    cbv zeta in H. unfold nfac in H. exact H.
Qed.
