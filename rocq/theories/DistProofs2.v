(** Lemmas about the distributed G-space model, part 2: the distributed
    transforms compute the slices of the serial ones. *)
From Verif Require Import Base ScatterModel ScatterProofs SortModel SortProofs CBase FFTModel FFTProofs FFTProofs2 DistModel DistProofs.
Open Scope nat_scope.

Lemma split_concat {A} (ls : list (list A)) : split_counts (map (@length A) ls) (concat ls) = ls.
Proof.
  induction ls as [|l ls IH]; [reflexivity|]. cbn [map concat split_counts].
  rewrite firstn_app, skipn_app, Nat.sub_diag, firstn_all, skipn_all. cbn [firstn skipn app].
  now rewrite app_nil_r, IH.
Qed.

Lemma put_app i1 : forall a v1 i2 v2, length v1 = length i1 ->
  put a (i1 ++ i2) (v1 ++ v2) = put (put a i1 v1) i2 v2.
Proof.
  induction i1 as [|p i1 IH]; intros a v1 i2 v2 Hl; destruct v1 as [|c v1]; try discriminate; [reflexivity|].
  cbn. apply IH. cbn in Hl. lia.
Qed.

Lemma put_base idx : forall a b v p, length v = length idx ->
  (~ In p idx -> a p = b p) -> put a idx v p = put b idx v p.
Proof.
  induction idx as [|q idx IH]; intros a b v p Hl H; destruct v as [|c v]; try discriminate.
  - apply H. intros [].
  - cbn [put]. apply IH; [cbn in Hl; lia|]. intros Hn. unfold upd.
    destruct (Nat.eqb_spec p q) as [->|Hne]; [reflexivity|]. apply H. intros [E|E]; congruence || tauto.
Qed.

Lemma skipn_skipn' {A} a b : forall l : list A, skipn a (skipn b l) = skipn (b + a) l.
Proof.
  induction b as [|b IH]; intros l; [reflexivity|]. destruct l as [|x l]; [now rewrite !skipn_nil|]. apply IH.
Qed.

Lemma slice3 {A} a b (l : list A) : a <= b -> b <= length l ->
  l = firstn a l ++ slice (a, b) l ++ skipn b l.
Proof.
  intros Ha Hb. unfold slice. cbn [fst snd].
  rewrite <- (firstn_skipn a l) at 1. f_equal.
  rewrite <- (firstn_skipn (b - a) (skipn a l)) at 1. f_equal.
  rewrite skipn_skipn'. f_equal. lia.
Qed.

Lemma store_slice n a s e : s <= e -> e <= n -> slice (s, e) (store n a) = map a (seq s (e - s)).
Proof.
  intros Hs He. unfold slice, store. cbn [fst snd].
  rewrite skipn_map, firstn_map. f_equal.
  replace n with (s + ((e - s) + (n - e))) by lia. rewrite seq_app.
  rewrite skipn_app, seq_length, Nat.sub_diag, skipn_all2 by (rewrite seq_length; lia).
  cbn [app skipn]. rewrite seq_app, firstn_app, seq_length, Nat.sub_diag. cbn [firstn].
  rewrite firstn_all2 by (rewrite seq_length; lia). now rewrite app_nil_r.
Qed.

Lemma transpose_segment (b : nat -> C) off rows cols : 0 < rows ->
  transpose rows (map b (seq off (rows * cols)))
  = map (fun k => b (off + ((k mod rows) * cols + k / rows))) (seq 0 (rows * cols)).
Proof.
  intros Hr. unfold transpose. rewrite map_length, seq_length.
  replace (rows * cols / rows) with cols by (rewrite Nat.mul_comm, Nat.div_mul; lia).
  apply map_ext_in. intros k Hk. apply in_seq in Hk.
  assert (B : (k mod rows) * cols + k / rows < rows * cols).
  { assert (k / rows < cols) by (apply Nat.div_lt_upper_bound; lia).
    pose proof (Nat.mod_upper_bound k rows ltac:(lia)).
    revert H H0. generalize (k mod rows), (k / rows). intros; nia. }
  rewrite (nth_indep _ _ (b 0)) by (rewrite map_length, seq_length; exact B).
  rewrite map_nth, seq_nth by exact B. reflexivity.
Qed.

Lemma seq_shift_map a n : map (fun k => a + k) (seq 0 n) = seq a n.
Proof.
  assert (H : forall b, map (fun k => a + k) (seq b n) = seq (a + b) n).
  { induction n as [|n IH]; intros b; [reflexivity|]. cbn [seq map]. rewrite IH. f_equal. f_equal. lia. }
  rewrite H. f_equal. lia.
Qed.

Lemma nfac_0 norm n : nfac norm n (RtoC 0) = RtoC 0.
Proof. rewrite nfac_scal. ring. Qed.

(** Columns already transformed along x, then transformed along y and z. *)
Lemma yz_after_x nx ny nz norm (A : arr) (buf : arr) x0 x y z :
  0 < nx -> y < ny -> z < nz ->
  (forall ky kz, ky < ny -> kz < nz -> buf ((x0 * ny + ky) * nz + kz)
     = nfac norm nx (csum nx (fun kx => A ((kx * ny + ky) * nz + kz)%nat * kern 1 nx kx x)%C)) ->
  nfac norm (ny * nz) (dft_yz 1 ny nz buf ((x0 * ny + y) * nz + z))
  = nfac norm (nx * ny * nz) (dft_xyz 1 nx ny nz A ((x * ny + y) * nz + z)).
Proof.
  intros Hnx Hy Hz EW. rewrite dft_yz_at, dft_xyz_d3 by assumption.
  rewrite (csum_ext ny _ (fun ky => csum nz (fun kz =>
     nfac norm nx (csum nx (fun kx => A ((kx * ny + ky) * nz + kz)%nat * kern 1 nx kx x))
       * kern 1 nz kz z) * kern 1 ny ky y)%C).
  2:{ intros ky Hky. f_equal. apply csum_ext. intros kz Hkz. f_equal. now apply EW. }
  assert (ES : csum ny (fun ky => csum nz (fun kz =>
     csum nx (fun kx => A ((kx * ny + ky) * nz + kz)%nat * kern 1 nx kx x)
       * kern 1 nz kz z) * kern 1 ny ky y)%C
     = d3 1 nx ny nz (fun kx ky kz => A ((kx * ny + ky) * nz + kz)%nat) x y z).
  { unfold d3.
    rewrite (csum_ext ny _ (fun ky => csum nx (fun kx => csum nz (fun kz =>
       A ((kx * ny + ky) * nz + kz)%nat * kern 1 nx kx x * kern 1 nz kz z * kern 1 ny ky y)))%C).
    - rewrite csum_swap. apply csum_ext. intros kx _. rewrite <- csum_scal_r.
      apply csum_ext. intros ky _. rewrite <- !csum_scal_r. apply csum_ext. intros kz _. ring.
    - intros ky _. rewrite <- csum_scal_r. rewrite csum_swap. apply csum_ext. intros kz _.
      rewrite <- !csum_scal_r. apply csum_ext. intros kx _. ring. }
  rewrite <- ES, !nfac_scal.
  rewrite (csum_ext ny _ (fun ky => (if norm then / RtoC (INR nx) else RtoC 1) * (csum nz (fun kz =>
       csum nx (fun kx => A ((kx * ny + ky) * nz + kz)%nat * kern 1 nx kx x)
       * kern 1 nz kz z) * kern 1 ny ky y))%C).
  - rewrite csum_scal. rewrite !mult_INR, !RtoC_mult. destruct norm; [|ring].
    field. repeat split; apply RtoC_INR_neq; lia.
  - intros ky _. rewrite Cmult_assoc. f_equal. rewrite <- csum_scal.
    apply csum_ext. intros kz _. rewrite nfac_scal. ring.
Qed.

Section Dist.
  Context (nx ny nz : nat) (idx : list nat) (norm : bool) (P : nat).
  Let iyz := map (iyz_of ny nz) idx.
  Let sticks := np_unique iyz.
  Let ns := length sticks.
  Let nyz := ny * nz.
  Hypothesis Hidx : forall i, In i idx -> i < nx * ny * nz.
  Hypothesis Hsort : nsorted iyz.
  Hypothesis HP : 0 < P.
  Hypothesis HPs : P <= ns.
  Hypothesis HPx : P <= nx.

  Let T := st ns P.
  Let X := st nx P.

  Lemma D_pos : 0 < ny /\ 0 < nz.
  Proof.
    unfold ns, sticks, iyz in HPs. destruct idx as [|i l]; [cbn in HPs; lia|].
    pose proof (Hidx i (or_introl eq_refl)). destruct ny, nz; lia.
  Qed.

  Lemma D_sorted : StronglySorted (fun a b => a < b) sticks.
  Proof. apply np_unique_sorted. Qed.

  Lemma D_st_bound p : In p sticks -> p < ny * nz.
  Proof. apply (st_bound nx ny nz idx Hidx). Qed.

  Lemma D_nth_bound k : k < ns -> nth k sticks 0 < ny * nz.
  Proof. intros H. apply D_st_bound, nth_In, H. Qed.

  Definition cut (r : nat) : nat := if r <? P then nth (T r) sticks 0 else ny * nz.
  Definition G (r : nat) : nat := searchsorted iyz (cut r).

  Lemma T_lt r : r < P -> T r < T (S r).
  Proof. intros H. now apply st_lt_S. Qed.
  Lemma T_le r : r <= P -> T r <= ns.
  Proof. intros H. unfold T. rewrite <- (st_P ns P HP) at 2. now apply st_mono. Qed.
  Lemma X_lt r : r < P -> X r < X (S r).
  Proof. intros H. now apply st_lt_S. Qed.
  Lemma X_le r : r <= P -> X r <= nx.
  Proof. intros H. unfold X. rewrite <- (st_P nx P HP) at 2. now apply st_mono. Qed.

  Lemma cut_lt k r : k < ns -> r <= P -> (nth k sticks 0 < cut r <-> k < T r).
  Proof.
    intros Hk Hr. unfold cut. destruct (Nat.ltb_spec r P) as [Hlt|Hge].
    - assert (HT : T r < ns) by (pose proof (T_lt r Hlt); pose proof (T_le (S r) ltac:(lia)); lia).
      split; intros H.
      + destruct (Nat.lt_trichotomy k (T r)) as [|[->|Hgt]]; [assumption|lia|].
        pose proof (sorted_nth_lt sticks (T r) k D_sorted Hgt Hk). lia.
      + now apply (sorted_nth_lt sticks k (T r) D_sorted).
    - replace r with P by lia. unfold T. rewrite st_P by assumption.
      split; intros _; [assumption|now apply D_nth_bound].
  Qed.

  Lemma in_iyz_nth p : In p iyz -> exists k, k < ns /\ nth k sticks 0 = p.
  Proof.
    intros H. apply (proj2 (np_unique_in _ _)) in H. apply (In_nth _ _ 0) in H as (k & Hk & E).
    now exists k.
  Qed.

  Lemma G_0 : G 0 = 0.
  Proof.
    unfold G. apply searchsorted_none. intros p Hp. destruct (in_iyz_nth p Hp) as (k & Hk & <-).
    pose proof (cut_lt k 0 Hk ltac:(lia)) as H. unfold T in H. rewrite st_0 in H by assumption. lia.
  Qed.

  Lemma G_P : G P = length idx.
  Proof.
    unfold G. rewrite searchsorted_all.
    - unfold iyz. apply map_length.
    - intros p Hp. destruct (in_iyz_nth p Hp) as (k & Hk & <-).
      apply (cut_lt k P Hk (le_n P)). unfold T. now rewrite st_P.
  Qed.

  Lemma cut_le r : r < P -> cut r <= cut (S r).
  Proof.
    intros Hr. assert (HT : T r < ns) by (pose proof (T_lt r Hr); pose proof (T_le (S r) ltac:(lia)); lia).
    apply Nat.lt_le_incl. replace (cut r) with (nth (T r) sticks 0).
    - apply cut_lt; [assumption|lia|now apply T_lt].
    - unfold cut. now destruct (Nat.ltb_spec r P); [|lia].
  Qed.

  Lemma G_mono r : r < P -> G r <= G (S r).
  Proof. intros Hr. apply searchsorted_mono, cut_le, Hr. Qed.

  Lemma G_len r : G r <= length idx.
  Proof.
    unfold G. destruct (searchsorted_split iyz (cut r) Hsort) as (_ & _ & H).
    unfold iyz in *. now rewrite map_length in H.
  Qed.

  Definition loc (r : nat) : list nat := slice (T r, T (S r)) sticks.
  Definition nsl (r : nat) : nat := T (S r) - T r.
  Definition nxl (r : nat) : nat := X (S r) - X r.
  Definition idx_loc (r : nat) : list nat := slice (G r, G (S r)) idx.

  Lemma loc_length r : r < P -> length (loc r) = nsl r.
  Proof. intros H. unfold loc. apply slice_length. apply T_le. lia. Qed.

  Lemma loc_nth r k : r < P -> k < nsl r -> nth k (loc r) 0 = nth (T r + k) sticks 0.
  Proof. intros Hr Hk. apply slice_nth. exact Hk. Qed.

  Lemma ig_eq r : r < P -> ig_slice iyz (loc r) = Ok (G r, G (S r)).
  Proof.
    intros Hr. pose proof (loc_length r Hr) as HL. pose proof (T_lt r Hr) as HT.
    pose proof (T_le (S r) ltac:(lia)) as HTS.
    destruct (loc r) as [|f l] eqn:E; [cbn in HL; unfold nsl in HL; lia|].
    unfold ig_slice. rewrite <- E.
    assert (Ef : f = nth (T r) sticks 0).
    { replace (T r) with (T r + 0) by lia. rewrite <- loc_nth by (unfold nsl; lia). now rewrite E. }
    assert (El : last (loc r) 0 = nth (T (S r) - 1) sticks 0).
    { assert (L : forall (l : list nat) d, l <> [] -> last l d = nth (length l - 1) l d).
      { clear. induction l as [|a l IH]; intros d H; [congruence|]. destruct l as [|b l]; [reflexivity|].
        change (last (a :: b :: l) d) with (last (b :: l) d). rewrite IH by discriminate. cbn. now rewrite Nat.sub_0_r. }
      rewrite L by (rewrite E; discriminate). rewrite loc_length by assumption.
      rewrite loc_nth by (unfold nsl; lia). f_equal. unfold nsl. lia. }
    f_equal. f_equal.
    - unfold G. f_equal. rewrite Ef. unfold cut. destruct (Nat.ltb_spec r P); [reflexivity|lia].
    - rewrite searchsorted_right_S. unfold G. apply searchsorted_ext. intros p Hp.
      destruct (in_iyz_nth p Hp) as (k & Hk & <-). rewrite cut_lt by lia. rewrite El. split; intros H.
      + destruct (le_lt_dec (T (S r)) k) as [Hge|]; [|assumption].
        pose proof (sorted_nth_lt sticks (T (S r) - 1) k D_sorted ltac:(lia) Hk). lia.
      + destruct (Nat.eq_dec k (T (S r) - 1)) as [->|Hne]; [lia|].
        pose proof (sorted_nth_lt sticks k (T (S r) - 1) D_sorted ltac:(lia) ltac:(lia)). lia.
  Qed.

  (** G-vectors before / in / after the slice of rank r. *)
  Lemma before_cut r p : In p (firstn (G r) idx) -> iyz_of ny nz p < cut r.
  Proof.
    intros H. apply (searchsorted_split iyz (cut r) Hsort). fold (G r). unfold iyz.
    rewrite firstn_map. now apply in_map.
  Qed.
  Lemma after_cut r p : In p (skipn (G r) idx) -> cut r <= iyz_of ny nz p.
  Proof.
    intros H. apply (searchsorted_split iyz (cut r) Hsort). fold (G r). unfold iyz.
    rewrite skipn_map. now apply in_map.
  Qed.

  Lemma idx_loc_in r p : In p (idx_loc r) -> In p idx.
  Proof.
    unfold idx_loc, slice. cbn [fst snd]. intros H.
    assert (H1 : forall (l : list nat) n, In p (firstn n l) -> In p l).
    { intros l n Hin. rewrite <- (firstn_skipn n l). apply in_or_app. now left. }
    apply H1 in H. rewrite <- (firstn_skipn (G r) idx). apply in_or_app. now right.
  Qed.

  Lemma idx_loc_iyz r p : r < P -> In p (idx_loc r) ->
    exists k, k < nsl r /\ iyz_of ny nz p = nth (T r + k) sticks 0.
  Proof.
    intros Hr Hp. pose proof (idx_loc_in r p Hp) as Hin.
    destruct (in_iyz_nth (iyz_of ny nz p)) as (k & Hk & E); [unfold iyz; now apply in_map|].
    assert (Hge : cut r <= iyz_of ny nz p).
    { apply after_cut. unfold idx_loc, slice in Hp. cbn [fst snd] in Hp.
      rewrite <- (firstn_skipn (G (S r) - G r) (skipn (G r) idx)). apply in_or_app. now left. }
    assert (Hlt : iyz_of ny nz p < cut (S r)).
    { apply before_cut. unfold idx_loc, slice in Hp. cbn [fst snd] in Hp.
      pose proof (G_mono r Hr). replace (firstn (G (S r)) idx)
        with (firstn (G r) idx ++ firstn (G (S r) - G r) (skipn (G r) idx)).
      - apply in_or_app. now right.
      - rewrite skipn_firstn_split. f_equal. lia. }
    rewrite <- E in Hge, Hlt. apply cut_lt in Hlt; [|assumption|lia].
    assert (T r <= k). { destruct (le_lt_dec (T r) k); [assumption|]. exfalso.
      assert (nth k sticks 0 < cut r) by (apply cut_lt; lia). lia. }
    exists (k - T r). unfold nsl. split; [lia|]. rewrite <- E. f_equal. lia.
  Qed.

  Definition g2s (r : nat) (i : nat) : nat := ix_of ny nz i * nsl r + searchsorted (loc r) (iyz_of ny nz i).

  Lemma loc_sorted r : StronglySorted (fun a b => a < b) (loc r).
  Proof. apply slice_sorted, D_sorted. Qed.

  Lemma loc_search r k : r < P -> k < nsl r -> searchsorted (loc r) (nth (T r + k) sticks 0) = k.
  Proof.
    intros Hr Hk. rewrite <- loc_nth by assumption. apply searchsorted_nth; [apply loc_sorted|].
    now rewrite loc_length.
  Qed.

  (** The grid position on stick [S] at x index [kx]. *)
  Definition pos (kx S : nat) : nat := kx * (ny * nz) + nth S sticks 0.

  Lemma pos_flat kx S : S < ns -> exists y z, y < ny /\ z < nz /\ nth S sticks 0 = y * nz + z
    /\ pos kx S = (kx * ny + y) * nz + z.
  Proof.
    intros HS. pose proof (D_nth_bound S HS) as B. destruct D_pos as [Py Pz].
    exists (nth S sticks 0 / nz), (nth S sticks 0 mod nz). unfold pos.
    pose proof (Nat.div_mod (nth S sticks 0) nz ltac:(lia)) as E.
    pose proof (Nat.mod_upper_bound (nth S sticks 0) nz ltac:(lia)) as M.
    assert (D : nth S sticks 0 / nz < ny) by (apply Nat.div_lt_upper_bound; lia).
    revert E M D. generalize (nth S sticks 0) as p. intros p.
    generalize (p / nz) as a, (p mod nz) as b. intros a b E M D. subst p. repeat split; try assumption; ring.
  Qed.

  Lemma pos_iyz kx S : S < ns -> iyz_of ny nz (pos kx S) = nth S sticks 0.
  Proof.
    intros HS. destruct (pos_flat kx S HS) as (y & z & Hy & Hz & E1 & E2). rewrite E2, E1.
    now apply flat_iyz.
  Qed.
  Lemma pos_ix kx S : S < ns -> ix_of ny nz (pos kx S) = kx.
  Proof.
    intros HS. destruct (pos_flat kx S HS) as (y & z & Hy & Hz & E1 & E2). rewrite E2.
    now apply flat_x.
  Qed.

  Lemma g2s_pos r kx k : r < P -> k < nsl r -> g2s r (pos kx (T r + k)) = kx * nsl r + k.
  Proof.
    intros Hr Hk. assert (HS : T r + k < ns) by (pose proof (T_le (S r) ltac:(lia)); unfold nsl in Hk; lia).
    unfold g2s. rewrite pos_ix, pos_iyz, loc_search by assumption. reflexivity.
  Qed.

  Lemma pos_unique r p kx k : r < P -> k < nsl r -> In p (idx_loc r) ->
    g2s r p = g2s r (pos kx (T r + k)) -> p = pos kx (T r + k).
  Proof.
    intros Hr Hk Hp E. destruct (idx_loc_iyz r p Hr Hp) as (k' & Hk' & Eq).
    rewrite g2s_pos in E by assumption. unfold g2s in E. rewrite Eq, loc_search in E by assumption.
    rewrite !(Nat.mul_comm _ (nsl r)) in E.
    destruct (mixed_inj (nsl r) _ _ _ _ Hk' Hk E) as [E1 E2]. subst k'.
    pose proof (Hidx p (idx_loc_in r p Hp)) as B.
    destruct (flat_decomp nx ny nz p B) as (_ & _ & _ & Ep).
    unfold pos. rewrite <- Eq, <- E1. unfold ix_of, iyz_of. rewrite <- Ep at 1. ring.
  Qed.

  (** Local sticks hold exactly the global coefficients. *)
  Lemma local_put r v kx k : r < P -> k < nsl r -> length v = length idx ->
    put zeros (map (g2s r) (idx_loc r)) (slice (G r, G (S r)) v) (kx * nsl r + k)
    = put zeros idx v (pos kx (T r + k)).
  Proof.
    intros Hr Hk Hl. assert (HS : T r + k < ns) by (pose proof (T_le (S r) ltac:(lia)); unfold nsl in Hk; lia).
    rewrite <- (g2s_pos r kx k Hr Hk).
    rewrite (put_map (g2s r) (idx_loc r) zeros zeros); [|intros p Hp; now apply pos_unique|reflexivity].
    pose proof (G_mono r Hr) as HG. pose proof (G_len (S r)) as HGl.
    assert (HGv : G (S r) <= length v) by (rewrite Hl; exact HGl).
    transitivity (put zeros (firstn (G r) idx ++ slice (G r, G (S r)) idx ++ skipn (G (S r)) idx)
      (firstn (G r) v ++ slice (G r, G (S r)) v ++ skipn (G (S r)) v) (pos kx (T r + k))).
    2:{ now rewrite <- (slice3 (G r) (G (S r)) idx HG HGl), <- (slice3 (G r) (G (S r)) v HG HGv). }
    fold (idx_loc r). rewrite put_app by (rewrite !firstn_length; lia).
    rewrite put_app.
    2:{ unfold idx_loc. rewrite !slice_length by lia. reflexivity. }
    rewrite (put_notin (skipn (G (S r)) idx)).
    - symmetry. apply put_ext. rewrite put_notin; [reflexivity|].
      intros Hin. apply before_cut in Hin. rewrite pos_iyz in Hin by assumption.
      apply cut_lt in Hin; [lia|assumption|lia].
    - intros Hin. apply after_cut in Hin. rewrite pos_iyz in Hin by assumption.
      assert (nth (T r + k) sticks 0 < cut (S r)); [|lia].
      apply cut_lt; [assumption|lia|]. unfold nsl in Hk. lia.
  Qed.

  (* ---------------- the per-rank objects ---------------- *)
  Definition D (r : nat) (wx wyz : worker) : dist :=
    MkDist nx ny nz norm (nsl r) (G r, G (S r)) (nxl r) (X r, X (S r))
      (map (g2s r) (idx_loc r))
      (map (fun j => X (S j) * nsl r - X j * nsl r) (seq 0 P))
      (map (fun j => T (S j) * nxl r - T j * nxl r) (seq 0 P))
      sticks
      (map (fun j => G (S j) - G j) (seq 0 P))
      (map (fun j => X (S j) * nyz - X j * nyz) (seq 0 P))
      wx wyz.

  Lemma dist_init_eq r gx gyz : r < P ->
    dist_init nx ny nz idx norm P r gx gyz = Ok (D r (set_bwd gx zeros) (set_bwd gyz zeros)).
  Proof.
    intros Hr. unfold dist_init. fold iyz. fold sticks. fold ns.
    rewrite nslice_eq by assumption. cbn [bind]. fold T. change (slice (T r, T (S r)) sticks) with (loc r).
    rewrite ig_eq by assumption. cbn [bind].
    rewrite nlen_eq, nslice_eq, nlen_all_eq, nlen_all_eq by assumption. cbn [bind]. fold X. fold T.
    rewrite loc_length by assumption. destruct D_pos as [Py Pz].
    assert (B1 : backend_ok [nx; nsl r] = Ok tt).
    { unfold backend_ok, assert_. cbn [forallb].
      pose proof (T_lt r Hr). unfold nsl.
      destruct (Nat.ltb_spec 0 nx); [|lia]. destruct (Nat.ltb_spec 0 (T (S r) - T r)); [reflexivity|lia]. }
    assert (B2 : backend_ok [nxl r; ny; nz] = Ok tt).
    { unfold backend_ok, assert_. cbn [forallb].
      pose proof (X_lt r Hr). unfold nxl.
      destruct (Nat.ltb_spec 0 (X (S r) - X r)); [|lia].
      destruct (Nat.ltb_spec 0 ny); [|lia]. destruct (Nat.ltb_spec 0 nz); [reflexivity|lia]. }
    rewrite B1. cbn [bind]. change (X (S r) - X r) with (nxl r). rewrite B2. cbn [bind].
    rewrite (sequence_map_ok _ (fun j => G (S j) - G j)).
    - cbn [bind]. f_equal. unfold D. f_equal.
      + rewrite map_map. apply map_ext. intros j. apply Nat.mul_sub_distr_r.
      + rewrite map_map. apply map_ext. intros j. apply Nat.mul_sub_distr_r.
      + apply (s2f_id nx ny nz idx Hidx).
      + rewrite map_map. apply map_ext. intros j. unfold nyz.
        rewrite <- Nat.mul_assoc, Nat.mul_sub_distr_r. reflexivity.
    - intros j Hj. apply in_seq in Hj. rewrite nslice_eq by lia. cbn [bind]. fold T.
      change (slice (T j, T (S j)) sticks) with (loc j). rewrite ig_eq by lia. reflexivity.
  Qed.

  (** Cleared positions of the backward work arrays stay cleared. *)
  Definition winv (r : nat) (wx wyz : worker) : Prop :=
    (forall p, ~ In p (map (g2s r) (idx_loc r)) -> inp_bwd wx p = RtoC 0)
    /\ (forall p, ~ In (p mod nyz) sticks -> inp_bwd wyz p = RtoC 0).
  Definition oinv (os : list dist) : Prop :=
    exists wx wyz, os = map (fun r => D r (wx r) (wyz r)) (seq 0 P)
                   /\ forall r, r < P -> winv r (wx r) (wyz r).

  Lemma init_oinv gx gyz : exists os, dist_init_all nx ny nz idx norm P gx gyz = Ok os /\ oinv os.
  Proof.
    eexists. split.
    - unfold dist_init_all. apply sequence_map_ok. intros r Hr. apply in_seq in Hr.
      apply (dist_init_eq r (gx r) (gyz r)). lia.
    - exists (fun r => set_bwd (gx r) zeros), (fun r => set_bwd (gyz r) zeros).
      split; [reflexivity|]. intros r Hr. split; intros p _; reflexivity.
  Qed.

  Definition scat_g (v : list C) : list (list C) := map (fun r => slice (G r, G (S r)) v) (seq 0 P).
  Definition scat_r (f : list C) : list (list C) := map (fun r => slice (X r * nyz, X (S r) * nyz) f) (seq 0 P).

  (* ---------------- g2r ---------------- *)
  Section G2R.
    Variable v : list C.
    Hypothesis Hv : length v = length idx.
    Let A := put zeros idx v.
    Definition W (S x : nat) : C := nfac norm nx (csum nx (fun kx => A (pos kx S) * kern 1 nx kx x)%C).

    Lemma local1_out r wx wyz x k : r < P -> winv r wx wyz -> k < nsl r ->
      w_out (d_fftx (g2r_local1 (D r wx wyz) (slice (G r, G (S r)) v))) (x * nsl r + k) = W (T r + k) x.
    Proof.
      intros Hr [Hw _] Hk. unfold g2r_local1, D, W. cbn [d_fftx d_set w_out w_ifft set_bwd inp_bwd d_nx d_nsl d_g2s d_norm].
      change (nfac norm nx (dft_cols 1 nx (nsl r) (put (inp_bwd wx) (map (g2s r) (idx_loc r))
         (slice (G r, G (S r)) v)) (x * nsl r + k)) = nfac norm nx (csum nx (fun kx => A (pos kx (T r + k)) * kern 1 nx kx x)%C)).
      f_equal. unfold dft_cols. rewrite divmod_unique_div, divmod_unique_mod by assumption.
      apply csum_ext. intros kx Hkx. f_equal. unfold A. rewrite <- local_put by assumption.
      apply put_base.
      - rewrite map_length. unfold idx_loc. pose proof (G_len (S r)). rewrite !slice_length by lia. reflexivity.
      - intros Hn. now apply Hw.
    Qed.

    Lemma local1_winv r wx wyz : r < P -> winv r wx wyz ->
      exists wx', g2r_local1 (D r wx wyz) (slice (G r, G (S r)) v) = D r wx' wyz /\ winv r wx' wyz.
    Proof.
      intros Hr [Hw Hz]. eexists. split; [reflexivity|]. split; [|exact Hz].
      intros p Hp. cbn [inp_bwd w_ifft set_bwd]. rewrite put_notin by exact Hp. now apply Hw.
    Qed.

    (** The received chunks, transposed and joined, are the sticks in order. *)
    Lemma trans_eq r : r < P ->
      concat (map (transpose (nxl r)) (split_counts (map (fun j => T (S j) * nxl r - T j * nxl r) (seq 0 P))
        (concat (map (fun i => map (fun q => W (T i + q mod nsl i) (q / nsl i))
              (seq (X r * nsl i) (X (S r) * nsl i - X r * nsl i))) (seq 0 P)))))
      = map (fun q => W (q / nxl r) (X r + q mod nxl r)) (seq 0 (ns * nxl r)).
    Proof.
      intros Hr. pose proof (X_lt r Hr) as HX.
      assert (EL : map (fun j => T (S j) * nxl r - T j * nxl r) (seq 0 P)
        = map (@length C) (map (fun i => map (fun q => W (T i + q mod nsl i) (q / nsl i))
              (seq (X r * nsl i) (X (S r) * nsl i - X r * nsl i))) (seq 0 P))).
      { rewrite map_map. apply map_ext. intros i. rewrite map_length, seq_length.
        rewrite <- !Nat.mul_sub_distr_r. unfold nsl, nxl. apply Nat.mul_comm. }
      rewrite EL, split_concat, map_map.
      rewrite (map_ext_in _ (fun i => map (fun q => W (q / nxl r) (X r + q mod nxl r))
           (seq (T i * nxl r) (T (S i) * nxl r - T i * nxl r)))).
      - destruct (concat_segments (fun q => W (q / nxl r) (X r + q mod nxl r)) (fun i => T i * nxl r) P 0) as [E _].
        + intros i Hi. apply Nat.mul_le_mono_r. apply Nat.lt_le_incl, T_lt. lia.
        + rewrite E. cbn [Nat.add]. unfold T. rewrite st_0, st_P by assumption. cbn [Nat.mul]. now rewrite Nat.sub_0_r.
      - intros i Hi. apply in_seq in Hi. pose proof (T_lt i ltac:(lia)) as HTi.
        rewrite <- !Nat.mul_sub_distr_r. fold (nxl r). fold (nsl i).
        assert (Hn : 0 < nxl r) by (unfold nxl; lia). assert (Hs : 0 < nsl i) by (unfold nsl; lia).
        rewrite transpose_segment by assumption. rewrite (Nat.mul_comm (nsl i)).
        replace (seq (T i * nxl r) (nxl r * nsl i)) with (map (fun k => T i * nxl r + k) (seq 0 (nxl r * nsl i))).
        + rewrite map_map. apply map_ext_in. intros k Hk. apply in_seq in Hk.
          assert (Hkd : k / nxl r < nsl i) by (apply Nat.div_lt_upper_bound; lia).
          pose proof (Nat.mod_upper_bound k (nxl r) ltac:(lia)) as Hkm.
          rewrite (Nat.div_add_l (T i)) by lia.
          replace ((T i * nxl r + k) mod nxl r) with (k mod nxl r).
          2:{ rewrite Nat.add_comm, Nat.mod_add by lia. reflexivity. }
          replace (X r * nsl i + (k mod nxl r * nsl i + k / nxl r)) with ((X r + k mod nxl r) * nsl i + k / nxl r) by ring.
          now rewrite divmod_unique_div, divmod_unique_mod by assumption.
        + apply seq_shift_map.
    Qed.

    Lemma local2_out r wx wyz : r < P -> winv r wx wyz ->
      exists wyz', g2r_local2 (D r wx wyz)
        (concat (map (fun i => map (fun q => W (T i + q mod nsl i) (q / nsl i))
              (seq (X r * nsl i) (X (S r) * nsl i - X r * nsl i))) (seq 0 P)))
        = (D r wx wyz', slice (X r * nyz, X (S r) * nyz) (full_fun nx ny nz idx norm (G2R v)))
        /\ winv r wx wyz'.
    Proof.
      intros Hr [Hx Hw]. destruct D_pos as [Py Pz]. pose proof (X_lt r Hr) as HX. pose proof (X_le (S r) ltac:(lia)) as HXl.
      unfold g2r_local2, D. cbn [d_nxl d_trans_cnt d_fftyz d_t2f d_ny d_nz d_norm d_fftx].
      rewrite trans_eq by assumption. fold nyz.
      set (buf := put_rowsT (inp_bwd wyz) (nxl r) nyz sticks 0
         (load (map (fun q => W (q / nxl r) (X r + q mod nxl r)) (seq 0 (ns * nxl r))))).
      eexists. split.
      - cbn [set_bwd w_ifft w_out inp_bwd]. apply f_equal2; [reflexivity|].
        cbn [full_fun]. rewrite store_slice.
        2: apply Nat.mul_le_mono_r; lia.
        2: unfold nyz; rewrite <- Nat.mul_assoc; apply Nat.mul_le_mono_r; lia.
        rewrite <- Nat.mul_sub_distr_r. fold (nxl r). unfold store.
        replace (seq (X r * nyz) (nxl r * nyz)) with (map (fun k => X r * nyz + k) (seq 0 (nxl r * nyz))).
        + rewrite map_map. apply map_ext_in. intros i Hi. apply in_seq in Hi.
          assert (Bi : i < nxl r * ny * nz) by (unfold nyz in Hi; lia).
          destruct (flat_decomp (nxl r) ny nz i Bi) as (Ix & Iy & Iz & Ei).
          set (x0 := i / (ny * nz)) in *. set (y := (i / nz) mod ny) in *. set (z := i mod nz) in *.
          rewrite <- Ei. fold buf.
          replace (X r * nyz + ((x0 * ny + y) * nz + z)) with (((X r + x0) * ny + y) * nz + z) by (unfold nyz; ring).
          change (nfac norm nyz (dft_yz 1 ny nz buf ((x0 * ny + y) * nz + z))
            = nfac norm (nx * ny * nz) (dft_xyz 1 nx ny nz A (((X r + x0) * ny + y) * nz + z))).
          apply yz_after_x; [lia|assumption|assumption|].
          intros ky kz Hky Hkz.
          assert (Emod : ((x0 * ny + ky) * nz + kz) mod nyz = ky * nz + kz) by now apply flat_yz.
          assert (EA : forall S kx, S < ns -> nth S sticks 0 = ky * nz + kz -> pos kx S = (kx * ny + ky) * nz + kz).
          { intros S kx HS E. unfold pos. rewrite E. ring. }
          destruct (in_dec Nat.eq_dec (ky * nz + kz) sticks) as [Hin|Hnin].
          * destruct (searchsorted_spec sticks _ D_sorted Hin) as [Hs Hn].
            set (S := searchsorted sticks (ky * nz + kz)) in *.
            unfold buf. rewrite (put_rowsT_in (nxl r) nyz sticks _ 0 _ _ S);
              [|apply sorted_lt_NoDup, D_sorted|assumption|now rewrite Emod, Hn].
            cbn [Nat.add]. unfold nyz. rewrite flat_x by assumption.
            unfold load. rewrite nth_map_seq.
            2:{ fold ns in Hs. clear - Hs Ix. nia. }
            rewrite divmod_unique_div, divmod_unique_mod by assumption.
            unfold W. f_equal. apply csum_ext. intros kx Hkx. now rewrite (EA S kx Hs Hn).
          * unfold buf. rewrite put_rowsT_notin by (now rewrite Emod).
            rewrite Hw by (now rewrite Emod). rewrite csum_zero; [now rewrite nfac_0|].
            intros kx Hkx. unfold A. rewrite put_notin; [unfold zeros; ring|].
            intros Hi'. apply Hnin. rewrite <- (flat_iyz ny nz kx ky kz) by assumption.
            unfold sticks. apply np_unique_in. unfold iyz. now apply in_map.
        + apply seq_shift_map.
      - split; [exact Hx|]. intros p Hp. cbn [inp_bwd w_ifft set_bwd].
        unfold buf. rewrite put_rowsT_notin by exact Hp. now apply Hw.
    Qed.

    Lemma dist_g2r_eq os : oinv os ->
      exists os', dist_g2r os (scat_g v) = Ok (os', scat_r (full_fun nx ny nz idx norm (G2R v))) /\ oinv os'.
    Proof.
      intros (wx & wyz & -> & Hinv). unfold dist_g2r, scat_g. cbv zeta. rewrite combine_map_seq, (map_map _ (fun p => g2r_local1 (fst p) (snd p))). cbn [fst snd].
      set (o1 := fun r => g2r_local1 (D r (wx r) (wyz r)) (slice (G r, G (S r)) v)).
      change (map (fun x => g2r_local1 (D x (wx x) (wyz x)) (slice (G x, G (S x)) v)) (seq 0 P)) with (map o1 (seq 0 P)).
      set (wx1 := fun r => d_fftx (o1 r)).
      assert (E1 : forall r, o1 r = D r (wx1 r) (wyz r)) by reflexivity.
      assert (I1 : forall r, r < P -> winv r (wx1 r) (wyz r)).
      { intros r Hr. destruct (local1_winv r (wx r) (wyz r) Hr (Hinv r Hr)) as (w' & E & Hi).
        fold (o1 r) in E. unfold wx1. rewrite E. exact Hi. }
      rewrite !map_map.
      assert (ES : map (fun x => (store (d_nx (o1 x) * d_nsl (o1 x)) (w_out (d_fftx (o1 x))), d_sticks_cnt (o1 x))) (seq 0 P)
        = map (fun i => (map (fun q => W (T i + q mod nsl i) (q / nsl i)) (seq 0 (X P * nsl i)),
             map (fun j => X (S j) * nsl i - X j * nsl i) (seq 0 P))) (seq 0 P)).
      { apply map_ext_in. intros i Hi. apply in_seq in Hi. f_equal.
        change (d_nx (o1 i)) with nx. change (d_nsl (o1 i)) with (nsl i). unfold store.
        unfold X. rewrite st_P by assumption. fold X. apply map_ext_in. intros q Hq. apply in_seq in Hq.
        assert (0 < nsl i) by (unfold nsl; pose proof (T_lt i ltac:(lia)); lia).
        rewrite (Nat.div_mod q (nsl i)) at 1 by lia. rewrite (Nat.mul_comm (nsl i)).
        apply local1_out; [lia|apply Hinv; lia|apply Nat.mod_upper_bound; lia]. }
      rewrite ES.
      assert (ER : map (fun x => d_trans_cnt (o1 x)) (seq 0 P)
        = map (fun j => map (fun i => X (S j) * nsl i - X j * nsl i) (seq 0 P)) (seq 0 P)).
      { apply map_ext_in. intros j Hj. change (d_trans_cnt (o1 j)) with (map (fun i => T (S i) * nxl j - T i * nxl j) (seq 0 P)).
        apply map_ext_in. intros i Hi. rewrite <- !Nat.mul_sub_distr_r. unfold nsl, nxl. apply Nat.mul_comm. }
      rewrite ER.
      rewrite (alltoallv_segments P (fun i q => W (T i + q mod nsl i) (q / nsl i)) (fun i j => X j * nsl i)).
      - cbn [bind]. rewrite combine_map_seq, !map_map. cbn [fst snd].
        set (res := fun x => g2r_local2 (o1 x) (concat (map (fun i => map (fun q => W (T i + q mod nsl i) (q / nsl i))
            (seq (X x * nsl i) (X (S x) * nsl i - X x * nsl i))) (seq 0 P)))).
        set (wyz2 := fun r => d_fftyz (fst (res r))).
        assert (E2 : forall r, r < P -> res r = (D r (wx1 r) (wyz2 r),
             slice (X r * nyz, X (S r) * nyz) (full_fun nx ny nz idx norm (G2R v))) /\ winv r (wx1 r) (wyz2 r)).
        { intros r Hr. destruct (local2_out r (wx1 r) (wyz r) Hr (I1 r Hr)) as (w2 & E & Hi).
          rewrite <- E1 in E. fold (res r) in E. unfold wyz2. rewrite E. cbn [fst]. split; [reflexivity|exact Hi]. }
        exists (map (fun r => D r (wx1 r) (wyz2 r)) (seq 0 P)). split.
        + apply f_equal. apply f_equal2; [|unfold scat_r]; apply map_ext_in; intros r Hr; apply in_seq in Hr;
            destruct (E2 r ltac:(lia)) as [E _];
            first [exact (f_equal fst E) | exact (f_equal snd E)].
        + exists wx1, wyz2. split; [reflexivity|]. intros r Hr. now apply E2.
      - intros i Hi. unfold X. rewrite st_0 by assumption. reflexivity.
      - intros i j Hi Hj. apply Nat.mul_le_mono_r, Nat.lt_le_incl, X_lt, Hj.
    Qed.
  End G2R.

  (* ---------------- r2g ---------------- *)
  Section R2G.
    Variable f : list C.
    Hypothesis Hf : length f = nx * ny * nz.
    Definition U (S x : nat) : C := dft_yz (-1) ny nz (load f) (pos x S).

    Lemma r2g_local_yz r x S : r < P -> x < nxl r -> S < ns ->
      dft_yz (-1) ny nz (load (slice (X r * nyz, X (Datatypes.S r) * nyz) f)) (pos x S) = U S (X r + x).
    Proof.
      intros Hr Hx HS. pose proof (X_le (Datatypes.S r) ltac:(lia)) as HXl. pose proof (X_lt r Hr) as HXr.
      destruct (pos_flat x S HS) as (y & z & Hy & Hz & E1 & E2).
      unfold U. assert (E3 : pos (X r + x) S = ((X r + x) * ny + y) * nz + z) by (unfold pos; rewrite E1; ring).
      rewrite E2, E3, !dft_yz_at by assumption.
      apply csum_ext. intros ky Hky. f_equal. apply csum_ext. intros kz Hkz. f_equal.
      unfold load. rewrite slice_nth.
      - f_equal. unfold nyz. ring.
      - rewrite <- Nat.mul_sub_distr_r. fold (nxl r). unfold nyz. rewrite Nat.mul_assoc. now apply flat_bound.
    Qed.

    Lemma sticks_eq r : r < P ->
      concat (map (transpose (nsl r)) (split_counts (map (fun j => X (S j) * nsl r - X j * nsl r) (seq 0 P))
        (concat (map (fun i => map (fun q => U (q / nxl i) (X i + q mod nxl i))
              (seq (T r * nxl i) (T (S r) * nxl i - T r * nxl i))) (seq 0 P)))))
      = map (fun q => U (T r + q mod nsl r) (q / nsl r)) (seq 0 (nx * nsl r)).
    Proof.
      intros Hr. pose proof (T_lt r Hr) as HT.
      assert (EL : map (fun j => X (S j) * nsl r - X j * nsl r) (seq 0 P)
        = map (@length C) (map (fun i => map (fun q => U (q / nxl i) (X i + q mod nxl i))
              (seq (T r * nxl i) (T (S r) * nxl i - T r * nxl i))) (seq 0 P))).
      { rewrite map_map. apply map_ext. intros i. rewrite map_length, seq_length.
        rewrite <- !Nat.mul_sub_distr_r. unfold nsl, nxl. apply Nat.mul_comm. }
      rewrite EL, split_concat, map_map.
      rewrite (map_ext_in _ (fun i => map (fun q => U (T r + q mod nsl r) (q / nsl r))
           (seq (X i * nsl r) (X (S i) * nsl r - X i * nsl r)))).
      - destruct (concat_segments (fun q => U (T r + q mod nsl r) (q / nsl r)) (fun i => X i * nsl r) P 0) as [E _].
        + intros i Hi. apply Nat.mul_le_mono_r. apply Nat.lt_le_incl, X_lt. lia.
        + rewrite E. cbn [Nat.add]. unfold X. rewrite st_0, st_P by assumption. cbn [Nat.mul]. now rewrite Nat.sub_0_r.
      - intros i Hi. apply in_seq in Hi. pose proof (X_lt i ltac:(lia)) as HXi.
        rewrite <- !Nat.mul_sub_distr_r. fold (nxl i). fold (nsl r).
        assert (Hn : 0 < nxl i) by (unfold nxl; lia). assert (Hs : 0 < nsl r) by (unfold nsl; lia).
        rewrite transpose_segment by assumption. rewrite (Nat.mul_comm (nxl i) (nsl r)).
        rewrite <- (seq_shift_map (X i * nsl r)), map_map. apply map_ext_in. intros k Hk. apply in_seq in Hk.
        assert (Hkd : k / nsl r < nxl i) by (apply Nat.div_lt_upper_bound; lia).
        pose proof (Nat.mod_upper_bound k (nsl r) ltac:(lia)) as Hkm.
        rewrite (Nat.div_add_l (X i)) by lia.
        replace ((X i * nsl r + k) mod nsl r) with (k mod nsl r).
        2:{ rewrite (Nat.add_comm (X i * nsl r)), Nat.mod_add by lia. reflexivity. }
        replace (T r * nxl i + (k mod nsl r * nxl i + k / nsl r)) with ((T r + k mod nsl r) * nxl i + k / nsl r) by ring.
        now rewrite divmod_unique_div, divmod_unique_mod by assumption.
    Qed.

    Lemma r2g_local2_out r wx wyz : r < P -> winv r wx wyz ->
      exists wx', r2g_local2 (D r wx wyz)
        (concat (map (fun i => map (fun q => U (q / nxl i) (X i + q mod nxl i))
              (seq (T r * nxl i) (T (S r) * nxl i - T r * nxl i))) (seq 0 P)))
        = (D r wx' wyz, slice (G r, G (S r)) (full_fun nx ny nz idx norm (R2G f)))
        /\ winv r wx' wyz.
    Proof.
      intros Hr [Hx Hw]. destruct D_pos as [Py Pz].
      unfold r2g_local2, D. cbn [d_nsl d_sticks_cnt d_fftx d_nx d_g2s].
      rewrite sticks_eq by assumption.
      exists (w_fft (fun s => dft_cols s nx (nsl r)) (set_fwd wx
        (load (map (fun q => U (T r + q mod nsl r) (q / nsl r)) (seq 0 (nx * nsl r)))))).
      split; [|split; [exact Hx|exact Hw]].
      apply f_equal2; [reflexivity|]. cbn [full_fun w_out w_fft set_fwd inp_fwd]. unfold taken.
      rewrite slice_map. fold (idx_loc r). rewrite map_map. apply map_ext_in. intros i Hi.
      destruct (idx_loc_iyz r i Hr Hi) as (k & Hk & Ek).
      pose proof (Hidx i (idx_loc_in r i Hi)) as Bi.
      assert (HS : T r + k < ns) by (pose proof (T_le (S r) ltac:(lia)); unfold nsl in Hk; lia).
      destruct (flat_decomp nx ny nz i Bi) as (Ix & Iy & Iz & Ei).
      set (kx := i / (ny * nz)) in *. set (ky := (i / nz) mod ny) in *. set (kz := i mod nz) in *.
      unfold g2s, ix_of. rewrite Ek, loc_search by assumption. fold kx.
      unfold dft_cols. rewrite divmod_unique_div, divmod_unique_mod by assumption.
      rewrite <- Ei at 1. rewrite dft_xyz_d3 by assumption. unfold d3.
      apply csum_ext. intros x Hxx. f_equal.
      unfold load at 1. rewrite nth_map_seq by (clear - Hxx Hk; nia).
      rewrite divmod_unique_div, divmod_unique_mod by assumption.
      unfold U, pos. rewrite <- Ek. unfold iyz_of. fold ky kz.
      replace (x * (ny * nz) + (ky * nz + kz)) with ((x * ny + ky) * nz + kz) by ring.
      now apply dft_yz_at.
    Qed.

    Lemma dist_r2g_eq os : oinv os ->
      exists os', dist_r2g os (scat_r f) = Ok (os', scat_g (full_fun nx ny nz idx norm (R2G f))) /\ oinv os'.
    Proof.
      intros (wx & wyz & -> & Hinv). unfold dist_r2g, scat_r. cbv zeta. rewrite combine_map_seq, (map_map _ (fun p => r2g_local1 (fst p) (snd p))). cbn [fst snd].
      set (o1 := fun r => r2g_local1 (D r (wx r) (wyz r)) (slice (X r * nyz, X (S r) * nyz) f)).
      change (map (fun x => r2g_local1 (D x (wx x) (wyz x)) (slice (X x * nyz, X (S x) * nyz) f)) (seq 0 P)) with (map o1 (seq 0 P)).
      set (wyz1 := fun r => d_fftyz (o1 r)).
      assert (E1 : forall r, o1 r = D r (wx r) (wyz1 r)) by reflexivity.
      assert (I1 : forall r, r < P -> winv r (wx r) (wyz1 r)) by (intros r Hr; exact (Hinv r Hr)).
      rewrite !map_map.
      assert (ES : map (fun x => (r2g_send (o1 x), d_trans_cnt (o1 x))) (seq 0 P)
        = map (fun i => (map (fun q => U (q / nxl i) (X i + q mod nxl i)) (seq 0 (T P * nxl i)),
             map (fun j => T (S j) * nxl i - T j * nxl i) (seq 0 P))) (seq 0 P)).
      { apply map_ext_in. intros i Hi. apply in_seq in Hi. f_equal.
        unfold r2g_send. change (d_t2f (o1 i)) with sticks. change (d_nxl (o1 i)) with (nxl i).
        unfold T. rewrite st_P by assumption. fold ns. unfold store. apply map_ext_in. intros q Hq. apply in_seq in Hq.
        assert (Hn : 0 < nxl i) by (unfold nxl; pose proof (X_lt i ltac:(lia)); lia).
        unfold take_rowsT. change (d_ny (o1 i) * d_nz (o1 i)) with nyz.
        change (w_out (d_fftyz (o1 i))) with (dft_yz (-1) ny nz (load (slice (X i * nyz, X (S i) * nyz) f))).
        change (q mod nxl i * nyz + nth (q / nxl i) sticks 0) with (pos (q mod nxl i) (q / nxl i)).
        apply r2g_local_yz; [lia|apply Nat.mod_upper_bound; lia|apply Nat.div_lt_upper_bound; lia]. }
      rewrite ES.
      assert (ER : map (fun x => d_sticks_cnt (o1 x)) (seq 0 P)
        = map (fun j => map (fun i => T (S j) * nxl i - T j * nxl i) (seq 0 P)) (seq 0 P)).
      { apply map_ext_in. intros j Hj. change (d_sticks_cnt (o1 j)) with (map (fun i => X (S i) * nsl j - X i * nsl j) (seq 0 P)).
        apply map_ext_in. intros i Hi. rewrite <- !Nat.mul_sub_distr_r. unfold nsl, nxl. apply Nat.mul_comm. }
      rewrite ER.
      rewrite (alltoallv_segments P (fun i q => U (q / nxl i) (X i + q mod nxl i)) (fun i j => T j * nxl i)).
      - cbn [bind]. rewrite combine_map_seq, !map_map. cbn [fst snd].
        set (res := fun x => r2g_local2 (o1 x) (concat (map (fun i => map (fun q => U (q / nxl i) (X i + q mod nxl i))
            (seq (T x * nxl i) (T (S x) * nxl i - T x * nxl i))) (seq 0 P)))).
        set (wx2 := fun r => d_fftx (fst (res r))).
        assert (E2 : forall r, r < P -> res r = (D r (wx2 r) (wyz1 r),
             slice (G r, G (S r)) (full_fun nx ny nz idx norm (R2G f))) /\ winv r (wx2 r) (wyz1 r)).
        { intros r Hr. destruct (r2g_local2_out r (wx r) (wyz1 r) Hr (I1 r Hr)) as (w2 & E & Hi).
          rewrite <- E1 in E. fold (res r) in E. unfold wx2. rewrite E. cbn [fst]. split; [reflexivity|exact Hi]. }
        exists (map (fun r => D r (wx2 r) (wyz1 r)) (seq 0 P)). split.
        + apply f_equal. apply f_equal2; [|unfold scat_g]; apply map_ext_in; intros r Hr; apply in_seq in Hr;
            destruct (E2 r ltac:(lia)) as [E _];
            first [exact (f_equal fst E) | exact (f_equal snd E)].
        + exists wx2, wyz1. split; [reflexivity|]. intros r Hr. now apply E2.
      - intros i Hi. unfold T. rewrite st_0 by assumption. reflexivity.
      - intros i j Hi Hj. apply Nat.mul_le_mono_r, Nat.lt_le_incl, T_lt, Hj.
    Qed.
  End R2G.
End Dist.
