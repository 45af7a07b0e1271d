(** Proofs about block distribution (model in ScatterModel.v). *)
From Verif Require Import Base ScatterModel.

Definition sc_start (len size rank : Z) := (len / size) * rank + Z.min rank (len mod size).

Lemma scatter_slice_eq len size rank :
  0 <= len -> 0 < size -> 0 <= rank < size ->
  scatter_slice len size rank = Ok (sc_start len size rank, sc_start len size (rank + 1)).
Proof.
  intros Hl Hs Hr. unfold scatter_slice, assert_.
  destruct (Z.leb_spec 0 len); [|lia]. destruct (Z.ltb_spec 0 size); [|lia].
  destruct (Z.leb_spec 0 rank); [|lia]. destruct (Z.ltb_spec rank size); [|lia].
  cbn [andb bind]. f_equal. f_equal. unfold sc_start, b2z.
  destruct (Z.ltb_spec rank (len mod size)).
  - rewrite Z.min_l, Z.min_l by lia. nia.
  - rewrite Z.min_r, Z.min_r by lia. nia.
Qed.

Lemma sc_start_0 len size : 0 <= len -> 0 < size -> sc_start len size 0 = 0.
Proof. intros. unfold sc_start. pose proof (Z.mod_pos_bound len size). rewrite Z.min_l; lia. Qed.

Lemma sc_start_size len size : 0 <= len -> 0 < size -> sc_start len size size = len.
Proof.
  intros. unfold sc_start. pose proof (Z.mod_pos_bound len size).
  rewrite Z.min_r by lia. pose proof (Z.div_mod len size). nia.
Qed.

Lemma sc_start_step len size rank :
  0 <= len -> 0 < size -> 0 <= rank ->
  sc_start len size (rank + 1) =
  sc_start len size rank + (len / size + b2z (rank <? len mod size)).
Proof.
  intros. unfold sc_start, b2z.
  destruct (Z.ltb_spec rank (len mod size)).
  - rewrite Z.min_l, Z.min_l by lia. nia.
  - rewrite Z.min_r, Z.min_r by lia. nia.
Qed.

Lemma sc_start_mono len size rank :
  0 <= len -> 0 < size -> 0 <= rank ->
  sc_start len size rank <= sc_start len size (rank + 1).
Proof.
  intros. rewrite sc_start_step by lia. unfold b2z.
  pose proof (Z.div_pos len size). destruct (_ <? _); lia.
Qed.

Lemma telescope_ranges (f : Z -> Z) (n : Z) :
  0 <= n -> (forall i, 0 <= i < n -> f i <= f (i + 1)) ->
  concat (map (fun i => zrange (f i) (f (i + 1))) (zrange 0 n)) = zrange (f 0) (f n)
  /\ f 0 <= f n.
Proof.
  intros Hn. pattern n. apply natlike_ind; [| |exact Hn].
  - intros _. cbn. rewrite zrange_nil by lia. split; [reflexivity|lia].
  - intros m Hm IH Hmono.
    destruct IH as [IH Hle]; [intros i Hi; apply Hmono; lia|].
    unfold Z.succ. rewrite zrange_snoc by lia.
    rewrite map_app, concat_app, IH. cbn [map concat]. rewrite app_nil_r.
    assert (f m <= f (m + 1)) by (apply Hmono; lia).
    split; [apply zrange_app; lia | lia].
Qed.

Lemma telescope_slices {A} (l : list A) (f : Z -> Z) (n : Z) :
  0 <= n -> (forall i, 0 <= i < n -> f i <= f (i + 1)) -> 0 <= f 0 ->
  concat (map (fun i => zslice (f i) (f (i + 1)) l) (zrange 0 n)) = zslice (f 0) (f n) l
  /\ f 0 <= f n.
Proof.
  intros Hn. pattern n. apply natlike_ind; [| |exact Hn].
  - intros _ _. cbn. rewrite zslice_nil by lia. split; [reflexivity|lia].
  - intros m Hm IH Hmono H0.
    destruct IH as [IH Hle]; [intros i Hi; apply Hmono; lia|lia|].
    unfold Z.succ. rewrite zrange_snoc by lia.
    rewrite map_app, concat_app, IH. cbn [map concat]. rewrite app_nil_r.
    assert (f m <= f (m + 1)) by (apply Hmono; lia).
    split; [apply zslice_app; lia | lia].
Qed.

Lemma sc_start_range len size rank :
  0 <= len -> 0 < size -> 0 <= rank <= size -> 0 <= sc_start len size rank <= len.
Proof.
  intros Hl Hs Hr. unfold sc_start.
  pose proof (Z.mod_pos_bound len size). pose proof (Z.div_pos len size).
  pose proof (Z.div_mod len size). nia.
Qed.

Lemma scatter_covers len size :
  0 <= len -> 0 < size ->
  exists sl : list (Z * Z),
    map (scatter_slice len size) (zrange 0 size) = map Ok sl
    /\ concat (map (fun s => zrange (fst s) (snd s)) sl) = zrange 0 len
    /\ Forall (fun s => 0 <= fst s /\ fst s <= snd s /\ snd s <= len) sl.
Proof.
  intros Hl Hs.
  exists (map (fun r => (sc_start len size r, sc_start len size (r + 1))) (zrange 0 size)).
  repeat split.
  - rewrite map_map. apply map_ext_in. intros r Hr. apply in_zrange in Hr.
    apply scatter_slice_eq; lia.
  - rewrite map_map. cbn [fst snd].
    destruct (telescope_ranges (sc_start len size) size) as [H _]; [lia| |].
    + intros i Hi. apply sc_start_mono; lia.
    + rewrite sc_start_0, sc_start_size in H by lia. exact H.
  - apply Forall_forall. intros s Hin. apply in_map_iff in Hin.
    destruct Hin as (r & <- & Hr). apply in_zrange in Hr. cbn [fst snd].
    pose proof (sc_start_range len size r Hl Hs ltac:(lia)).
    pose proof (sc_start_range len size (r + 1) Hl Hs ltac:(lia)).
    pose proof (sc_start_mono len size r Hl Hs ltac:(lia)). lia.
Qed.

Lemma scatter_owner_unique len size i :
  0 <= len -> 0 < size -> 0 <= i < len ->
  exists r, (0 <= r < size) /\
    (exists a b, scatter_slice len size r = Ok (a, b) /\ a <= i < b) /\
    (forall r' a b, scatter_slice len size r' = Ok (a, b) -> a <= i < b -> r' = r).
Proof.
  intros Hl Hs Hi.
  assert (Hex : exists r, 0 <= r < size /\ sc_start len size r <= i < sc_start len size (r + 1)).
  { destruct (telescope_ranges (sc_start len size) size) as [H _]; [lia| |].
    { intros j Hj. apply sc_start_mono; lia. }
    rewrite sc_start_0, sc_start_size in H by lia.
    assert (Hin : In i (zrange 0 len)) by (apply in_zrange; lia).
    rewrite <- H in Hin. apply in_concat in Hin. destruct Hin as (l & Hl' & Hin).
    apply in_map_iff in Hl'. destruct Hl' as (r & <- & Hr). apply in_zrange in Hr.
    apply in_zrange in Hin. exists r. lia. }
  destruct Hex as (r & Hr & Hb).
  assert (Hmono : forall a b, 0 <= a -> a <= b -> b <= size ->
                   sc_start len size a <= sc_start len size b).
  { intros a b Ha Hab. pattern b. apply Zlt_lower_bound_ind with (z := a); [|exact Hab].
    intros x IHx Hax Hxs. destruct (Z.eq_dec a x) as [->|Hne]; [lia|].
    specialize (IHx (x - 1) ltac:(lia) ltac:(lia)).
    pose proof (sc_start_mono len size (x - 1) Hl Hs ltac:(lia)).
    replace (x - 1 + 1) with x in H by lia. lia. }
  exists r. split; [exact Hr|]. split.
  - exists (sc_start len size r), (sc_start len size (r + 1)).
    split; [apply scatter_slice_eq; lia|exact Hb].
  - intros r' a b Heq Hab.
    assert (Hr' : 0 <= r' < size).
    { unfold scatter_slice, assert_ in Heq.
      destruct (Z.leb_spec 0 len); [|lia]. destruct (Z.ltb_spec 0 size); [|lia].
      cbn [bind] in Heq.
      destruct (Z.leb_spec 0 r'); destruct (Z.ltb_spec r' size); cbn in Heq; try discriminate; lia. }
    rewrite scatter_slice_eq in Heq by lia. injection Heq as <- <-.
    destruct (Z.lt_trichotomy r' r) as [Hlt|[->|Hgt]]; [|reflexivity|].
    + pose proof (Hmono (r' + 1) r ltac:(lia) ltac:(lia) ltac:(lia)). lia.
    + pose proof (Hmono (r + 1) r' ltac:(lia) ltac:(lia) ltac:(lia)). lia.
Qed.

Lemma scatter_rejects len size rank :
  (len < 0 \/ size <= 0 \/ rank < 0 \/ size <= rank) ->
  scatter_slice len size rank = Err AssertionError /\
  scatter_len len size rank = Err AssertionError.
Proof.
  intros H. unfold scatter_slice, scatter_len, assert_.
  destruct (Z.leb_spec 0 len); cbn [bind]; [|split; reflexivity].
  destruct (Z.ltb_spec 0 size); cbn [bind]; [|split; reflexivity].
  destruct (Z.leb_spec 0 rank), (Z.ltb_spec rank size); cbn [andb bind]; try (split; reflexivity).
  lia.
Qed.

Lemma scatter_len_eq len size rank :
  0 <= len -> 0 < size -> 0 <= rank < size ->
  scatter_len len size rank = Ok (len / size + b2z (rank <? len mod size)).
Proof.
  intros Hl Hs Hr. unfold scatter_len, assert_.
  destruct (Z.leb_spec 0 len); [|lia]. destruct (Z.ltb_spec 0 size); [|lia].
  destruct (Z.leb_spec 0 rank); [|lia]. destruct (Z.ltb_spec rank size); [|lia].
  reflexivity.
Qed.

Lemma scatter_len_slice len size rank :
  0 <= len -> 0 < size -> 0 <= rank < size ->
  exists n a b, scatter_len len size rank = Ok n /\ scatter_slice len size rank = Ok (a, b)
                /\ n = b - a /\ 0 <= n.
Proof.
  intros Hl Hs Hr. do 3 eexists. split; [apply scatter_len_eq; lia|].
  split; [apply scatter_slice_eq; lia|].
  rewrite sc_start_step by lia. unfold b2z. pose proof (Z.div_pos len size).
  destruct (_ <? _); lia.
Qed.

Lemma scatter_balanced len size r r' n n' :
  scatter_len len size r = Ok n -> scatter_len len size r' = Ok n' -> r <= r' ->
  n' <= n <= n' + 1.
Proof.
  intros H H' Hr.
  assert (Hg : forall q m, scatter_len len size q = Ok m -> 0 <= len /\ 0 < size /\ 0 <= q < size).
  { intros q m Hq. unfold scatter_len, assert_ in Hq.
    destruct (Z.leb_spec 0 len); cbn [bind] in Hq; [|discriminate].
    destruct (Z.ltb_spec 0 size); cbn [bind] in Hq; [|discriminate].
    destruct (Z.leb_spec 0 q), (Z.ltb_spec q size); cbn [andb bind] in Hq; try discriminate; lia. }
  destruct (Hg _ _ H) as (? & ? & ?). destruct (Hg _ _ H') as (? & ? & ?).
  rewrite scatter_len_eq in H, H' by lia. injection H as <-. injection H' as <-.
  unfold b2z. destruct (Z.ltb_spec r (len mod size)), (Z.ltb_spec r' (len mod size)); lia.
Qed.

Lemma scatter_len_all_spec len size :
  0 <= len -> 0 < size ->
  exists ns, scatter_len_all len size = Ok ns
    /\ map Ok ns = map (scatter_len len size) (zrange 0 size)
    /\ zsum ns = len.
Proof.
  intros Hl Hs. eexists. split.
  { unfold scatter_len_all, assert_. destruct (Z.leb_spec 0 len); [|lia].
    destruct (Z.ltb_spec 0 size); [|lia]. reflexivity. }
  split.
  - rewrite map_map. apply map_ext_in. intros r Hr. apply in_zrange in Hr.
    symmetry. apply scatter_len_eq; lia.
  - assert (H : forall m, 0 <= m -> m <= size ->
      zsum (map (fun rank => len / size + b2z (rank <? len mod size)) (zrange 0 m))
      = sc_start len size m).
    { intros m Hm. pattern m. apply natlike_ind; [| |exact Hm].
      - intros _. rewrite sc_start_0 by lia. reflexivity.
      - intros k Hk IH Hks. unfold Z.succ. rewrite zrange_snoc by lia.
        rewrite map_app, zsum_app, IH by lia. rewrite sc_start_step by lia.
        cbn [map zsum fold_right]. lia. }
    rewrite H by lia. apply sc_start_size; lia.
Qed.

Lemma zrange_single_iff size : 0 < size ->
  (exists a, zrange 0 size = [a]) -> size = 1.
Proof.
  intros Hs (a & H). apply (f_equal (@length Z)) in H. rewrite zrange_length in H. cbn in H. lia.
Qed.

(** Negative finding: the documented tuple is never returned. *)
Lemma scatter_slice_norank_never_tuple len size sl :
  scatter_slice_norank len size <> Ok (TupleOfSlices sl).
Proof.
  unfold scatter_slice_norank, assert_.
  destruct (0 <=? len); cbn [bind]; [|discriminate].
  destruct (0 <? size); cbn [bind]; [|discriminate].
  destruct (builtin_min_array _ _); cbn [bind]; discriminate.
Qed.

Lemma scatter_slice_norank_raises len size :
  0 <= len -> 1 < size -> scatter_slice_norank len size = Err ValueError.
Proof.
  intros Hl Hs. unfold scatter_slice_norank, assert_.
  destruct (Z.leb_spec 0 len); [|lia]. destruct (Z.ltb_spec 0 size); [|lia]. cbn [bind].
  rewrite zrange_cons by lia. rewrite zrange_cons by lia. reflexivity.
Qed.

(* ---------------- k-lists ---------------- *)
Lemma klist_scatter_eq {K} (kpts : list K) n i :
  0 < n -> 0 <= i < n ->
  klist_scatter kpts n i =
  Ok (zslice (sc_start (Z.of_nat (length kpts)) n i)
             (sc_start (Z.of_nat (length kpts)) n (i + 1)) kpts).
Proof.
  intros Hn Hi. unfold klist_scatter.
  destruct (Z.ltb_spec 0 n); [|lia]. destruct (Z.leb_spec 0 i); [|lia].
  destruct (Z.ltb_spec i n); [|lia]. cbn [negb andb].
  rewrite scatter_slice_eq by lia. reflexivity.
Qed.

Lemma klist_scatter_partition {K} (kpts : list K) n :
  0 < n ->
  exists parts, map (klist_scatter kpts n) (zrange 0 n) = map Ok parts
                /\ concat parts = kpts.
Proof.
  intros Hn. set (L := Z.of_nat (length kpts)).
  exists (map (fun i => zslice (sc_start L n i) (sc_start L n (i + 1)) kpts) (zrange 0 n)).
  split.
  - rewrite map_map. apply map_ext_in. intros i Hi. apply in_zrange in Hi.
    apply klist_scatter_eq; lia.
  - destruct (telescope_slices kpts (sc_start L n) n) as [H _].
    + lia.
    + intros i Hi. apply sc_start_mono; lia.
    + rewrite sc_start_0 by lia. lia.
    + rewrite H, sc_start_0, sc_start_size by lia. apply zslice_full.
Qed.

Lemma klist_distribute_rejects {K} (kpts : list K) rr n i :
  Z.of_nat (length kpts) < n -> klist_distribute kpts rr n i = Err ValueError.
Proof. intros H. unfold klist_distribute. destruct (Z.ltb_spec (Z.of_nat (length kpts)) n); [reflexivity|lia]. Qed.

Lemma klist_distribute_block_eq {K} (kpts : list K) n i :
  0 < n -> n <= Z.of_nat (length kpts) -> 0 <= i < n ->
  let L := Z.of_nat (length kpts) in
  klist_distribute kpts false n i =
  Ok (zslice (sc_start L n i) (sc_start L n (i + 1)) kpts,
      zslice (sc_start L n i) (sc_start L n (i + 1)) (zrange 0 L)).
Proof.
  intros Hn Hl Hi L. unfold klist_distribute. fold L.
  destruct (Z.ltb_spec L n); [lia|]. reflexivity.
Qed.

Lemma gather_idx_all {K} (l : list K) :
  gather_idx l (zrange 0 (Z.of_nat (length l))) = l.
Proof.
  unfold gather_idx, zrange. rewrite Z.sub_0_r, Nat2Z.id.
  rewrite flat_map_concat_map, map_map.
  rewrite (map_ext _ (fun i => match nth_error l i with Some x => [x] | None => [] end))
    by (intros i; now rewrite Z.add_0_l, Nat2Z.id).
  induction l as [|x l IH]; [reflexivity|].
  cbn [length seq map concat nth_error app]. f_equal.
  rewrite <- seq_shift, map_map. exact IH.
Qed.

Lemma gather_idx_app {K} (l : list K) a b : gather_idx l (a ++ b) = gather_idx l a ++ gather_idx l b.
Proof. unfold gather_idx. now rewrite !flat_map_concat_map, map_app, concat_app. Qed.

Lemma gather_idx_perm {K} (l : list K) a b :
  Permutation a b -> Permutation (gather_idx l a) (gather_idx l b).
Proof. intros H. unfold gather_idx. now apply Permutation_flat_map. Qed.

Lemma gather_idx_concat {K} (l : list K) ll :
  concat (map (gather_idx l) ll) = gather_idx l (concat ll).
Proof.
  induction ll as [|x ll IH]; [reflexivity|]. cbn [map concat]. rewrite IH.
  symmetry. apply gather_idx_app.
Qed.

Lemma gather_idx_zslice {K} (l : list K) a b :
  0 <= a -> b <= Z.of_nat (length l) ->
  gather_idx l (zrange a b) = zslice a b l.
Proof.
  intros Ha Hb. destruct (Z.le_gt_cases b a) as [Hba|Hab].
  - now rewrite zrange_nil, zslice_nil by lia.
  - revert a Ha Hab. assert (forall m a, 0 <= m -> 0 <= a -> a + m = b -> gather_idx l (zrange a b) = zslice a b l) as H.
    { intros m. pattern m. intros a Hm. revert a. pattern m. apply natlike_ind; [| |exact Hm].
      - intros a Ha Hm0. now rewrite zrange_nil, zslice_nil by lia.
      - intros k Hk IH a Ha Hm0. rewrite zrange_cons by lia.
        change (a :: zrange (a + 1) b) with ([a] ++ zrange (a + 1) b).
        rewrite gather_idx_app, IH by lia.
        rewrite <- (zslice_app a (a + 1) b) by lia. f_equal.
        unfold gather_idx, zslice. cbn [flat_map]. rewrite app_nil_r.
        replace (Z.to_nat (a + 1 - a)) with 1%nat by lia.
        destruct (nth_error l (Z.to_nat a)) eqn:E.
        + apply nth_error_split in E. destruct E as (l1 & l2 & -> & Hlen).
          rewrite <- Hlen. rewrite skipn_app, skipn_all, Nat.sub_diag. reflexivity.
        + apply nth_error_None in E. lia. }
    intros a Ha Hab. apply (H (b - a) a); lia.
Qed.

Lemma stride_indices_in i n len j : 0 < n ->
  In j (stride_indices i n len) <-> (0 <= j < len /\ i <= j /\ (j - i) mod n = 0).
Proof. intros Hn. unfold stride_indices. rewrite filter_In, in_zrange. lia. Qed.

Lemma stride_indices_partition n len : 0 < n -> 0 <= len ->
  Permutation (concat (map (fun i => stride_indices i n len) (zrange 0 n))) (zrange 0 len).
Proof.
  intros Hn Hl. apply NoDup_Permutation.
  - (* NoDup of the concatenation *)
    assert (Hg : forall rs, NoDup rs -> (forall r, In r rs -> 0 <= r < n) ->
              NoDup (concat (map (fun i => stride_indices i n len) rs))).
    { induction rs as [|r rs IH]; intros Hnd Hb; [constructor|].
      cbn [map concat]. inversion_clear Hnd as [|? ? Hnin Hnd'].
      assert (Hgoal := IH Hnd' (fun x Hx => Hb x (or_intror Hx))).
      assert (Hself : NoDup (stride_indices r n len)).
      { unfold stride_indices. apply NoDup_filter, zrange_NoDup. }
      assert (Hdis : forall x, In x (stride_indices r n len) ->
          ~ In x (concat (map (fun i => stride_indices i n len) rs))).
      { intros x Hx Hc. apply in_concat in Hc. destruct Hc as (q & Hq & Hxq).
        apply in_map_iff in Hq. destruct Hq as (r' & <- & Hr').
        apply stride_indices_in in Hx; [|lia]. apply stride_indices_in in Hxq; [|lia].
        assert (0 <= r < n) by (apply Hb; now left).
        assert (0 <= r' < n) by (apply Hb; now right).
        assert (r = r'); [|subst; contradiction].
        destruct Hx as (_ & _ & H1), Hxq as (_ & _ & H2).
        assert (x mod n = r).
        { replace x with ((x - r) + r) by lia. rewrite Z.add_mod, H1 by lia.
          rewrite Z.add_0_l, Z.mod_mod, Z.mod_small by lia. reflexivity. }
        assert (x mod n = r').
        { replace x with ((x - r') + r') by lia. rewrite Z.add_mod, H2 by lia.
          rewrite Z.add_0_l, Z.mod_mod, Z.mod_small by lia. reflexivity. }
        congruence. }
      clear - Hself Hgoal Hdis. induction (stride_indices r n len) as [|y ys IHy]; [assumption|].
      cbn. inversion_clear Hself. constructor.
      - rewrite in_app_iff. intros [?|?]; [contradiction|]. apply (Hdis y); [now left|assumption].
      - apply IHy; [assumption|]. intros x Hx. apply Hdis. now right. }
    apply Hg; [apply zrange_NoDup|]. intros r Hr. now apply in_zrange.
  - apply zrange_NoDup.
  - intros x. rewrite in_zrange. split.
    + intros Hx. apply in_concat in Hx. destruct Hx as (q & Hq & Hxq).
      apply in_map_iff in Hq. destruct Hq as (r' & <- & Hr').
      apply stride_indices_in in Hxq; lia.
    + intros Hx. apply in_concat. exists (stride_indices (x mod n) n len). split.
      * apply in_map_iff. exists (x mod n). split; [reflexivity|]. apply in_zrange.
        pose proof (Z.mod_pos_bound x n). lia.
      * apply stride_indices_in; [lia|]. pose proof (Z.mod_pos_bound x n).
        pose proof (Z.mod_le x n). split; [lia|]. split; [lia|].
        rewrite Zminus_mod, Z.mod_mod, Z.sub_diag by lia. reflexivity.
Qed.

Lemma stride_indices_nonempty n len i : 0 < n -> n <= len -> 0 <= i < n ->
  stride_indices i n len <> [].
Proof.
  intros Hn Hl Hi Hnil. assert (In i (stride_indices i n len)) as H.
  { apply stride_indices_in; [lia|]. rewrite Z.sub_diag, Z.mod_0_l by lia. lia. }
  rewrite Hnil in H. contradiction.
Qed.

Lemma zslice_zrange a b L : 0 <= a -> a <= b -> b <= L -> zslice a b (zrange 0 L) = zrange a b.
Proof.
  intros Ha Hab HL. unfold zslice, zrange.
  rewrite !Z.sub_0_r. rewrite skipn_map, firstn_map.
  replace (skipn (Z.to_nat a) (seq 0 (Z.to_nat L))) with (seq (Z.to_nat a) (Z.to_nat L - Z.to_nat a)).
  - replace (firstn (Z.to_nat (b - a)) (seq (Z.to_nat a) (Z.to_nat L - Z.to_nat a)))
      with (seq (Z.to_nat a) (Z.to_nat (b - a))).
    + replace (seq (Z.to_nat a) (Z.to_nat (b - a)))
        with (map (fun i => (Z.to_nat a + i)%nat) (seq 0 (Z.to_nat (b - a)))).
      * rewrite map_map. apply map_ext. intros i. lia.
      * generalize (Z.to_nat (b - a)) as n. generalize (Z.to_nat a) as k. clear. intros k n.
        change k with (0 + k)%nat at 2. generalize 0%nat as s. revert k.
        induction n as [|n IH]; intros k s; [reflexivity|]. cbn. f_equal; [lia|]. now rewrite IH.
    + replace (Z.to_nat L - Z.to_nat a)%nat with (Z.to_nat (b - a) + (Z.to_nat L - Z.to_nat b))%nat by lia.
      rewrite seq_app, firstn_app, seq_length, Nat.sub_diag. cbn [firstn].
      rewrite app_nil_r. rewrite <- (seq_length (Z.to_nat (b - a)) (Z.to_nat a)) at 2.
      symmetry. apply firstn_all.
  - replace (Z.to_nat L) with (Z.to_nat a + (Z.to_nat L - Z.to_nat a))%nat at 2 by lia.
    rewrite seq_app, skipn_app, seq_length, Nat.sub_diag. cbn [skipn].
    rewrite <- (seq_length (Z.to_nat a) 0) at 3. rewrite skipn_all. reflexivity.
Qed.

(** Both distribution modes of klist_distribute. *)
Lemma klist_distribute_partition {K} (kpts : list K) rr n :
  0 < n -> n <= Z.of_nat (length kpts) ->
  exists parts : list (list K * list Z),
    map (klist_distribute kpts rr n) (zrange 0 n) = map Ok parts
    /\ Permutation (concat (map fst parts)) kpts
    /\ Permutation (concat (map snd parts)) (zrange 0 (Z.of_nat (length kpts)))
    /\ Forall (fun p => snd p <> [] /\ fst p = gather_idx kpts (snd p) /\ StronglySorted Z.lt (snd p)) parts.
Proof.
  intros Hn Hl. set (L := Z.of_nat (length kpts)).
  assert (HSS : forall a b, StronglySorted Z.lt (zrange a b)).
  { intros a b. destruct (Z.le_gt_cases b a) as [H|H]; [rewrite zrange_nil by lia; constructor|].
    assert (forall m a, 0 <= m -> a + m = b -> StronglySorted Z.lt (zrange a b)) as HH.
    { intros m a' Hm. revert a'. pattern m. apply natlike_ind; [| |exact Hm].
      - intros a' E. rewrite zrange_nil by lia. constructor.
      - intros k Hk IH a' E. rewrite zrange_cons by lia. constructor; [apply IH; lia|].
        apply Forall_forall. intros x Hx. apply in_zrange in Hx. lia. }
    apply (HH (b - a)); lia. }
  destruct rr.
  - exists (map (fun i => (gather_idx kpts (stride_indices i n L), stride_indices i n L)) (zrange 0 n)).
    split; [|split; [|split]].
    + rewrite map_map. apply map_ext. intros i. unfold klist_distribute. fold L.
      destruct (Z.ltb_spec L n); [lia|]. reflexivity.
    + rewrite map_map. cbn [fst].
      rewrite <- (map_map (fun i => stride_indices i n L) (gather_idx kpts)), gather_idx_concat.
      rewrite <- (gather_idx_all kpts) at 2. apply gather_idx_perm.
      apply stride_indices_partition; lia.
    + rewrite map_map. cbn [snd]. apply stride_indices_partition; lia.
    + apply Forall_forall. intros p Hp. apply in_map_iff in Hp. destruct Hp as (i & <- & Hi).
      apply in_zrange in Hi. cbn [fst snd]. split; [apply stride_indices_nonempty; lia|].
      split; [reflexivity|]. unfold stride_indices.
      clear - HSS. specialize (HSS 0 L). induction HSS as [|x l HS IH HF]; [constructor|].
      cbn. destruct (_ && _); [|exact IH]. constructor; [exact IH|].
      apply Forall_forall. intros y Hy. apply filter_In in Hy. rewrite Forall_forall in HF. now apply HF.
  - assert (Hmono : forall i, 0 <= i < n -> sc_start L n i <= sc_start L n (i + 1))
      by (intros; apply sc_start_mono; lia).
    exists (map (fun i => (zslice (sc_start L n i) (sc_start L n (i + 1)) kpts,
                           zslice (sc_start L n i) (sc_start L n (i + 1)) (zrange 0 L))) (zrange 0 n)).
    split; [|split; [|split]].
    + rewrite map_map. apply map_ext_in. intros i Hi. apply in_zrange in Hi.
      apply klist_distribute_block_eq; lia.
    + rewrite map_map. cbn [fst].
      destruct (telescope_slices kpts (sc_start L n) n) as [H _]; [lia|exact Hmono|rewrite sc_start_0; lia|].
      rewrite H, sc_start_0, sc_start_size by lia. unfold L. now rewrite zslice_full.
    + rewrite map_map. cbn [snd].
      destruct (telescope_slices (zrange 0 L) (sc_start L n) n) as [H _]; [lia|exact Hmono|rewrite sc_start_0; lia|].
      rewrite H, sc_start_0, sc_start_size by lia.
      rewrite zslice_zrange by lia. reflexivity.
    + apply Forall_forall. intros p Hp. apply in_map_iff in Hp. destruct Hp as (i & <- & Hi).
      apply in_zrange in Hi. cbn [fst snd].
      pose proof (sc_start_range L n i ltac:(lia) Hn ltac:(lia)).
      pose proof (sc_start_range L n (i + 1) ltac:(lia) Hn ltac:(lia)).
      pose proof (Hmono i Hi).
      rewrite zslice_zrange by lia. split; [|split].
      * rewrite sc_start_step by lia. assert (1 <= L / n) by (apply Z.div_le_lower_bound; lia).
        rewrite zrange_cons; [discriminate|]. unfold b2z. destruct (_ <? _); lia.
      * symmetry. apply gather_idx_zslice; lia.
      * apply HSS.
Qed.
