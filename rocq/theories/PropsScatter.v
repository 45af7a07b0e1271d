(** C01-C04: block and round-robin distribution.  Statements only; the proofs
    are in ScatterProofs.v.  Vocabulary: [zrange a b] = [a; a+1; ..; b-1]. *)
From Verif Require Import Base ScatterModel ScatterProofs.

(** C01: over ranks 0..size-1 the slices succeed, are in bounds and, laid end
    to end, enumerate 0..len-1 exactly (hence contiguous, ordered, disjoint). *)
Theorem C01_scatter_slices_cover : forall len size,
  0 <= len -> 0 < size ->
  exists sl : list (Z * Z),
    map (scatter_slice len size) (zrange 0 size) = map Ok sl
    /\ concat (map (fun s => zrange (fst s) (snd s)) sl) = zrange 0 len
    /\ Forall (fun s => 0 <= fst s /\ fst s <= snd s /\ snd s <= len) sl.
Proof. exact scatter_covers. Qed.
Print Assumptions C01_scatter_slices_cover.

(** C01: every item has one and only one owner. *)
Theorem C01_scatter_unique_owner : forall len size i,
  0 <= len -> 0 < size -> 0 <= i < len ->
  exists r, (0 <= r < size) /\
    (exists a b, scatter_slice len size r = Ok (a, b) /\ a <= i < b) /\
    (forall r' a b, scatter_slice len size r' = Ok (a, b) -> a <= i < b -> r' = r).
Proof. exact scatter_owner_unique. Qed.
Print Assumptions C01_scatter_unique_owner.

(** C01: arguments outside the domain are refused, by both helpers. *)
Theorem C01_scatter_rejects : forall len size rank,
  (len < 0 \/ size <= 0 \/ rank < 0 \/ size <= rank) ->
  scatter_slice len size rank = Err AssertionError /\
  scatter_len len size rank = Err AssertionError.
Proof. exact scatter_rejects. Qed.
Print Assumptions C01_scatter_rejects.

Example C01_witness :
  map (scatter_slice 10 4) (zrange 0 4) = [Ok (0, 3); Ok (3, 6); Ok (6, 8); Ok (8, 10)]
  /\ map (scatter_slice 2 3) (zrange 0 3) = [Ok (0, 1); Ok (1, 2); Ok (2, 2)].
Proof. vm_compute. split; reflexivity. Qed.

(** C02: scatter_len is the length of scatter_slice. *)
Theorem C02_scatter_len_is_slice_length : forall len size rank,
  0 <= len -> 0 < size -> 0 <= rank < size ->
  exists n a b, scatter_len len size rank = Ok n /\ scatter_slice len size rank = Ok (a, b)
                /\ n = b - a /\ 0 <= n.
Proof. exact scatter_len_slice. Qed.
Print Assumptions C02_scatter_len_is_slice_length.

(** C02: lower ranks get at least as much, by at most one item. *)
Theorem C02_scatter_balanced : forall len size r r' n n',
  scatter_len len size r = Ok n -> scatter_len len size r' = Ok n' -> r <= r' ->
  n' <= n <= n' + 1.
Proof. exact scatter_balanced. Qed.
Print Assumptions C02_scatter_balanced.

(** C02: with the rank omitted, scatter_len returns the per-rank counts, and
    they sum to the length. *)
Theorem C02_scatter_len_all : forall len size,
  0 <= len -> 0 < size ->
  exists ns, scatter_len_all len size = Ok ns
    /\ map Ok ns = map (scatter_len len size) (zrange 0 size)
    /\ zsum ns = len.
Proof. exact scatter_len_all_spec. Qed.
Print Assumptions C02_scatter_len_all.

Example C02_witness :
  scatter_len_all 10 4 = Ok [3; 3; 2; 2]
  /\ scatter_len 10 4 1 = Ok 3 /\ scatter_len 10 4 2 = Ok 2.
Proof. vm_compute. repeat split; reflexivity. Qed.

(** C03 is false of the code.  With the rank omitted and more than one process,
    scatter_slice raises ValueError; with one process it returns one slice whose
    bounds are arrays.  It never returns the documented tuple. *)
Theorem C03_scatter_slice_all_refuted : forall len size,
  (forall sl, scatter_slice_norank len size <> Ok (TupleOfSlices sl))
  /\ (0 <= len -> 1 < size -> scatter_slice_norank len size = Err ValueError).
Proof.
  exact (fun len size => conj (scatter_slice_norank_never_tuple len size)
                              (scatter_slice_norank_raises len size)).
Qed.
Print Assumptions C03_scatter_slice_all_refuted.

(** C03, the exact behaviour of the call without a rank. *)
Theorem C03_rankless_call : forall len size,
  scatter_slice_norank len size =
    if ((len <? 0) || (size <=? 0))%bool then Err AssertionError
    else if size =? 1 then Ok (SliceOfArrays [0] [len]) else Err ValueError.
Proof.
  intros len size. destruct (Z.ltb_spec len 0) as [H|H]; cbn [orb].
  { unfold scatter_slice_norank. replace (0 <=? len) with false by lia. reflexivity. }
  destruct (Z.leb_spec size 0) as [H1|H1].
  { unfold scatter_slice_norank. replace (0 <=? len) with true by lia. replace (0 <? size) with false by lia. reflexivity. }
  destruct (Z.eqb_spec size 1) as [->|H2]; [|apply (C03_scatter_slice_all_refuted len size); lia].
  unfold scatter_slice_norank. replace (0 <=? len) with true by lia. cbn [assert_ bind]. change (zrange 0 1) with [0].
  rewrite Z.mod_1_r, Z.div_1_r. cbn. do 3 f_equal; lia.
Qed.
Print Assumptions C03_rankless_call.

Example C03_witness : scatter_slice_norank 10 4 = Err ValueError
  /\ scatter_slice_norank 10 1 = Ok (SliceOfArrays [0] [10]).
Proof. vm_compute. split; reflexivity. Qed.

(** C04: KList.scatter over all groups: the local lists, laid end to end, are
    the input list (so nothing is lost, duplicated or reordered). *)
Theorem C04_klist_scatter_partition : forall (K : Type) (kpts : list K) n,
  0 < n ->
  exists parts, map (klist_scatter kpts n) (zrange 0 n) = map Ok parts
                /\ concat parts = kpts.
Proof. exact @klist_scatter_partition. Qed.
Print Assumptions C04_klist_scatter_partition.

(** C04: klist_distribute, both modes: every k-point lands in exactly one group,
    no group is empty, indices inside a group increase and the local points are
    the ones at the reported indices. *)
Theorem C04_klist_distribute_partition : forall (K : Type) (kpts : list K) rr n,
  0 < n -> n <= Z.of_nat (length kpts) ->
  exists parts : list (list K * list Z),
    map (klist_distribute kpts rr n) (zrange 0 n) = map Ok parts
    /\ Permutation (concat (map fst parts)) kpts
    /\ Permutation (concat (map snd parts)) (zrange 0 (Z.of_nat (length kpts)))
    /\ Forall (fun p => snd p <> [] /\ fst p = gather_idx kpts (snd p)
                        /\ StronglySorted Z.lt (snd p)) parts.
Proof. exact @klist_distribute_partition. Qed.
Print Assumptions C04_klist_distribute_partition.

(** C04: a split that would leave a group empty is refused. *)
Theorem C04_klist_distribute_refuses_empty_groups : forall (K : Type) (kpts : list K) rr n i,
  Z.of_nat (length kpts) < n -> klist_distribute kpts rr n i = Err ValueError.
Proof. exact @klist_distribute_rejects. Qed.
Print Assumptions C04_klist_distribute_refuses_empty_groups.

Example C04_witness :
  map (klist_distribute [10; 11; 12; 13; 14] true 2) (zrange 0 2)
    = [Ok ([10; 12; 14], [0; 2; 4]); Ok ([11; 13], [1; 3])]
  /\ map (klist_distribute [10; 11; 12; 13; 14] false 2) (zrange 0 2)
    = [Ok ([10; 11; 12], [0; 1; 2]); Ok ([13; 14], [3; 4])]
  /\ map (klist_scatter [10; 11; 12] 2) (zrange 0 2) = [Ok [10; 11]; Ok [12]].
Proof. vm_compute. repeat split; reflexivity. Qed.
