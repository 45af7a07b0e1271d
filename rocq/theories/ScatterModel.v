(** Model of block distribution over MPI ranks.
    Sources: /repo/src/qtm/mpi/utils.py, /repo/src/qtm/klist.py,
    /repo/src/qtm/kpts.py. *)
From Verif Require Import Base.

(** mpi/utils.py lines 11-25, [scatter_len] with an explicit rank. *)
Definition scatter_len (len size rank : Z) : res Z :=
  do _ <- assert_ (0 <=? len);
  do _ <- assert_ (0 <? size);
  do _ <- assert_ ((0 <=? rank) && (rank <? size));
  Ok (len / size + b2z (rank <? len mod size)).

(** mpi/utils.py lines 11-25, [scatter_len] with [grp_rank=None]: the same
    formula evaluated elementwise on [np.arange(grp_size)]. *)
Definition scatter_len_all (len size : Z) : res (list Z) :=
  do _ <- assert_ (0 <=? len);
  do _ <- assert_ (0 <? size);
  Ok (map (fun rank => len / size + b2z (rank <? len mod size)) (zrange 0 size)).

(** mpi/utils.py lines 27-50, [scatter_slice] with an explicit rank.
    A slice is the pair (start, stop). *)
Definition scatter_slice (len size rank : Z) : res (Z * Z) :=
  do _ <- assert_ (0 <=? len);
  do _ <- assert_ (0 <? size);
  do _ <- assert_ ((0 <=? rank) && (rank <? size));
  let start := (len / size) * rank + Z.min rank (len mod size) in
  let stop := start + (len / size + b2z (rank <? len mod size)) in
  Ok (start, stop).

(** What [scatter_slice] can return when the rank is omitted: one slice whose
    bounds are arrays, or the documented tuple of slices. *)
Inductive slice_ret : Type :=
| SliceOfArrays (starts stops : list Z)
| TupleOfSlices (sl : list (Z * Z)).

(** Python's builtin [min(arr, x)] for a NumPy integer array [arr] and an int
    [x]: it evaluates [bool(x < arr)], which raises ValueError unless [arr] has
    exactly one element (an empty array is not reachable: size > 0). *)
Definition builtin_min_array (arr : list Z) (x : Z) : res (list Z) :=
  match arr with
  | [a] => Ok (if x <? a then [x] else [a])
  | _ => Err ValueError
  end.

(** mpi/utils.py lines 27-50, [scatter_slice] with [grp_rank=None].  Line 39
    replaces [grp_rank] by an array *before* the [is None] test of line 42, so
    [all_ranks] stays False and the tuple branch of line 50 is dead. *)
Definition scatter_slice_norank (len size : Z) : res slice_ret :=
  do _ <- assert_ (0 <=? len);
  do _ <- assert_ (0 <? size);
  let ranks := zrange 0 size in
  do m <- builtin_min_array ranks (len mod size);
  let starts := map (fun p => (len / size) * fst p + snd p) (combine ranks m) in
  let stops := map (fun p => snd p + (len / size + b2z (fst p <? len mod size)))
                   (combine ranks starts) in
  Ok (SliceOfArrays starts stops).

(** A k-list: the columns of [k_cryst] with their weights, in order.  The
    coordinate and weight types are left abstract: distribution never looks at
    them. *)
Section KLists.
  Variable K : Type.

  (** kpts.py lines 112-124, [KList.scatter]: argument checks, then
      [self[scatter_slice(...)]] (kpts.py 105-110 for [__getitem__]). *)
  Definition klist_scatter (kpts : list K) (n_kgrp i_kgrp : Z) : res (list K) :=
    if negb (0 <? n_kgrp) then Err TypeError else
    if negb ((0 <=? i_kgrp) && (i_kgrp <? n_kgrp)) then Err TypeError else
    do sl <- scatter_slice (Z.of_nat (length kpts)) n_kgrp i_kgrp;
    Ok (zslice (fst sl) (snd sl) kpts).

  (** Python [l[i::n]]: elements i, i+n, i+2n, ... *)
  Definition stride_indices (i n len : Z) : list Z :=
    filter (fun j => (i <=? j) && ((j - i) mod n =? 0)) (zrange 0 len).
  Definition gather_idx (l : list K) (idx : list Z) : list K :=
    flat_map (fun j => match nth_error l (Z.to_nat j) with Some x => [x] | None => [] end) idx.

  (** klist.py lines 159-185, [klist_distribute]; returns the local k-list and
      the list of its global indices.  [numkgrp], [idxkgrp] come from the
      global communicator object; they satisfy 0 <= idxkgrp < numkgrp. *)
  Definition klist_distribute (kpts : list K) (round_robin : bool) (numkgrp idxkgrp : Z)
    : res (list K * list Z) :=
    let numkpts := Z.of_nat (length kpts) in
    if numkpts <? numkgrp then Err ValueError else
    if round_robin then
      let idx := stride_indices idxkgrp numkgrp numkpts in
      Ok (gather_idx kpts idx, idx)
    else
      let start := (numkpts / numkgrp) * idxkgrp + Z.min idxkgrp (numkpts mod numkgrp) in
      let stop := (numkpts / numkgrp) * (idxkgrp + 1)
                  + Z.min (idxkgrp + 1) (numkpts mod numkgrp) in
      Ok (zslice start stop kpts, zslice start stop (zrange 0 numkpts)).
End KLists.
Arguments klist_scatter {K}.
Arguments klist_distribute {K}.
Arguments gather_idx {K}.
