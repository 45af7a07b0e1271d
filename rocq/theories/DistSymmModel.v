(** Model of the distributed branch of SymmFieldMod.symmetrize.
    Source: /repo/src/qtm/symm/symmetrize_field.py lines 26-30, 122-147,
    /repo/src/qtm/mpi/containers.py lines 90-113 (gather, allgather) and
    /repo/src/qtm/mpi/gspace.py lines 293-335 (gather_g with allgather=True). *)
From Verif Require Import Base SortModel LatModel GIndexModel GSphereModel SymmModel CBase FFTModel DistModel.
Open Scope nat_scope.

(** symmetrize_field.py 128-147 on all ranks of the plane-wave group: [parts] lists, rank
    by rank, the rows (one per member of the field's shape) each rank holds.  Every rank
    obtains the complete rows by Allgatherv (gspace.py 313-320; the same data on all
    ranks, and the same failure for the shape () as in [gather_rows]), symmetrises each
    row, and keeps the entries at its positions [ig_loc]. *)
Definition symmetrize_dist (M : symmod) (junk : nat -> C) (os : list dist) (shape : list nat)
  (parts : list (list (list C))) : res (list (list (list C))) :=
  do rows <- gather_rows shape parts;
  let out := map (fun row => store (length (sm_g M)) (symmetrize M junk (load row))) rows in
  Ok (map (fun o => map (slice (d_ig o)) out) os).
