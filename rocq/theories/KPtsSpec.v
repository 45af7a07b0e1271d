(** Specification vocabulary for k-point meshes, independent of the generator. *)
From Verif Require Import Base LatModel.
Open Scope R_scope.

(** Equality of k-points up to a reciprocal lattice vector. *)
Definition equivk (k k' : rvec) : Prop :=
  exists a b c : Z, k' = V (vx k + IZR a) (vy k + IZR b) (vz k + IZR c).
Definition negk (k : rvec) : rvec := V (- vx k) (- vy k) (- vz k).

(** The full mesh: the points (i_a + s_a/2)/n_a with 0 <= i_a < n_a. *)
Definition mesh_point (n1 n2 n3 : Z) (s1 s2 s3 : bool) (k : rvec) : Prop :=
  exists i j l : Z, (0 <= i < n1 /\ 0 <= j < n2 /\ 0 <= l < n3)%Z
    /\ k = V ((IZR i + (if s1 then 1 else 0) / 2) / IZR n1)
             ((IZR j + (if s2 then 1 else 0) / 2) / IZR n2)
             ((IZR l + (if s3 then 1 else 0) / 2) / IZR n3).

(** Weighted zone average of [f] on a k-list. *)
Definition zone_avg (l : list (rvec * R)) (f : rvec -> R) : R :=
  fold_right Rplus 0 (map (fun kw => snd kw * f (fst kw)) l).

(** The full mesh as a list, and its unweighted average. *)
Definition full_mesh (n1 n2 n3 : Z) (s1 s2 s3 : bool) : list rvec :=
  flat_map (fun i => flat_map (fun j => map (fun l =>
     V ((IZR i + (if s1 then 1 else 0) / 2) / IZR n1)
       ((IZR j + (if s2 then 1 else 0) / 2) / IZR n2)
       ((IZR l + (if s3 then 1 else 0) / 2) / IZR n3)) (zrange 0 n3)) (zrange 0 n2)) (zrange 0 n1).
Definition mesh_avg (n1 n2 n3 : Z) (s1 s2 s3 : bool) (f : rvec -> R) : R :=
  fold_right Rplus 0 (map f (full_mesh n1 n2 n3 s1 s2 s3)) / IZR (n1 * n2 * n3).
