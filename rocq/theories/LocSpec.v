(** Specification vocabulary for the local pseudopotential (no code modelled). *)
From Verif Require Import Base GIndexModel LatModel GSphereModel PotModel PotSpec LocModel CBase.
Open Scope R_scope.

(** Composite Simpson sum over [m] double intervals of unit width: the points 0 .. 2m. *)
Definition composite_simpson (m : nat) (y : nat -> R) : R :=
  rsum m (fun j => (y (2 * j)%nat + 4 * y (2 * j + 1)%nat + y (2 * j + 2)%nat) / 3).

(** The spherical Bessel function j_0(t) = sin t / t with j_0(0) = 1. *)
Definition is_j0 (j0 : R -> R) : Prop := j0 0 = 1 /\ forall t, t <> 0 -> j0 t * t = sin t.

(** Structure factor: sum over atoms of e^{-2 pi i G.r}. *)
Definition sfac (pos : list rvec) (g : vec3) : C :=
  fold_right (fun r acc => cis (- (2 * PI * vdot (gvec g) r)) + acc)%C (RtoC 0) pos.

(** Length of the k-th G-vector. *)
Definition glen (G : gsp) (k : nat) : R := sqrt (sq_length G k).

(** Opposite G-vector. *)
Definition vopp3 (g : vec3) : vec3 := let '(a, b, c) := g in (- a, - b, - c)%Z.

(** The set of G-vectors of a space is closed under negation. *)
Definition symmetric (G : gsp) : Prop := forall g, In g (gs_cryst (gp_gs G)) -> In (vopp3 g) (gs_cryst (gp_gs G)).

(** Integral over the unit cell of a function given on the grid. *)
Definition cell_integral (G : gsp) (f : nat -> nat -> nat -> C) : C := (over_grid G f * RtoC (gp_dv G))%C.
