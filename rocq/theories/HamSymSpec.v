(** Vocabulary for C108 (no code modelled): plane-wave coefficients by G-vector, mirrored and shifted vectors. *)
From Coq Require Import Reals.
From Verif Require Import Base GIndexModel LatModel GSphereModel HamSymModel CBase.
Local Open Scope R_scope.

Definition zneg (g : vec3) : vec3 := let '(a, b, c) := g in (- a, - b, - c)%Z.
Definition zplus (g h : vec3) : vec3 := let '(a, b, c) := g in let '(x, y, z) := h in (a + x, b + y, c + z)%Z.
Definition vneg (v : rvec) : rvec := V (- vx v) (- vy v) (- vz v).
Definition vec3_dec (g h : vec3) : {g = h} + {g <> h}.
Proof. repeat decide equality. Defined.

(** The coefficient of the plane wave [g] in the array [psi] over the list [gl] of G-vectors. *)
Fixpoint coef (gl : list vec3) (psi : list C) (g : vec3) : C :=
  match gl, psi with
  | a :: gl', c :: psi' => if vec3_dec a g then c else coef gl' psi' g
  | _, _ => RtoC 0
  end.
(** Length of the vector with these crystal coordinates. *)
Definition length_of (L : lattice) (w : rvec) : R :=
  sqrt (vdot (mv (primvec L) w) (mv (primvec L) w)).
(** No k+G is so short (below 1e-7) that its direction is discarded, unless it is zero. *)
Definition directions_known (L : lattice) (k : rvec) (gl : list vec3) : Prop :=
  forall g, In g gl -> length_of L (vadd (gvec g) k) = 0 \/ / 10 ^ 7 < length_of L (vadd (gvec g) k).
(** The generator was made from a pseudopotential for the given density cutoff. *)
Definition made_from_file (ecut : R) (N : nonloc) : Prop := exists P pos, nonloc_init P pos ecut = Ok N.
(** The atoms of the generator moved by [d]. *)
Definition moved (d : rvec) (N : nonloc) : nonloc :=
  MkNonloc (nl_l N) (nl_dij N) (map (fun tau => vadd tau d) (nl_pos N)) (nl_nq N) (nl_tab N).
(** The potential moved by (a, b, c) grid points. *)
Definition moved_potential (nx ny nz a b c : nat) (v v' : list C) : Prop :=
  forall x y z, (x < nx)%nat -> (y < ny)%nat -> (z < nz)%nat ->
    nth ((((x + a) mod nx) * ny + (y + b) mod ny) * nz + (z + c) mod nz) v' (RtoC 0) = nth ((x * ny + y) * nz + z) v (RtoC 0).
(** [E] is an energy level of the operator [H] on coefficient arrays over [gl]. *)
Definition is_level (gl : list vec3) (H : list C -> list C) (E : R) : Prop :=
  exists psi, length psi = length gl /\ (exists g, In g gl /\ coef gl psi g <> RtoC 0) /\
    forall g, In g gl -> coef gl (H psi) g = (RtoC E * coef gl psi g)%C.
