(** Vocabulary for C106 (no code modelled). *)
From Verif Require Import Base LatModel AtomsInpModel.
Import ListNotations.
Local Open Scope R_scope.

(** A k-point given as three numbers with a weight. *)
Definition kpt3 (p : R * R * R * R) : pyarg * R := let '(x, y, z, w) := p in (Pt [x; y; z], w).
Definition xyz (p : R * R * R * R) : rvec := let '(x, y, z, _) := p in V x y z.
Definition wt (p : R * R * R * R) : R := let '(_, _, _, w) := p in w.
(** The point of reciprocal space with crystal coordinates [c] for axes b1 b2 b3. *)
Definition in_axes (b1 b2 b3 c : rvec) : rvec :=
  V (vx c * vx b1 + vy c * vx b2 + vz c * vx b3) (vx c * vy b1 + vy c * vy b2 + vz c * vy b3)
    (vx c * vz b1 + vy c * vz b2 + vz c * vz b3).
Fixpoint total (l : list R) : R := match l with [] => 0 | x :: t => x + total t end.
(** Cartesian squared length. *)
Definition len2v (v : rvec) : R := vx v * vx v + vy v * vy v + vz v * vz v.
(** The three ways of giving the list, and the point of reciprocal space three numbers stand for. *)
Inductive kform := KCart | KCryst | KTpiba.
Definition kplace (f : kform) (unit_ : R) (b1 b2 b3 v : rvec) : rvec :=
  match f with
  | KCart => v
  | KTpiba => V (unit_ * vx v) (unit_ * vy v) (unit_ * vz v)
  | KCryst => in_axes b1 b2 b3 v
  end.
