(** Model of lattice.py 233-239, [Lattice.__eq__], over exact real numbers.  [!=] is Python's default: the
    negation.  Both operands are lattices (anything else has another type: False). *)
From Coq Require Import Reals.
From Verif Require Import Base LatModel.
Local Open Scope R_scope.

Inductive lkind := KLattice | KReal | KReci.
Definition kind_eqb (a b : lkind) : bool :=
  match a, b with KLattice, KLattice | KReal, KReal | KReci, KReci => true | _, _ => false end.
(** An instance: its class, and the ulattice of LatModel (alat, tpiba; unused for a plain Lattice). *)
Record lobj := LObj { l_kind : lkind; l_u : ulattice }.
(** np.linalg.norm of a 3x3 array: the root of the sum of the squares of the nine entries. *)
Definition fro (P : mat) : R := sqrt (vdot (c1 P) (c1 P) + vdot (c2 P) (c2 P) + vdot (c3 P) (c3 P)).
Definition msub (P Q : mat) : mat := Mat (vsub (c1 P) (c1 Q)) (vsub (c2 P) (c2 Q)) (vsub (c3 P) (c3 Q)).
Definition leb_R (x y : R) : bool := if Rle_dec x y then true else false.
(** lattice.py 233-239 *)
Definition lattice_eq (a b : lobj) : bool :=
  if kind_eqb (l_kind a) (l_kind b)
  then leb_R (fro (msub (primvec (u_lat (l_u a))) (primvec (u_lat (l_u b))))) (1 / 100000)
  else false.
Definition lattice_ne (a b : lobj) : bool := negb (lattice_eq a b).
