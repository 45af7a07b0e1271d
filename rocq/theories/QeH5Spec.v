(** Vocabulary of the statements about QE's HDF5 files (C116); independent of the model's
    sorting and loading functions. *)
From Coq Require Import Reals Sorted String.
From Verif Require Import Base LatModel WfnIOModel CBase.
Local Open Scope Z_scope.

(** Lexicographic order of integer triples. *)
Definition lex_le (a b : z3) : Prop :=
  let '(a1, a2, a3) := a in let '(b1, b2, b3) := b in
  a1 < b1 \/ (a1 = b1 /\ (a2 < b2 \/ (a2 = b2 /\ a3 <= b3))).
Definition opposite (a : z3) : z3 := let '(a1, a2, a3) := a in (- a1, - a2, - a3).
Definition below_100000 (a : z3) : Prop :=
  let '(a1, a2, a3) := a in Z.abs a1 < 100000 /\ Z.abs a2 < 100000 /\ Z.abs a3 < 100000.

Local Open Scope R_scope.
(** NumPy's closeness of two numbers and of two points. *)
Definition near (x y : R) : Prop := Rabs (x - y) <= / 10 ^ 8 + / 10 ^ 5 * Rabs y.
Definition near3 (a b : rvec) : Prop := near (vx a) (vx b) /\ near (vy a) (vy b) /\ near (vz a) (vz b).
