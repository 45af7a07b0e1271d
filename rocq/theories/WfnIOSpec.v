(** Vocabulary for wavefunction files and overlaps. *)
From Coq Require Import Reals Lra.
From Verif Require Import Base CBase NlocSpec.
Open Scope R_scope.

(** The on-disk layout: re, im, re, im, .. *)
Fixpoint interleaved (zs : list C) : list R :=
  match zs with [] => [] | z :: t => fst z :: snd z :: interleaved t end.

(** Norm of the coefficients c over the vectors G. *)
Definition sum_sq (G : list (Z * Z * Z)) (c : Z * Z * Z -> C) : R :=
  fold_right (fun g s => fst (c g) * fst (c g) + snd (c g) * snd (c g) + s) 0 G.

Definition z3add (a b : Z * Z * Z) : Z * Z * Z :=
  let '(a1, a2, a3) := a in let '(b1, b2, b3) := b in (a1 + b1, a2 + b2, a3 + b3)%Z.
(** Equal on the periodic grid. *)
Definition same_grid_point (sh a b : Z * Z * Z) : Prop :=
  let '(n0, n1, n2) := sh in let '(a1, a2, a3) := a in let '(b1, b2, b3) := b in
  (a1 mod n0 = b1 mod n0 /\ a2 mod n1 = b2 mod n1 /\ a3 mod n2 = b3 mod n2)%Z.
(** All pairs (i, j) of positions. *)
Definition pairs (n m : nat) : list (nat * nat) := list_prod (seq 0 n) (seq 0 m).
