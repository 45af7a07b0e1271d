(** Vocabulary for C103 (no code modelled). *)
From Coq Require Import List Arith.
Import ListNotations.

(** The q-points other than the special one, in order; they are the entries of an epsmat file. *)
Definition others (q0 numq : nat) : list nat := filter (fun q => negb (Nat.eqb q q0)) (seq 0 numq).
(** Position of q-point [q] in such a file. *)
Definition position (q0 q : nat) : nat := if Nat.ltb q q0 then q else q - 1.
(** Entry of the reference file the driver looks at: [q - 1], and the last entry for the first q-point. *)
Definition looked_at {A} (q0 : nat) (refs0 refs : list A) (q : nat) : option A :=
  if Nat.eqb q q0 then nth_error refs0 0
  else match q with O => match rev refs with [] => None | r :: _ => Some r end | S q' => nth_error refs q' end.
(** NumPy subtracts a d x d and an n x n array. *)
Definition shapes_fit (d n : nat) : Prop := d = n \/ d = 1 \/ n = 1.
