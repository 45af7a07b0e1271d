(** Vocabulary for C104 (no code modelled): which memory a container uses. *)
From Coq Require Import Reals.
From Verif Require Import Base BufferModel DistBufSpec AliasModel.
Import ListNotations.
Local Open Scope nat_scope.

(** The cells of element [ix]. *)
Definition in_cell (b : cont) (ix : list nat) (x : nat) : Prop := cell_of b ix <= x < cell_of b ix + width (cplx b).
Definition uses (b : cont) (x : nat) : Prop := exists ix, inside (cshape b) ix /\ in_cell b ix x.
(** A container in memory: its cells are allocated and no two elements share one. *)
Definition proper (m : mem) (b : cont) : Prop :=
  (forall x, uses b x -> x < next m)
  /\ (forall ix jx x, inside (cshape b) ix -> inside (cshape b) jx -> in_cell b ix x -> in_cell b jx x -> ix = jx).
(** No memory in common. *)
Definition apart (b b' : cont) : Prop := forall x, uses b x -> ~ uses b' x.
(** The same elements in the two states. *)
Definition kept (m m' : mem) (b : cont) : Prop := forall ix, inside (cshape b) ix -> get m' b ix = get m b ix.
(** What an array of this element type can hold of a value. *)
Definition stored (c : bool) (z : complex) : complex := if c then z else (fst z, 0%R).
