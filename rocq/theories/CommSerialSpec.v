(** Vocabulary for C101 (no code modelled): what the MPI collectives do in a group of one process.
    Buffers of equal length; [h] gives the contents of each array. *)
From Coq Require Import List.
Import ListNotations.

Section One.
  Context {X : Type}.
  (** After the call the receiving array holds what the (only) process sends, all others are unchanged. *)
  Definition received (h h' : nat -> list X) (from to : nat) : Prop :=
    h' to = h from /\ forall b, b <> to -> h' b = h b.
  Definition unchanged (h h' : nat -> list X) : Prop := forall b, h' b = h b.
End One.
(** Python objects as far as scatter needs them: sequences of objects, and others. *)
Inductive obj := Other (n : nat) | Seq (l : list obj).
(** scatter hands out the entries of a sequence with one entry per process ([None]: refused). *)
Definition scattered (size rank : nat) (o : obj) : option obj :=
  match o with Seq l => if Nat.eqb (length l) size then nth_error l rank else None | Other _ => None end.
