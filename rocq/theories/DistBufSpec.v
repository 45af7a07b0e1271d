(** Vocabulary for the distributed containers: which per-rank arrays are the pieces of a global
    array whose last axis is divided among the ranks. *)
From Verif Require Import Base BufferModel.
Open Scope nat_scope.

Definition sum_of (counts : list nat) : nat := fold_right Nat.add 0 counts.
(** First basis element of rank [r]. *)
Definition first_of (counts : list nat) (r : nat) : nat := sum_of (firstn r counts).
(** A multi-index inside a shape. *)
Definition inside (sh js : list nat) : Prop := Forall2 (fun j n => j < n) js sh.
(** Two arrays with the same shape and entries. *)
Definition same_array {T} (a b : nd T) : Prop :=
  shape a = shape b /\ forall js, inside (shape a) js -> at_ a js = at_ b js.
(** [l] is the piece of the global array [g] that belongs to rank [r]. *)
Definition piece {T} (counts : list nat) (r : nat) (g l : nd T) : Prop :=
  exists sh, shape g = sh ++ [sum_of counts] /\ shape l = sh ++ [nth r counts 0] /\
    forall js j, inside sh js -> j < nth r counts 0 ->
      at_ l (js ++ [j]) = at_ g (js ++ [first_of counts r + j]).
(** The containers [bs], one per rank, are the pieces of the container [g] of class [t]. *)
Definition pieces {T} (counts : list nat) (t : nat) (g : nd T) (bs : list (buffer T)) : Prop :=
  length bs = length counts /\
  forall r b, nth_error bs r = Some b -> typ b = t /\ piece counts r g (data b).
