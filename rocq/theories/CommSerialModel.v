(** Model of /repo/src/qtm/mpi/comm.py (QTMComm) when mpi4py is not installed: lines 20-37 (stand-in
    constants; IN_PLACE is a text), 72-139 (constructor), 141-153 (null communicators), 192-237
    (Barrier, Incl, Root), 239-262 (Split), 264-353 (collectives).  Arrays are one-dimensional and
    live in a heap; None as a buffer, which MPI allows only on processes other than the root, is not
    modelled. *)
From Verif Require Import Base.
Import ListNotations.
Local Open Scope nat_scope.

Section Serial.
  Context {X : Type}.
  Definition heap := nat -> list X.
  Definition set (h : heap) (a : nat) (l : list X) : heap := fun b => if b =? a then l else h b.
  (** 40-43: [BufSpec] is an array, [BufSpecV] a tuple of an array and the counts. *)
  Inductive buf := InPlace | Arr (a : nat) | Tup (a : nat).
  (** [a[:] = v]: equal lengths, or a single value for all entries. *)
  Definition assign (h : heap) (a : nat) (v : list X) : res heap :=
    if length v =? length (h a) then Ok (set h a v)
    else match v with [x] => Ok (set h a (repeat x (length (h a)))) | _ => Err ValueError end.
  (** [if b != IN_PLACE:] with IN_PLACE = "IN_PLACE".  NumPy from 1.25 on compares an array with a text
      entry by entry ([elementwise]); the truth value of an array of more than one entry is a ValueError
      (an empty one counts as false before NumPy 2.2).  Older versions return True. *)
  Definition not_in_place (elementwise : bool) (h : heap) (b : buf) : res bool :=
    match b with
    | InPlace => Ok false
    | Tup _ => Ok true
    | Arr a => if elementwise then match length (h a) with O => Ok false | 1 => Ok true | _ => Err ValueError end else Ok true
    end.
  Definition inner_ (b : buf) : res nat := match b with InPlace => Err TypeError | Arr a | Tup a => Ok a end.
  (** 299-302, 309-312, 319-322, 329-332 *)
  Definition copy_buf (h : heap) (send recv : buf) : res heap :=
    do r <- inner_ recv; do s <- inner_ send; assign h r (h s).
  (** 289-292 *)
  Definition ser_Bcast (h : heap) (b : buf) : res heap := Ok h.
  (** 294-302, [Scatter]; 304-312, [Scatterv] is the same text *)
  Definition ser_Scatter (elementwise : bool) (h : heap) (send recv : buf) : res heap :=
    do c <- not_in_place elementwise h recv; if c then copy_buf h send recv else Ok h.
  (** 314-322, [Gather]; 324-332, [Gatherv] is the same text *)
  Definition ser_Gather (elementwise : bool) (h : heap) (send recv : buf) : res heap :=
    do c <- not_in_place elementwise h send; if c then copy_buf h send recv else Ok h.
  (** 334-339, [Allgather]: no tuples *)
  Definition ser_Allgather (elementwise : bool) (h : heap) (send recv : buf) : res heap :=
    do c <- not_in_place elementwise h send;
    if c then match recv, send with Arr r, Arr s => assign h r (h s) | Arr _, _ => Err ValueError | _, _ => Err TypeError end
    else Ok h.
  (** 341-346, [Allgatherv]: the receive buffer must be a tuple *)
  Definition ser_Allgatherv (elementwise : bool) (h : heap) (send recv : buf) : res heap :=
    do c <- not_in_place elementwise h send;
    if c then match recv, send with Tup r, Arr s => assign h r (h s) | Tup _, _ => Err ValueError | _, _ => Err TypeError end
    else Ok h.
  (** 348-353, [Allreduce]: nothing at all *)
  Definition ser_Allreduce (h : heap) (send recv : buf) : res heap := Ok h.
End Serial.

(** 264-287: the methods on Python objects. *)
Definition ser_bcast {O} (o : O) : O := o.
Definition ser_scatter {O} (o : O) : O := o.
Definition ser_allgather {O} (o : O) : list O := [o].
Definition ser_allreduce {O} (o : O) : O := o.

(** A communicator object: null or not (72-139: size 0 for a null one, else size 1 and rank 0; a parent
    is dropped because the world has one process). *)
Record qcomm := MkComm { q_null : bool; q_size : nat; q_rank : nat; q_parent : bool }.
Definition mk_comm (null : bool) : qcomm := MkComm null (if null then 0 else 1) 0 false.
(** 141-153: every method of a null communicator is refused. *)
Definition call {Y} (c : qcomm) (f : Y) : res Y := if q_null c then Err AttributeError else Ok f.
(** 203-230 *)
Definition ser_Incl (c : qcomm) (ranks : list nat) : res qcomm :=
  if q_size c =? 1 then (if list_eq_dec Nat.eq_dec ranks [0] then Ok c else Err ValueError) else Err AttributeError.
(** 232-237 *)
Definition ser_Root (c : qcomm) : qcomm := mk_comm (negb (q_rank c =? 0)).
(** 239-262 *)
Definition ser_Split (c : qcomm) : qcomm := mk_comm true.
