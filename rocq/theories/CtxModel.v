(** Model of QTMComm as a context manager.
    Source: /repo/src/qtm/mpi/comm.py lines 72-202. *)
From Verif Require Import Base.

(** The attributes that drive the context manager (comm.py 78-143); the parent
    is represented by its existence (a parent is never null, line 112). *)
Record qcomm := MkQComm { q_null : bool; q_has_parent : bool; q_sync : bool }.

(** comm.py lines 72-143, [QTMComm.__init__]: [parent] is None or Some
    (parent is null); [subgroup] is the outcome of the group test of 121-130
    (made only for a non-null communicator). *)
Definition qcomm_init (world_size : Z) (is_null : bool) (parent : option bool)
    (subgroup : bool) (sync : bool) : res qcomm :=
  do p <- (match parent with
           | None => Ok false
           | Some true => Err ValueError
           | Some false => Ok (negb (world_size =? 1))
           end);
  if negb is_null && p && negb subgroup then Err ValueError else
  Ok {| q_null := is_null; q_has_parent := p; q_sync := p && sync |}.

(** What a process does, in order. *)
Inductive event : Type := BarrierSelf | BarrierParent | BodyStep (i : Z).

(** How the [with] body ends: normally, by skip_with_block (lines 170-171), by
    an ordinary exception, or by a BaseException that is not an Exception
    (KeyboardInterrupt, SystemExit). *)
Inductive outcome : Type :=
| Finished | Skipped | Raised (e : exn) | RaisedBase.

(** What the caller of the [with] statement observes: it falls through, an
    [Exception] raised from the original one propagates (179-183), or the
    original BaseException propagates. *)
Inductive observed : Type := Through | Wrapped (e : exn) | BaseProp.

(** comm.py 160-164 [__enter__] and 173-193 [__exit__].  [mpi] is
    QTMComm.mpi4py_installed: Barrier (195-197) is a no-op without it.
    Special methods are looked up on the type, so [__getattribute__] (146-158)
    does not disable them for a null communicator. *)
Definition barrier_self (mpi : bool) (c : qcomm) : list event :=
  if q_null c then [] else if mpi then [BarrierSelf] else [].
Definition barrier_parent (mpi : bool) (c : qcomm) : list event :=
  if q_sync c then (if mpi then [BarrierParent] else []) else [].

Definition with_block (mpi : bool) (c : qcomm) (body : qcomm -> list event * outcome)
  : list event * observed :=
  let pre := barrier_self mpi c in
  let '(tr, o) := body c in
  match o with
  | Raised e => (pre ++ tr, Wrapped e)
  | _ =>
    let post := barrier_self mpi c ++ barrier_parent mpi c in
    (pre ++ tr ++ post,
     match o with Skipped => Through | RaisedBase => BaseProp | _ => Through end)
  end.

(** The idiom used by every caller (e.g. dft/occup/smear.py 85-87):
    [if comm.is_null: comm.skip_with_block()] at the start of the body. *)
Definition guarded (body : list event * outcome) (c : qcomm) : list event * outcome :=
  if q_null c then ([], Skipped) else body.

(** comm.py lines 146-158: calling a method on the instance. *)
Inductive meth : Type := M_skip_with_block | M_other.
Definition call_method (c : qcomm) (m : meth) : res unit :=
  match m with
  | M_skip_with_block => Ok tt
  | M_other => if q_null c then Err AttributeError else Ok tt
  end.
