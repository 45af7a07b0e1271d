(** C50: communicator context managers. *)
From Verif Require Import Base CtxModel CtxProofs.

(** A member process: barrier, the body's own steps once and in order, then (if
    the body did not raise an ordinary exception) barrier and, if requested,
    the parent's barrier; an ordinary exception is re-raised, never swallowed. *)
Theorem C50_member_trace : forall c steps o mpi,
  q_null c = false ->
  with_block mpi c (guarded (body_steps steps, o)) =
  let bar := if mpi then [BarrierSelf] else [] in
  match o with
  | Raised e => (bar ++ body_steps steps, Wrapped e)
  | RaisedBase => (bar ++ body_steps steps ++ bar ++ barrier_parent mpi c, BaseProp)
  | _ => (bar ++ body_steps steps ++ bar ++ barrier_parent mpi c, Through)
  end.
Proof. exact with_member. Qed.
Print Assumptions C50_member_trace.

(** A non-member runs none of the body, never sees an error, and only takes part
    in the parent's barrier. *)
Theorem C50_nonmember_skips : forall c body mpi,
  q_null c = true ->
  with_block mpi c (guarded body) = (barrier_parent mpi c, Through).
Proof. exact with_nonmember. Qed.
Print Assumptions C50_nonmember_skips.

(** Members and non-members call the parent's barrier equally often, so ranks
    of the parent stay in step whenever no member raised. *)
Theorem C50_parent_barrier_agrees : forall mpi sync steps o c,
  q_sync c = sync -> (forall e, o <> Raised e) ->
  count_parent (fst (with_block mpi c (guarded (body_steps steps, o))))
  = (if sync && mpi then 1%nat else 0%nat).
Proof. exact with_parent_barriers. Qed.
Print Assumptions C50_parent_barrier_agrees.

(** For any body whatsoever: exceptions propagate, and the statement falls
    through exactly when the body finished or skipped. *)
Theorem C50_exceptions_propagate : forall mpi c body tr e,
  body c = (tr, Raised e) -> snd (with_block mpi c body) = Wrapped e.
Proof. exact with_exception_any. Qed.
Print Assumptions C50_exceptions_propagate.

Theorem C50_falls_through_iff : forall mpi c body,
  snd (with_block mpi c body) = Through <-> (snd (body c) = Finished \/ snd (body c) = Skipped).
Proof. exact with_through_iff. Qed.
Print Assumptions C50_falls_through_iff.

(** Construction: the parent barrier is only ever called on an existing parent,
    and null communicators refuse every method except skip_with_block. *)
Theorem C50_constructor_invariant : forall ws n p sg sy c,
  qcomm_init ws n p sg sy = Ok c ->
  q_null c = n /\ (q_sync c = true -> q_has_parent c = true /\ sy = true) /\
  (q_has_parent c = true -> p = Some false /\ ws <> 1 /\ (n = false -> sg = true)).
Proof. exact qcomm_init_inv. Qed.
Print Assumptions C50_constructor_invariant.

Theorem C50_null_methods_disabled : forall c m,
  call_method c m = Err AttributeError <-> (q_null c = true /\ m = M_other).
Proof. exact call_method_spec. Qed.
Print Assumptions C50_null_methods_disabled.

Example C50_witness :
  with_block true (MkQComm false true true) (guarded (body_steps [1; 2], Finished))
    = ([BarrierSelf; BodyStep 1; BodyStep 2; BarrierSelf; BarrierParent], Through)
  /\ with_block true (MkQComm true true true) (guarded (body_steps [1; 2], Finished))
    = ([BarrierParent], Through)
  /\ with_block true (MkQComm false true true) (guarded (body_steps [1], Raised IndexError))
    = ([BarrierSelf; BodyStep 1], Wrapped IndexError)
  /\ qcomm_init 4 true (Some false) false true = Ok (MkQComm true true true).
Proof. vm_compute. repeat split; reflexivity. Qed.
