From Verif Require Import Base CtxModel.

Definition own_events (l : list event) : list Z :=
  flat_map (fun e => match e with BodyStep i => [i] | _ => [] end) l.
Definition body_steps (l : list Z) : list event := map BodyStep l.
Definition count_parent (l : list event) : nat :=
  length (filter (fun e => match e with BarrierParent => true | _ => false end) l).

Lemma with_member c steps o mpi :
  q_null c = false ->
  with_block mpi c (guarded (body_steps steps, o)) =
  let bar := if mpi then [BarrierSelf] else [] in
  match o with
  | Raised e => (bar ++ body_steps steps, Wrapped e)
  | RaisedBase => (bar ++ body_steps steps ++ bar ++ barrier_parent mpi c, BaseProp)
  | _ => (bar ++ body_steps steps ++ bar ++ barrier_parent mpi c, Through)
  end.
Proof.
  intros H. unfold with_block, guarded, barrier_self. rewrite H. destruct o; reflexivity.
Qed.

Lemma with_nonmember c body mpi :
  q_null c = true ->
  with_block mpi c (guarded body) = (barrier_parent mpi c, Through).
Proof. intros H. unfold with_block, guarded, barrier_self. now rewrite H. Qed.

Lemma count_body steps : count_parent (body_steps steps) = 0%nat.
Proof. unfold count_parent. induction steps as [|x l IH]; [reflexivity|exact IH]. Qed.

Lemma count_app l1 l2 : count_parent (l1 ++ l2) = (count_parent l1 + count_parent l2)%nat.
Proof. unfold count_parent. now rewrite filter_app, app_length. Qed.

(** All processes of the parent group (members and non-members, same sync flag)
    call the parent barrier equally often. *)
Lemma with_parent_barriers mpi sync steps o c :
  q_sync c = sync -> (forall e, o <> Raised e) ->
  count_parent (fst (with_block mpi c (guarded (body_steps steps, o))))
  = (if sync && mpi then 1%nat else 0%nat).
Proof.
  intros <- Ho. destruct (q_null c) eqn:E.
  - rewrite with_nonmember by exact E. cbn [fst]. unfold barrier_parent. destruct (q_sync c), mpi; reflexivity.
  - rewrite with_member by exact E.
    assert (G : count_parent ((if mpi then [BarrierSelf] else []) ++ body_steps steps ++
                 (if mpi then [BarrierSelf] else []) ++ barrier_parent mpi c)
            = (if q_sync c && mpi then 1%nat else 0%nat)).
    { rewrite !count_app, count_body. unfold barrier_parent. destruct (q_sync c), mpi; reflexivity. }
    destruct o as [| |e|]; cbn [fst]; try exact G. exfalso. exact (Ho e eq_refl).
Qed.

Lemma with_exception_any mpi c body tr e :
  body c = (tr, Raised e) -> snd (with_block mpi c body) = Wrapped e.
Proof. intros H. unfold with_block. rewrite H. reflexivity. Qed.

Lemma with_through_iff mpi c body :
  snd (with_block mpi c body) = Through <-> (snd (body c) = Finished \/ snd (body c) = Skipped).
Proof.
  unfold with_block. destruct (body c) as [tr o]. cbn [snd].
  destruct o; cbn; intuition discriminate.
Qed.

Lemma qcomm_init_inv ws n p sg sy c :
  qcomm_init ws n p sg sy = Ok c ->
  q_null c = n /\ (q_sync c = true -> q_has_parent c = true /\ sy = true) /\
  (q_has_parent c = true -> p = Some false /\ ws <> 1 /\ (n = false -> sg = true)).
Proof.
  unfold qcomm_init. destruct p as [[|]|]; cbn [bind]; try discriminate.
  - destruct n, (Z.eqb_spec ws 1), sg, sy; cbn; try discriminate; intros [= <-]; cbn; intuition (auto; discriminate).
  - destruct n, sg; cbn; intros [= <-]; cbn; intuition (auto; discriminate).
Qed.

Lemma call_method_spec c m :
  call_method c m = Err AttributeError <-> (q_null c = true /\ m = M_other).
Proof. destruct m; cbn; destruct (q_null c); intuition discriminate. Qed.
