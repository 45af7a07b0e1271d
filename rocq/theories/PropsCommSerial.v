(** C101: QTMComm without mpi4py, compared with MPI in a group of one process. *)
From Verif Require Import Base CommSerialModel CommSerialSpec.
Import ListNotations.
Local Open Scope nat_scope.

Lemma assign_same {X} (h : nat -> list X) a s : length (h s) = length (h a) -> assign h a (h s) = Ok (set h a (h s)).
Proof. intros H. unfold assign. now rewrite H, Nat.eqb_refl. Qed.
Lemma set_received {X} (h : nat -> list X) r s : received h (set h r (h s)) s r.
Proof.
  split; unfold set; [now rewrite Nat.eqb_refl|]. intros b Hb. destruct (Nat.eqb_spec b r); [now subst|reflexivity].
Qed.
(** The buffer forms the API documents: an array, or for the v-variants a tuple of array and counts. *)
Definition names (b : buf) (a : nat) : Prop := b = Arr a \/ b = Tup a.

(** In place (the only form the package uses on arrays of several entries), every collective leaves all
    arrays as they are, and objects come back as they are, gathered into a list of one: as in a group of
    one process. *)
Theorem C101_in_place : forall X (e : bool) (h : nat -> list X) b,
  (exists h', ser_Bcast h b = Ok h' /\ unchanged h h')
  /\ (exists h', ser_Scatter e h b InPlace = Ok h' /\ unchanged h h')
  /\ (exists h', ser_Gather e h InPlace b = Ok h' /\ unchanged h h')
  /\ (exists h', ser_Allgather e h InPlace b = Ok h' /\ unchanged h h')
  /\ (exists h', ser_Allgatherv e h InPlace b = Ok h' /\ unchanged h h')
  /\ (exists h', ser_Allreduce h InPlace b = Ok h' /\ unchanged h h')
  /\ (forall O (o : O), ser_bcast o = o /\ ser_allreduce o = o /\ ser_allgather o = [o]).
Proof. intros X e h b. repeat split; try (eexists; split; [reflexivity|intros ?; reflexivity]). Qed.
Print Assumptions C101_in_place.

(** Between buffers of equal length, the receiving array gets the contents of the sending one: always
    for one entry, for tuples, and with NumPy before 1.25. *)
Theorem C101_copies : forall X (e : bool) (h : nat -> list X) send recv s r,
  names send s -> names recv r -> length (h s) = length (h r) ->
  (length (h s) = 1 \/ e = false \/ recv = Tup r -> exists h', ser_Scatter e h send recv = Ok h' /\ received h h' s r)
  /\ (length (h s) = 1 \/ e = false \/ send = Tup s -> exists h', ser_Gather e h send recv = Ok h' /\ received h h' s r)
  /\ (length (h s) = 1 \/ e = false -> send = Arr s -> recv = Arr r -> exists h', ser_Allgather e h send recv = Ok h' /\ received h h' s r)
  /\ (length (h s) = 1 \/ e = false -> send = Arr s -> recv = Tup r -> exists h', ser_Allgatherv e h send recv = Ok h' /\ received h h' s r).
Proof.
  intros X e h send recv s r Hs Hr L.
  assert (CP : copy_buf h send recv = Ok (set h r (h s))).
  { unfold copy_buf. destruct Hs as [-> | ->], Hr as [-> | ->]; cbn [inner_ bind]; now apply assign_same. }
  assert (NA : forall a, length (h a) = 1 \/ e = false -> not_in_place e h (Arr a) = Ok true).
  { intros a [H| ->]; [|reflexivity]. cbn. destruct e; [|reflexivity]. now rewrite H. }
  split; [|split; [|split]].
  - intros H. exists (set h r (h s)). split; [|apply set_received]. unfold ser_Scatter.
    destruct Hr as [-> | ->]; [|cbn [not_in_place bind]; exact CP].
    rewrite NA; [cbn [bind]; exact CP|]. destruct H as [H|[H|H]]; [left; congruence|now right|discriminate].
  - intros H. exists (set h r (h s)). split; [|apply set_received]. unfold ser_Gather.
    destruct Hs as [-> | ->]; [|cbn [not_in_place bind]; exact CP].
    rewrite NA; [cbn [bind]; exact CP|]. destruct H as [H|[H|H]]; [now left|now right|discriminate].
  - intros H -> ->. exists (set h r (h s)). split; [|apply set_received]. unfold ser_Allgather. rewrite NA by exact H. cbn [bind]. now apply assign_same.
  - intros H -> ->. exists (set h r (h s)). split; [|apply set_received]. unfold ser_Allgatherv. rewrite NA by exact H. cbn [bind]. now apply assign_same.
Qed.
Print Assumptions C101_copies.

Fixpoint depth (o : obj) : nat := match o with Other _ => 0 | Seq l => Datatypes.S (fold_right (fun x n => max (depth x) n) 0 l) end.
Lemma seq_neq x : Seq [x] <> x.
Proof. intros H. assert (D : depth (Seq [x]) = depth x) by now f_equal. cbn in D. lia. Qed.

(** Where it differs from a group of one process: with NumPy from 1.25 on, a plain array of more than
    one entry where IN_PLACE is looked for raises ValueError; [Allreduce] out of place never writes the
    receiving array; [scatter] returns the whole sequence, never what MPI would return; [Split] returns a null communicator, whose methods all raise AttributeError. *)
Theorem C101_differs_refuted : forall X (h : nat -> list X) b s r,
  (2 <= length (h r) -> ser_Scatter true h b (Arr r) = Err ValueError)
  /\ (2 <= length (h s) -> ser_Gather true h (Arr s) b = Err ValueError /\ ser_Allgather true h (Arr s) b = Err ValueError
                           /\ ser_Allgatherv true h (Arr s) b = Err ValueError)
  /\ (h s <> h r -> forall h', ser_Allreduce h (Arr s) (Arr r) = Ok h' -> ~ received h h' s r)
  /\ (forall o : obj, Some (ser_scatter o) <> scattered 1 0 o)
  /\ (forall c Y (f : Y), call (ser_Split c) f = Err AttributeError).
Proof.
  intros X h b s r. split; [|split; [|split; [|split]]].
  - intros H. unfold ser_Scatter. cbn. destruct (length (h r)) as [|[|n]]; [lia|lia|reflexivity].
  - intros H. unfold ser_Gather, ser_Allgather, ser_Allgatherv. cbn. destruct (length (h s)) as [|[|n]]; [lia|lia|]. now repeat split.
  - intros N h' E (R1 & _). injection E as <-. now apply N.
  - intros [n|[|x [|y l]]]; unfold ser_scatter; cbn; try discriminate. intros H. injection H as H. now apply (seq_neq x).
  - reflexivity.
Qed.
Print Assumptions C101_differs_refuted.

(** Groups: [Incl] accepts exactly the list [0] and returns the same communicator, [Root] gives a
    usable communicator of one process, rank 0. *)
Theorem C101_groups : forall c, c = mk_comm false ->
  (forall ranks, (exists c', ser_Incl c ranks = Ok c') <-> ranks = [0]) /\ ser_Incl c [0] = Ok c
  /\ (forall ranks, ranks <> [0] -> ser_Incl c ranks = Err ValueError)
  /\ ser_Root c = c /\ q_size c = 1 /\ q_rank c = 0 /\ (forall Y (f : Y), call c f = Ok f)
  /\ q_size (ser_Split c) = 0.
Proof.
  intros c ->. repeat split; try reflexivity.
  - intros (c' & H). unfold ser_Incl in H. cbn in H. destruct (list_eq_dec Nat.eq_dec ranks [0]); [assumption|discriminate].
  - intros ->. eexists. reflexivity.
  - intros ranks H. unfold ser_Incl. cbn. destruct (list_eq_dec Nat.eq_dec ranks [0]); [easy|reflexivity].
Qed.
Print Assumptions C101_groups.

(** Three entries sent through a tuple are received; as a plain array they are refused. *)
Example C101_instance :
  let h : nat -> list nat := fun a => if a =? 0 then [1; 2; 3] else [0; 0; 0] in
  (exists h', ser_Gather true h (Tup 0) (Tup 1) = Ok h' /\ h' 1 = [1; 2; 3]) /\ ser_Gather true h (Arr 0) (Tup 1) = Err ValueError.
Proof. split; [eexists; split; reflexivity|reflexivity]. Qed.
