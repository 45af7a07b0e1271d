(** Common vocabulary of the model: Python exceptions as values, Python's
    [range], slices and list helpers.  Nothing here is specific to one source
    file of /repo; each definition says which Python construct it stands for. *)
From Coq Require Export List ZArith Lia Bool Permutation Sorted.
From Coq Require Export ZifyBool ZifyNat.
Export ListNotations.
Ltac Zify.zify_post_hook ::= Z.div_mod_to_equations.
Open Scope Z_scope.

(** Python exceptions raised by the modelled code, as values. *)
Inductive exn : Type :=
| AssertionError | ValueError | TypeError | IndexError | AttributeError
| KeyError | ImportError | ZeroDivisionError | NotImplementedError | RuntimeError | StopIteration.

(** Result of a Python call: a value or a raised exception. *)
Inductive res (A : Type) : Type :=
| Ok (a : A)
| Err (e : exn).
Arguments Ok {A} a.
Arguments Err {A} e.

Definition bind {A B} (x : res A) (f : A -> res B) : res B :=
  match x with Ok a => f a | Err e => Err e end.
Definition rmap {A B} (f : A -> B) (x : res A) : res B :=
  match x with Ok a => Ok (f a) | Err e => Err e end.
Definition is_ok {A} (x : res A) : bool := match x with Ok _ => true | Err _ => false end.
Notation "'do' x <- e ; k" := (bind e (fun x => k)) (at level 200, x name, e at level 100, k at level 200).

(** Python [assert b]. *)
Definition assert_ (b : bool) : res unit := if b then Ok tt else Err AssertionError.

(** Python's implicit bool -> int conversion. *)
Definition b2z (b : bool) : Z := if b then 1 else 0.

(** Python [range(a, b)] / [np.arange(a, b)] with unit step. *)
Definition zrange (a b : Z) : list Z :=
  map (fun i => a + Z.of_nat i) (seq 0 (Z.to_nat (b - a))).

(** Python [l[a:b]] for 0 <= a, 0 <= b (no negative indices occur in the
    modelled code; the upper bound may exceed the length, as in Python). *)
Definition zslice {A} (a b : Z) (l : list A) : list A :=
  firstn (Z.to_nat (b - a)) (skipn (Z.to_nat a) l).

(** Python [l[i]] for an in-range non-negative [i]. *)
Definition znth {A} (l : list A) (i : Z) : res A :=
  if i <? 0 then Err IndexError else
  match nth_error l (Z.to_nat i) with Some x => Ok x | None => Err IndexError end.

(** Run a list of computations, collecting their values (a Python comprehension
    whose body can raise). *)
Fixpoint sequence {A} (l : list (res A)) : res (list A) :=
  match l with
  | [] => Ok []
  | x :: t => bind x (fun a => bind (sequence t) (fun r => Ok (a :: r)))
  end.

Definition zsum (l : list Z) : Z := fold_right Z.add 0 l.

(* ------------------------------------------------------------------ *)
(** Basic lemmas. *)

Lemma zrange_nil a b : b <= a -> zrange a b = [].
Proof. intros H. unfold zrange. replace (Z.to_nat (b - a)) with 0%nat by lia. reflexivity. Qed.

Lemma zrange_length a b : length (zrange a b) = Z.to_nat (b - a).
Proof. unfold zrange. now rewrite map_length, seq_length. Qed.

Lemma in_zrange a b x : In x (zrange a b) <-> a <= x < b.
Proof.
  unfold zrange. rewrite in_map_iff. split.
  - intros (i & <- & Hi). apply in_seq in Hi. lia.
  - intros H. exists (Z.to_nat (x - a)). split; [lia|]. apply in_seq. lia.
Qed.

Lemma zrange_cons a b : a < b -> zrange a b = a :: zrange (a + 1) b.
Proof.
  intros H. unfold zrange.
  replace (Z.to_nat (b - a)) with (S (Z.to_nat (b - (a + 1)))) by lia.
  cbn [seq map]. f_equal; [lia|].
  rewrite <- seq_shift, map_map. apply map_ext. intros i. lia.
Qed.

Lemma zrange_app a b c : a <= b -> b <= c -> zrange a b ++ zrange b c = zrange a c.
Proof.
  intros H1 H2. unfold zrange.
  replace (Z.to_nat (c - a)) with (Z.to_nat (b - a) + Z.to_nat (c - b))%nat by lia.
  rewrite seq_app, map_app. f_equal.
  rewrite Nat.add_0_l.
  replace (seq (Z.to_nat (b - a)) (Z.to_nat (c - b)))
    with (map (fun i => (Z.to_nat (b - a) + i)%nat) (seq 0 (Z.to_nat (c - b)))).
  - rewrite map_map. apply map_ext. intros i. lia.
  - generalize (Z.to_nat (b - a)) as k. intros k. generalize (Z.to_nat (c - b)) as n.
    intros n. change k with (0 + k)%nat at 2. generalize 0%nat as s.
    revert k. induction n as [|n IH]; intros k s; [reflexivity|].
    cbn. f_equal; [lia|]. rewrite IH. reflexivity.
Qed.

Lemma zrange_snoc a b : a <= b -> zrange a (b + 1) = zrange a b ++ [b].
Proof.
  intros H. rewrite <- (zrange_app a b (b + 1)) by lia.
  f_equal. rewrite zrange_cons by lia. now rewrite zrange_nil by lia.
Qed.

Lemma zrange_NoDup a b : NoDup (zrange a b).
Proof.
  unfold zrange. apply FinFun.Injective_map_NoDup; [|apply seq_NoDup].
  intros x y H. lia.
Qed.

Lemma zrange_nth a b i d : 0 <= i < b - a -> nth (Z.to_nat i) (zrange a b) d = a + i.
Proof.
  intros H. unfold zrange.
  rewrite (nth_indep _ d (a + Z.of_nat 0)) by (rewrite map_length, seq_length; lia).
  rewrite map_nth with (f := fun i => a + Z.of_nat i).
  rewrite seq_nth by lia. lia.
Qed.

Lemma zrange_shift k a b : zrange (a + k) (b + k) = map (fun i => i + k) (zrange a b).
Proof.
  unfold zrange. rewrite map_map. replace (b + k - (a + k)) with (b - a) by lia.
  apply map_ext. intros i. lia.
Qed.

Lemma zsum_app l1 l2 : zsum (l1 ++ l2) = zsum l1 + zsum l2.
Proof. unfold zsum. induction l1 as [|x l1 IH]; cbn [app fold_right]; lia. Qed.

Lemma zslice_full {A} (l : list A) : zslice 0 (Z.of_nat (length l)) l = l.
Proof. unfold zslice. rewrite Z.sub_0_r, Nat2Z.id. cbn. apply firstn_all. Qed.

Lemma zslice_nil {A} a b (l : list A) : b <= a -> zslice a b l = [].
Proof. intros H. unfold zslice. now replace (Z.to_nat (b - a)) with 0%nat by lia. Qed.

Lemma skipn_firstn_split {A} n m (l : list A) :
  firstn n l ++ firstn m (skipn n l) = firstn (n + m) l.
Proof.
  revert l; induction n as [|n IH]; intros l; [reflexivity|].
  destruct l as [|x l]; cbn; [now destruct m|]. f_equal. apply IH.
Qed.

Lemma zslice_app {A} a b c (l : list A) :
  0 <= a -> a <= b -> b <= c -> zslice a b l ++ zslice b c l = zslice a c l.
Proof.
  intros Ha Hab Hbc. unfold zslice.
  replace (Z.to_nat (c - a)) with (Z.to_nat (b - a) + Z.to_nat (c - b))%nat by lia.
  rewrite <- (skipn_firstn_split (Z.to_nat (b - a))). f_equal. f_equal.
  replace (Z.to_nat b) with (Z.to_nat (b - a) + Z.to_nat a)%nat by lia.
  generalize (Z.to_nat (b - a)) as p, (Z.to_nat a) as q. clear. intros p q.
  revert l. induction q as [|q IH]; intros l.
  - now rewrite Nat.add_0_r.
  - rewrite Nat.add_succ_r. destruct l as [|x l]; cbn; [now rewrite skipn_nil|]. apply IH.
Qed.

Lemma zslice_length {A} a b (l : list A) :
  0 <= a -> a <= b -> b <= Z.of_nat (length l) ->
  length (zslice a b l) = Z.to_nat (b - a).
Proof.
  intros. unfold zslice. rewrite firstn_length, skipn_length. lia.
Qed.

Lemma sequence_ok {A} (l : list (res A)) (vs : list A) :
  sequence l = Ok vs <-> l = map Ok vs.
Proof.
  revert vs. induction l as [|x l IH]; intros vs; cbn.
  - split; [intros [= <-]; reflexivity | destruct vs; [reflexivity|discriminate]].
  - destruct x as [a|e]; cbn.
    + destruct (sequence l) as [r|e] eqn:E; cbn.
      * split.
        -- intros [= <-]. cbn. f_equal. now apply IH.
        -- destruct vs as [|v vs]; cbn; [discriminate|]. intros [= -> Hl].
           apply IH in Hl. congruence.
      * split; [discriminate|]. destruct vs as [|v vs]; cbn; [discriminate|].
        intros [= -> Hl]. apply IH in Hl. discriminate.
    + split; [discriminate|]. destruct vs; cbn; discriminate.
Qed.

Lemma Permutation_zsum l1 l2 : Permutation l1 l2 -> zsum l1 = zsum l2.
Proof. unfold zsum. induction 1; cbn [fold_right] in *; lia. Qed.

(** [injection] without simplification of the components. *)
Lemma Ok_inj {A} (a b : A) : Ok a = Ok b -> a = b.
Proof. intros H. now injection H. Qed.
