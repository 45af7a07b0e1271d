(** Contracts of the sorting primitives. *)
From Verif Require Import Base SortModel.

Section Sort.
  Context {A : Type}.
  Variable leb : A -> A -> bool.
  Hypothesis total : forall x y, leb x y = true \/ leb y x = true.
  Hypothesis trans : forall x y z, leb x y = true -> leb y z = true -> leb x z = true.

  Lemma insert_perm x l : Permutation (insert leb x l) (x :: l).
  Proof.
    induction l as [|y l IH]; cbn; [reflexivity|].
    destruct (leb x y); [reflexivity|].
    rewrite IH. apply perm_swap.
  Qed.

  Lemma isort_perm l : Permutation (isort leb l) l.
  Proof.
    induction l as [|x l IH]; cbn; [reflexivity|].
    rewrite insert_perm. now constructor.
  Qed.

  Lemma insert_sorted x l :
    StronglySorted (fun a b => leb a b = true) l ->
    StronglySorted (fun a b => leb a b = true) (insert leb x l).
  Proof.
    intros H. induction H as [|y l HS IH HF]; cbn.
    - constructor; constructor.
    - destruct (leb x y) eqn:E.
      + constructor; [constructor; assumption|].
        constructor; [exact E|]. eapply Forall_impl; [|exact HF].
        intros z Hz. cbn in *. now apply (trans x y z).
      + constructor; [exact IH|].
        apply Forall_forall. intros z Hz.
        apply (Permutation_in _ (insert_perm x l)) in Hz.
        destruct Hz as [<-|Hz].
        * destruct (total x y) as [H|H]; congruence.
        * rewrite Forall_forall in HF. now apply HF.
  Qed.

  Lemma isort_sorted l : StronglySorted (fun a b => leb a b = true) (isort leb l).
  Proof. induction l as [|x l IH]; cbn; [constructor|]. now apply insert_sorted. Qed.

  (** A list that is already sorted is left unchanged (stability at work). *)
  Lemma isort_id l :
    StronglySorted (fun a b => leb a b = true) l -> isort leb l = l.
  Proof.
    induction 1 as [|x l HS IH HF]; [reflexivity|].
    change (isort leb (x :: l)) with (insert leb x (isort leb l)).
    rewrite IH. destruct l as [|y l]; cbn; [reflexivity|].
    inversion HF; subst. now rewrite H1.
  Qed.
End Sort.

Lemma combine_map_fst {A B} (l : list A) (m : list B) :
  length l = length m -> map fst (combine l m) = l.
Proof. revert m; induction l as [|x l IH]; intros [|y m] H; cbn in *; try discriminate; [reflexivity|]. f_equal. apply IH. lia. Qed.

Lemma combine_map_snd {A B} (l : list A) (m : list B) :
  length l = length m -> map snd (combine l m) = m.
Proof. revert m; induction l as [|x l IH]; intros [|y m] H; cbn in *; try discriminate; [reflexivity|]. f_equal. apply IH. lia. Qed.

Lemma argsort_perm {K} (leb : K -> K -> bool) keys :
  Permutation (argsort leb keys) (seq 0 (length keys)).
Proof.
  unfold argsort. rewrite isort_perm.
  rewrite combine_map_snd by now rewrite seq_length. reflexivity.
Qed.

Lemma argsort_length {K} (leb : K -> K -> bool) keys : length (argsort leb keys) = length keys.
Proof. rewrite (Permutation_length (argsort_perm leb keys)). apply seq_length. Qed.

Lemma argsort_bound {K} (leb : K -> K -> bool) keys i :
  In i (argsort leb keys) -> (i < length keys)%nat.
Proof. intros H. apply (Permutation_in _ (argsort_perm leb keys)) in H. apply in_seq in H. lia. Qed.

Lemma argsort_NoDup {K} (leb : K -> K -> bool) keys : NoDup (argsort leb keys).
Proof. eapply Permutation_NoDup; [symmetry; apply argsort_perm|apply seq_NoDup]. Qed.

Lemma in_combine_seq {A} (l : list A) k x i d :
  In (x, i) (combine l (seq k (length l))) -> (k <= i)%nat /\ x = nth (i - k) l d.
Proof.
  revert k; induction l as [|y l IH]; intros k H; [contradiction|].
  cbn in H. destruct H as [[= <- <-]|H].
  - split; [lia|]. now rewrite Nat.sub_diag.
  - apply IH in H. destruct H as [Hk ->]. split; [lia|].
    replace (i - k)%nat with (S (i - S k)) by lia. reflexivity.
Qed.

(** Taking the keys along argsort gives exactly the sorted keys. *)
Lemma take_argsort {K} (leb : K -> K -> bool) keys d :
  take d keys (argsort leb keys) =
  map fst (isort (fun p q => leb (fst p) (fst q)) (combine keys (seq 0 (length keys)))).
Proof.
  unfold take, argsort. rewrite map_map. apply map_ext_in.
  intros [x i] Hin. cbn [snd fst].
  apply (Permutation_in _ (isort_perm _ _)) in Hin.
  apply in_combine_seq with (d := d) in Hin. rewrite Nat.sub_0_r in Hin. symmetry. apply Hin.
Qed.

Lemma StronglySorted_map {A B} (f : A -> B) (R : B -> B -> Prop) l :
  StronglySorted (fun x y => R (f x) (f y)) l -> StronglySorted R (map f l).
Proof.
  induction 1 as [|x l HS IH HF]; cbn; [constructor|]. constructor; [exact IH|].
  rewrite Forall_forall in *. intros y Hy. apply in_map_iff in Hy.
  destruct Hy as (z & <- & Hz). now apply HF.
Qed.

Lemma StronglySorted_impl {A} (R S : A -> A -> Prop) l :
  (forall x y, R x y -> S x y) -> StronglySorted R l -> StronglySorted S l.
Proof.
  intros H. induction 1 as [|x l HS IH HF]; constructor; [exact IH|].
  eapply Forall_impl; [|exact HF]. cbn. auto.
Qed.

Lemma take_argsort_sorted {K} (leb : K -> K -> bool) keys d :
  (forall x y, leb x y = true \/ leb y x = true) ->
  (forall x y z, leb x y = true -> leb y z = true -> leb x z = true) ->
  StronglySorted (fun a b => leb a b = true) (take d keys (argsort leb keys)).
Proof.
  intros Ht Htr. rewrite take_argsort.
  apply (StronglySorted_map fst). apply isort_sorted.
  - intros x y. apply Ht.
  - intros x y z. apply Htr.
Qed.

Lemma take_perm_seq {A} (d : A) l : take d l (seq 0 (length l)) = l.
Proof.
  unfold take. induction l as [|x l IH]; [reflexivity|].
  cbn [length seq map nth]. f_equal. rewrite <- seq_shift, map_map. exact IH.
Qed.

Lemma take_perm {A} (d : A) l idx :
  Permutation idx (seq 0 (length l)) -> Permutation (take d l idx) l.
Proof.
  intros H. rewrite <- (take_perm_seq d l) at 2. unfold take. now apply Permutation_map.
Qed.

Lemma take_length {A} (d : A) l idx : length (take d l idx) = length idx.
Proof. unfold take. apply map_length. Qed.

Lemma take_nth {A} (d : A) l idx k :
  (k < length idx)%nat -> nth k (take d l idx) d = nth (nth k idx 0%nat) l d.
Proof.
  intros H. unfold take.
  rewrite (nth_indep _ d (nth (nth k idx 0%nat) l d)) by (rewrite map_length; lia).
  rewrite (nth_indep _ _ (nth 0%nat l d)) by (rewrite map_length; lia).
  rewrite map_nth with (f := fun i => nth i l d). f_equal.
Qed.

Lemma sorted_perm_seq l n :
  Permutation l (seq 0 n) -> StronglySorted (fun a b => Nat.leb a b = true) l -> l = seq 0 n.
Proof.
  assert (H : forall n k l, Permutation l (seq k n) -> StronglySorted (fun a b => Nat.leb a b = true) l -> l = seq k n).
  { clear. induction n as [|n IH]; intros k l HP HS.
    - apply Permutation_sym, Permutation_nil in HP. exact HP.
    - destruct l as [|x l]; [apply Permutation_nil in HP; discriminate|].
      inversion_clear HS as [|? ? HS' HF].
      assert (x = k).
      { assert (In x (seq k (S n))) by (eapply Permutation_in; [exact HP|now left]).
        apply in_seq in H.
        assert (In k (x :: l)) by (eapply Permutation_in; [symmetry; exact HP|now left]).
        destruct H0 as [->|Hk]; [reflexivity|].
        rewrite Forall_forall in HF. apply HF in Hk. apply Nat.leb_le in Hk. lia. }
      subst x. cbn. f_equal. apply IH; [|exact HS'].
      cbn in HP. now apply Permutation_cons_inv in HP. }
  intros. now apply H.
Qed.

(** [np.argsort] of a permutation is its inverse. *)
Lemma argsort_inverse p n :
  Permutation p (seq 0 n) ->
  take 0%nat p (argsort Nat.leb p) = seq 0 n.
Proof.
  intros HP. apply sorted_perm_seq.
  - rewrite <- HP. apply take_perm.
    rewrite (argsort_perm Nat.leb p). reflexivity.
  - apply take_argsort_sorted.
    + intros x y. destruct (Nat.leb_spec x y); [now left|right]. apply Nat.leb_le. lia.
    + intros x y z H1 H2. apply Nat.leb_le in H1, H2. apply Nat.leb_le. lia.
Qed.

Lemma take_take {A} (d : A) l p q :
  (forall i, In i q -> (i < length p)%nat) ->
  take d (take d l p) q = take d l (take 0%nat p q).
Proof.
  intros H. unfold take at 1. unfold take at 2. unfold take at 2. rewrite map_map.
  apply map_ext_in. intros i Hi. now rewrite take_nth by (apply H; exact Hi).
Qed.

Lemma take_argsort_argsort {A} (d : A) l p :
  Permutation p (seq 0 (length l)) ->
  take d (take d l p) (argsort Nat.leb p) = l.
Proof.
  intros HP. rewrite take_take.
  - rewrite (argsort_inverse p (length l) HP). apply take_perm_seq.
  - intros i Hi. now apply argsort_bound in Hi.
Qed.

(** Two sorted permutations of each other agree when the order is antisymmetric. *)
Lemma sorted_unique {A} (R : A -> A -> Prop) l1 l2 :
  (forall x y, R x y -> R y x -> x = y) ->
  StronglySorted R l1 -> StronglySorted R l2 -> Permutation l1 l2 -> l1 = l2.
Proof.
  intros anti. revert l2. induction l1 as [|x l1 IH]; intros l2 H1 H2 HP.
  - apply Permutation_nil in HP. now subst.
  - destruct l2 as [|y l2]; [apply Permutation_sym, Permutation_nil in HP; discriminate|].
    inversion_clear H1 as [|? ? HS1 HF1]. inversion_clear H2 as [|? ? HS2 HF2].
    assert (x = y).
    { assert (Hx : In x (y :: l2)) by (eapply Permutation_in; [exact HP|now left]).
      assert (Hy : In y (x :: l1)) by (eapply Permutation_in; [symmetry; exact HP|now left]).
      destruct Hx as [->|Hx]; [reflexivity|]. destruct Hy as [->|Hy]; [reflexivity|].
      rewrite Forall_forall in HF1, HF2. apply anti; auto. }
    subst y. f_equal. apply IH; auto. now apply Permutation_cons_inv in HP.
Qed.

(* ------------------------------------------------------------------ *)
(** [np.unique] and [np.searchsorted]. *)

Lemma drop_adjacent_in l x : In x (drop_adjacent l) <-> In x l.
Proof.
  induction l as [|a l IH]; [reflexivity|]. cbn [drop_adjacent]. destruct l as [|b l].
  - reflexivity.
  - destruct (Nat.eqb_spec a b) as [->|Hne].
    + rewrite IH. cbn. tauto.
    + cbn [In] in *. rewrite IH. tauto.
Qed.

Lemma drop_adjacent_sorted l :
  StronglySorted (fun a b => a <= b)%nat l -> StronglySorted (fun a b => a < b)%nat (drop_adjacent l).
Proof.
  induction l as [|a l IH]; intros H; [constructor|].
  inversion H as [|? ? Hs Hf]; subst. cbn [drop_adjacent]. destruct l as [|b l].
  - constructor; constructor.
  - destruct (Nat.eqb_spec a b) as [->|Hne]; [apply IH, Hs|].
    constructor; [apply IH, Hs|]. apply Forall_forall. intros x Hx.
    apply (drop_adjacent_in (b :: l)) in Hx.
    assert (b <= x)%nat.
    { destruct Hx as [->|Hx]; [lia|]. inversion Hs as [|? ? _ Hf2]; subst.
      rewrite Forall_forall in Hf2. auto. }
    rewrite Forall_forall in Hf. specialize (Hf b (or_introl eq_refl)). lia.
Qed.

Lemma np_unique_in l x : In x (np_unique l) <-> In x l.
Proof.
  unfold np_unique. rewrite drop_adjacent_in. split; intros H.
  - eapply Permutation_in; [apply isort_perm|exact H].
  - eapply Permutation_in; [symmetry; apply isort_perm|exact H].
Qed.

Lemma np_unique_sorted l : StronglySorted (fun a b => a < b)%nat (np_unique l).
Proof.
  apply drop_adjacent_sorted.
  eapply StronglySorted_impl; [|apply (isort_sorted Nat.leb)].
  - intros x y H. now apply Nat.leb_le in H.
  - intros x y. rewrite !Nat.leb_le. lia.
  - intros x y z. rewrite !Nat.leb_le. lia.
Qed.

Lemma sorted_lt_NoDup l : StronglySorted (fun a b => a < b)%nat l -> NoDup l.
Proof.
  induction 1 as [|a l Hs IH Hf]; constructor; [|assumption].
  intros Hin. rewrite Forall_forall in Hf. specialize (Hf _ Hin). lia.
Qed.

Lemma np_unique_NoDup l : NoDup (np_unique l).
Proof. apply sorted_lt_NoDup, np_unique_sorted. Qed.

(** On a strictly sorted list [searchsorted] returns the position of a member. *)
Lemma searchsorted_spec l v :
  StronglySorted (fun a b => a < b)%nat l -> In v l ->
  (searchsorted l v < length l)%nat /\ nth (searchsorted l v) l 0%nat = v.
Proof.
  unfold searchsorted. induction 1 as [|a l Hs IH Hf]; intros Hin; [destruct Hin|].
  cbn [filter]. destruct (Nat.ltb_spec a v) as [Hlt|Hge].
  - destruct Hin as [->|Hin]; [lia|]. destruct (IH Hin) as [H1 H2].
    cbn [length nth]. split; [lia|assumption].
  - assert (a = v).
    { destruct Hin as [E|Hin]; [assumption|]. rewrite Forall_forall in Hf. specialize (Hf _ Hin). lia. }
    subst a. rewrite Forall_forall in Hf.
    replace (filter (fun x => Nat.ltb x v) l) with (@nil nat); [cbn; split; [lia|reflexivity]|].
    symmetry. clear - Hf. induction l as [|b l IH]; [reflexivity|]. cbn [filter].
    pose proof (Hf b (or_introl eq_refl)). destruct (Nat.ltb_spec b v); [lia|].
    apply IH. intros x Hx. apply Hf. now right.
Qed.

Lemma searchsorted_nth l k :
  StronglySorted (fun a b => a < b)%nat l -> (k < length l)%nat ->
  searchsorted l (nth k l 0%nat) = k.
Proof.
  intros Hs Hk.
  destruct (searchsorted_spec l (nth k l 0%nat) Hs (nth_In _ _ Hk)) as [H1 H2].
  apply (proj1 (NoDup_nth l 0%nat) (sorted_lt_NoDup l Hs)); assumption.
Qed.
