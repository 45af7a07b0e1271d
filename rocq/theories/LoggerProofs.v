(** Lemmas about the timer and counter tables. *)
From Verif Require Import Base LoggerModel.
From Coq Require Import Reals.
Local Open Scope nat_scope.

Lemma label_eqb_spec a b : label_eqb a b = true <-> a = b.
Proof. unfold label_eqb. destruct (list_eq_dec _ a b); split; intros; congruence. Qed.
Lemma label_eqb_refl a : label_eqb a a = true.
Proof. now apply label_eqb_spec. Qed.
Lemma label_eqb_neq a b : a <> b -> label_eqb a b = false.
Proof. intros H. destruct (label_eqb a b) eqn:E; [apply label_eqb_spec in E; contradiction|reflexivity]. Qed.

(** strip0 *)
Lemma strip0_decomp l : exists z, l = strip0 l ++ repeat 0 z.
Proof.
  induction l as [|c t [z IH]]; [now exists 0|]. cbn [strip0]. destruct (strip0 t) as [|d t'] eqn:E.
  - destruct (Nat.eqb_spec c 0) as [->|H].
    + exists (S z). cbn in *. congruence.
    + exists z. cbn in *. congruence.
  - exists z. rewrite IH at 1. reflexivity.
Qed.
Lemma strip0_zeros z : strip0 (repeat 0 z) = [].
Proof. induction z; [reflexivity|]. cbn. now rewrite IHz. Qed.
Lemma strip0_app_zeros l z : strip0 (l ++ repeat 0 z) = strip0 l.
Proof. induction l as [|c t IH]; [apply strip0_zeros|]. cbn. now rewrite IH. Qed.
Lemma strip0_idem l : strip0 (strip0 l) = strip0 l.
Proof. destruct (strip0_decomp l) as [z E]. rewrite E at 2. now rewrite strip0_app_zeros. Qed.
Lemma to_u30_short l : length (strip0 l) <= 30 -> to_u30 l = strip0 l.
Proof.
  intros H. destruct (strip0_decomp l) as [z E]. unfold to_u30. rewrite E at 1. rewrite firstn_app.
  rewrite firstn_all2 by exact H.
  assert (F : firstn (30 - length (strip0 l)) (repeat 0 z) = repeat 0 (Nat.min (30 - length (strip0 l)) z)).
  { clear. generalize (30 - length (strip0 l)). intros n. revert z. induction n; intros z; [reflexivity|]. destruct z; [reflexivity|]. cbn. now rewrite IHn. }
  rewrite F, strip0_app_zeros. apply strip0_idem.
Qed.
Lemma strip0_length l : length (strip0 l) <= length l.
Proof. destruct (strip0_decomp l) as [z E]. rewrite E at 2. rewrite app_length. lia. Qed.
Lemma to_u30_length l : length (to_u30 l) <= 30.
Proof. unfold to_u30. etransitivity; [apply strip0_length|]. rewrite firstn_length. lia. Qed.

(** Keyed tables. *)
Lemma set_nth_app {A} (a : list A) x b y : set_nth (a ++ x :: b) (length a) y = a ++ y :: b.
Proof. induction a; [reflexivity|]. cbn. now rewrite IHa. Qed.
Lemma nth_error_mid {A} (a : list A) x b : nth_error (a ++ x :: b) (length a) = Some x.
Proof. rewrite nth_error_app2, Nat.sub_diag by lia. reflexivity. Qed.
Lemma delete_perm {A} (a : list A) x b z : nth_error (a ++ x :: b) (length (a ++ x :: b) - 1) = Some z ->
  Permutation (firstn (length (a ++ x :: b) - 1) (set_nth (a ++ x :: b) (length a) z)) (a ++ b).
Proof.
  rewrite set_nth_app, app_length. cbn [length]. replace (length a + S (length b) - 1) with (length a + length b) by lia.
  intros H. destruct b as [|y b] using rev_ind.
  - rewrite Nat.add_0_r, firstn_app, firstn_all, Nat.sub_diag. reflexivity.
  - clear IHb. rewrite nth_error_app2 in H by lia. rewrite app_length in *. cbn [length] in *.
    replace (length a + (length b + 1) - length a) with (S (length b)) in H by lia. cbn in H.
    rewrite nth_error_app2, Nat.sub_diag in H by lia. injection H as <-.
    rewrite firstn_app. replace (length a + (length b + 1) - length a) with (S (length b)) by lia.
    rewrite firstn_all2 by lia. cbn [firstn]. rewrite firstn_app, firstn_all, Nat.sub_diag, app_nil_r.
    apply Permutation_app_head. apply Permutation_cons_append.
Qed.

Section Keyed.
Context {A : Type} (key : A -> label).
Definition lookup (k : label) (t : list A) : option A := find (fun x => label_eqb (key x) k) t.

Lemma find_idx_none k t i : ~ In k (map key t) -> find_idx (fun x => label_eqb (key x) k) t i = [].
Proof.
  revert i. induction t as [|x t IH]; intros i H; [reflexivity|]. cbn in *. rewrite label_eqb_neq, IH; tauto.
Qed.
Lemma find_idx_some k a x b i : NoDup (map key (a ++ x :: b)) -> key x = k ->
  find_idx (fun x => label_eqb (key x) k) (a ++ x :: b) i = [i + length a].
Proof.
  revert i. induction a as [|y a IH]; intros i N E; cbn in *.
  - subst k. rewrite label_eqb_refl. inversion N. rewrite find_idx_none by assumption. cbn. rewrite Nat.add_0_r. reflexivity.
  - inversion N as [|? ? H1 H2]. subst. rewrite label_eqb_neq.
    + cbn. rewrite IH by auto. f_equal. lia.
    + intros Eq. apply H1. rewrite Eq. rewrite map_app. apply in_or_app. right. cbn. now left.
Qed.
Lemma lookup_none k t : ~ In k (map key t) -> lookup k t = None.
Proof. induction t as [|x t IH]; intros H; [reflexivity|]. cbn in *. rewrite label_eqb_neq; tauto. Qed.
Lemma lookup_some k x t : NoDup (map key t) -> (lookup k t = Some x <-> In x t /\ key x = k).
Proof.
  induction t as [|y t IH]; intros N; cbn in *; [split; [discriminate|intros [[] _]]|].
  inversion N as [|? ? H1 H2]. subst. specialize (IH H2). destruct (label_eqb (key y) k) eqn:E.
  - apply label_eqb_spec in E. split; [intros [= <-]; auto|]. intros [[->|H] E']; [reflexivity|].
    exfalso. apply H1. rewrite E, <- E'. now apply in_map.
  - unfold lookup in IH. rewrite IH. split; [tauto|]. intros [[->|H] E']; [|auto].
    rewrite E', label_eqb_refl in E. discriminate.
Qed.
Lemma lookup_iff_none k t : lookup k t = None <-> ~ In k (map key t).
Proof.
  split; [|apply lookup_none]. intros H Hin. apply in_map_iff in Hin. destruct Hin as (x & E & Hin).
  unfold lookup in H. apply (find_none _ _ H) in Hin. rewrite E, label_eqb_refl in Hin. discriminate.
Qed.
Lemma lookup_perm k t t' : NoDup (map key t) -> Permutation t t' -> lookup k t = lookup k t'.
Proof.
  intros N P. assert (N' : NoDup (map key t')) by (eapply Permutation_NoDup; [apply Permutation_map, P|exact N]).
  destruct (lookup k t) as [x|] eqn:E.
  - symmetry. apply lookup_some; [exact N'|]. apply lookup_some in E; [|exact N]. destruct E as [E1 E2].
    split; [eapply Permutation_in; eauto|exact E2].
  - symmetry. apply lookup_iff_none. apply lookup_iff_none in E. intros H. apply E.
    eapply Permutation_in; [apply Permutation_map, Permutation_sym, P|exact H].
Qed.
Lemma lookup_split k t x : lookup k t = Some x -> exists a b, t = a ++ x :: b /\ key x = k.
Proof.
  intros H. apply find_some in H. destruct H as [H E]. apply label_eqb_spec in E. apply in_split in H.
  destruct H as (a & b & ->). eauto.
Qed.
(** Replacing a row by one with the same key. *)
Lemma lookup_replace k a x y b : NoDup (map key (a ++ x :: b)) -> key y = key x ->
  NoDup (map key (a ++ y :: b)) /\ lookup k (a ++ y :: b) = if label_eqb k (key x) then Some y else lookup k (a ++ x :: b).
Proof.
  intros N E. assert (N' : NoDup (map key (a ++ y :: b))) by (rewrite map_app in *; cbn in *; congruence).
  split; [exact N'|]. destruct (label_eqb k (key x)) eqn:K.
  - apply label_eqb_spec in K. apply lookup_some; [exact N'|]. split; [apply in_elt|congruence].
  - destruct (lookup k (a ++ x :: b)) as [z|] eqn:L.
    + apply lookup_some in L; [|exact N]. destruct L as [L1 L2]. apply lookup_some; [exact N'|]. split; [|exact L2].
      apply in_app_or in L1. apply in_or_app. cbn in *. destruct L1 as [L1|[->|L1]]; auto.
      rewrite L2, label_eqb_refl in K. discriminate.
    + apply lookup_iff_none in L. apply lookup_iff_none. rewrite map_app in *. cbn in *. now rewrite E.
Qed.
Lemma lookup_app_new k t y : NoDup (map key t) -> ~ In (key y) (map key t) ->
  NoDup (map key (t ++ [y])) /\ lookup k (t ++ [y]) = if label_eqb k (key y) then Some y else lookup k t.
Proof.
  intros N H. assert (P : Permutation (y :: t) (t ++ [y])) by apply Permutation_cons_append.
  assert (N' : NoDup (map key (y :: t))) by (cbn; now constructor). split.
  - eapply Permutation_NoDup; [apply Permutation_map, P|exact N'].
  - rewrite <- (lookup_perm k _ _ N' P). cbn. unfold lookup.
    destruct (label_eqb k (key y)) eqn:K.
    + apply label_eqb_spec in K. subst k. now rewrite label_eqb_refl.
    + rewrite label_eqb_neq; [reflexivity|]. intros E. rewrite E, label_eqb_refl in K. discriminate.
Qed.
Lemma lookup_removed k a x b : NoDup (map key (a ++ x :: b)) ->
  NoDup (map key (a ++ b)) /\ lookup k (a ++ b) = if label_eqb k (key x) then None else lookup k (a ++ x :: b).
Proof.
  intros N. assert (P : Permutation (a ++ x :: b) (x :: a ++ b)) by (symmetry; apply Permutation_middle).
  assert (N' : NoDup (map key (x :: a ++ b))) by (eapply Permutation_NoDup; [apply Permutation_map, P|exact N]).
  cbn in N'. inversion N'. subst. split; [assumption|]. rewrite (lookup_perm k _ _ N P).
  destruct (label_eqb k (key x)) eqn:K.
  - apply label_eqb_spec in K. subst k. now apply lookup_none.
  - cbn. unfold lookup. rewrite label_eqb_neq; [reflexivity|]. intros E. rewrite E, label_eqb_refl in K. discriminate.
Qed.
End Keyed.
