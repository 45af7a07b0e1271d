(** Lemmas about the distributed G-space model, part 1: block arithmetic, MPI
    exchange, and the distribution of sticks and G-vectors. *)
From Verif Require Import Base ScatterModel ScatterProofs SortModel SortProofs CBase FFTModel FFTProofs FFTProofs2 DistModel.
Open Scope nat_scope.

(* ---------------- block starts on naturals ---------------- *)
Definition st (len P r : nat) : nat := Z.to_nat (sc_start (Z.of_nat len) (Z.of_nat P) (Z.of_nat r)).

Section Starts.
  Context (len P : nat).
  Hypothesis HP : 0 < P.

  Lemma st_Z r : r <= P -> Z.of_nat (st len P r) = sc_start (Z.of_nat len) (Z.of_nat P) (Z.of_nat r).
  Proof.
    intros Hr. unfold st. apply Z2Nat.id.
    pose proof (sc_start_range (Z.of_nat len) (Z.of_nat P) (Z.of_nat r)). lia.
  Qed.

  Lemma nslice_eq r : r < P -> nslice len P r = Ok (st len P r, st len P (S r)).
  Proof.
    intros Hr. unfold nslice. rewrite scatter_slice_eq by lia. cbn [rmap fst snd]. unfold st.
    do 2 f_equal. f_equal. f_equal. lia.
  Qed.

  Lemma st_0 : st len P 0 = 0.
  Proof. unfold st. rewrite sc_start_0 by lia. reflexivity. Qed.

  Lemma st_P : st len P P = len.
  Proof. unfold st. rewrite sc_start_size by lia. lia. Qed.

  Lemma st_step r : r < P ->
    Z.of_nat (st len P (S r)) = (Z.of_nat (st len P r)
      + (Z.of_nat len / Z.of_nat P + b2z (Z.of_nat r <? Z.of_nat len mod Z.of_nat P)))%Z.
  Proof.
    intros Hr. rewrite !st_Z by lia. rewrite <- sc_start_step by lia. f_equal. lia.
  Qed.

  Lemma div_nonneg : (0 <= Z.of_nat len / Z.of_nat P)%Z.
  Proof. apply Z.div_pos; lia. Qed.

  Lemma st_le_S r : r < P -> st len P r <= st len P (S r).
  Proof.
    intros Hr. pose proof (st_step r Hr). pose proof div_nonneg.
    revert H H0. generalize (Z.of_nat len / Z.of_nat P)%Z, (Z.of_nat len mod Z.of_nat P)%Z.
    intros a b. unfold b2z. destruct (_ <? _)%Z; lia.
  Qed.

  Lemma st_mono r r' : r <= r' -> r' <= P -> st len P r <= st len P r'.
  Proof.
    induction 1 as [|r' Hle IH]; intros Hr; [lia|]. pose proof (st_le_S r' ltac:(lia)). specialize (IH ltac:(lia)). lia.
  Qed.

  Lemma st_lt_S r : P <= len -> r < P -> st len P r < st len P (S r).
  Proof.
    intros Hl Hr. pose proof (st_step r Hr).
    assert (1 <= Z.of_nat len / Z.of_nat P)%Z by (apply Z.div_le_lower_bound; lia).
    revert H H0. generalize (Z.of_nat len / Z.of_nat P)%Z, (Z.of_nat len mod Z.of_nat P)%Z.
    intros a b. unfold b2z. destruct (_ <? _)%Z; lia.
  Qed.

  Lemma nlen_eq r : r < P -> nlen len P r = Ok (st len P (S r) - st len P r).
  Proof.
    intros Hr. unfold nlen. rewrite scatter_len_eq by lia. cbn [rmap]. f_equal.
    pose proof (st_step r Hr) as E. pose proof div_nonneg as D. revert E D.
    generalize (Z.of_nat len / Z.of_nat P)%Z, (Z.of_nat len mod Z.of_nat P)%Z.
    intros a b. unfold b2z. destruct (_ <? _)%Z; lia.
  Qed.

  Lemma nlen_all_eq : nlen_all len P = Ok (map (fun r => st len P (S r) - st len P r) (seq 0 P)).
  Proof.
    unfold nlen_all, scatter_len_all, assert_.
    destruct (Z.leb_spec 0 (Z.of_nat len)); [|lia]. destruct (Z.ltb_spec 0 (Z.of_nat P)); [|lia].
    cbn [bind rmap]. f_equal. unfold zrange. rewrite Z.sub_0_r, Nat2Z.id, !map_map.
    apply map_ext_in. intros r Hr. apply in_seq in Hr.
    pose proof (st_step r ltac:(lia)) as E. pose proof div_nonneg as D. revert E D.
    rewrite Z.add_0_l. generalize (Z.of_nat len / Z.of_nat P)%Z, (Z.of_nat len mod Z.of_nat P)%Z.
    intros a b. unfold b2z. destruct (_ <? _)%Z; lia.
  Qed.

  (** Which block an item belongs to. *)
  Lemma st_owner i : i < len -> exists r, r < P /\ st len P r <= i < st len P (S r).
  Proof.
    intros Hi. assert (H : forall n, n <= P -> i < st len P n -> exists r, r < n /\ st len P r <= i < st len P (S r)).
    { induction n as [|n IH]; intros Hn Hin; [rewrite st_0 in Hin; lia|].
      destruct (le_lt_dec (st len P n) i) as [H|H]; [exists n; lia|].
      destruct (IH ltac:(lia) H) as (r & Hr & Hb). exists r. lia. }
    destruct (H P (le_n P)) as (r & Hr & Hb); [now rewrite st_P|]. now exists r.
  Qed.
End Starts.

(* ---------------- telescoping segments ---------------- *)
Lemma seq_split a n m : seq a (n + m) = seq a n ++ seq (a + n) m.
Proof. apply seq_app. Qed.

Lemma concat_segments {A} (g : nat -> A) (f : nat -> nat) n k :
  (forall i, k <= i < k + n -> f i <= f (S i)) ->
  concat (map (fun i => map g (seq (f i) (f (S i) - f i))) (seq k n)) = map g (seq (f k) (f (k + n) - f k))
  /\ f k <= f (k + n).
Proof.
  revert k. induction n as [|n IH]; intros k Hm.
  - rewrite Nat.add_0_r, Nat.sub_diag. split; [reflexivity|lia].
  - cbn [seq map concat]. destruct (IH (S k)) as [E1 E2]; [intros i Hi; apply Hm; lia|].
    rewrite E1. pose proof (Hm k ltac:(lia)). replace (S k + n) with (k + S n) in * by lia.
    split; [|lia]. rewrite <- map_app. f_equal.
    replace (f (k + S n) - f k) with ((f (S k) - f k) + (f (k + S n) - f (S k))) by lia.
    rewrite seq_split. do 2 f_equal. lia.
Qed.

Lemma split_segments {A} (g : nat -> A) (f : nat -> nat) n k :
  (forall i, k <= i < k + n -> f i <= f (S i)) ->
  split_counts (map (fun i => f (S i) - f i) (seq k n)) (map g (seq (f k) (f (k + n) - f k)))
  = map (fun i => map g (seq (f i) (f (S i) - f i))) (seq k n).
Proof.
  revert k. induction n as [|n IH]; intros k Hm; [reflexivity|].
  cbn [seq map split_counts].
  destruct (concat_segments g f n (S k)) as [_ E2]; [intros i Hi; apply Hm; lia|].
  pose proof (Hm k ltac:(lia)). replace (S k + n) with (k + S n) in * by lia.
  replace (f (k + S n) - f k) with ((f (S k) - f k) + (f (k + S n) - f (S k))) by lia.
  rewrite seq_split, map_app. set (n1 := f (S k) - f k).
  rewrite firstn_app, skipn_app, map_length, seq_length, Nat.sub_diag. cbn [firstn skipn].
  rewrite app_nil_r, firstn_all2, skipn_all2 by (rewrite map_length, seq_length; lia).
  cbn [app]. f_equal. replace (f k + n1) with (f (S k)) by (unfold n1; lia).
  replace (k + S n) with (S k + n) by lia. apply IH. intros i Hi. apply Hm; lia.
Qed.

Lemma combine_map_seq {A B} (f : nat -> A) (g : nat -> B) n k :
  combine (map f (seq k n)) (map g (seq k n)) = map (fun i => (f i, g i)) (seq k n).
Proof. revert k. induction n as [|n IH]; intros k; [reflexivity|]. cbn. now rewrite IH. Qed.

Lemma combine_seq_map {B} (g : nat -> B) n k :
  combine (seq k n) (map g (seq k n)) = map (fun i => (i, g i)) (seq k n).
Proof. revert k. induction n as [|n IH]; intros k; [reflexivity|]. cbn. now rewrite IH. Qed.

Lemma nth_map_seq {A} (f : nat -> A) n i d : i < n -> nth i (map f (seq 0 n)) d = f i.
Proof.
  intros H. rewrite (nth_indep _ d (f 0)) by (rewrite map_length, seq_length; lia).
  now rewrite map_nth, seq_nth by lia.
Qed.

Lemma sequence_map_ok {A B} (f : A -> res B) (g : A -> B) l :
  (forall x, In x l -> f x = Ok (g x)) -> sequence (map f l) = Ok (map g l).
Proof.
  intros H. apply sequence_ok. rewrite map_map. now apply map_ext_in.
Qed.

(** The exchange of matching contiguous chunks. *)
Lemma alltoallv_segments P (b : nat -> nat -> C) (F : nat -> nat -> nat) :
  (forall i, i < P -> F i 0 = 0) ->
  (forall i j, i < P -> j < P -> F i j <= F i (S j)) ->
  alltoallv
    (map (fun i => (map (b i) (seq 0 (F i P)), map (fun j => F i (S j) - F i j) (seq 0 P))) (seq 0 P))
    (map (fun j => map (fun i => F i (S j) - F i j) (seq 0 P)) (seq 0 P))
  = Ok (map (fun j => concat (map (fun i => map (b i) (seq (F i j) (F i (S j) - F i j))) (seq 0 P))) (seq 0 P)).
Proof.
  intros H0 Hm. unfold alltoallv.
  rewrite map_length, seq_length, combine_seq_map, map_map.
  apply sequence_map_ok. intros j Hj. apply in_seq in Hj. cbv beta iota zeta.
  match goal with |- context [map (@length C) ?L] =>
    assert (EC : L = map (fun i => map (b i) (seq (F i j) (F i (S j) - F i j))) (seq 0 P)) end.
  { rewrite map_map. apply map_ext_in. intros i Hi. apply in_seq in Hi. cbn [fst snd].
    pose proof (split_segments (b i) (F i) P 0) as E. rewrite H0, Nat.sub_0_r in E by lia.
    cbn [Nat.add] in E. rewrite E by (intros; apply Hm; lia).
    now rewrite nth_map_seq by lia. }
  rewrite EC. destruct (list_eq_dec Nat.eq_dec _ _) as [_|Hne]; [reflexivity|].
  exfalso. apply Hne. rewrite map_map. apply map_ext. intros i. now rewrite map_length, seq_length.
Qed.

(* ---------------- sorted lists and searchsorted ---------------- *)
Definition nsorted := StronglySorted (fun a b => a <= b).

Lemma searchsorted_split l v : nsorted l ->
  (forall x, In x (firstn (searchsorted l v) l) -> x < v)
  /\ (forall x, In x (skipn (searchsorted l v) l) -> v <= x)
  /\ searchsorted l v <= length l.
Proof.
  unfold searchsorted. induction 1 as [|a l Hs (IH1 & IH2 & IH3) Hf]; [cbn; split; [|split]; intros; tauto||lia|].
  cbn [filter]. destruct (Nat.ltb_spec a v) as [Hlt|Hge].
  - cbn [length firstn skipn]. split; [|split].
    + intros x [<-|Hx]; [assumption|auto].
    + assumption.
    + lia.
  - replace (filter (fun x => x <? v) l) with (@nil nat).
    + cbn [length firstn skipn]. split; [intros x []|split; [|lia]].
      intros x [<-|Hx]; [assumption|]. rewrite Forall_forall in Hf. specialize (Hf x Hx). lia.
    + symmetry. clear - Hge Hf. induction l as [|b l IH]; [reflexivity|]. inversion Hf; subst.
      cbn [filter]. destruct (Nat.ltb_spec b v); [lia|]. now apply IH.
Qed.

Lemma searchsorted_right_S l v : searchsorted_right l v = searchsorted l (S v).
Proof. reflexivity. Qed.

Lemma searchsorted_mono l v w : v <= w -> searchsorted l v <= searchsorted l w.
Proof.
  intros H. unfold searchsorted. induction l as [|a l IH]; [cbn; lia|]. cbn [filter].
  destruct (Nat.ltb_spec a v), (Nat.ltb_spec a w); cbn [length]; lia.
Qed.

Lemma searchsorted_ext l v w :
  (forall x, In x l -> (x < v <-> x < w)) -> searchsorted l v = searchsorted l w.
Proof.
  intros H. unfold searchsorted. f_equal. apply filter_ext_in. intros x Hx. specialize (H x Hx).
  destruct (Nat.ltb_spec x v), (Nat.ltb_spec x w); lia || reflexivity.
Qed.

Lemma searchsorted_all l v : (forall x, In x l -> x < v) -> searchsorted l v = length l.
Proof.
  intros H. unfold searchsorted. induction l as [|a l IH]; [reflexivity|]. cbn [filter].
  pose proof (H a (or_introl eq_refl)). destruct (Nat.ltb_spec a v); [|lia]. cbn [length]. f_equal.
  apply IH. intros x Hx. apply H. now right.
Qed.

Lemma searchsorted_none l v : (forall x, In x l -> v <= x) -> searchsorted l v = 0.
Proof.
  intros H. unfold searchsorted. induction l as [|a l IH]; [reflexivity|]. cbn [filter].
  pose proof (H a (or_introl eq_refl)). destruct (Nat.ltb_spec a v); [lia|].
  apply IH. intros x Hx. apply H. now right.
Qed.

Lemma sorted_nth_lt l i j : StronglySorted (fun a b => a < b) l ->
  i < j -> j < length l -> nth i l 0 < nth j l 0.
Proof.
  intros Hs. revert i j. induction Hs as [|a l Hs IH Hf]; intros i j Hij Hj; [cbn in Hj; lia|].
  destruct j as [|j]; [lia|]. cbn in Hj. destruct i as [|i].
  - cbn. rewrite Forall_forall in Hf. apply Hf, nth_In. lia.
  - cbn. apply IH; lia.
Qed.

Lemma skipn_nth_cons {A} (d : A) l i : i < length l -> skipn i l = nth i l d :: skipn (S i) l.
Proof.
  revert i. induction l as [|a l IH]; intros i Hi; [cbn in Hi; lia|].
  destruct i as [|i]; [reflexivity|]. cbn in Hi. cbn [skipn nth]. rewrite IH by lia. reflexivity.
Qed.

Lemma slice_nth {A} (d : A) a b l k : k < b - a -> nth k (slice (a, b) l) d = nth (a + k) l d.
Proof.
  intros Hk. unfold slice. cbn [fst snd].
  assert (E : forall n m (x : list A), m < n -> nth m (firstn n x) d = nth m x d).
  { clear. intros n m x. revert n m. induction x as [|y x IH]; intros n m H; destruct n, m; try lia; cbn; try reflexivity.
    apply IH. lia. }
  rewrite E by lia. clear. revert l. induction a as [|a IH]; intros l; [reflexivity|].
  destruct l as [|y l]; cbn; [now destruct k|apply IH].
Qed.

Lemma slice_length {A} a b (l : list A) : b <= length l -> length (slice (a, b) l) = b - a.
Proof. intros H. unfold slice. cbn [fst snd]. rewrite firstn_length, skipn_length. lia. Qed.

Lemma slice_sorted {R : nat -> nat -> Prop} s l : StronglySorted R l -> StronglySorted R (slice s l).
Proof.
  intros H. unfold slice.
  assert (Hsk : forall n l, StronglySorted R l -> StronglySorted R (skipn n l)).
  { clear. induction n as [|n IH]; intros l H; [assumption|]. destruct H; [constructor|]. cbn. now apply IH. }
  apply Hsk with (n := fst s) in H. revert H. generalize (skipn (fst s) l). clear.
  induction (snd s - fst s) as [|n IH]; intros l H; [constructor|].
  destruct H as [|a l Hs Hf]; [constructor|]. cbn. constructor; [now apply IH|].
  rewrite Forall_forall in *. intros x Hx. apply Hf.
  rewrite <- (firstn_skipn n l). apply in_or_app. now left.
Qed.

Lemma slice_map {A B} (f : A -> B) s l : slice s (map f l) = map f (slice s l).
Proof. unfold slice. now rewrite skipn_map, firstn_map. Qed.

Lemma in_slice_nth {A} (d : A) a b l x : b <= length l -> In x (slice (a, b) l) <->
  exists k, a <= k < b /\ nth k l d = x.
Proof.
  intros Hb. split.
  - intros Hin. apply (In_nth _ _ d) in Hin as (k & Hk & <-). rewrite slice_length in Hk by assumption.
    exists (a + k). rewrite slice_nth by lia. split; [lia|reflexivity].
  - intros (k & Hk & <-).
    replace k with (a + (k - a)) at 1 by lia. rewrite <- (slice_nth d a b) by lia.
    apply nth_In. rewrite slice_length by assumption. lia.
Qed.
