(** Proofs for DistBufModel.v. *)
From Verif Require Import Base BufferModel BufferProofs CBase DistBufModel DistBufSpec.
Open Scope nat_scope.

Lemma inside_length sh js : inside sh js -> length js = length sh.
Proof. induction 1; cbn; congruence. Qed.
Lemma inside_app s1 s2 j1 j2 : inside s1 j1 -> inside s2 j2 -> inside (s1 ++ s2) (j1 ++ j2).
Proof. intros H K. induction H; cbn; [assumption|]. constructor; assumption. Qed.
Lemma inside_snoc sh n js j : inside sh js -> j < n -> inside (sh ++ [n]) (js ++ [j]).
Proof. intros. apply inside_app; [assumption|]. constructor; [assumption|constructor]. Qed.
Lemma inside_app_inv s1 s2 js : inside (s1 ++ s2) js -> exists j1 j2, js = j1 ++ j2 /\ inside s1 j1 /\ inside s2 j2.
Proof.
  revert js. induction s1 as [|n s1 IH]; intros js H; cbn in H.
  - exists [], js. repeat split; [constructor|assumption].
  - inversion H as [|j ? js' ? Hj Hr]; subst. destruct (IH _ Hr) as (j1 & j2 & -> & A & B).
    exists (j :: j1), j2. repeat split; [constructor; assumption|assumption].
Qed.
Lemma inside_snoc_inv sh n js : inside (sh ++ [n]) js -> exists js0 j, js = js0 ++ [j] /\ inside sh js0 /\ j < n.
Proof.
  intros H. destruct (inside_app_inv _ _ _ H) as (j1 & j2 & -> & A & B).
  inversion B as [|j ? r ? Hj Hr]; subst. inversion Hr; subst. now exists j1, j.
Qed.

Definition prodl := fold_right Nat.mul 1.
Lemma prodl_app a b : prodl (a ++ b) = prodl a * prodl b.
Proof. induction a as [|n a IH]; cbn; [lia|]. unfold prodl in *. rewrite IH. lia. Qed.
Lemma ravel_lt sh js : inside sh js -> ravel sh js < prodl sh.
Proof.
  induction 1 as [|j n js sh Hj _ IH]; cbn; [lia|]. fold (prodl sh). fold (prodl sh) in IH. nia.
Qed.
Lemma unravel_ravel sh js : inside sh js -> unravel sh (ravel sh js) = js.
Proof.
  induction 1 as [|j n js sh Hj Hr IH]; cbn; [reflexivity|]. fold (prodl sh).
  pose proof (ravel_lt _ _ Hr) as L.
  rewrite (Nat.add_comm (j * prodl sh)), Nat.div_add by lia. rewrite Nat.div_small by assumption. cbn.
  rewrite Nat.mod_add by lia. rewrite Nat.mod_small by assumption. now rewrite IH.
Qed.
Lemma ravel_app s1 s2 j1 j2 : inside s1 j1 -> ravel (s1 ++ s2) (j1 ++ j2) = ravel s1 j1 * prodl s2 + ravel s2 j2.
Proof.
  induction 1 as [|j n js sh Hj Hr IH]; cbn [app ravel]; [reflexivity|]. rewrite IH. fold (prodl (sh ++ s2)). fold (prodl sh).
  rewrite prodl_app. lia.
Qed.
Lemma unravel_snoc sh n : forall i g, i < prodl sh -> g < n -> unravel (sh ++ [n]) (i * n + g) = unravel sh i ++ [g].
Proof.
  induction sh as [|m sh IH]; intros i g Hi Hg.
  - cbn [prodl fold_right] in Hi. assert (i = 0) by lia. subst i. cbn [app unravel fold_right]. rewrite Nat.div_1_r. reflexivity.
  - cbn [app unravel]. fold (prodl (sh ++ [n])). fold (prodl sh). cbn in Hi. fold (prodl sh) in Hi.
    rewrite prodl_app. cbn [prodl fold_right]. rewrite Nat.mul_1_r.
    assert (prodl sh <> 0) by (intros E; rewrite E in Hi; lia).
    assert (E1 : (i * n + g) / (prodl sh * n) = i / prodl sh).
    { rewrite (Nat.mul_comm (prodl sh) n), <- Nat.div_div by lia.
      rewrite (Nat.add_comm (i * n)), Nat.div_add by lia. now rewrite (Nat.div_small g n) by assumption. }
    assert (E2 : (i * n + g) mod (prodl sh * n) = (i mod prodl sh) * n + g).
    { rewrite (Nat.div_mod i (prodl sh)) at 1 by assumption.
      pose proof (Nat.mod_upper_bound i (prodl sh) H) as U.
      generalize dependent (i mod prodl sh). intros x U. generalize (i / prodl sh). intros q.
      replace ((prodl sh * q + x) * n + g) with ((x * n + g) + q * (prodl sh * n)) by lia.
      rewrite Nat.mod_add by nia. apply Nat.mod_small. nia. }
    rewrite E1, E2, IH; [reflexivity| |assumption]. now apply Nat.mod_upper_bound.
Qed.

Lemma map_combine_seq_error {A B} (h : nat -> A -> B) (l : list A) k r a : nth_error l r = Some a ->
  nth_error (map (fun p => h (fst p) (snd p)) (combine (seq k (length l)) l)) r = Some (h (k + r) a).
Proof.
  revert k r. induction l as [|x l IH]; intros k r H; [destruct r; discriminate|].
  cbn [length seq combine map]. destruct r as [|r]; cbn in H.
  - injection H as ->. cbn. now rewrite Nat.add_0_r.
  - cbn [nth_error]. rewrite (IH (S k) r H). do 2 f_equal. lia.
Qed.
Lemma map_combine_seq_length {A B} (h : nat * A -> B) (l : list A) k : length (map h (combine (seq k (length l)) l)) = length l.
Proof. rewrite map_length, combine_length, seq_length. lia. Qed.

Lemma nth_error_ext {A} (l l' : list A) : length l = length l' -> (forall i a, nth_error l i = Some a -> nth_error l' i = Some a) -> l = l'.
Proof.
  revert l'. induction l as [|x l IH]; intros [|y l'] HL H; try discriminate; [reflexivity|].
  pose proof (H 0 x eq_refl) as E. injection E as ->. f_equal. apply IH; [cbn in HL; lia|]. intros i a. apply (H (S i) a).
Qed.

(** If every rank enters, the reduction completes everywhere. *)
Lemma entering_all {T} (l : list (nd T)) : entering (map Enters l) = l.
Proof. induction l as [|a l IH]; [reflexivity|]. change (a :: entering (map Enters l) = a :: l). now rewrite IH. Qed.
Lemma allreduce_all {T} f (l : list (nd T)) sh : (forall a, In a l -> shape a = sh) ->
  allreduce (OpFun f) (map Enters l) = map (fun a => Gives (VArr (reduced f l a))) l.
Proof.
  intros H. unfold allreduce. rewrite map_map, entering_all, map_length. apply map_ext_in. intros a Ha.
  rewrite Nat.ltb_irrefl.
  replace (forallb (fun b => size b =? size a) l) with true; [reflexivity|]. symmetry.
  apply forallb_forall. intros b Hb. apply Nat.eqb_eq. unfold size. now rewrite (H a Ha), (H b Hb).
Qed.
Lemma allreduce_none {T} op (l : list (value (T := T))) : allreduce op (map Give l) = map Gives l.
Proof. unfold allreduce. rewrite map_map. now apply map_ext. Qed.

  (** All indices of a shape with a last axis. *)
  Lemma indices_snoc sh n : indices (sh ++ [n]) = flat_map (fun ms => map (fun j => ms ++ [j]) (seq 0 n)) (indices sh).
  Proof.
    induction sh as [|m sh IH]; cbn [app indices].
    - cbn. rewrite app_nil_r. induction (seq 0 n); cbn; [reflexivity|]. congruence.
    - rewrite IH. clear IH. rewrite (flat_map_concat_map (fun ms => map (fun j => ms ++ [j]) (seq 0 n)) (flat_map _ _)).
      induction (seq 0 m) as [|i l IHl]; [reflexivity|]. cbn [flat_map]. rewrite map_app, concat_app, <- IHl. f_equal.
      rewrite map_map, <- flat_map_concat_map. clear.
      induction (indices sh) as [|x q IHq]; [reflexivity|]. cbn [flat_map]. rewrite map_app, IHq. f_equal.
      rewrite map_map. reflexivity.
  Qed.
  Lemma indices_inside sh ms : In ms (indices sh) <-> inside sh ms.
  Proof.
    revert ms. induction sh as [|m sh IH]; intros ms; cbn [indices].
    - split; [intros [<-|[]]; constructor|]. intros H. inversion H. now left.
    - rewrite in_flat_map. split.
      + intros (i & Hi & H). apply in_map_iff in H as (x & <- & Hx). apply in_seq in Hi. constructor; [lia|now apply IH].
      + intros H. inversion H as [|i ? r ? Hi Hr]; subst. exists i. split; [apply in_seq; lia|]. apply in_map, IH, Hr.
  Qed.

(** Commutative monoid sums. *)
Section Monoid.
  Context {T : Type} (f : T -> T -> T) (e : T).
  Hypothesis fA : forall x y z, f x (f y z) = f (f x y) z.
  Hypothesis fC : forall x y, f x y = f y x.
  Hypothesis f1 : forall x, f e x = x.
  Notation tot := (fold_right f e).
  Lemma tot_app a b : tot (a ++ b) = f (tot a) (tot b).
  Proof. induction a as [|x a IH]; cbn; [now rewrite f1|]. now rewrite IH, fA. Qed.
  Lemma tot_flat_map {A} (g : A -> list T) l : tot (flat_map g l) = tot (map (fun x => tot (g x)) l).
  Proof. induction l as [|x l IH]; cbn; [reflexivity|]. now rewrite tot_app, IH. Qed.
  Lemma tot_add {A} (g h : A -> T) l : tot (map (fun x => f (g x) (h x)) l) = f (tot (map g l)) (tot (map h l)).
  Proof.
    induction l as [|x l IH]; cbn; [now rewrite f1|]. rewrite IH.
    rewrite <- !fA. f_equal. rewrite !fA. f_equal. apply fC.
  Qed.
  Lemma tot_e {A} (l : list A) : tot (map (fun _ => e) l) = e.
  Proof. induction l; cbn; [reflexivity|]. now rewrite f1. Qed.
  Lemma tot_swap {A B} (g : A -> B -> T) la lb :
    tot (map (fun a => tot (map (g a) lb)) la) = tot (map (fun b => tot (map (fun a => g a b) la)) lb).
  Proof.
    induction la as [|a la IH]; cbn; [now rewrite tot_e|]. now rewrite IH, tot_add.
  Qed.
  Lemma fold_left_tot v vs : fold_left f vs v = f v (tot vs).
  Proof.
    revert v. induction vs as [|w vs IH]; intros v; cbn; [now rewrite fC, f1|]. now rewrite IH, fA.
  Qed.
  (** The basis divided among the ranks. *)
  Lemma tot_counts (g : nat -> T) counts : forall k,
    tot (map g (seq k (sum_of counts))) =
    tot (map (fun r => tot (map (fun j => g (k + first_of counts r + j)) (seq 0 (nth r counts 0)))) (seq 0 (length counts))).
  Proof.
    induction counts as [|n counts IH]; intros k; [reflexivity|].
    change (sum_of (n :: counts)) with (n + sum_of counts). rewrite seq_app, map_app, tot_app.
    cbn [length seq map fold_right nth]. f_equal.
    - rewrite <- (map_id (seq 0 n)). f_equal. rewrite map_map.
      unfold first_of. cbn [firstn]. change (sum_of []) with 0. rewrite Nat.add_0_r.
      transitivity (map g (map (fun j => k + j) (seq 0 n))); [f_equal; rewrite <- (map_id (seq k n))|now rewrite map_map].
      rewrite (map_ext_in _ (fun j => k + (j - k)) (seq k n)) by (intros j Hj; apply in_seq in Hj; lia).
      rewrite <- (map_map (fun j => j - k) (fun j => k + j)). f_equal.
      clear. revert k. induction n as [|n IHn]; intros k; [reflexivity|]. rewrite !seq_S, map_app, IHn. cbn. do 2 f_equal. lia.
    - rewrite (IH (k + n)). rewrite <- seq_shift, map_map. f_equal. apply map_ext. intros r. cbn [nth]. f_equal. apply map_ext.
      intros j. f_equal. unfold first_of. cbn [firstn]. change (sum_of (n :: firstn r counts)) with (n + sum_of (firstn r counts)). lia.
  Qed.
End Monoid.

Lemma nth_error_in_range {A} (l : list A) r : r < length l -> exists a, nth_error l r = Some a.
Proof. intros H. destruct (nth_error l r) eqn:E; [eauto|]. apply nth_error_None in E. lia. Qed.

Lemma last_snoc {A} (l : list A) x d : last (l ++ [x]) d = x.
Proof. induction l as [|y l IH]; [reflexivity|]. cbn. destruct (l ++ [x]) eqn:E; [now destruct l|assumption]. Qed.

(** A reduction over the last [k] >= 1 axes, on one process: value at the remaining indices. *)
Lemma tail_ok {T} k (f : T -> T -> T) e a sh0 mid n : shape a = sh0 ++ mid ++ [n] -> k = length mid + 1 ->
  raw_reduce_tail k f e [inr a] = Ok (MkNd sh0 (fun js =>
    fold_right f e (map (fun ks => at_ a (js ++ ks)) (indices (mid ++ [n]))))).
Proof.
  intros Hs ->. unfold raw_reduce_tail. rewrite Hs. rewrite !app_length. cbn [length].
  replace (length sh0 + (length mid + 1) <? length mid + 1) with false by (symmetry; apply Nat.ltb_ge; lia).
  replace (length sh0 + (length mid + 1) - (length mid + 1)) with (length sh0) by lia.
  rewrite firstn_app, firstn_all, Nat.sub_diag, firstn_O, app_nil_r.
  rewrite skipn_app, skipn_all, Nat.sub_diag, skipn_O. reflexivity.
Qed.

Section Reduce.
  Context {T : Type} (f : T -> T -> T) (e : T).
  Hypothesis fA : forall x y z, f x (f y z) = f (f x y) z.
  Hypothesis fC : forall x y, f x y = f y x.
  Hypothesis f1 : forall x, f e x = x.
  Notation tot := (fold_right f e).
  Variable counts : list nat.

  Definition tail_at (a : nd T) (mid : list nat) (n : nat) (js : list nat) : T :=
    tot (map (fun ks => at_ a (js ++ ks)) (indices (mid ++ [n]))).
  Lemma tail_at_rows a mid n js : tail_at a mid n js =
    tot (map (fun ms => tot (map (fun j => at_ a (js ++ ms ++ [j])) (seq 0 n))) (indices mid)).
  Proof.
    unfold tail_at. rewrite indices_snoc. rewrite flat_map_concat_map, concat_map, map_map, <- flat_map_concat_map.
    rewrite (tot_flat_map f e fA f1). f_equal. apply map_ext. intros ms. now rewrite map_map.
  Qed.
  (** Sum of the local sums. *)
  Lemma tail_total (g : nd T) (ls : list (nd T)) sh0 mid js :
    length ls = length counts -> inside sh0 js ->
    (forall r l, nth_error ls r = Some l -> forall p j, inside (sh0 ++ mid) p -> j < nth r counts 0 ->
        at_ l (p ++ [j]) = at_ g (p ++ [first_of counts r + j])) ->
    tot (map (fun r => tail_at (nth r ls g) mid (nth r counts 0) js) (seq 0 (length counts))) = tail_at g mid (sum_of counts) js.
  Proof.
    intros HL Hjs H. rewrite tail_at_rows.
    rewrite (map_ext_in _ (fun r => tot (map (fun ms => tot (map (fun j => at_ g (js ++ ms ++ [first_of counts r + j])) (seq 0 (nth r counts 0)))) (indices mid))) (seq 0 (length counts))).
    - rewrite (tot_swap f e fA fC f1). f_equal. apply map_ext. intros ms.
      rewrite (tot_counts f e fA fC f1 (fun j => at_ g (js ++ ms ++ [j])) counts 0). reflexivity.
    - intros r Hr. apply in_seq in Hr. rewrite tail_at_rows. f_equal. apply map_ext_in. intros ms Hms. f_equal.
      apply map_ext_in. intros j Hj. apply in_seq in Hj. apply indices_inside in Hms.
      destruct (nth_error_in_range ls r ltac:(lia)) as (l & El). rewrite (nth_error_nth ls r g El).
      rewrite !app_assoc. apply (H r l El); [now apply inside_app|lia].
  Qed.
End Reduce.

Lemma piece_inv {T} counts r (g l : nd T) sh : shape g = sh ++ [sum_of counts] -> piece counts r g l ->
  shape l = sh ++ [nth r counts 0] /\
  forall js j, inside sh js -> j < nth r counts 0 -> at_ l (js ++ [j]) = at_ g (js ++ [first_of counts r + j]).
Proof.
  intros Hg (sh' & E1 & E2 & E3). rewrite Hg in E1. apply app_inj_tail in E1 as (-> & _). split; assumption.
Qed.

Lemma containers_buf {T} (b : buffer T) : containers [ABuf b] = [b].
Proof. reflexivity. Qed.

(** The move of one rank in a call on one container of a distributed class. *)
Lemma ask_one {T} bs isd r (b : buffer T) m raw out : m <> MOtherMethod -> isd (typ b) = true -> raw [inr (data b)] = Ok out ->
  ask_rank bs isd r [b] true m raw [ABuf b] =
  if (0 <? length (shape out)) && (last (shape out) 0 =? bs r (typ b)) then Give (VBuf (MkBuffer (typ b) out)) else Enters out.
Proof.
  intros Hm Hd Hr. cbn [ask_rank]. unfold array_ufunc. cbn [unwrap_all unwrap]. rewrite Nat.eqb_refl, Hd.
  destruct m; [| |congruence]; cbn [negb]; rewrite Hr; cbn [bind];
  destruct ((0 <? length (shape out)) && (last (shape out) 0 =? bs r (typ b))); reflexivity.
Qed.

Lemma moves_map {A X U} (g : A -> X) (h : nat -> X -> U) (bs : list A) (k : nat -> A -> U) :
  (forall r b, nth_error bs r = Some b -> h r (g b) = k r b) ->
  map (fun p => h (fst p) (snd p)) (combine (seq 0 (length (map g bs))) (map g bs)) =
  map (fun p => k (fst p) (snd p)) (combine (seq 0 (length bs)) bs).
Proof.
  intros H. apply nth_error_ext.
  - rewrite !map_length, !combine_length, !seq_length, map_length. reflexivity.
  - intros i a Hi. pose proof (proj1 (nth_error_Some (map (fun p => h (fst p) (snd p)) (combine (seq 0 (length (map g bs))) (map g bs))) i) ltac:(congruence)) as L.
    rewrite map_length, combine_length, seq_length, map_length in L.
    destruct (nth_error_in_range bs i ltac:(lia)) as (b & Eb).
    rewrite (map_combine_seq_error k bs 0 i b Eb).
    rewrite (map_combine_seq_error h (map g bs) 0 i (g b)) in Hi by (now rewrite nth_error_map, Eb).
    injection Hi as <-. f_equal. symmetry. now apply H.
Qed.

(** The local results of a call, one per rank, as a list over the ranks. *)
Definition ranked {A U} (k : nat -> A -> U) (bs : list A) : list U :=
  map (fun p => k (fst p) (snd p)) (combine (seq 0 (length bs)) bs).
Lemma ranked_length {A U} (k : nat -> A -> U) bs : length (ranked k bs) = length bs.
Proof. unfold ranked. rewrite map_length, combine_length, seq_length. lia. Qed.
Lemma ranked_error {A U} (k : nat -> A -> U) bs r b : nth_error bs r = Some b -> nth_error (ranked k bs) r = Some (k r b).
Proof. intros H. unfold ranked. now rewrite (map_combine_seq_error k bs 0 r b H). Qed.
Lemma ranked_in {A U} (k : nat -> A -> U) bs x : In x (ranked k bs) -> exists r b, nth_error bs r = Some b /\ x = k r b.
Proof.
  intros H. apply In_nth_error in H as (r & Hr).
  assert (L : r < length bs) by (rewrite <- (ranked_length k bs); apply nth_error_Some; congruence).
  destruct (nth_error_in_range bs r L) as (b & Eb). exists r, b. split; [assumption|].
  rewrite (ranked_error k bs r b Eb) in Hr. congruence.
Qed.
Lemma ranked_map {A U V} (k : nat -> A -> U) (h : U -> V) bs : map h (ranked k bs) = ranked (fun r b => h (k r b)) bs.
Proof. unfold ranked. now rewrite map_map. Qed.
Lemma ranked_ext {A U} (k k' : nat -> A -> U) bs : (forall r b, nth_error bs r = Some b -> k r b = k' r b) -> ranked k bs = ranked k' bs.
Proof.
  intros H. apply nth_error_ext; [now rewrite !ranked_length|]. intros i a Hi.
  assert (L : i < length bs) by (rewrite <- (ranked_length k bs); apply nth_error_Some; congruence).
  destruct (nth_error_in_range bs i L) as (b & Eb). rewrite (ranked_error k bs i b Eb) in Hi.
  rewrite (ranked_error k' bs i b Eb). rewrite <- (H i b Eb). assumption.
Qed.
Lemma ranked_seq {A U} (k : nat -> A -> U) bs d : ranked k bs = map (fun r => k r (nth r bs d)) (seq 0 (length bs)).
Proof.
  apply nth_error_ext; [now rewrite ranked_length, map_length, seq_length|]. intros i a Hi.
  assert (L : i < length bs) by (rewrite <- (ranked_length k bs); apply nth_error_Some; congruence).
  destruct (nth_error_in_range bs i L) as (b & Eb). rewrite (ranked_error k bs i b Eb) in Hi. injection Hi as <-.
  rewrite nth_error_map. rewrite (nth_error_nth' _ 0) by now rewrite seq_length. rewrite seq_nth by assumption. cbn.
  now rewrite (nth_error_nth bs i d Eb).
Qed.

(** Value of a completed reduction when all arrays have the same shape. *)
Lemma reduced_at {T} f (e : T) (fA : forall x y z, f x (f y z) = f (f x y) z) (fC : forall x y, f x y = f y x) (f1 : forall x, f e x = x)
    (l : list (nd T)) a js : l <> [] -> (forall b, In b l -> shape b = shape a) -> inside (shape a) js ->
  at_ (reduced f l a) js = fold_right f e (map (fun b => at_ b js) l).
Proof.
  intros Hl Hs Hj. unfold reduced. cbn [at_].
  rewrite (map_ext_in _ (fun b => at_ b js) l).
  - destruct l as [|b l]; [congruence|]. cbn [map fold_right]. rewrite (fold_left_tot f e); auto.
  - intros b Hb. rewrite (Hs b Hb). now rewrite unravel_ravel.
Qed.

(** The local result of a reduction over trailing axes. *)
Definition local_tail {T} (f : T -> T -> T) e sh0 mid counts (r : nat) (b : buffer T) : nd T :=
  MkNd sh0 (tail_at f e (data b) mid (nth r counts 0)).

Lemma dist_reduce {T} f (e : T) u counts t isd (g : nd T) bs sh0 mid :
  (u = UAdd f \/ u = UOther f) -> isd t = true -> pieces counts t g bs -> shape g = sh0 ++ mid ++ [sum_of counts] ->
  (sh0 = [] \/ forall n, In n counts -> last sh0 0 <> n) ->
  dist_ufunc (fun r _ => nth r counts 0) isd u true MReduce (raw_reduce_tail (length mid + 1) f e) (map (fun b => [ABuf b]) bs)
  = map (fun a => Gives (VArr (reduced f (ranked (local_tail f e sh0 mid counts) bs) a))) (ranked (local_tail f e sh0 mid counts) bs).
Proof.
  intros Hu Hd (HL & Hp) Hs Hc. unfold dist_ufunc.
  assert (E : op_of u = OpFun f) by (destruct Hu; subst; reflexivity). rewrite E.
  rewrite (moves_map (fun b => [ABuf b]) (fun r inp => ask_rank _ isd r (containers inp) true MReduce _ inp) bs
             (fun r b => Enters (local_tail f e sh0 mid counts r b))).
  - fold (ranked (fun r b => Enters (local_tail f e sh0 mid counts r b)) bs).
    rewrite <- (ranked_map (local_tail f e sh0 mid counts) Enters bs).
    apply allreduce_all with (sh := sh0). intros a Ha. apply ranked_in in Ha as (r & b & _ & ->). reflexivity.
  - intros r b Hb. destruct (Hp r b Hb) as (Ht & P). apply (piece_inv counts r g (data b) (sh0 ++ mid)) in P as (P1 & P2); [|now rewrite <- app_assoc].
    rewrite containers_buf.
    rewrite (ask_one _ isd r b MReduce (raw_reduce_tail (length mid + 1) f e) (local_tail f e sh0 mid counts r b)).
    + cbn [local_tail shape].
      replace ((0 <? length sh0) && (last sh0 0 =? nth r counts 0)) with false; [reflexivity|]. symmetry.
      destruct Hc as [->|Hc]; [reflexivity|]. apply andb_false_iff. right. apply Nat.eqb_neq. apply Hc. apply nth_In.
      rewrite <- HL. apply nth_error_Some. congruence.
    + discriminate.
    + now rewrite Ht.
    + rewrite (tail_ok _ f e (data b) sh0 mid (nth r counts 0)); [reflexivity| |reflexivity]. now rewrite P1, <- app_assoc.
Qed.

Lemma dist_reduce_value {T} f (e : T) (fA : forall x y z, f x (f y z) = f (f x y) z) (fC : forall x y, f x y = f y x) (f1 : forall x, f e x = x)
   counts t (g : nd T) bs sh0 mid : counts <> [] -> pieces counts t g bs -> shape g = sh0 ++ mid ++ [sum_of counts] ->
  forall a, In a (ranked (local_tail f e sh0 mid counts) bs) ->
  shape a = sh0 /\ forall js, inside sh0 js ->
    at_ (reduced f (ranked (local_tail f e sh0 mid counts) bs) a) js = tail_at f e g mid (sum_of counts) js.
Proof.
  intros Hn (HL & Hp) Hs a Ha. pose proof Ha as Ha'. apply ranked_in in Ha' as (r & b & Hb & ->). split; [reflexivity|]. intros js Hj.
  rewrite (reduced_at f e fA fC f1); [| | |assumption].
  - rewrite ranked_map. rewrite (ranked_seq _ bs b). rewrite HL.
    rewrite <- (tail_total f e fA fC f1 counts g (map (@data T) bs) sh0 mid js); [| |assumption|].
    + f_equal. apply map_ext_in. intros q Hq. apply in_seq in Hq. cbn [local_tail at_]. f_equal.
      destruct (nth_error_in_range bs q ltac:(lia)) as (c & Ec).
      rewrite (nth_error_nth bs q b Ec). symmetry. apply nth_error_nth. now rewrite nth_error_map, Ec.
    + now rewrite map_length.
    + intros q l Hq. rewrite nth_error_map in Hq. destruct (nth_error bs q) as [c|] eqn:Ec; [|discriminate]. injection Hq as <-.
      destruct (Hp q c Ec) as (_ & P). apply (piece_inv counts q g (data c) (sh0 ++ mid)) in P as (_ & P2); [|now rewrite <- app_assoc]. exact P2.
  - intros E. apply (f_equal (@length _)) in E. rewrite ranked_length in E. cbn in E. apply Hn. now destruct counts; [|cbn in *; lia].
  - intros c Hc. apply ranked_in in Hc as (q & d & _ & ->). reflexivity.
Qed.
