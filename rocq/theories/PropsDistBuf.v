(** C96: containers over a distributed G-space behave as the containers on one process, piece by
    piece, and reductions over the divided basis agree with the serial ones on every rank. *)
From Verif Require Import Base BufferModel BufferProofs CBase DistBufModel DistBufSpec DistBufProofs.
Open Scope nat_scope.

(** Reductions over the basis axis (and any axes before it) with an associative, commutative
    operation that has a neutral element - sums and products: every rank obtains the array the
    serial container gives, unless the axis that becomes last has the local basis length of a
    rank (or the serial one). *)
Theorem C96_basis_reduction : forall T (f : T -> T -> T) e u counts t isd (g : nd T) bs sh0 mid,
  (forall x y z, f x (f y z) = f (f x y) z) -> (forall x y, f x y = f y x) -> (forall x, f e x = x) ->
  (u = UAdd f \/ u = UOther f) -> isd t = true -> counts <> [] ->
  shape g = sh0 ++ mid ++ [sum_of counts] -> pieces counts t g bs ->
  (sh0 = [] \/ forall n, In n (sum_of counts :: counts) -> last sh0 0 <> n) ->
  let call := raw_reduce_tail (length mid + 1) f e in
  let outs := dist_ufunc (fun r _ => nth r counts 0) isd u true MReduce call (map (fun b => [ABuf b]) bs) in
  exists v, ufunc (fun _ => sum_of counts) true MReduce call [ABuf (MkBuffer t g)] = Ok (VArr v)
    /\ shape v = sh0
    /\ length outs = length counts
    /\ forall o, In o outs -> exists w, o = Gives (VArr w) /\ same_array w v.
Proof.
  intros T f e u counts t isd g bs sh0 mid fA fC f1 Hu Hd Hn Hs Hp Hc call outs.
  exists (MkNd sh0 (tail_at f e g mid (sum_of counts))).
  assert (Hc' : sh0 = [] \/ forall n, In n counts -> last sh0 0 <> n).
  { destruct Hc as [->|Hc]; [now left|right]. intros n Hi. apply Hc. now right. }
  split; [|split; [reflexivity|split]].
  - unfold ufunc, containers. cbn [flat_map app ask typ]. unfold array_ufunc. cbn [negb unwrap_all unwrap typ data]. rewrite Nat.eqb_refl.
    unfold call. rewrite (tail_ok _ f e g sh0 mid (sum_of counts)) by (assumption || reflexivity). cbn [bind shape].
    replace ((0 <? length sh0) && (last sh0 0 =? sum_of counts)) with false; [reflexivity|]. symmetry.
    destruct Hc as [->|Hc]; [reflexivity|]. apply andb_false_iff. right. apply Nat.eqb_neq, Hc. now left.
  - unfold outs, call. rewrite (dist_reduce f e u counts t isd g bs sh0 mid) by assumption.
    rewrite map_length, ranked_length. apply Hp.
  - intros o Ho. unfold outs, call in Ho. rewrite (dist_reduce f e u counts t isd g bs sh0 mid) in Ho by assumption.
    apply in_map_iff in Ho as (a & <- & Ha). eexists. split; [reflexivity|].
    destruct (dist_reduce_value f e fA fC f1 counts t g bs sh0 mid Hn Hp Hs a Ha) as (S1 & V). split; [exact S1|].
    intros js Hj. cbn [reduced shape] in Hj. rewrite S1 in Hj. now apply V.
Qed.
Print Assumptions C96_basis_reduction.

Lemma dist_local {T A} bsz isd u sm m raw (mk : A -> list (arg T)) (k : nat -> A -> buffer T) (l : list A) :
  (forall r a, nth_error l r = Some a -> ask_rank bsz isd r (containers (mk a)) sm m raw (mk a) = Give (VBuf (k r a))) ->
  dist_ufunc bsz isd u sm m raw (map mk l) = map (fun b => Gives (VBuf b)) (ranked k l).
Proof.
  intros H. unfold dist_ufunc.
  rewrite (moves_map mk (fun r inp => ask_rank bsz isd r (containers inp) sm m raw inp) l (fun r a => Give (VBuf (k r a))) H).
  fold (ranked (fun r a => Give (VBuf (k r a))) l).
  rewrite <- (ranked_map (fun r a => VBuf (k r a)) Give l), allreduce_none, ranked_map.
  now rewrite <- (ranked_map k (fun b => Gives (VBuf b)) l).
Qed.
Lemma pieces_shape {T} counts t (g : nd T) bs : counts <> [] -> pieces counts t g bs -> exists sh, shape g = sh ++ [sum_of counts].
Proof.
  intros Hn (HL & Hp). destruct bs as [|b bs]; [now destruct counts|]. destruct (Hp 0 b eq_refl) as (_ & sh & E & _). now exists sh.
Qed.
Lemma last_ok sh n : (0 <? length (sh ++ [n])) && (last (sh ++ [n]) 0 =? n) = true.
Proof. rewrite app_length, last_snoc, Nat.eqb_refl. cbn [length]. rewrite Nat.add_1_r. reflexivity. Qed.
Lemma combine_error {A B} (l : list A) (m : list B) r p : nth_error (combine l m) r = Some p ->
  nth_error l r = Some (fst p) /\ nth_error m r = Some (snd p).
Proof.
  revert m r. induction l as [|a l IH]; intros m r H; [destruct r; discriminate|]. destruct m as [|b m]; [destruct r; discriminate|].
  destruct r as [|r]; cbn in *; [now injection H as <-|now apply IH].
Qed.
Lemma combine_error_r {A B} (l : list A) (m : list B) r a : length l = length m -> nth_error l r = Some a -> exists b, nth_error (combine l m) r = Some (a, b).
Proof.
  revert m r. induction l as [|x l IH]; intros m r L H; [destruct r; discriminate|]. destruct m as [|b m]; [discriminate|].
  destruct r as [|r]; cbn in *; [injection H as ->; now exists b|]. apply IH; [lia|assumption].
Qed.

(** Elementwise operations, on two containers or a container and a number: no rank
    communicates, and each obtains its piece of the serial result. *)
Theorem C96_elementwise : forall T (f : T -> T -> T) u counts t isd (g h : nd T) bs cs x,
  counts <> [] -> shape h = shape g -> pieces counts t g bs -> pieces counts t h cs ->
  (exists v, ufunc (fun _ => sum_of counts) true MCall (raw_binary f) [ABuf (MkBuffer t g); ABuf (MkBuffer t h)] = Ok (VBuf (MkBuffer t v))
     /\ exists vs, dist_ufunc (fun r _ => nth r counts 0) isd u true MCall (raw_binary f) (map (fun p => [ABuf (fst p); ABuf (snd p)]) (combine bs cs))
          = map (fun b => Gives (VBuf b)) vs /\ pieces counts t v vs)
  /\ (exists v, ufunc (fun _ => sum_of counts) true MCall (raw_binary f) [ABuf (MkBuffer t g); ANum x] = Ok (VBuf (MkBuffer t v))
     /\ exists vs, dist_ufunc (fun r _ => nth r counts 0) isd u true MCall (raw_binary f) (map (fun b => [ABuf b; ANum x]) bs)
          = map (fun b => Gives (VBuf b)) vs /\ pieces counts t v vs).
Proof.
  intros T f u counts t isd g h bs cs x Hn Hsh Pb Pc. destruct (pieces_shape _ _ _ _ Hn Pb) as (sh & Hg).
  assert (Hh : shape h = sh ++ [sum_of counts]) by congruence.
  destruct Pb as (LB & PB), Pc as (LC & PC). split.
  - exists (MkNd (shape g) (fun js => f (at_ g js) (at_ h js))). split.
    { unfold ufunc, containers. cbn [flat_map app ask typ]. unfold array_ufunc. cbn [negb unwrap_all unwrap typ data]. rewrite Nat.eqb_refl.
      unfold raw_binary. rewrite <- Hsh. destruct (list_eq_dec Nat.eq_dec (shape h) (shape h)) as [_|N]; [|congruence]. cbn [bind shape].
      rewrite Hh, last_ok. reflexivity. }
    exists (ranked (fun r p => MkBuffer t (MkNd (shape (data (fst p))) (fun js => f (at_ (data (fst p)) js) (at_ (data (snd p)) js)))) (combine bs cs)). split.
    + apply dist_local. intros r p Hp. apply combine_error in Hp as (A & B). destruct (PB _ _ A) as (T1 & P1), (PC _ _ B) as (T2 & P2).
      apply (piece_inv counts r g _ sh Hg) in P1 as (S1 & _). apply (piece_inv counts r h _ sh Hh) in P2 as (S2 & _).
      cbn [containers flat_map app ask_rank]. rewrite T1. unfold array_ufunc. cbn [negb unwrap_all unwrap]. rewrite T1, T2, Nat.eqb_refl.
      unfold raw_binary. destruct (list_eq_dec Nat.eq_dec (shape (data (fst p))) (shape (data (snd p)))) as [_|N]; [|congruence]. cbn [bind shape].
      rewrite S1, last_ok. reflexivity.
    + split; [rewrite ranked_length, combine_length; lia|]. intros r b Hb.
      assert (Hr : r < length bs). { apply Nat.lt_le_trans with (length (combine bs cs)); [|rewrite combine_length; lia].
        rewrite <- (ranked_length (fun r p => MkBuffer t (MkNd (shape (data (fst p))) (fun js => f (at_ (data (fst p)) js) (at_ (data (snd p)) js)))) (combine bs cs)).
        apply nth_error_Some. congruence. }
      destruct (nth_error_in_range bs r Hr) as (b1 & E1). destruct (combine_error_r bs cs r b1 ltac:(lia) E1) as (b2 & E2).
      rewrite (ranked_error _ _ _ _ E2) in Hb. injection Hb as <-. split; [reflexivity|]. cbn [data fst snd].
      apply combine_error in E2 as (_ & E2). cbn [snd] in E2.
      destruct (PB _ _ E1) as (_ & P1), (PC _ _ E2) as (_ & P2).
      apply (piece_inv counts r g _ sh Hg) in P1 as (S1 & V1). apply (piece_inv counts r h _ sh Hh) in P2 as (_ & V2).
      exists sh. cbn [shape at_]. split; [assumption|split; [assumption|]]. intros js j Hj Hjn. now rewrite V1, V2.
  - exists (MkNd (shape g) (fun js => f (at_ g js) x)). split.
    { unfold ufunc, containers. cbn [flat_map app ask typ]. unfold array_ufunc. cbn [negb unwrap_all unwrap typ data]. rewrite Nat.eqb_refl.
      cbn [raw_binary bind shape]. rewrite Hg, last_ok. reflexivity. }
    exists (ranked (fun r b => MkBuffer t (MkNd (shape (data b)) (fun js => f (at_ (data b) js) x))) bs). split.
    + apply dist_local. intros r b Hb. destruct (PB _ _ Hb) as (T1 & P1).
      apply (piece_inv counts r g _ sh Hg) in P1 as (S1 & _).
      cbn [containers flat_map app ask_rank]. rewrite T1. unfold array_ufunc. cbn [negb unwrap_all unwrap]. rewrite T1, Nat.eqb_refl.
      cbn [raw_binary bind shape]. rewrite S1, last_ok. reflexivity.
    + split; [now rewrite ranked_length|]. intros r b Hb. apply nth_error_In in Hb as Hi.
      assert (Hr : r < length bs). { rewrite <- (ranked_length (fun r b => MkBuffer t (MkNd (shape (data b)) (fun js => f (at_ (data b) js) x))) bs). apply nth_error_Some. congruence. }
      destruct (nth_error_in_range bs r Hr) as (b1 & E1). rewrite (ranked_error _ _ _ _ E1) in Hb. injection Hb as <-. split; [reflexivity|].
      destruct (PB _ _ E1) as (_ & P1). apply (piece_inv counts r g _ sh Hg) in P1 as (S1 & V1).
      exists sh. cbn [data shape at_]. split; [assumption|split; [assumption|]]. intros js j Hj Hjn. now rewrite V1.
Qed.
Print Assumptions C96_elementwise.

(** Reduction over a leading axis (not the basis): no communication, pieces of the serial
    result. *)
Theorem C96_leading_reduction : forall T (f : T -> T -> T) e u counts t isd (g : nd T) bs n sh,
  counts <> [] -> shape g = n :: sh ++ [sum_of counts] -> pieces counts t g bs ->
  exists v, ufunc (fun _ => sum_of counts) true MReduce (raw_reduce_first f e) [ABuf (MkBuffer t g)] = Ok (VBuf (MkBuffer t v))
   /\ exists vs, dist_ufunc (fun r _ => nth r counts 0) isd u true MReduce (raw_reduce_first f e) (map (fun b => [ABuf b]) bs)
        = map (fun b => Gives (VBuf b)) vs /\ pieces counts t v vs.
Proof.
  intros T f e u counts t isd g bs n sh Hn Hg Pb. destruct Pb as (LB & PB).
  set (red := fun (a : nd T) (s : list nat) => MkNd s (fun js => fold_right f e (map (fun k => at_ a (k :: js)) (seq 0 n)))).
  exists (red g (sh ++ [sum_of counts])). split.
  { unfold ufunc, containers. cbn [flat_map app ask typ]. unfold array_ufunc. cbn [negb unwrap_all unwrap typ data]. rewrite Nat.eqb_refl.
    unfold raw_reduce_first. rewrite Hg. cbn [bind shape]. rewrite last_ok. reflexivity. }
  exists (ranked (fun r b => MkBuffer t (red (data b) (sh ++ [nth r counts 0]))) bs). split.
  - apply dist_local. intros r b Hb. destruct (PB _ _ Hb) as (T1 & P1).
    apply (piece_inv counts r g _ (n :: sh) Hg) in P1 as (S1 & _).
    cbn [containers flat_map app ask_rank]. rewrite T1. unfold array_ufunc. cbn [negb unwrap_all unwrap]. rewrite T1, Nat.eqb_refl.
    unfold raw_reduce_first. rewrite S1. cbn [app bind shape]. rewrite last_ok. reflexivity.
  - split; [now rewrite ranked_length|]. intros r b Hb.
    assert (Hr : r < length bs). { rewrite <- (ranked_length (fun r b => MkBuffer t (red (data b) (sh ++ [nth r counts 0]))) bs). apply nth_error_Some. congruence. }
    destruct (nth_error_in_range bs r Hr) as (b1 & E1). rewrite (ranked_error _ _ _ _ E1) in Hb. injection Hb as <-. split; [reflexivity|].
    destruct (PB _ _ E1) as (_ & P1). apply (piece_inv counts r g _ (n :: sh) Hg) in P1 as (S1 & V1).
    exists sh. cbn [data red shape at_]. split; [reflexivity|split; [reflexivity|]]. intros js j Hj Hjn.
    f_equal. apply map_ext_in. intros k Hk. apply in_seq in Hk. apply (V1 (k :: js) j); [|assumption]. constructor; [lia|assumption].
Qed.
Print Assumptions C96_leading_reduction.

Lemma entering_le {T} (l : list (move T)) : length (entering l) <= length l.
Proof.
  induction l as [|m l IH]; [apply Nat.le_refl|]. change (entering (m :: l)) with ((match m with Enters a => [a] | _ => [] end) ++ entering l).
  rewrite app_length. destruct m; cbn [length]; lia.
Qed.
Lemma entering_lt {T} (l : list (move T)) q v : nth_error l q = Some (Give v) -> length (entering l) < length l.
Proof.
  revert q. induction l as [|m l IH]; intros q E; [destruct q; discriminate|].
  change (entering (m :: l)) with ((match m with Enters a => [a] | _ => [] end) ++ entering l). rewrite app_length. destruct q as [|q].
  - cbn in E. injection E as ->. cbn [length]. pose proof (entering_le l). lia.
  - cbn in E. specialize (IH q E). destruct m; cbn [length]; lia.
Qed.
Lemma tail_at_row {T} (f : T -> T -> T) e a n js : tail_at f e a [] n js = fold_right f e (map (fun j => at_ a (js ++ [j])) (seq 0 n)).
Proof. unfold tail_at. cbn [app indices]. f_equal. induction (seq 0 n) as [|i l IH]; [reflexivity|]. cbn in *. now rewrite IH. Qed.

(** Where the reduction of a rank leaves a last axis of that rank's own basis length, the rank
    takes the partial result (over its own basis elements only) for a container and returns it
    unreduced; the ranks for which this does not happen wait in a reduction the others never
    join. *)
Theorem C96_coinciding_axis_refuted : forall T (f : T -> T -> T) e u counts t isd (g : nd T) bs sh0 n,
  isd t = true -> shape g = sh0 ++ [n; sum_of counts] -> pieces counts t g bs -> In n counts ->
  let outs := dist_ufunc (fun r _ => nth r counts 0) isd u true MReduce (raw_reduce_tail 1 f e) (map (fun b => [ABuf b]) bs) in
  forall r, r < length counts ->
  (nth r counts 0 = n -> exists a, nth_error outs r = Some (Gives (VBuf (MkBuffer t a))) /\ shape a = sh0 ++ [n] /\
     forall js, inside (sh0 ++ [n]) js ->
       at_ a js = fold_right f e (map (fun j => at_ g (js ++ [first_of counts r + j])) (seq 0 n)))
  /\ (nth r counts 0 <> n -> nth_error outs r = Some Blocked).
Proof.
  intros T f e u counts t isd g bs sh0 n Hd Hg (LB & PB) Hin outs r Hr. unfold outs, dist_ufunc.
  set (loc := fun r (b : buffer T) => MkNd (sh0 ++ [n]) (tail_at f e (data b) [] (nth r counts 0))).
  set (mv := fun r (b : buffer T) => if nth r counts 0 =? n then Give (VBuf (MkBuffer t (loc r b))) else Enters (loc r b)).
  assert (Hg' : shape g = (sh0 ++ [n]) ++ [sum_of counts]) by now rewrite <- app_assoc.
  rewrite (moves_map (fun b => [ABuf b]) (fun r inp => ask_rank (fun r _ => nth r counts 0) isd r (containers inp) true MReduce (raw_reduce_tail 1 f e) inp) bs mv).
  - fold (ranked mv bs).
    assert (LE : length (entering (ranked mv bs)) < length (ranked mv bs)).
    { destruct (In_nth counts n 0 Hin) as (q & Hq & Eq).
      destruct (nth_error_in_range bs q ltac:(lia)) as (b & Eb).
      apply (entering_lt _ q (VBuf (MkBuffer t (loc q b)))). rewrite (ranked_error mv bs q b Eb). unfold mv. now rewrite Eq, Nat.eqb_refl. }
    destruct (nth_error_in_range bs r ltac:(lia)) as (b & Eb).
    unfold allreduce. rewrite nth_error_map, (ranked_error mv bs r b Eb). cbn [option_map].
    change (mv r b) with (if nth r counts 0 =? n then Give (VBuf (MkBuffer t (loc r b))) else Enters (loc r b)). split; intros E.
    + rewrite E, Nat.eqb_refl. eexists. split; [reflexivity|]. split; [reflexivity|]. intros js Hj. cbn [loc at_]. rewrite tail_at_row, E.
      f_equal. apply map_ext_in. intros j Hjn. apply in_seq in Hjn. destruct (PB r b Eb) as (_ & P).
      apply (piece_inv counts r g (data b) (sh0 ++ [n]) Hg') in P as (_ & V). apply V; [assumption|lia].
    + apply Nat.eqb_neq in E. rewrite E. apply Nat.ltb_lt in LE. now rewrite LE.
  - intros q b Hb. destruct (PB q b Hb) as (T1 & P1).
    apply (piece_inv counts q g (data b) (sh0 ++ [n]) Hg') in P1 as (S1 & _).
    rewrite containers_buf. rewrite (ask_one _ isd q b MReduce (raw_reduce_tail 1 f e) (loc q b)); [| discriminate | now rewrite T1 |].
    + unfold mv. cbn [loc shape]. rewrite T1. rewrite app_length, last_snoc. cbn [length]. rewrite Nat.add_1_r. cbn [Nat.ltb Nat.leb andb].
      now rewrite (Nat.eqb_sym n).
    + change 1 with (length (@nil nat) + 1). rewrite (tail_ok _ f e (data b) (sh0 ++ [n]) [] (nth q counts 0)); [reflexivity| |reflexivity]. assumption.
Qed.
Print Assumptions C96_coinciding_axis_refuted.

(** Containers of different classes are refused, without communication, but with an
    AttributeError instead of the TypeError of the serial containers. *)
Theorem C96_mixing_refused : forall T bsz isd u m raw (inputs : list (list (arg T))), m <> MOtherMethod ->
  (forall inp, In inp inputs -> exists b b', In (ABuf b) inp /\ In (ABuf b') inp /\ typ b <> typ b') ->
  (forall inp b, In inp inputs -> In (ABuf b) inp -> isd (typ b) = true) ->
  dist_ufunc bsz isd u true m raw inputs = map (fun _ => Fails AttributeError) inputs
  /\ forall inp, In inp inputs -> forall basis, ufunc basis true m raw inp = Err TypeError.
Proof.
  intros T bsz isd u m raw inputs Hm Hmix Hd.
  assert (N : forall inp, In inp inputs -> forall t, unwrap_all t inp = None).
  { intros inp Hi t. destruct (unwrap_all t inp) eqn:E; [|reflexivity]. exfalso.
    destruct (Hmix inp Hi) as (b & b' & B1 & B2 & N). apply N.
    rewrite (unwrap_all_some t inp _ E b B1), (unwrap_all_some t inp _ E b' B2). reflexivity. }
  split.
  - unfold dist_ufunc.
    rewrite <- (map_id inputs) at 1 2.
    rewrite (moves_map (fun x => x) (fun r inp => ask_rank bsz isd r (containers inp) true m raw inp) inputs (fun _ _ => Raises AttributeError)).
    + fold (ranked (fun (_ : nat) (_ : list (arg T)) => @Raises T AttributeError) inputs).
      rewrite (ranked_seq _ inputs []). unfold allreduce. rewrite map_map. generalize 0 at 1. clear.
      induction inputs as [|x l IH]; intros k; [reflexivity|]. cbn. now rewrite IH.
    + intros r inp Hi. apply nth_error_In in Hi. destruct (Hmix inp Hi) as (b & _ & B1 & _).
      apply containers_in in B1. destruct (containers inp) as [|c cs] eqn:E; [destruct B1|].
      assert (Hc : isd (typ c) = true). { apply (Hd inp c Hi). apply containers_in. rewrite E. now left. }
      cbn [ask_rank]. unfold array_ufunc. rewrite (N inp Hi). destruct m; [| |congruence]; cbn [negb]; now rewrite Hc.
  - intros inp Hi basis. unfold ufunc. apply ask_all_none; [assumption|]. intros; now apply N.
Qed.
Print Assumptions C96_mixing_refused.

Lemma dist_enters {T A} bsz isd u sm m raw (mk : A -> list (arg T)) (k : nat -> A -> nd T) (l : list A) :
  (forall r a, nth_error l r = Some a -> ask_rank bsz isd r (containers (mk a)) sm m raw (mk a) = Enters (k r a)) ->
  dist_ufunc bsz isd u sm m raw (map mk l) = allreduce (op_of u) (map Enters (ranked k l)).
Proof.
  intros H. unfold dist_ufunc.
  rewrite (moves_map mk (fun r inp => ask_rank bsz isd r (containers inp) sm m raw inp) l (fun r a => Enters (k r a)) H).
  fold (ranked (fun r a => Enters (k r a)) l). now rewrite <- (ranked_map k Enters l).
Qed.
Lemma allreduce_aborts {T} (l : list (nd T)) u : (u = UMaximum \/ u = UMinimum \/ (u = UMatmul /\ 2 <= length l)) ->
  allreduce (op_of u) (map Enters l) = map (fun _ => Aborts) l.
Proof.
  intros Hu. unfold allreduce. rewrite map_map, entering_all, map_length. apply map_ext. intros a. rewrite Nat.ltb_irrefl.
  destruct Hu as [->|[->|(-> & L)]]; [reflexivity|reflexivity|]. cbn [op_of].
  destruct (length l =? 1) eqn:E; [|reflexivity]. apply Nat.eqb_eq in E. lia.
Qed.

(** Maxima and minima over the basis never complete on distributed containers (MPI defines
    neither for complex arrays), and a matrix product that contracts the basis fails as soon as
    there are two ranks, although both give an array on one process. *)
Theorem C96_unsupported_refuted : forall T counts t isd (g : nd T) bs,
  isd t = true -> pieces counts t g bs ->
  (forall (f : T -> T -> T) e u mid, u = UMaximum \/ u = UMinimum -> shape g = mid ++ [sum_of counts] ->
     let call := raw_reduce_tail (length mid + 1) f e in
     (exists v, ufunc (fun _ => sum_of counts) true MReduce call [ABuf (MkBuffer t g)] = Ok (VArr v)) /\
     dist_ufunc (fun r _ => nth r counts 0) isd u true MReduce call (map (fun b => [ABuf b]) bs) = map (fun _ => Aborts) counts)
  /\ (forall add mul zero m k y ys, shape g = [m; sum_of counts] -> 2 <= length counts ->
     shape y = [sum_of counts; k] -> (forall n, In n (sum_of counts :: counts) -> k <> n) ->
     length ys = length counts -> (forall r a, nth_error ys r = Some a -> shape a = [nth r counts 0; k]) ->
     let call := raw_matmul add mul zero in
     (exists v, ufunc (fun _ => sum_of counts) true MCall call [ABuf (MkBuffer t g); AArr y] = Ok (VArr v) /\ shape v = [m; k]) /\
     dist_ufunc (fun r _ => nth r counts 0) isd UMatmul true MCall call (map (fun p => [ABuf (fst p); AArr (snd p)]) (combine bs ys))
       = map (fun _ => Aborts) counts).
Proof.
  intros T counts t isd g bs Hd (LB & PB). split.
  - intros f e u mid Hu Hg call. split.
    + unfold ufunc, containers. cbn [flat_map app ask typ]. unfold array_ufunc. cbn [negb unwrap_all unwrap typ data]. rewrite Nat.eqb_refl.
      unfold call. rewrite (tail_ok _ f e g [] mid (sum_of counts)) by (assumption || reflexivity). cbn [bind shape]. eexists. reflexivity.
    + rewrite (dist_enters _ isd u true MReduce call (fun b => [ABuf b]) (local_tail f e [] mid counts)).
      * rewrite allreduce_aborts by tauto. rewrite (ranked_seq _ bs (MkBuffer t g)), map_map, LB. clear. generalize 0. induction counts; intros k; cbn; congruence.
      * intros r b Hb. destruct (PB r b Hb) as (Ht & P). apply (piece_inv counts r g (data b) mid Hg) in P as (P1 & P2).
        rewrite containers_buf. unfold call. rewrite (ask_one _ isd r b MReduce (raw_reduce_tail (length mid + 1) f e) (local_tail f e [] mid counts r b)); [reflexivity|discriminate|now rewrite Ht|].
        now rewrite (tail_ok _ f e (data b) [] mid (nth r counts 0)).
  - intros add mul zero m k y ys Hg L2 Hy Hk LY Hys call. split.
    + unfold ufunc, containers. cbn [flat_map app ask typ]. unfold array_ufunc. cbn [negb unwrap_all unwrap typ data]. rewrite Nat.eqb_refl.
      unfold call, raw_matmul. rewrite Hg, Hy, Nat.eqb_refl. cbn [bind shape length last Nat.ltb Nat.leb andb].
      replace (k =? sum_of counts) with false by (symmetry; apply Nat.eqb_neq, Hk; now left). eexists. split; reflexivity.
    + set (kk := fun r (p : buffer T * nd T) => MkNd [m; k] (fun js => fold_right add zero (map (fun j => mul (at_ (data (fst p)) [nth 0 js 0; j]) (at_ (snd p) [j; nth 1 js 0])) (seq 0 (nth r counts 0))))).
      rewrite (dist_enters _ isd UMatmul true MCall call (fun p => [ABuf (fst p); AArr (snd p)]) kk).
      * rewrite allreduce_aborts by (right; right; split; [reflexivity|]; rewrite ranked_length, combine_length; lia).
        rewrite (ranked_seq _ (combine bs ys) (MkBuffer t g, y)), map_map, combine_length, LB, LY, Nat.min_id. clear. generalize 0. induction counts; intros q; cbn; congruence.
      * intros r p Hp. apply combine_error in Hp as (A & B). destruct (PB r _ A) as (Ht & P). apply (piece_inv counts r g _ [m] Hg) in P as (P1 & _).
        cbn [containers flat_map app ask_rank]. rewrite Ht. unfold array_ufunc. cbn [negb unwrap_all unwrap]. rewrite Ht, Nat.eqb_refl.
        unfold call, raw_matmul. rewrite P1, (Hys r _ B). cbn [app]. rewrite Nat.eqb_refl. cbn [bind shape length last Nat.ltb Nat.leb andb].
        replace (k =? nth r counts 0) with false; [now rewrite Hd|]. symmetry. apply Nat.eqb_neq, Hk. right. apply nth_In.
        rewrite <- LY. apply nth_error_Some. congruence.
Qed.
Print Assumptions C96_unsupported_refuted.

(** Inner products. *)
Lemma csum_tot n F : csum n F = fold_right Cplus (RtoC 0) (map F (seq 0 n)).
Proof.
  induction n as [|n IH]; [reflexivity|]. rewrite seq_S, map_app. cbn [csum map].
  rewrite (tot_app Cplus (RtoC 0)); [|intros; apply Cplus_assoc|intros; apply Cplus_0_l].
  rewrite IH. cbn. now rewrite Cplus_0_r.
Qed.
Lemma csum_counts counts F : csum (sum_of counts) F =
  fold_right Cplus (RtoC 0) (map (fun r => csum (nth r counts 0) (fun j => F (first_of counts r + j))) (seq 0 (length counts))).
Proof.
  rewrite csum_tot. rewrite (tot_counts Cplus (RtoC 0) Cplus_assoc Cplus_comm Cplus_0_l F counts 0). f_equal.
  apply map_ext. intros r. now rewrite csum_tot.
Qed.
Lemma braket_at n bra ket s1 s2 j1 j2 : shape bra = s1 ++ [n] -> shape ket = s2 ++ [n] -> inside s1 j1 -> inside s2 j2 ->
  shape (braket n bra ket) = s1 ++ s2 /\
  at_ (braket n bra ket) (j1 ++ j2) = csum n (fun g => Cconj (at_ bra (j1 ++ [g])) * at_ ket (j2 ++ [g]))%C.
Proof.
  intros H1 H2 I1 I2. unfold braket. cbn [shape at_]. rewrite H1, H2, !removelast_last. split; [reflexivity|].
  fold (prodl s2). rewrite (ravel_app s1 s2 j1 j2 I1). pose proof (ravel_lt _ _ I1) as L1. pose proof (ravel_lt _ _ I2) as L2.
  replace ((ravel s1 j1 * prodl s2 + ravel s2 j2) / prodl s2) with (ravel s1 j1)
    by (rewrite Nat.add_comm, Nat.div_add by lia; rewrite Nat.div_small by assumption; reflexivity).
  replace ((ravel s1 j1 * prodl s2 + ravel s2 j2) mod prodl s2) with (ravel s2 j2)
    by (rewrite Nat.add_comm, Nat.mod_add by lia; now rewrite Nat.mod_small by assumption).
  apply csum_ext. intros g Hg. rewrite !unravel_snoc by assumption. now rewrite !unravel_ravel by assumption.
Qed.
(** A sum over the ranks of local arrays of one shape. *)
Lemma sum_over_ranks {A} (k : nat -> A -> nd C) (l : list A) sh (v : nd C) : l <> [] -> shape v = sh ->
  (forall r a, nth_error l r = Some a -> shape (k r a) = sh) ->
  (forall js d, inside sh js -> at_ v js = fold_right Cplus (RtoC 0) (map (fun r => at_ (k r (nth r l d)) js) (seq 0 (length l)))) ->
  forall o, In o (allreduce (OpFun Cplus) (map Enters (ranked k l))) -> exists w, o = Gives (VArr w) /\ same_array w v.
Proof.
  intros Hl Hv Hs Hval o Ho.
  assert (HS : forall a, In a (ranked k l) -> shape a = sh). { intros a Ha. apply ranked_in in Ha as (r & x & E & ->). now apply Hs. }
  rewrite (allreduce_all Cplus (ranked k l) sh HS) in Ho. apply in_map_iff in Ho as (a & <- & Ha). eexists. split; [reflexivity|].
  split; [cbn [reduced shape]; rewrite (HS a Ha); now symmetry|]. cbn [reduced shape]. intros js Hj. rewrite (HS a Ha) in Hj.
  change (at_ (reduced Cplus (ranked k l) a) js = at_ v js).
  rewrite (reduced_at Cplus (RtoC 0) Cplus_assoc Cplus_comm Cplus_0_l).
  - destruct l as [|d l']; [congruence|]. rewrite (Hval js d Hj). rewrite ranked_map. now rewrite (ranked_seq _ (d :: l') d).
  - intros E. apply (f_equal (@length _)) in E. rewrite ranked_length in E. now destruct l.
  - intros b Hb. now rewrite (HS a Ha), (HS b Hb).
  - now rewrite (HS a Ha).
Qed.

(** The inner product of distributed wavefunctions is the serial one on every rank. *)
Theorem C96_vdot : forall counts t (g h : nd C) bs cs s1 s2, counts <> [] ->
  shape g = s1 ++ [sum_of counts] -> shape h = s2 ++ [sum_of counts] -> pieces counts t g bs -> pieces counts t h cs ->
  exists v, vdot_local (fun _ => sum_of counts) (MkBuffer t g) (MkBuffer t h) = Ok v
    /\ shape v = s1 ++ s2
    /\ (forall j1 j2, inside s1 j1 -> inside s2 j2 ->
          at_ v (j1 ++ j2) = csum (sum_of counts) (fun p => Cconj (at_ g (j1 ++ [p])) * at_ h (j2 ++ [p]))%C)
    /\ length (vdot_dist (fun r _ => nth r counts 0) (combine bs cs)) = length counts
    /\ forall o, In o (vdot_dist (fun r _ => nth r counts 0) (combine bs cs)) -> exists w, o = Gives (VArr w) /\ same_array w v.
Proof.
  intros counts t g h bs cs s1 s2 Hn Hg Hh (LB & PB) (LC & PC).
  exists (braket (sum_of counts) g h). unfold vdot_local. cbn [typ data]. rewrite Nat.eqb_refl.
  assert (SV : shape (braket (sum_of counts) g h) = s1 ++ s2) by (unfold braket; cbn [shape]; now rewrite Hg, Hh, !removelast_last).
  split; [reflexivity|split; [assumption|split; [|split]]].
  - intros j1 j2 I1 I2. now apply (braket_at _ g h s1 s2 j1 j2).
  - unfold vdot_dist. unfold allreduce. rewrite map_length, map_combine_seq_length, combine_length. lia.
  - unfold vdot_dist.
    set (k := fun r (p : buffer C * buffer C) => braket (nth r counts 0) (data (fst p)) (data (snd p))).
    assert (E : map (fun p => vdot_move ((fun r _ => nth r counts 0) (fst p)) (fst (snd p)) (snd (snd p))) (combine (seq 0 (length (combine bs cs))) (combine bs cs))
                = map Enters (ranked k (combine bs cs))).
    { rewrite ranked_map. fold (ranked (fun r (p : buffer C * buffer C) => vdot_move (fun _ => nth r counts 0) (fst p) (snd p)) (combine bs cs)).
      apply ranked_ext. intros r p Hp. apply combine_error in Hp as (A & B). destruct (PB _ _ A) as (T1 & _), (PC _ _ B) as (T2 & _).
      unfold vdot_move, vdot_local. now rewrite T1, T2, Nat.eqb_refl. }
    rewrite E. apply sum_over_ranks with (sh := s1 ++ s2); [|assumption| |].
    + intros E0. apply (f_equal (@length _)) in E0. rewrite combine_length in E0. cbn in E0. destruct counts; [congruence|cbn in *; lia].
    + intros r p Hp. apply combine_error in Hp as (A & B). destruct (PB _ _ A) as (_ & P1), (PC _ _ B) as (_ & P2).
      apply (piece_inv counts r g _ s1 Hg) in P1 as (S1 & _). apply (piece_inv counts r h _ s2 Hh) in P2 as (S2 & _).
      unfold k, braket. cbn [shape]. now rewrite S1, S2, !removelast_last.
    + intros js d Hj. destruct (inside_app_inv _ _ _ Hj) as (j1 & j2 & -> & I1 & I2).
      rewrite (proj2 (braket_at _ g h s1 s2 j1 j2 Hg Hh I1 I2)), csum_counts, combine_length, LB, LC, Nat.min_id. f_equal.
      apply map_ext_in. intros r Hr. apply in_seq in Hr.
      destruct (nth_error_in_range bs r ltac:(lia)) as (b & Eb). destruct (combine_error_r bs cs r b ltac:(lia) Eb) as (c & Ec).
      rewrite (nth_error_nth _ r d Ec). apply combine_error in Ec as (_ & Ec). cbn [snd] in Ec.
      destruct (PB _ _ Eb) as (_ & P1), (PC _ _ Ec) as (_ & P2).
      apply (piece_inv counts r g _ s1 Hg) in P1 as (S1 & V1). apply (piece_inv counts r h _ s2 Hh) in P2 as (S2 & V2).
      unfold k. cbn [fst snd]. rewrite (proj2 (braket_at _ (data b) (data c) s1 s2 j1 j2 S1 S2 I1 I2)).
      apply csum_ext. intros j Hjn. now rewrite V1, V2.
Qed.
Print Assumptions C96_vdot.

(** Wavefunctions of different classes: TypeError on every rank, nothing communicated. *)
Theorem C96_vdot_mixed : forall bsz (args : list (buffer C * buffer C)),
  (forall p, In p args -> typ (fst p) <> typ (snd p)) ->
  vdot_dist bsz args = map (fun _ => Fails TypeError) args.
Proof.
  intros bsz args H. unfold vdot_dist.
  fold (ranked (fun r (p : buffer C * buffer C) => vdot_move (bsz r) (fst p) (snd p)) args).
  rewrite (ranked_ext _ (fun _ _ => Raises TypeError)).
  - rewrite (ranked_seq _ args (MkBuffer 0 (MkNd [] (fun _ => RtoC 0)), MkBuffer 0 (MkNd [] (fun _ => RtoC 0)))).
    unfold allreduce. rewrite map_map. clear. generalize 0 at 1. induction args; intros k; cbn; [reflexivity|]. now rewrite IHargs.
  - intros r p Hp. unfold vdot_move, vdot_local.
    replace (typ (snd p) =? typ (fst p)) with false; [reflexivity|]. symmetry. apply Nat.eqb_neq. intros E. apply (H p); [now apply nth_error_In in Hp|congruence].
Qed.
Print Assumptions C96_vdot_mixed.

(** Squared norms: on every rank the sum over the whole basis, which is real and at least 0. *)
Theorem C96_norm2 : forall counts t (g : nd C) bs s, counts <> [] -> shape g = s ++ [sum_of counts] -> pieces counts t g bs ->
  length (norm2_dist (fun r _ => nth r counts 0) bs) = length counts /\
  forall o, In o (norm2_dist (fun r _ => nth r counts 0) bs) -> exists w, o = Gives (VArr w) /\ shape w = s /\
    forall js, inside s js -> at_ w js = RtoC (rsum (sum_of counts) (fun p => Cmod (at_ g (js ++ [p])) ^ 2)%R).
Proof.
  intros counts t g bs s Hn Hg (LB & PB). split; [unfold norm2_dist, allreduce; now rewrite map_length, map_combine_seq_length|].
  assert (LOC : forall n (a : nd C) js, shape a = s ++ [n] -> inside s js ->
     at_ (norm2_local n a) js = csum n (fun p => Cconj (at_ a (js ++ [p])) * at_ a (js ++ [p]))%C).
  { intros n a js Ha Hj. unfold norm2_local. cbn [at_]. rewrite Ha, removelast_last. apply csum_ext. intros p Hp.
    rewrite unravel_snoc by (assumption || now apply ravel_lt). now rewrite unravel_ravel. }
  assert (SQ : forall z : C, (Cconj z * z)%C = RtoC (Cmod z ^ 2)).
  { intros [x y]. unfold Cmod. cbn [fst snd]. rewrite pow2_sqrt by nra. apply injective_projections; cbn; ring. }
  intros o Ho. unfold norm2_dist in Ho.
  set (k := fun r (b : buffer C) => norm2_local (nth r counts 0) (data b)).
  change (map _ (combine (seq 0 (length bs)) bs)) with (ranked (fun r b => Enters (k r b)) bs) in Ho.
  rewrite <- (ranked_map k Enters bs) in Ho.
  set (v := MkNd s (fun js => RtoC (rsum (sum_of counts) (fun p => Cmod (at_ g (js ++ [p])) ^ 2)%R))).
  destruct (sum_over_ranks k bs s v) with (o := o) as (w & -> & S1 & V); [ | reflexivity | | | assumption | ].
  - intros ->. destruct counts; [congruence|discriminate].
  - intros r b Hb. destruct (PB _ _ Hb) as (_ & P). apply (piece_inv counts r g _ s Hg) in P as (P1 & _).
    unfold k, norm2_local. cbn [shape]. now rewrite P1, removelast_last.
  - intros js d Hj. cbn [v at_]. rewrite <- csum_RtoC, csum_counts, LB. f_equal. apply map_ext_in. intros r Hr. apply in_seq in Hr.
    destruct (nth_error_in_range bs r ltac:(lia)) as (b & Eb). rewrite (nth_error_nth _ r d Eb). destruct (PB _ _ Eb) as (_ & P).
    apply (piece_inv counts r g _ s Hg) in P as (P1 & P2). unfold k. rewrite (LOC _ _ _ P1 Hj). apply csum_ext. intros j Hjn.
    now rewrite SQ, P2.
  - exists w. split; [reflexivity|]. split; [exact S1|]. intros js Hj. apply V. now rewrite S1.
Qed.
Print Assumptions C96_norm2.

(** The G = 0 coefficients: every rank receives those of the serial container, provided no rank
    is without G-vectors (a distributed space cannot be built otherwise, C17). *)
Theorem C96_data_g0 : forall T counts t (g : nd T) bs, counts <> [] -> (forall n, In n counts -> 0 < n) -> pieces counts t g bs ->
  exists v ws, data_g0_serial (MkBuffer t g) = Ok v /\ data_g0_dist bs = Ok ws /\ length ws = length counts
    /\ forall w, In w ws -> same_array w v.
Proof.
  intros T counts t g bs Hn Hpos Pb. destruct (pieces_shape _ _ _ _ Hn Pb) as (sh & Hg). destruct Pb as (LB & PB).
  assert (TK : forall (a : nd T) n, shape a = sh ++ [n] -> 0 < n -> take0 a = Ok (MkNd sh (fun js => at_ a (js ++ [0])))).
  { intros a n Ha Hp. unfold take0. rewrite Ha. destruct (sh ++ [n]) eqn:E; [now destruct sh|]. rewrite <- E, last_snoc, removelast_last.
    destruct n; [lia|reflexivity]. }
  assert (N0 : 0 < nth 0 counts 0) by (apply Hpos, nth_In; destruct counts; [congruence|cbn; lia]).
  assert (NS : 0 < sum_of counts). { destruct counts as [|n counts]; [congruence|]. cbn in N0. change (sum_of (n :: counts)) with (n + sum_of counts). lia. }
  exists (MkNd sh (fun js => at_ g (js ++ [0]))), (map (fun _ => MkNd sh (fun js => at_ (data (nth 0 bs (MkBuffer t g))) (js ++ [0]))) bs).
  split; [now apply (TK g (sum_of counts))|]. split; [|split].
  - unfold data_g0_dist.
    assert (E : map (fun b => take0 (data b)) bs = map Ok (map (fun b => MkNd sh (fun js => at_ (data b) (js ++ [0]))) bs)).
    { rewrite map_map. apply map_ext_in. intros b Hb. apply In_nth_error in Hb as (r & Hr). destruct (PB _ _ Hr) as (_ & P).
      apply (piece_inv counts r g _ sh Hg) in P as (P1 & _). apply (TK _ (nth r counts 0) P1). apply Hpos, nth_In. rewrite <- LB. apply nth_error_Some. congruence. }
    rewrite E. rewrite (proj2 (sequence_ok _ _) eq_refl). cbn [bind].
    destruct bs as [|b bs']; [reflexivity|]. cbn [map nth]. now rewrite map_map.
  - now rewrite map_length.
  - intros w Hw. apply in_map_iff in Hw as (x & <- & Hx). destruct bs as [|b bs']; [destruct Hx|]. cbn [nth].
    split; [reflexivity|]. cbn [shape at_]. intros js Hj. destruct (PB 0 b eq_refl) as (_ & P).
    apply (piece_inv counts 0 g _ sh Hg) in P as (_ & P2). now apply P2.
Qed.
Print Assumptions C96_data_g0.

(** [integrate_unitcell] of a field with components [sh]: on every rank the sum over the whole
    grid times the volume element. *)
Theorem C96_integrate : forall counts t isd dv (g : nd C) bs sh, isd t = true -> counts <> [] ->
  shape g = sh ++ [sum_of counts] -> pieces counts t g bs -> (sh = [] \/ forall n, In n counts -> last sh 0 <> n) ->
  length (integrate_dist (fun r _ => nth r counts 0) isd dv bs) = length counts /\
  forall o, In o (integrate_dist (fun r _ => nth r counts 0) isd dv bs) -> exists w, o = Gives (VArr w) /\ shape w = sh /\
    forall js, inside sh js -> at_ w js = (csum (sum_of counts) (fun p => at_ g (js ++ [p])) * RtoC dv)%C.
Proof.
  intros counts t isd dv g bs sh Hd Hn Hg Hp Hc. unfold integrate_dist. change 1 with (length (@nil nat) + 1).
  rewrite (dist_reduce Cplus (RtoC 0) (UAdd Cplus) counts t isd g bs sh []) by first [assumption | exact Hg | left; reflexivity].
  split; [rewrite !map_length, ranked_length; apply Hp|]. intros o Ho. rewrite map_map in Ho. apply in_map_iff in Ho as (a & <- & Ha).
  destruct (dist_reduce_value Cplus (RtoC 0) Cplus_assoc Cplus_comm Cplus_0_l counts t g bs sh [] Hn Hp Hg a Ha) as (S1 & V).
  eexists. split; [reflexivity|]. cbn [shape reduced at_]. split; [assumption|]. intros js Hj.
  change (at_ (reduced Cplus (ranked (local_tail Cplus (RtoC 0) sh [] counts) bs) a) js * RtoC dv = csum (sum_of counts) (fun p => at_ g (js ++ [p])) * RtoC dv)%C.
  now rewrite (V js Hj), tail_at_row, csum_tot.
Qed.
Print Assumptions C96_integrate.

(** With a bare array as [other] the integral is not summed over the ranks: each rank returns the
    contribution of its own grid points, and only their sum is the integral. *)
Theorem C96_integrate_other_refuted : forall counts t dv (g : nd C) bs m (y : nd C) ys,
  shape g = [m; sum_of counts] -> pieces counts t g bs -> length ys = length counts ->
  (forall r a, nth_error ys r = Some a -> piece counts r y a) -> shape y = [m; sum_of counts] ->
  exists v, integrate_other dv g y = Ok v /\
    at_ v [] = (csum m (fun i => csum (sum_of counts) (fun j => at_ g [i; j] * at_ y [i; j])) * RtoC dv)%C /\
    (forall r b a, nth_error bs r = Some b -> nth_error ys r = Some a -> exists w, integrate_other dv (data b) a = Ok w /\
       at_ w [] = (csum m (fun i => csum (nth r counts 0) (fun j =>
                     at_ g [i; (first_of counts r + j)%nat] * at_ y [i; (first_of counts r + j)%nat])) * RtoC dv)%C).
Proof.
  intros counts t dv g bs m y ys Hg (LB & PB) LY PY Hy. unfold integrate_other at 1. rewrite Hg. eexists. split; [reflexivity|]. split; [reflexivity|].
  intros r b a Hb Ha. destruct (PB r b Hb) as (_ & P1). pose proof (PY r a Ha) as P2.
  apply (piece_inv counts r g _ [m] Hg) in P1 as (S1 & V1). apply (piece_inv counts r y _ [m] Hy) in P2 as (S2 & V2).
  unfold integrate_other. rewrite S1. cbn [app]. eexists. split; [reflexivity|]. cbn [at_]. f_equal. apply csum_ext. intros i Hi. apply csum_ext. intros j Hj.
  assert (I : inside [m] [i]) by (constructor; [assumption|constructor]).
  pose proof (V1 [i] j I Hj) as A. pose proof (V2 [i] j I Hj) as B. cbn [app] in A, B. now rewrite A, B.
Qed.
Print Assumptions C96_integrate_other_refuted.

(** In-place operators: no communication; each rank's container is overwritten with its piece of
    the serial result. *)
Theorem C96_inplace : forall T (f : T -> T -> T) u counts t isd (g h : nd T) bs cs,
  counts <> [] -> shape h = shape g -> pieces counts t g bs -> pieces counts t h cs ->
  exists v, inplace f (MkBuffer t g) (ABuf (MkBuffer t h)) = Ok (VBuf (MkBuffer t v))
    /\ exists vs, dist_ufunc_out isd u true MCall (raw_binary_out f) (map (fun p => ([ABuf (fst p); ABuf (snd p)], ABuf (fst p))) (combine bs cs))
         = map (fun b => Gives (VBuf b)) vs /\ pieces counts t v vs.
Proof.
  intros T f u counts t isd g h bs cs Hn Hsh Pb Pc. destruct (pieces_shape _ _ _ _ Hn Pb) as (sh & Hg).
  assert (Hh : shape h = sh ++ [sum_of counts]) by congruence. destruct Pb as (LB & PB), Pc as (LC & PC).
  exists (MkNd (shape g) (fun js => f (at_ g js) (at_ h js))). split.
  { unfold inplace, ufunc_out, containers. cbn [flat_map app ask_out typ]. unfold array_ufunc_out. cbn [negb unwrap_all unwrap typ data]. rewrite Nat.eqb_refl.
    unfold raw_binary_out. rewrite Hsh. destruct (list_eq_dec Nat.eq_dec (shape g) (shape g)) as [_|N]; [|congruence]. reflexivity. }
  set (k := fun (r : nat) (p : buffer T * buffer T) => MkBuffer t (MkNd (shape (data (fst p))) (fun js => f (at_ (data (fst p)) js) (at_ (data (snd p)) js)))).
  exists (ranked k (combine bs cs)). split.
  - unfold dist_ufunc_out. rewrite map_map.
    assert (E : map (fun p => ask_rank_out isd (containers ([ABuf (fst p); ABuf (snd p)] ++ [ABuf (fst p)])) true MCall (raw_binary_out f) [ABuf (fst p); ABuf (snd p)] (ABuf (fst p))) (combine bs cs)
       = map Give (map (@VBuf T) (ranked k (combine bs cs)))).
    { rewrite !ranked_map. apply nth_error_ext; [now rewrite map_length, ranked_length|]. intros r a Hr. rewrite nth_error_map in Hr.
      destruct (nth_error (combine bs cs) r) as [p|] eqn:Ep; [|discriminate]. rewrite (ranked_error _ _ _ _ Ep). cbn [option_map] in Hr. rewrite <- Hr. f_equal.
      apply combine_error in Ep as (A & B). destruct (PB _ _ A) as (T1 & P1), (PC _ _ B) as (T2 & P2).
      apply (piece_inv counts r g _ sh Hg) in P1 as (S1 & _). apply (piece_inv counts r h _ sh Hh) in P2 as (S2 & _).
      cbn [containers flat_map app ask_rank_out]. rewrite T1. unfold array_ufunc_out. cbn [negb unwrap_all unwrap]. rewrite T1, T2, Nat.eqb_refl.
      unfold raw_binary_out. destruct (list_eq_dec Nat.eq_dec (shape (data (fst p))) (shape (data (snd p)))) as [_|N]; [|congruence].
      destruct (list_eq_dec Nat.eq_dec (shape (data (fst p))) (shape (data (fst p)))) as [_|N]; [|congruence]. reflexivity. }
    cbn [fst snd]. rewrite E, allreduce_none, map_map. reflexivity.
  - split; [rewrite ranked_length, combine_length; lia|]. intros r b Hb.
    assert (Hr : r < length bs). { apply Nat.lt_le_trans with (length (combine bs cs)); [|rewrite combine_length; lia].
      rewrite <- (ranked_length k (combine bs cs)). apply nth_error_Some. congruence. }
    destruct (nth_error_in_range bs r Hr) as (b1 & E1). destruct (combine_error_r bs cs r b1 ltac:(lia) E1) as (b2 & E2).
    rewrite (ranked_error _ _ _ _ E2) in Hb. injection Hb as <-. split; [reflexivity|]. cbn [k data fst snd].
    apply combine_error in E2 as (_ & E2). cbn [snd] in E2. destruct (PB _ _ E1) as (_ & P1), (PC _ _ E2) as (_ & P2).
    apply (piece_inv counts r g _ sh Hg) in P1 as (S1 & V1). apply (piece_inv counts r h _ sh Hh) in P2 as (_ & V2).
    exists sh. cbn [shape at_]. split; [assumption|split; [assumption|]]. intros js j Hj Hjn. now rewrite V1, V2.
Qed.
Print Assumptions C96_inplace.

(** Non-vacuity: two wavefunctions over 5 G-vectors divided 3 + 2.  The sum over the basis is the
    serial one on both ranks when the local lengths differ from 2, and with 2 bands the second
    rank keeps a partial result while the first waits. *)
Definition ex_glob (m : nat) : nd nat := MkNd [m; 5] (fun js => 10 * nth 0 js 0 + nth 1 js 0).
Definition ex_loc (m r : nat) : buffer nat := MkBuffer 7 (MkNd [m; nth r [3; 2] 0]
  (fun js => 10 * nth 0 js 0 + (first_of [3; 2] r + nth 1 js 0))).
Example C96_instance :
  (forall m, pieces [3; 2] 7 (ex_glob m) [ex_loc m 0; ex_loc m 1])
  /\ (exists w0 w1, dist_ufunc (fun r _ => nth r [3; 2] 0) (fun _ => true) (UAdd Nat.add) true MReduce (raw_reduce_tail 1 Nat.add 0) [[ABuf (ex_loc 4 0)]; [ABuf (ex_loc 4 1)]]
        = [Gives (VArr w0); Gives (VArr w1)] /\ shape w1 = [4] /\ at_ w0 [3] = 160 /\ at_ w1 [3] = 160)
  /\ (exists w, dist_ufunc (fun r _ => nth r [3; 2] 0) (fun _ => true) (UAdd Nat.add) true MReduce (raw_reduce_tail 1 Nat.add 0) [[ABuf (ex_loc 2 0)]; [ABuf (ex_loc 2 1)]]
        = [Blocked; Gives (VBuf w)] /\ at_ (data w) [1] = 27).
Proof.
  split; [|split].
  - intros m. split; [reflexivity|]. intros r b Hb. destruct r as [|[|[|r]]]; cbn in Hb; try discriminate; injection Hb as <-.
    + split; [reflexivity|]. exists [m]. split; [reflexivity|split; [reflexivity|]]. intros js j Hj Hjn. inversion Hj as [|i ? l ? Hi Hl]; subst. inversion Hl; subst. reflexivity.
    + split; [reflexivity|]. exists [m]. split; [reflexivity|split; [reflexivity|]]. intros js j Hj Hjn. inversion Hj as [|i ? l ? Hi Hl]; subst. inversion Hl; subst. reflexivity.
  - eexists. eexists. split; [reflexivity|]. repeat split; reflexivity.
  - eexists. split; [reflexivity|]. reflexivity.
Qed.
