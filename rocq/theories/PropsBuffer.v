(** Property C26: containers never mix bases and keep their type. *)
From Verif Require Import Base BufferModel BufferProofs.
Open Scope nat_scope.

(** A container as the constructors build it: its array has a last axis spanning the
    basis of its class. *)
Definition wf {T} (basis : nat -> nat) (b : buffer T) : Prop :=
  exists sh0, shape (data b) = sh0 ++ [basis (typ b)].

(** C26.  Containers of different classes are never combined, nor a container with an
    unsupported object: TypeError, whatever the operation. *)
Theorem C26_no_mixing : forall T basis m raw (inputs : list (arg T)),
  m <> MOtherMethod ->
  (exists b b', In (ABuf b) inputs /\ In (ABuf b') inputs /\ typ b <> typ b') \/ In AOther inputs ->
  ufunc basis true m raw inputs = Err TypeError.
Proof.
  intros T basis m raw inputs Hm H. unfold ufunc. apply ask_all_none; [exact Hm|]. intros c Hc.
  apply unwrap_all_none. destruct H as [(b & b' & Hb & Hb' & Ht)|H].
  - destruct (Nat.eq_dec (typ b) (typ c)) as [E|E].
    + exists (ABuf b'). split; [exact Hb'|]. cbn. destruct (Nat.eqb_spec (typ b') (typ c)); [congruence|reflexivity].
    + exists (ABuf b). split; [exact Hb|]. cbn. destruct (Nat.eqb_spec (typ b) (typ c)); [congruence|reflexivity].
  - exists AOther. now split.
Qed.
Print Assumptions C26_no_mixing.

(** The bare number or array behind an argument. *)
Inductive bare {T} : arg T -> T + nd T -> Prop :=
| bare_num v : bare (ANum v) (inl v)
| bare_arr a : bare (AArr a) (inr a)
| bare_buf b : bare (ABuf b) (inr (data b)).

(** C26.  When all containers have one class [t], the operation is NumPy's on the bare
    arrays, and the result is a container of that class exactly when its last axis has
    the length of the basis. *)
Theorem C26_same_type : forall T basis m raw (inputs : list (arg T)) xs t,
  m <> MOtherMethod -> Forall2 bare inputs xs ->
  (exists b, In (ABuf b) inputs) -> (forall b, In (ABuf b) inputs -> typ b = t) ->
  (forall e, raw xs = Err e -> ufunc basis true m raw inputs = Err e)
  /\ (forall out, raw xs = Ok out ->
       ((exists sh0, shape out = sh0 ++ [basis t]) -> ufunc basis true m raw inputs = Ok (VBuf (MkBuffer t out)))
       /\ ((forall sh0, shape out <> sh0 ++ [basis t]) -> ufunc basis true m raw inputs = Ok (VArr out))).
Proof.
  intros T basis m raw inputs xs t Hm F (b & Hb) Ht.
  assert (U : unwrap_all t inputs = Some xs).
  { clear b Hb. induction F as [|x y l l' Hxy F IH]; [reflexivity|]. cbn [unwrap_all].
    rewrite IH by (intros; apply Ht; now right). destruct Hxy; cbn; try reflexivity.
    rewrite (Ht b (or_introl eq_refl)), Nat.eqb_refl. reflexivity. }
  assert (E : ufunc basis true m raw inputs = (do out <- raw xs;
      if (0 <? length (shape out)) && (last (shape out) 0 =? basis t)
      then Ok (VBuf (MkBuffer t out)) else Ok (VArr out))).
  { unfold ufunc. destruct (containers inputs) as [|c cs] eqn:EC.
    - apply containers_in in Hb. rewrite EC in Hb. destruct Hb.
    - cbn [ask]. unfold array_ufunc. rewrite (Ht c) by (apply containers_in; rewrite EC; now left).
      rewrite U. cbn [negb]. destruct m; try congruence; reflexivity. }
  rewrite E. clear E. split.
  - intros e ->. reflexivity.
  - intros out ->. cbn [bind]. split.
    + intros (sh0 & Es). rewrite Es, last_last, Nat.eqb_refl, app_length. cbn [length].
      destruct (Nat.ltb_spec 0 (length sh0 + 1)); [reflexivity|lia].
    + intros Hn. destruct (Nat.ltb_spec 0 (length (shape out))) as [L|L]; [|reflexivity].
      destruct (Nat.eqb_spec (last (shape out) 0) (basis t)) as [El|]; [|reflexivity]. exfalso.
      apply (Hn (removelast (shape out))). rewrite <- El. apply app_removelast_last. intros Z. rewrite Z in L. cbn in L. lia.
Qed.
Print Assumptions C26_same_type.

(** C26.  Elementwise arithmetic of two containers of the same class and shape gives a
    container of that class and shape holding the elementwise values. *)
Theorem C26_elementwise : forall T basis (f : T -> T -> T) (b b' : buffer T),
  wf basis b -> typ b' = typ b -> shape (data b') = shape (data b) ->
  exists r, ufunc basis true MCall (raw_binary f) [ABuf b; ABuf b'] = Ok (VBuf r)
    /\ typ r = typ b /\ shape (data r) = shape (data b)
    /\ forall js, at_ (data r) js = f (at_ (data b) js) (at_ (data b') js).
Proof.
  intros T basis f b b' (sh0 & Hw) Ht Hs.
  exists (MkBuffer (typ b) (MkNd (shape (data b)) (fun js => f (at_ (data b) js) (at_ (data b') js)))).
  split; [|cbn; auto].
  destruct (C26_same_type T basis MCall (raw_binary f) [ABuf b; ABuf b'] [inr (data b); inr (data b')] (typ b)) as [_ K].
  - discriminate.
  - repeat constructor.
  - exists b. now left.
  - intros c [E|[E|[]]]; injection E as <-; [reflexivity|exact Ht].
  - destruct (K (MkNd (shape (data b)) (fun js => f (at_ (data b) js) (at_ (data b') js)))) as [K1 _].
    + unfold raw_binary. destruct (list_eq_dec _ _ _) as [|N]; [reflexivity|congruence].
    + apply K1. exists sh0. exact Hw.
Qed.
Print Assumptions C26_elementwise.

(** C26.  Whatever the operation, a container it returns has the class of the container
    arguments and an array spanning its basis: well-formedness is preserved. *)
Theorem C26_results_wellformed : forall T basis sm m raw (inputs : list (arg T)) r,
  ufunc basis sm m raw inputs = Ok (VBuf r) ->
  wf basis r /\ forall b, In (ABuf b) inputs -> typ b = typ r.
Proof.
  intros T basis sm m raw inputs r. unfold ufunc. generalize (containers inputs) as cs.
  induction cs as [|c cs IH]; cbn [ask]; [discriminate|].
  unfold array_ufunc. destruct m; destruct sm; cbn [negb]; try discriminate;
  (destruct (unwrap_all (typ c) inputs) as [xs|] eqn:U; [|exact IH];
   destruct (raw xs) as [out|e]; cbn [bind]; [|discriminate];
   destruct (Nat.ltb_spec 0 (length (shape out))) as [L|L]; cbn [andb]; [|discriminate];
   destruct (Nat.eqb_spec (last (shape out) 0) (basis (typ c))) as [E|E]; [|discriminate];
   intros H; injection H as <-; cbn [typ data wf];
   split; [|intros b Hb; exact (unwrap_all_some (typ c) inputs xs U b Hb)];
   exists (removelast (shape out)); cbn [typ data]; rewrite <- E; apply app_removelast_last;
   intros Z; rewrite Z in L; cbn in L; lia).
Qed.
Print Assumptions C26_results_wellformed.

(** C26.  Indexing never cuts the basis axis: whatever the index, a successful result is
    a container of the same class still spanning the basis, and component k of each of
    its members is component k of the member it was taken from. *)
Theorem C26_getitem : forall T basis (b : buffer T) its b', wf basis b ->
  getitem b its = Ok b' ->
  typ b' = typ b /\ exists sh' g, shape (data b') = sh' ++ [basis (typ b)]
    /\ forall js k, length js = length sh' -> at_ (data b') (js ++ [k]) = at_ (data b) (g js ++ [k]).
Proof.
  intros T basis b its b' (sh0 & Hw) H. unfold getitem in H.
  destruct (np_getitem (data b) (its ++ [IEll; full_slice])) as [[a g]|e] eqn:E; [|discriminate]. injection H as <-.
  unfold np_getitem in E. destruct (expand _ _) as [ex|] eqn:EX; [|discriminate]. cbn [bind] in E.
  destruct (index (shape (data b)) ex) as [r|] eqn:EI; [|discriminate]. cbn [bind] in E. injection E as <- <-.
  apply expand_get in EX as (_ & _ & ->). rewrite Hw in EI.
  apply index_full_last in EI as (r0 & g0 & E1 & E2).
  cbn [typ data shape at_]. split; [reflexivity|]. exists r0, g0. split; [exact E1|].
  intros js k L. now rewrite (E2 js k L).
Qed.
Print Assumptions C26_getitem.

(** Python's meaning of the slice [a:b:st] on an axis of length n: the positions
    i = lo, lo + st, lo + 2 st, ... below hi, where lo and hi are a and b counted from the
    end when negative and cut to [0, n]. *)
Definition py_bound (n z : Z) : Z := Z.max 0 (Z.min n (if (z <? 0)%Z then z + n else z)).
Definition py_slice (n : Z) (a b : option Z) (st : Z) (i : Z) : Prop :=
  let lo := match a with Some z => py_bound n z | None => 0%Z end in
  let hi := match b with Some z => py_bound n z | None => n end in
  (lo <= i < hi)%Z /\ ((i - lo) mod st = 0)%Z.

Lemma clamp_py n z : Z.of_nat (clamp n z) = py_bound (Z.of_nat n) z.
Proof. unfold clamp, py_bound. destruct (Z.ltb_spec z 0); lia. Qed.

Lemma slice_start_py n a : Z.of_nat (slice_start n a) = match a with Some z => py_bound (Z.of_nat n) z | None => 0%Z end.
Proof. destruct a; [apply clamp_py|reflexivity]. Qed.
Lemma slice_stop_py n a : Z.of_nat (slice_stop n a) = match a with Some z => py_bound (Z.of_nat n) z | None => Z.of_nat n end.
Proof. destruct a; [apply clamp_py|reflexivity]. Qed.
Lemma slice_len_lt a b st j : 0 < st -> j < slice_len a b st <-> a + st * j < b.
Proof.
  intros Hs. unfold slice_len. set (m := b - a + (st - 1)).
  pose proof (Nat.div_mod m st ltac:(lia)) as E. pose proof (Nat.mod_upper_bound m st ltac:(lia)) as U.
  revert E U. generalize (m / st) (m mod st). intros q r E U. split; intros H.
  - assert (st * (j + 1) <= st * q) by (apply Nat.mul_le_mono_l; lia). lia.
  - destruct (Nat.lt_ge_cases j q) as [L|L]; [exact L|exfalso].
    assert (st * q <= st * j) by (apply Nat.mul_le_mono_l; lia). lia.
Qed.

(** C26.  A slice selects exactly the positions Python prescribes, once each, in order. *)
Theorem C26_slice_positions : forall n (a b : option Z) st i, 0 < st ->
  (exists j, j < slice_len (slice_start n a) (slice_stop n b) st /\ slice_start n a + st * j = i)
  <-> py_slice (Z.of_nat n) a b (Z.of_nat st) (Z.of_nat i).
Proof.
  intros n a b st i Hs. unfold py_slice. rewrite <- slice_start_py, <- slice_stop_py. cbv zeta.
  generalize (slice_start n a) (slice_stop n b). clear a b. intros lo hi. split.
  - intros (j & Hj & <-). apply slice_len_lt in Hj; [|exact Hs]. split; [lia|].
    replace (Z.of_nat (lo + st * j) - Z.of_nat lo)%Z with (Z.of_nat j * Z.of_nat st)%Z by lia. apply Z.mod_mul. lia.
  - intros [H1 H2]. apply Z.mod_divide in H2 as [k Hk]; [|lia].
    assert (0 <= k)%Z. { destruct (Z.lt_ge_cases k 0) as [L|L]; [exfalso; nia|exact L]. }
    exists (Z.to_nat k). assert (E : lo + st * Z.to_nat k = i) by nia.
    split; [apply slice_len_lt; [exact Hs|lia]|exact E].
Qed.
Print Assumptions C26_slice_positions.

(** Steps are positive (the model covers no others). *)
Definition steps_ok (its : list item) : Prop := forall a b st, In (ISlice a b st) its -> 0 < st.

Lemma index_in_range its : steps_ok its -> forall sh r, index sh its = Ok r ->
  forall js, Forall2 lt js (fst r) -> Forall2 lt (snd r js) sh.
Proof.
  induction its as [|it its IH]; intros HS sh r H js F.
  - destruct sh; [|discriminate]. injection H as <-. constructor.
  - assert (HS' : steps_ok its) by (intros a b st Hin; apply (HS a b st); now right).
    destruct it as [i|a b st| |].
    + destruct sh as [|n sh]; [discriminate|]. cbn [index] in H.
      destruct ((- Z.of_nat n <=? i) && (i <? Z.of_nat n))%Z eqn:E; [|discriminate].
      destruct (index sh its) as [r'|] eqn:EI; [|discriminate]. injection H as <-. cbn [fst snd] in *.
      constructor; [|now apply (IH HS' _ _ EI)]. destruct (Z.ltb_spec i 0); lia.
    + destruct sh as [|n sh]; [discriminate|]. cbn [index] in H.
      destruct (index sh its) as [r'|] eqn:EI; [|discriminate]. injection H as <-. cbn [fst snd] in *.
      inversion F as [|j m js' ms Hj F']; subst. cbn [hd tl]. constructor; [|now apply (IH HS' _ _ EI)].
      apply slice_len_lt in Hj; [|apply (HS a b st); now left].
      assert (slice_stop n b <= n); [|lia].
      pose proof (slice_stop_py n b). destruct b; [unfold py_bound in *|]; cbn in *; lia.
    + cbn [index] in H. destruct (index sh its) as [r'|] eqn:EI; [|discriminate]. injection H as <-. cbn [fst snd] in *.
      inversion F; subst. cbn [tl]. now apply (IH HS' _ _ EI).
    + destruct sh; discriminate.
Qed.

(** C26.  Indexing reads no element outside the array. *)
Theorem C26_getitem_in_range : forall T (a : nd T) its v g, steps_ok its ->
  np_getitem a its = Ok (v, g) ->
  (forall js, at_ v js = at_ a (g js)) /\ forall js, Forall2 lt js (shape v) -> Forall2 lt (g js) (shape a).
Proof.
  intros T a its v g HS H. unfold np_getitem in H. destruct (expand _ _) as [e|] eqn:EX; [|discriminate].
  cbn [bind] in H. destruct (index (shape a) e) as [r|] eqn:EI; [|discriminate]. injection H as <- <-. cbn [at_ shape].
  split; [reflexivity|]. apply (index_in_range e); [|exact EI].
  unfold expand in EX. destruct (1 <? _); [discriminate|]. destruct (_ <? _); [discriminate|]. injection EX as <-.
  intros x y st Hin. apply in_flat_map in Hin as (it & Hit & Hin).
  assert (K : In it its \/ it = IEll) by (destruct (existsb is_ell its); [now left|apply in_app_or in Hit as [|[|[]]]; auto]).
  destruct (is_ell it) eqn:EE.
  - apply repeat_spec in Hin. injection Hin as -> -> ->. lia.
  - destruct Hin as [->|[]]. destruct K as [K|K]; [exact (HS _ _ _ K)|discriminate].
Qed.
Print Assumptions C26_getitem_in_range.
Example C26_slice_witness : exists v g,
  np_getitem (MkNd [5; 3] (fun js => js)) [ISlice (Some (-4)%Z) (Some 9%Z) 2; INew] = Ok (v, g)
  /\ shape v = [2; 1; 3] /\ g [1; 0; 2] = [3; 2].
Proof. eexists _, _. split; [reflexivity|]. split; reflexivity. Qed.

(** C26.  An index addressing the basis axis (as many integers/slices as array axes, or
    an Ellipsis) is refused. *)
Theorem C26_getitem_refuses_basis_axis : forall T (b : buffer T) its,
  (consumed its >= length (shape (data b)) \/ In IEll its) ->
  getitem b its = Err RuntimeError.
Proof.
  intros T b its H. unfold getitem, np_getitem.
  destruct (expand _ _) as [ex|e] eqn:EX; [|reflexivity]. apply expand_get in EX as (N & C & _).
  exfalso. destruct H as [H|H]; [lia|].
  unfold no_ell in N. assert (existsb is_ell its = true) by (apply existsb_exists; exists IEll; now split). congruence.
Qed.
Print Assumptions C26_getitem_refuses_basis_axis.

(** C26, assignment.  A key that addresses only the leading axes is assigned through
    without touching the layout of the basis axis. *)
Theorem C26_setitem : forall T basis (b : buffer T) its v g, wf basis b ->
  ~ In IEll its -> consumed its < length (shape (data b)) ->
  setitem_view basis b its = Ok (v, g) ->
  exists sh' g0, shape v = sh' ++ [basis (typ b)]
    /\ forall js k, length js = length sh' -> g (js ++ [k]) = g0 js ++ [k].
Proof.
  intros T basis b its v g (sh0 & Hw) HE Hc H. unfold setitem_view in H.
  destruct (np_getitem (data b) its) as [[a g']|e] eqn:E; [|discriminate].
  destruct (match shape a with [] => false | _ => _ end); [|discriminate]. injection H as -> ->.
  unfold np_getitem in E. destruct (expand _ _) as [ex|] eqn:EX; [|discriminate]. cbn [bind] in E.
  destruct (index (shape (data b)) ex) as [r|] eqn:EI; [|discriminate]. cbn [bind] in E. injection E as <- <-.
  assert (N : no_ell its).
  { unfold no_ell. apply Bool.not_true_is_false. intros X. apply existsb_exists in X as ([] & Hx & X); try discriminate. contradiction. }
  apply (expand_set _ _ _ N Hc) in EX as (l & ->). rewrite Hw in EI.
  apply index_full_last in EI as (r0 & g0 & E1 & E2). cbn [shape]. now exists r0, g0.
Qed.
Print Assumptions C26_setitem.

(** C26 fails for assignment across the basis axis: with as many members as basis
    functions, [buf[:, 0] = v] is accepted and overwrites component 0 of every member. *)
Theorem C26_setitem_cuts_basis_refuted : forall T basis (b : buffer T) n,
  shape (data b) = [n; n] -> basis (typ b) = n -> 0 < n ->
  wf basis b /\ exists v g, setitem_view basis b [full_slice; IInt 0] = Ok (v, g)
    /\ forall i, g [i] = [i; 0].
Proof.
  intros T basis b n Hs Hb Hn. split; [exists [n]; now rewrite Hb|].
  unfold setitem_view, np_getitem. rewrite Hs. cbn [length].
  change (expand 2 [full_slice; IInt 0]) with (@Ok (list item) [full_slice; IInt 0]). cbn [bind].
  unfold full_slice. cbn [index]. rewrite full_len.
  replace ((- Z.of_nat n <=? 0) && (0 <? Z.of_nat n))%Z with true by lia. cbn [bind fst snd shape last].
  rewrite Hb, Nat.eqb_refl. eexists. eexists. split; [reflexivity|]. intros i. cbn. f_equal. lia.
Qed.
Print Assumptions C26_setitem_cuts_basis_refuted.

(** In general an assignment is carried out exactly when the selected part ends in an
    axis of the length of the basis. *)
Theorem C26_setitem_accepts : forall T basis (b : buffer T) its v g,
  np_getitem (data b) its = Ok (v, g) ->
  ((exists sh0, shape v = sh0 ++ [basis (typ b)]) -> setitem_view basis b its = Ok (v, g))
  /\ ((forall sh0, shape v <> sh0 ++ [basis (typ b)]) -> setitem_view basis b its = Err RuntimeError).
Proof.
  intros T basis b its v g H. unfold setitem_view. rewrite H. split.
  - intros (sh0 & ->). destruct (sh0 ++ [basis (typ b)]) eqn:E; [destruct sh0; discriminate|].
    rewrite <- E, last_last, Nat.eqb_refl. reflexivity.
  - intros K. destruct (shape v) as [|x l] eqn:E; [reflexivity|].
    destruct (Nat.eqb_spec (last (x :: l) 0) (basis (typ b))) as [L|]; [|reflexivity].
    exfalso. apply (K (removelast (x :: l))). rewrite <- L. apply app_removelast_last. discriminate.
Qed.
Print Assumptions C26_setitem_accepts.

(** C26.  Reducing over a leading axis keeps the container; reducing over the basis axis
    gives a bare array - unless the next axis happens to have the length of the basis. *)
Theorem C26_reduce_leading : forall T basis f (e : T) b n sh0,
  shape (data b) = n :: sh0 ++ [basis (typ b)] ->
  exists r, ufunc basis true MReduce (raw_reduce_first f e) [ABuf b] = Ok (VBuf r)
    /\ typ r = typ b /\ shape (data r) = sh0 ++ [basis (typ b)]
    /\ forall js, at_ (data r) js = fold_right f e (map (fun k => at_ (data b) (k :: js)) (seq 0 n)).
Proof.
  intros T basis f e b n sh0 Hs. eexists. split.
  - destruct (C26_same_type T basis MReduce (raw_reduce_first f e) [ABuf b] [inr (data b)] (typ b)) as [_ K].
    + discriminate.
    + repeat constructor.
    + exists b. now left.
    + intros c [E|[]]; injection E as <-; reflexivity.
    + destruct (K (MkNd (sh0 ++ [basis (typ b)]) (fun js => fold_right f e (map (fun k => at_ (data b) (k :: js)) (seq 0 n))))) as [K1 _].
      * unfold raw_reduce_first. rewrite Hs. reflexivity.
      * apply K1. now exists sh0.
  - cbn. auto.
Qed.
Print Assumptions C26_reduce_leading.

Theorem C26_reduce_basis : forall T basis f (e : T) b sh0,
  shape (data b) = sh0 ++ [basis (typ b)] -> (forall sh1, sh0 <> sh1 ++ [basis (typ b)]) ->
  exists r, ufunc basis true MReduce (raw_reduce_last f e) [ABuf b] = Ok (VArr r)
    /\ shape r = sh0
    /\ forall js, at_ r js = fold_right f e (map (fun k => at_ (data b) (js ++ [k])) (seq 0 (basis (typ b)))).
Proof.
  intros T basis f e b sh0 Hs Hn. eexists. split.
  - destruct (C26_same_type T basis MReduce (raw_reduce_last f e) [ABuf b] [inr (data b)] (typ b)) as [_ K].
    + discriminate.
    + repeat constructor.
    + exists b. now left.
    + intros c [E|[]]; injection E as <-; reflexivity.
    + destruct (K (MkNd sh0 (fun js => fold_right f e (map (fun k => at_ (data b) (js ++ [k])) (seq 0 (basis (typ b))))))) as [_ K2].
      * unfold raw_reduce_last. rewrite Hs, last_last, removelast_last. now destruct (sh0 ++ [basis (typ b)]) eqn:X; [destruct sh0; discriminate|].
      * apply K2. exact Hn.
  - cbn. auto.
Qed.
Print Assumptions C26_reduce_basis.

Theorem C26_reduce_basis_refuted : forall T basis f (e : T) b sh1 n,
  shape (data b) = sh1 ++ [n; n] -> basis (typ b) = n ->
  exists r, ufunc basis true MReduce (raw_reduce_last f e) [ABuf b] = Ok (VBuf (MkBuffer (typ b) r))
    /\ shape r = sh1 ++ [n]
    /\ forall js, at_ r js = fold_right f e (map (fun k => at_ (data b) (js ++ [k])) (seq 0 n)).
Proof.
  intros T basis f e b sh1 n Hs Hb.
  destruct (C26_same_type T basis MReduce (raw_reduce_last f e) [ABuf b] [inr (data b)] (typ b)) as [_ K].
  - discriminate.
  - repeat constructor.
  - exists b. now left.
  - intros c [E|[]]; injection E as <-; reflexivity.
  - assert (Hs' : shape (data b) = (sh1 ++ [n]) ++ [n]) by (rewrite Hs, <- app_assoc; reflexivity).
    destruct (K (MkNd (sh1 ++ [n]) (fun js => fold_right f e (map (fun k => at_ (data b) (js ++ [k])) (seq 0 n))))) as [K1 _].
    + unfold raw_reduce_last. rewrite Hs', removelast_last, last_last. destruct (sh1 ++ [n]) eqn:E; [|reflexivity].
      destruct sh1; discriminate.
    + eexists. split; [apply K1; exists sh1; now rewrite Hb|]. cbn. auto.
Qed.
Print Assumptions C26_reduce_basis_refuted.

(** C26, keyword [out].  A container of another class, or an unsupported object, among
    the inputs or given as [out] is refused: nothing is written. *)
Theorem C26_out_no_mixing : forall T m raw (inputs : list (arg T)) out,
  m <> MOtherMethod ->
  (exists b b', In (ABuf b) (inputs ++ [out]) /\ In (ABuf b') (inputs ++ [out]) /\ typ b <> typ b')
    \/ In AOther (inputs ++ [out]) ->
  (forall x, out <> ANum x) ->
  ufunc_out true m raw inputs out = Err TypeError.
Proof.
  intros T m raw inputs out Hm H Hn. unfold ufunc_out.
  assert (K : forall c, In c (containers (inputs ++ [out])) -> array_ufunc_out (typ c) true m raw inputs out = NotImplemented).
  { intros c Hc.
    assert (B : unwrap_all (typ c) (inputs ++ [out]) = None).
    { apply unwrap_all_none. destruct H as [(b & b' & Hb & Hb' & Ht)|H].
      - destruct (Nat.eq_dec (typ b) (typ c)) as [E|E].
        + exists (ABuf b'). split; [exact Hb'|]. cbn. destruct (Nat.eqb_spec (typ b') (typ c)); [congruence|reflexivity].
        + exists (ABuf b). split; [exact Hb|]. cbn. destruct (Nat.eqb_spec (typ b) (typ c)); [congruence|reflexivity].
      - exists AOther. now split. }
    assert (A : forall l (o : arg T), unwrap_all (typ c) (l ++ [o]) = None -> unwrap_all (typ c) l = None \/ unwrap (typ c) o = None).
    { clear. induction l as [|x l IH]; intros o H.
      - cbn in H. destruct (unwrap (typ c) o); [discriminate|now right].
      - cbn in *. destruct (unwrap (typ c) x); [|now left]. destruct (unwrap_all (typ c) (l ++ [o])) eqn:E; [discriminate|].
        destruct (IH o E) as [->|]; [now left|now right]. }
    apply A in B. unfold array_ufunc_out. cbn [negb].
    assert (G : unwrap_all (typ c) inputs = None -> match unwrap_all (typ c) inputs with
       | Some xs => match out with
          | ANum _ => Reply (Err TypeError)
          | AArr a => Reply (do new <- raw xs a; Ok (VArr new))
          | ABuf b => if typ b =? typ c then Reply (do new <- raw xs (data b); Ok (VBuf (MkBuffer (typ b) new))) else NotImplemented
          | AOther => NotImplemented end
       | None => NotImplemented end = NotImplemented) by (intros ->; reflexivity).
    destruct B as [B|B].
    - destruct m; try congruence; exact (G B).
    - assert (U : forall xs, match out with
          | ANum _ => Reply (Err TypeError)
          | AArr a => Reply (do new <- raw xs a; Ok (VArr new))
          | ABuf b => if typ b =? typ c then Reply (do new <- raw xs (data b); Ok (VBuf (MkBuffer (typ b) new))) else NotImplemented
          | AOther => NotImplemented end = NotImplemented).
      { intros xs. destruct out as [x|a|b|]; cbn in B; try discriminate; try reflexivity.
        destruct (typ b =? typ c); [discriminate|reflexivity]. }
      destruct (unwrap_all (typ c) inputs); [rewrite U|]; destruct m; congruence || reflexivity. }
  induction (containers (inputs ++ [out])) as [|c cs IH]; [reflexivity|].
  cbn [ask_out]. rewrite (K c (or_introl eq_refl)). apply IH. intros c' Hc'. apply K. now right.
Qed.
Print Assumptions C26_out_no_mixing.

(** C26, in-place operators [a op= y] with a container of the same class and shape, or a
    number: the very object [a], with its class and shape, then holds the elementwise
    values; a container of another class or shape is refused. *)
Theorem C26_inplace : forall T (f : T -> T -> T) (a : buffer T),
  (forall y, typ y = typ a -> shape (data y) = shape (data a) ->
     exists r, inplace f a (ABuf y) = Ok (VBuf r) /\ typ r = typ a /\ shape (data r) = shape (data a)
       /\ forall js, at_ (data r) js = f (at_ (data a) js) (at_ (data y) js))
  /\ (forall x, exists r, inplace f a (ANum x) = Ok (VBuf r) /\ typ r = typ a /\ shape (data r) = shape (data a)
       /\ forall js, at_ (data r) js = f (at_ (data a) js) x)
  /\ (forall y, typ y <> typ a -> inplace f a (ABuf y) = Err TypeError)
  /\ (forall y, typ y = typ a -> shape (data y) <> shape (data a) -> inplace f a (ABuf y) = Err ValueError).
Proof.
  intros T f a. split; [|split; [|split]].
  - intros y Ht Hs. unfold inplace, ufunc_out. cbn [app containers flat_map ask_out].
    unfold array_ufunc_out. cbn [negb unwrap_all unwrap]. rewrite Ht, Nat.eqb_refl. cbn [raw_binary_out].
    destruct (list_eq_dec Nat.eq_dec (shape (data a)) (shape (data y))); [|congruence].
    destruct (list_eq_dec Nat.eq_dec (shape (data a)) (shape (data a))); [|congruence].
    eexists. split; [reflexivity|]. cbn. auto.
  - intros x. unfold inplace, ufunc_out. cbn [app containers flat_map ask_out].
    unfold array_ufunc_out. cbn [negb unwrap_all unwrap]. rewrite Nat.eqb_refl. cbn [raw_binary_out].
    destruct (list_eq_dec Nat.eq_dec (shape (data a)) (shape (data a))); [|congruence].
    eexists. split; [reflexivity|]. cbn. auto.
  - intros y Ht. unfold inplace. apply C26_out_no_mixing; [discriminate| |discriminate].
    left. exists y, a. cbn. auto.
  - intros y Ht Hs. unfold inplace, ufunc_out. cbn [app containers flat_map ask_out].
    unfold array_ufunc_out. cbn [negb unwrap_all unwrap]. rewrite Ht, Nat.eqb_refl. cbn [raw_binary_out].
    destruct (list_eq_dec Nat.eq_dec (shape (data a)) (shape (data y))); [congruence|reflexivity].
Qed.
Print Assumptions C26_inplace.

(** C26.  Construction from an array and reshaping give well-formed containers; reshaping
    to the original shape is the identity on the class and the array shape. *)
Theorem C26_constructors_wellformed : forall T basis,
  (forall t (a : nd T) b, from_array basis t a = Ok b -> wf basis b /\ typ b = t /\ data b = a)
  /\ (forall (b : buffer T) sh b', reshape basis b sh = Ok b' ->
        wf basis b' /\ typ b' = typ b /\ shape (data b') = sh ++ [basis (typ b)]).
Proof.
  intros T basis. split.
  - intros t a b H. unfold from_array in H. destruct (shape a) as [|n sh] eqn:E; [discriminate|].
    destruct (Nat.eqb_spec (last (n :: sh) 0) (basis t)) as [L|]; [|discriminate]. injection H as <-.
    cbn. split; [|auto]. exists (removelast (shape a)). cbn [data typ]. rewrite <- L, <- E. apply app_removelast_last. congruence.
  - intros b sh b' H. unfold reshape in H. destruct (_ =? _); [|discriminate]. injection H as <-.
    cbn. split; [now exists sh|auto].
Qed.
Print Assumptions C26_constructors_wellformed.
(** Reshaping succeeds exactly when the numbers of elements agree (RuntimeError otherwise), and keeps the elements in their order. *)
Theorem C26_reshape_exactly : forall T basis (b : buffer T) sh,
  let total := fold_right Nat.mul 1 in
  (total (sh ++ [basis (typ b)]) = total (shape (data b)) -> exists b', reshape basis b sh = Ok b' /\
     forall js, at_ (data b') js = at_ (data b) (unravel (shape (data b)) (ravel (sh ++ [basis (typ b)]) js))) /\
  (total (sh ++ [basis (typ b)]) <> total (shape (data b)) -> reshape basis b sh = Err RuntimeError).
Proof.
  intros T basis b sh total. unfold reshape. split; intros H.
  - apply Nat.eqb_eq in H. fold total. rewrite H. eexists. split; [reflexivity|]. reflexivity.
  - apply Nat.eqb_neq in H. fold total. now rewrite H.
Qed.
Print Assumptions C26_reshape_exactly.

(** Non-vacuity: 2 members over a basis of 3; members 1 and -1 coincide, class 7. *)
Example C26_nonvacuous :
  let basis := fun t => if t =? 7 then 3 else 5 in
  let b := MkBuffer 7 (MkNd [2; 3] (fun js => match js with [i; j] => 10 * i + j | _ => 0 end)) in
  wf basis b
  /\ (exists r, getitem b [IInt (-1)] = Ok r /\ shape (data r) = [3] /\ at_ (data r) [2] = 12)
  /\ (exists r, ufunc basis true MCall (raw_binary Nat.add) [ABuf b; ABuf b] = Ok (VBuf r) /\ at_ (data r) [1; 2] = 24)
  /\ ufunc basis true MCall (raw_binary Nat.add) [ABuf b; ABuf (MkBuffer 8 (data b))] = Err TypeError.
Proof.
  cbv zeta. split; [exists [2]; reflexivity|]. split; [eexists; split; [reflexivity|split; reflexivity]|].
  split; [eexists; split; reflexivity|reflexivity].
Qed.
