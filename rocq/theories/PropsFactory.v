(** C109: container classes are made once per kind, space and spin count, and what that depends on. *)
From Verif Require Import Base FactoryModel FactorySpec FactoryProofs.
From Coq Require Import String.
Local Open Scope nat_scope.
Local Notation length := List.length.

Lemma reach_inv m : later st0 m -> inv m.
Proof. intros H. exact (proj1 (later_spec _ _ H inv0)). Qed.
Lemma lookup_hash f pos kw n m m' r : call f pos kw m = (m', r) -> r = Ok n ->
  existsb unhashable pos || existsb (fun kv : kwarg => unhashable (snd kv)) kw = false.
Proof. unfold call, cached. cbn [fst snd]. destruct (_ || _); [intros [= <- <-]; discriminate|reflexivity]. Qed.
Lemma alike_hash pos kw pos' kw' : written_alike pos kw pos' kw' ->
  existsb unhashable pos' || existsb (fun kv : kwarg => unhashable (snd kv)) kw' = false.
Proof.
  intros (A & B). assert (V : forall a b, same_value a b -> unhashable b = false).
  { intros a b [(z & _ & E)|[(s & _ & E)|(i & _ & E)]]; subst; try reflexivity. destruct b; try reflexivity. discriminate. }
  apply orb_false_iff. split.
  - induction A as [|a b l m H _ IH]; [reflexivity|]. cbn. now rewrite (V a b H), IH.
  - induction B as [|[n a] [k b] l m H _ IH]; [reflexivity|]. cbn. destruct H as (_ & H). cbn in H. now rewrite (V a b H), IH.
Qed.
Lemma call_hit f pos kw m n : existsb unhashable pos || existsb (fun kv : kwarg => unhashable (snd kv)) kw = false ->
  lookup (cache m) f (pos, kw) = Some n -> call f pos kw m = (m, Ok n).
Proof. intros U L. unfold call, cached. match goal with |- context [if ?b then _ else _] => replace b with false by (symmetry; exact U) end. now rewrite L. Qed.
(** C109.  A call written like an earlier successful one returns the very same class, whatever calls were made in between. *)
Theorem C109_same_call_same_class : forall m m1 m2 f pos kw pos' kw' c,
  later st0 m -> call f pos kw m = (m1, Ok c) -> later m1 m2 -> written_alike pos kw pos' kw' ->
  call f pos' kw' m2 = (m2, Ok c).
Proof.
  intros m m1 m2 f pos kw pos' kw' c H HC HL HA. destruct (call_spec _ _ _ _ _ _ (reach_inv _ H) HC) as (I1 & _ & G).
  destruct (G c eq_refl) as (s & ns & _ & L & _). destruct (later_spec _ _ HL I1) as (_ & X). apply (proj2 X) in L.
  apply call_hit; [now apply (alike_hash pos kw)|]. apply key_alike in HA. rewrite (lookup_swap _ _ _ _ HA). exact L.
Qed.
Print Assumptions C109_same_call_same_class.
(** C109.  The class returned is a class of the kind asked for, over the space given, with the spin count given and
    the right number of coefficients; it is a distributed class exactly for a distributed space. *)
Theorem C109_class_fits_arguments : forall m m1 f pos kw c, later st0 m -> call f pos kw m = (m1, Ok c) ->
  exists s ns a, stands_for f pos kw s ns /\ nth_error (classes m1) c = Some a /\
    c_kind a = kind_of f /\ c_space a = s /\ c_dist a = is_dist s /\ is_gk s = is_wavefun (kind_of f) /\
    match ns with
    | [] => is_wavefun (kind_of f) = false /\ c_numspin a = None /\ c_size a = coefficients (kind_of f) s
    | v :: _ => exists z, is_wavefun (kind_of f) = true /\ number v = Some z /\ (0 < z)%Z /\
        (exists w, c_numspin a = Some w /\ number w = Some z) /\ c_size a = (z * coefficients (kind_of f) s)%Z
    end.
Proof.
  intros m m1 f pos kw c H HC. destruct (call_spec _ _ _ _ _ _ (reach_inv _ H) HC) as (I1 & _ & G).
  destruct (G c eq_refl) as (s & ns & HS & _ & a & H1 & H2 & H3 & H4 & H4' & H5 & H6 & H7). exists s, ns, a. repeat (split; [assumption|]).
  pose proof (stands_ns _ _ _ _ _ HS) as HL. destruct (is_wavefun (kind_of f)).
  - destruct (H6 eq_refl) as (v & w & z & -> & A & B & D & E). apply val_eqb_spec in B as [(z' & B1 & B2)|[(t & -> & ->)|(i & -> & ->)]]; [|discriminate|discriminate].
    assert (number w = Some z /\ (0 < z)%Z) as (N & P).
    { destruct w; cbn in D; try discriminate; [destruct (Z.ltb_spec 0 z0); [|discriminate]; injection D as <-; now split|destruct b; [|discriminate]; injection D as <-; split; [reflexivity|lia]]. }
    exists z. assert (z' = z) by congruence. subst z'. repeat split; try assumption. exists w. now split.
  - destruct ns; [|discriminate]. destruct (H5 eq_refl). now repeat split.
Qed.
Print Assumptions C109_class_fits_arguments.
(** C109.  Calls that give the same class ask for the same kind, the same space object and the same number of spins. *)
Theorem C109_different_arguments_different_class : forall m m1 m2 m3 f pos kw f' pos' kw' c s ns s' ns',
  later st0 m -> call f pos kw m = (m1, Ok c) -> later m1 m2 -> call f' pos' kw' m2 = (m3, Ok c) ->
  stands_for f pos kw s ns -> stands_for f' pos' kw' s' ns' ->
  kind_of f = kind_of f' /\ s = s' /\ Forall2 same_value ns ns'.
Proof.
  intros m m1 m2 m3 f pos kw f' pos' kw' c s ns s' ns' H HC HL HC' HS HS'. destruct (call_spec _ _ _ _ _ _ (reach_inv _ H) HC) as (I1 & _ & G).
  destruct (later_spec _ _ HL I1) as (I2 & X2). destruct (call_spec _ _ _ _ _ _ I2 HC') as (I3 & X3 & G').
  destruct (G c eq_refl) as (t & nt & HT & _ & GG). destruct (G' c eq_refl) as (t' & nt' & HT' & _ & GG').
  assert (t = s /\ nt = ns) as (-> & ->) by (apply bind_iff in HS, HT; rewrite HS in HT; now injection HT as -> ->).
  assert (t' = s' /\ nt' = ns') as (-> & ->) by (apply bind_iff in HS', HT'; rewrite HS' in HT'; now injection HT' as -> ->).
  apply (good_ext _ _ _ _ _ _ X2) in GG. apply (good_ext _ _ _ _ _ _ X3) in GG.
  destruct GG as (a & A1 & A2 & A3 & A4 & A4' & A5 & A6 & _). destruct GG' as (b & B1 & B2 & B3 & B4 & B4' & B5 & B6 & _).
  assert (b = a) by congruence. subst b. rewrite <- A2, <- B2. split; [reflexivity|]. split; [congruence|].
  pose proof (stands_ns _ _ _ _ _ HS) as L1. pose proof (stands_ns _ _ _ _ _ HS') as L2. rewrite <- A2 in *. rewrite <- B2 in *.
  destruct (is_wavefun (c_kind a)).
  - destruct (A6 eq_refl) as (v & w & z & -> & W1 & W2 & _). destruct (B6 eq_refl) as (v' & w' & z' & -> & W1' & W2' & _).
    constructor; [|constructor]. apply val_eqb_spec. eapply val_eqb_trans; [exact W2|]. assert (w' = w) by congruence. subst. now apply val_eqb_sym.
  - destruct ns; [|discriminate]. destruct ns'; [constructor|discriminate].
Qed.
Print Assumptions C109_different_arguments_different_class.
(** C109.  For a space that is not distributed, the way the call is written matters: calls written differently
    (positionally, by keyword, keywords in another order) always give different classes. *)
Theorem C109_spelling_matters : forall m m1 m2 m3 f pos kw f' pos' kw' c c' s ns s' ns',
  later st0 m -> call f pos kw m = (m1, Ok c) -> later m1 m2 -> call f' pos' kw' m2 = (m3, Ok c') ->
  stands_for f pos kw s ns -> stands_for f' pos' kw' s' ns' -> is_dist s = false ->
  ~ (f = f' /\ written_alike pos kw pos' kw') -> c <> c'.
Proof.
  intros m m1 m2 m3 f pos kw f' pos' kw' c c' s ns s' ns' H HC HL HC' HS HS' HD HN E. subst c'.
  destruct (C109_different_arguments_different_class _ _ _ _ _ _ _ _ _ _ _ _ _ _ _ H HC HL HC' HS HS') as (_ & <- & _).
  destruct (call_spec _ _ _ _ _ _ (reach_inv _ H) HC) as (I1 & _ & G).
  destruct (later_spec _ _ HL I1) as (I2 & X2). destruct (call_spec _ _ _ _ _ _ I2 HC') as (I3 & X3 & G').
  destruct (G c eq_refl) as (_ & _ & _ & L & _). destruct (G' c eq_refl) as (_ & _ & _ & L' & _).
  apply (proj2 X2), (proj2 X3) in L.
  assert (O : forall g, owns g s = true) by (intros [k|k]; cbn; [now rewrite HD|reflexivity]).
  destruct (proj2 I3 f (pos, kw) f' (pos', kw') c s ns s ns' L L' HS HS' (O f) (O f')) as (E1 & E2). apply HN. split; [exact E1|now apply key_alike].
Qed.
Print Assumptions C109_spelling_matters.
(** C109.  For a distributed space every way of writing the call of the general factory gives the class of the
    distributed factory called positionally. *)
Theorem C109_distributed_any_spelling : forall m m1 m2 k pos kw c s ns,
  later st0 m -> call (Get k) pos kw m = (m1, Ok c) -> later m1 m2 -> stands_for (Get k) pos kw s ns -> is_dist s = true ->
  call (GetDist k) (VSpace s :: ns) [] m2 = (m2, Ok c).
Proof.
  intros m m1 m2 k pos kw c s ns H HC HL HS HD. destruct (call_spec _ _ _ _ _ _ (reach_inv _ H) HC) as (I1 & _ & G).
  destruct (G c eq_refl) as (t & nt & HT & L & a & _ & _ & _ & _ & _ & _ & H6 & H7). assert (t = s /\ nt = ns) as (-> & ->) by (apply bind_iff in HS, HT; rewrite HS in HT; now injection HT as -> ->).
  destruct s as [|b i x y g]; [discriminate|]. destruct H7 as (_ & H7). specialize (H7 eq_refl). destruct (later_spec _ _ HL I1) as (_ & X).
  apply call_hit; [|now apply (proj2 X)]. pose proof (stands_ns _ _ _ _ _ HS) as LN. cbn [kind_of] in *. destruct (is_wavefun k).
  - destruct (H6 eq_refl) as (v & w & z & -> & _ & W & S0 & _). cbn. destruct v; try reflexivity. apply val_eqb_spec in W as [(? & E & _)|[(? & E & _)|(? & E & _)]]; discriminate.
  - destruct ns; [reflexivity|discriminate].
Qed.
Print Assumptions C109_distributed_any_spelling.
(** C109.  Converting a container to the representation it already has keeps its class and creates none, however
    the call that made the class was written. *)
Theorem C109_same_representation : forall m m1 m2 k pos kw c,
  later st0 m -> call (Get k) pos kw m = (m1, Ok c) -> later m1 m2 -> convert (is_real k) c m2 = (m2, Ok c).
Proof.
  intros m m1 m2 k pos kw c H HC HL. destruct (call_spec _ _ _ _ _ _ (reach_inv _ H) HC) as (I1 & _ & G).
  destruct (G c eq_refl) as (t & nt & HT & L & GG). destruct (later_spec _ _ HL I1) as (I2 & X2).
  pose proof (good_ext _ _ _ _ _ _ X2 GG) as (a & A1 & A2 & _). unfold convert. cbn [kind_of] in A2. rewrite A1, A2, Bool.eqb_reflx. reflexivity.
Qed.
Print Assumptions C109_same_representation.
(** C109.  Converting a container to the other representation and back gives a container of the same class,
    if its class came from a positional call. *)
Theorem C109_round_trip : forall m m1 m2 m3 m4 m5 k s ns c c' c'',
  later st0 m -> call (Get k) (VSpace s :: ns) [] m = (m1, Ok c) -> later m1 m2 ->
  convert (negb (is_real k)) c m2 = (m3, Ok c') -> later m3 m4 -> convert (is_real k) c' m4 = (m5, Ok c'') -> c'' = c.
Proof.
  intros m m1 m2 m3 m4 m5 k s ns c c' c'' H HC HL HV HL' HV'. destruct (call_spec _ _ _ _ _ _ (reach_inv _ H) HC) as (I1 & _ & G).
  destruct (G c eq_refl) as (t & nt & HT & L & GG).
  assert (t = s /\ nt = ns) as (-> & ->) by (inversion HT; subst; now split). clear G.
  destruct (later_spec _ _ HL I1) as (I2 & X2). pose proof (good_ext _ _ _ _ _ _ X2 GG) as (a & A1 & A2 & A3 & A4 & A4' & A5 & A6 & _). cbn [kind_of] in *.
  unfold convert in HV. rewrite A1, A2 in HV. destruct (Bool.eqb (is_real k) (negb (is_real k))) eqn:EB; [destruct (is_real k); discriminate|].
  destruct (call_spec _ _ _ _ _ _ I2 HV) as (I3 & X3 & G3). destruct (G3 c' eq_refl) as (t & nt & HT3 & L3 & GG3). rewrite A3 in HT3.
  assert (ET : t = s) by (inversion HT3; subst; reflexivity). subst t. destruct (later_spec _ _ HL' I3) as (I4 & X4).
  pose proof (good_ext _ _ _ _ _ _ X4 GG3) as (b & B1 & B2 & B3 & B4 & B4' & B5 & B6 & _). cbn [kind_of] in *.
  unfold convert in HV'. rewrite B1, B2, B3 in HV'.
  assert (KR : is_real (to_kind (negb (is_real k)) k) = negb (is_real k) /\ to_kind (is_real k) (to_kind (negb (is_real k)) k) = k /\ is_wavefun (to_kind (negb (is_real k)) k) = is_wavefun k) by (destruct k; cbn; repeat split).
  destruct KR as (K1 & K2 & K3). rewrite K1, K2, K3 in *. replace (Bool.eqb (negb (is_real k)) (is_real k)) with false in HV' by (now destruct (is_real k)).
  pose proof (stands_ns _ _ _ _ _ HT) as LN. pose proof (stands_ns _ _ _ _ _ HT3) as LN3. cbn [kind_of] in *. rewrite K3 in LN3.
  destruct (call_spec _ _ _ _ _ _ I4 HV') as (_ & _ & G5). destruct (G5 c'' eq_refl) as (t5 & nt5 & HT5 & L5 & _). 
  destruct (call_spec _ _ _ _ _ _ I4 HV') as (I5 & X5 & _).
  assert (L' : lookup (cache m5) (Get k) (VSpace s :: ns, []) = Some c) by (apply X5, X4, X3, X2, L).
  assert (KE : key_eqb (VSpace s :: ns, []) (VSpace s :: match c_numspin b with Some v => [v] | None => [] end, []) = true).
  { unfold key_eqb. cbn [fst snd vals_eqb kws_eqb]. rewrite (proj2 (val_eqb_space s _) eq_refl), andb_true_r. cbn [andb].
    destruct (is_wavefun k).
    - destruct (A6 eq_refl) as (v & w & z & -> & W1 & W2 & W3 & _). destruct (B6 eq_refl) as (v' & w' & z' & -> & W1' & W2' & _). rewrite W1 in HT3. rewrite W1'. cbn [vals_eqb].
      rewrite andb_true_r. assert (v' = w) by (inversion HT3; subst; reflexivity). subst v'. now apply (val_eqb_trans v w w').
    - destruct ns; [|discriminate]. destruct (B5 eq_refl) as (-> & _). reflexivity. }
  rewrite <- (lookup_swap _ _ _ _ KE) in L'. congruence.
Qed.
Print Assumptions C109_round_trip.
(** C109, as first written: "converting to the other representation and back never changes the class".  False for
    a class obtained by keyword: the result has a class the original cannot be combined with. *)
Theorem C109_round_trip_keyword_refuted : forall m m1 m2 m3 m4 m5 k pos kw s ns c c' c'',
  later st0 m -> call (Get k) pos kw m = (m1, Ok c) -> stands_for (Get k) pos kw s ns -> kw <> [] -> is_dist s = false -> later m1 m2 ->
  convert (negb (is_real k)) c m2 = (m3, Ok c') -> later m3 m4 -> convert (is_real k) c' m4 = (m5, Ok c'') -> c'' <> c.
Proof.
  intros m m1 m2 m3 m4 m5 k pos kw s ns c c' c'' H HC HS HK HD HL HV HL' HV'.
  destruct (call_spec _ _ _ _ _ _ (reach_inv _ H) HC) as (I1 & _ & G). destruct (G c eq_refl) as (t & nt & HT & L & GG).
  assert (t = s /\ nt = ns) as (-> & ->) by (apply bind_iff in HS, HT; rewrite HS in HT; now injection HT as -> ->). clear G.
  destruct (later_spec _ _ HL I1) as (I2 & X2). pose proof (good_ext _ _ _ _ _ _ X2 GG) as (a & A1 & A2 & A3 & _). cbn [kind_of] in *.
  unfold convert in HV. rewrite A1, A2 in HV. destruct (Bool.eqb (is_real k) (negb (is_real k))) eqn:EB; [destruct (is_real k); discriminate|].
  destruct (call_spec _ _ _ _ _ _ I2 HV) as (I3 & X3 & G3). destruct (G3 c' eq_refl) as (t & nt & HT3 & L3 & GG3).
  destruct (later_spec _ _ HL' I3) as (I4 & X4). pose proof (good_ext _ _ _ _ _ _ X4 GG3) as (b & B1 & B2 & B3 & _). cbn [kind_of] in *.
  unfold convert in HV'. rewrite B1, B2 in HV'.
  assert (KR : is_real (to_kind (negb (is_real k)) k) = negb (is_real k) /\ to_kind (is_real k) (to_kind (negb (is_real k)) k) = k) by (destruct k; cbn; split; reflexivity).
  destruct KR as (K1 & K2). rewrite K1, K2 in HV'. replace (Bool.eqb (negb (is_real k)) (is_real k)) with false in HV' by (now destruct (is_real k)).
  assert (L24 : later m1 m4) by (eapply later_trans; [eapply later_call; [exact HL|exact HV]|exact HL']).
  destruct (call_spec _ _ _ _ _ _ I4 HV') as (_ & _ & G5). destruct (G5 c'' eq_refl) as (t5 & nt5 & HT5 & _).
  apply not_eq_sym. apply (C109_spelling_matters m m1 m4 m5 _ _ _ _ _ _ _ _ s ns _ _ H HC L24 HV' HS HT5 HD).
  intros (_ & _ & F). destruct kw; [now apply HK|inversion F].
Qed.
Print Assumptions C109_round_trip_keyword_refuted.
(** C109.  A distributed class takes containers to scatter exactly from the class of the global space got positionally. *)
Theorem C109_scatter : forall m m1 m2 m3 f pos kw d b i x y g ns c c',
  later st0 m -> call f pos kw m = (m1, Ok d) -> stands_for f pos kw (Dist b i x y g) ns -> later m1 m2 ->
  call (Get (kind_of f)) (VSpace g :: ns) [] m2 = (m3, Ok c) ->
  (scatter_accepts d c' m3 = Ok tt <-> c' = c).
Proof.
  intros m m1 m2 m3 f pos kw d b i x y g ns c c' H HC HS HL HG. destruct (call_spec _ _ _ _ _ _ (reach_inv _ H) HC) as (I1 & _ & G).
  destruct (G d eq_refl) as (t & nt & HT & _ & GG). assert (t = Dist b i x y g /\ nt = ns) as (-> & ->) by (apply bind_iff in HS, HT; rewrite HS in HT; now injection HT as -> ->).
  destruct (later_spec _ _ HL I1) as (I2 & X2). destruct (call_spec _ _ _ _ _ _ I2 HG) as (I3 & X3 & G3). destruct (G3 c eq_refl) as (t & nt & HT3 & L3 & GG3).
  assert (t = g /\ nt = ns) as (-> & ->) by (inversion HT3; subst; now split).
  apply (good_ext _ _ _ _ _ _ X2), (good_ext _ _ _ _ _ _ X3) in GG. destruct GG as (a & A1 & A2 & A3 & _ & _ & _ & _ & (p & P1 & P2) & _).
  assert (p = c) by congruence. subst p. destruct GG3 as (e & E1 & _ & E3 & _).
  unfold scatter_accepts. rewrite A1, P1, A3. split.
  - destruct (nth_error (classes m3) c'); [|discriminate]. destruct (Nat.eqb_spec c' c); [auto|discriminate].
  - intros ->. rewrite E1, Nat.eqb_refl, E3. cbn [negb]. destruct (space_dec g g); [reflexivity|contradiction].
Qed.
Print Assumptions C109_scatter.
(** C109, as first written: "numspin must be a positive int".  False once the class exists: 1.0 (or NumPy's 1) is
    refused by a fresh program and accepted after a call with 1. *)
Theorem C109_validation_depends_on_history_refuted : forall k s z, is_wavefun k = true -> is_gk s = true -> is_dist s = false -> (0 < z)%Z ->
  call (Get k) [VSpace s; VFloat z] [] st0 = (st0, Err TypeError) /\
  exists m c, call (Get k) [VSpace s; VInt z] [] st0 = (m, Ok c) /\ call (Get k) [VSpace s; VFloat z] [] m = (m, Ok c).
Proof.
  intros k s z W GK D P. destruct s as [b i x y|]; [|discriminate]. cbn in GK. subst b. split.
  - unfold call, cached. cbn. destruct k; try discriminate; reflexivity.
  - assert (E : exists m c, call (Get k) [VSpace (Plain true i x y); VInt z] [] st0 = (m, Ok c)).
    { unfold call, cached. cbn. destruct k; try discriminate; cbn; unfold new_class; cbn; replace (0 <? z)%Z with true by (symmetry; now apply Z.ltb_lt); eexists; eexists; reflexivity. }
    destruct E as (m & c & E). exists m, c. split; [exact E|]. refine (C109_same_call_same_class _ _ _ _ _ _ _ _ c (later_refl st0) E (later_refl m) _).
    split; [|constructor]. constructor; [right; left; eauto|]. constructor; [left; exists z; split; reflexivity|constructor].
Qed.
Print Assumptions C109_validation_depends_on_history_refuted.
(** C109.  A call with the right kind of space and a positive int succeeds, whatever happened before. *)
Fixpoint kinds_match (b : bool) (s : space) : bool := Bool.eqb (is_gk s) b && match s with Plain _ _ _ _ => true | Dist _ _ _ _ g => kinds_match b g end.
Definition sound_args (k : kind) (ns : list pyval) : Prop :=
  match ns with [] => is_wavefun k = false | [VInt z] => is_wavefun k = true /\ (0 < z)%Z | _ => False end.
Lemma new_class_ok k d s ns g m : is_gk s = is_wavefun k -> sound_args k ns -> exists m1 n, new_class k d s ns g m = (m1, Ok n).
Proof.
  intros E A. unfold new_class. rewrite E, Bool.eqb_reflx. cbn [negb]. destruct ns as [|[| z | | | | |] [|]]; try destruct A as (W & P); try contradiction.
  - cbn in A. rewrite A. eexists. eexists. reflexivity.
  - rewrite W. cbn. replace (0 <? z)%Z with true by (symmetry; now apply Z.ltb_lt). eexists. eexists. reflexivity.
Qed.
Lemma sound_hash k ns s : sound_args k ns -> existsb unhashable (VSpace s :: ns) || existsb (fun kv : kwarg => unhashable (snd kv)) [] = false.
Proof. destruct ns as [|[| z | | | | |] [|]]; intros A; try contradiction; reflexivity. Qed.
Lemma cached_succ f q body m : existsb unhashable (fst q) || existsb (fun kv : kwarg => unhashable (snd kv)) (snd q) = false ->
  (exists m1 n, body m = (m1, Ok n)) -> exists m1 n, cached f q body m = (m1, Ok n).
Proof. intros U (m1 & n & E). unfold cached. match goal with |- context [if ?b then _ else _] => replace b with false by (symmetry; exact U) end. destruct (lookup (cache m) f q); [eauto|]. rewrite E. eauto. Qed.
Lemma get_body_ok k s : forall ns m, kinds_match (is_wavefun k) s = true -> sound_args k ns -> exists m1 n, get_body k s ns m = (m1, Ok n).
Proof.
  induction s as [b i x y|b i x y g IH]; intros ns m K A; cbn [kinds_match] in K; apply andb_true_iff in K as (K & K'); apply Bool.eqb_prop in K; cbn [is_gk] in K.
  - apply new_class_ok; assumption.
  - rewrite get_body_dist by (try reflexivity; exact K). apply cached_succ; [exact (sound_hash k ns _ A)|]. cbn [dist_body]. rewrite K, Bool.eqb_reflx.
    destruct (cached_succ (Get k) (VSpace g :: ns, []) (get_body k g ns) m) as (m1 & n & ->); [exact (sound_hash k ns _ A)|now apply IH|]. apply new_class_ok; [reflexivity|exact A].
Qed.
Theorem C109_valid_call_succeeds : forall k s ns m, kinds_match (is_wavefun k) s = true -> sound_args k ns ->
  exists m1 c, call (Get k) (VSpace s :: ns) [] m = (m1, Ok c).
Proof.
  intros k s ns m K A. unfold call. apply cached_succ; [exact (sound_hash k ns s A)|].
  assert (HL : length ns = if is_wavefun k then 1 else 0) by (destruct ns as [|[| z | | | | |] [|]]; cbn in A; try contradiction; [now rewrite A|destruct A as (-> & _); reflexivity]).
  rewrite (proj2 (bind_iff (Get k) (VSpace s :: ns) [] s ns)) by (now apply stands_pos). now apply get_body_ok.
Qed.
Print Assumptions C109_valid_call_succeeds.
(** Non-vacuity: a history in which the same spin-2 wavefunction class over a distributed space comes back. *)
Example C109_nonvacuous :
  let g := Plain true 7 100 512 in let d := Dist true 8 25 128 g in
  exists m1 m2 m3, call (Get WavefunG) [] [("numspin", VInt 2); ("gkspc", VSpace d)]%string st0 = (m1, Ok 1) /\
    call (Get WavefunG) [VSpace g] [("numspin", VInt 2)]%string m1 = (m2, Ok 2) /\
    call (Get WavefunG) [VSpace g; VBool true] [] m2 = (m3, Ok 3) /\
    call (Get WavefunG) [VSpace g; VNpInt 2] [] m3 = (m3, Ok 0) /\
    map c_size (classes m3) = [200; 50; 200; 100]%Z /\
    scatter_accepts 1 0 m3 = Ok tt /\ scatter_accepts 1 2 m3 = Err TypeError.
Proof. cbv zeta. eexists. eexists. eexists. repeat split; vm_compute; reflexivity. Qed.
