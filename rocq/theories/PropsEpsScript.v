(** C103: the epsilon drivers write every q-point once, in order, for any number of processes. *)
From Verif Require Import Base GwModel PropsVcoul QeInpModel EpsScriptModel EpsScriptSpec.
Import ListNotations.
Local Open Scope nat_scope.

Lemma py_item_nonneg {A} (l : list A) i : py_item l (Z.of_nat i) = match nth_error l i with Some a => Ok a | None => Err IndexError end.
Proof.
  unfold py_item. destruct (Z.ltb_spec (Z.of_nat i) (- Z.of_nat (length l))); [lia|].
  destruct (Z.leb_spec (Z.of_nat (length l)) (Z.of_nat i)) as [H0|H0].
  - rewrite (proj2 (nth_error_None l i)) by lia. reflexivity.
  - destruct (Z.ltb_spec (Z.of_nat i) 0); [lia|]. now rewrite Nat2Z.id.
Qed.
Lemma py_item_last {A} (l : list A) : py_item l (-1) = match rev l with a :: _ => Ok a | [] => Err IndexError end.
Proof.
  destruct l as [|x l] using rev_ind; [reflexivity|]. clear IHl. rewrite rev_unit. unfold py_item. rewrite app_length. cbn [length].
  destruct (Z.ltb_spec (-1) (- Z.of_nat (length l + 1))); [lia|]. destruct (Z.leb_spec (Z.of_nat (length l + 1)) (-1)); [lia|].
  change (-1 <? 0)%Z with true. cbv iota. replace (Z.to_nat (-1 + Z.of_nat (length l + 1))) with (length l) by lia.
  rewrite nth_error_app2, Nat.sub_diag by lia. reflexivity.
Qed.
Lemma reference_spec q0 refs0 refs q : reference q0 refs0 refs q = match looked_at q0 refs0 refs q with Some r => Ok r | None => Err IndexError end.
Proof.
  unfold reference, looked_at. destruct (q =? q0); [exact (py_item_nonneg refs0 0)|].
  destruct q as [|q]; [change (Z.of_nat 0 - 1)%Z with (-1)%Z; rewrite py_item_last; now destruct (rev refs)|].
  replace (Z.of_nat (Datatypes.S q) - 1)%Z with (Z.of_nat q) by lia. apply py_item_nonneg.
Qed.

Section P.
  Context {M : Type} (calc : nat -> res M) (dim : M -> nat) (q0 : nat) (refs0 refs : list (nat * nat)).
  (** The run of one q-point neither fails in the calculation nor in the comparison. *)
  Definition goes_well (q : nat) (m : M) : Prop :=
    calc q = Ok m /\ exists r, looked_at q0 refs0 refs q = Some r /\ shapes_fit (Nat.min (fst r) (snd r)) (dim m).
  Notation step := (one_q calc dim q0 refs0 refs).
  Lemma fit_iff d n : subtract_ok d n = Ok tt <-> shapes_fit d n.
  Proof.
    unfold subtract_ok, shapes_fit. destruct (Nat.eqb_spec d n), (Nat.eqb_spec d 1), (Nat.eqb_spec n 1); cbn; split; intros H; try reflexivity; try tauto; try discriminate.
  Qed.
  Lemma step_ok w s q m : goes_well q m ->
    step w s q = Ok (if q =? q0 then MkSt (fun x => if x =? q then Some m else l_epsinv s x) (if w then Some [m] else eps0_file s) (epsmats s)
                     else MkSt (fun x => if x =? q then Some m else l_epsinv s x) (eps0_file s) (epsmats s ++ [m])).
  Proof.
    intros (C & r & L & F). unfold one_q, compare. rewrite C. cbn [bind]. rewrite reference_spec, L. cbn [bind].
    apply fit_iff in F. rewrite F. reflexivity.
  Qed.
  Lemma step_inv w s q s' : step w s q = Ok s' -> exists m, goes_well q m.
  Proof.
    unfold one_q, compare. intros H. destruct (calc q) as [m|] eqn:C; [|discriminate]. cbn [bind] in H. rewrite reference_spec in H.
    destruct (looked_at q0 refs0 refs q) as [r|] eqn:L; [|discriminate]. cbn [bind] in H.
    destruct (subtract_ok _ _) as [[]|] eqn:F; [|discriminate]. exists m. split; [exact C|]. exists r. split; [exact L|]. now apply fit_iff.
  Qed.
  Lemma fold_ok (eps : nat -> M) w qs : NoDup qs -> (forall q, In q qs -> goes_well q (eps q)) -> forall s, exists s',
    foldm (step w) s qs = Ok s'
    /\ (forall q, l_epsinv s' q = if existsb (Nat.eqb q) qs then Some (eps q) else l_epsinv s q)
    /\ eps0_file s' = (if existsb (Nat.eqb q0) qs then if w then Some [eps q0] else eps0_file s else eps0_file s)
    /\ epsmats s' = epsmats s ++ map eps (filter (fun q => negb (q =? q0)) qs).
  Proof.
    induction qs as [|q qs IH]; intros ND G s.
    - exists s. cbn. rewrite app_nil_r. now repeat split.
    - inversion_clear ND as [|? ? NI ND']. cbn [foldm]. rewrite (step_ok w s q (eps q)) by (apply G; now left). cbn [bind].
      set (s1 := if q =? q0 then _ else _).
      destruct (IH ND' (fun x Hx => G x (or_intror Hx)) s1) as (s' & E & ME & E0 & EM). exists s'. split; [exact E|].
      assert (M1 : forall x, l_epsinv s1 x = if x =? q then Some (eps q) else l_epsinv s x) by (intros x; unfold s1; now destruct (q =? q0)).
      split; [|split].
      + intros x. rewrite ME, M1. cbn [existsb]. destruct (Nat.eqb_spec x q) as [Q|N]; cbn [orb]; [|reflexivity]. subst x. now destruct (existsb (Nat.eqb q) qs).
      + rewrite E0. cbn [existsb]. unfold s1. rewrite (Nat.eqb_sym q0 q). destruct (Nat.eqb_spec q q0) as [Q|N]; cbn [orb]; [|reflexivity].
        subst q. cbn [eps0_file]. destruct (existsb (Nat.eqb q0) qs); now destruct w.
      + rewrite EM. unfold s1. cbn [filter]. destruct (q =? q0); cbn [negb epsmats map]; [reflexivity|]. now rewrite <- app_assoc.
  Qed.
  Lemma fold_inv w qs : forall s s', foldm (step w) s qs = Ok s' -> forall q, In q qs -> exists m, goes_well q m.
  Proof.
    induction qs as [|q qs IH]; intros s s' H x Hx; [easy|]. cbn [foldm] in H. destruct (step w s q) as [s1|] eqn:E; [|discriminate]. cbn [bind] in H.
    destruct Hx as [-> |Hx]; [now apply step_inv in E|now apply (IH s1 s')].
  Qed.
End P.

Lemma array_split_concat p n : 0 < p -> concat (array_split (seq 0 n) p) = seq 0 n.
Proof. intros H. unfold array_split. apply split_concat. rewrite seq_length. symmetry. now apply split_sum. Qed.
Lemma sequence_all {A B} (f : A -> res B) (g : A -> B) l : (forall a, In a l -> f a = Ok (g a)) -> sequence (map f l) = Ok (map g l).
Proof. induction l as [|a l IH]; intros H; [reflexivity|]. cbn. rewrite H by now left. rewrite IH by (intros b Hb; apply H; now right). reflexivity. Qed.
Lemma sequence_rel {A B} (f : A -> res B) (Q : A -> B -> Prop) l : (forall a, In a l -> exists b, f a = Ok b /\ Q a b) ->
  exists bs, sequence (map f l) = Ok bs /\ Forall2 Q l bs.
Proof.
  induction l as [|a l IH]; intros H; [exists []; split; [reflexivity|constructor]|].
  destruct (H a (or_introl eq_refl)) as (b & E & Hb). destruct (IH (fun x Hx => H x (or_intror Hx))) as (bs & Es & Hs).
  exists (b :: bs). cbn. rewrite E, Es. split; [reflexivity|now constructor].
Qed.
Lemma sequence_inv {A B} (f : A -> res B) l bs : sequence (map f l) = Ok bs -> forall a, In a l -> exists b, f a = Ok b.
Proof.
  revert bs; induction l as [|x l IH]; intros bs H a Ha; [easy|]. cbn in H. destruct (f x) as [b|] eqn:E; [|discriminate]. cbn in H.
  destruct (sequence (map f l)) as [r|] eqn:E2; [|discriminate]. destruct Ha as [-> |Ha]; [now exists b|now apply (IH r)].
Qed.
Lemma concat_NoDup_parts {A} (ll : list (list A)) : NoDup (concat ll) -> Forall (@NoDup A) ll.
Proof.
  induction ll as [|l ll IH]; intros H; [constructor|]. cbn in H. constructor.
  - clear IH. induction l as [|a l IHl]; [constructor|]. cbn in H. inversion_clear H as [|? ? N D]. constructor; [|now apply IHl]. intros I. apply N, in_or_app. now left.
  - apply IH. clear IH. induction l as [|a l IHl]; [exact H|]. cbn in H. inversion_clear H. now apply IHl.
Qed.
Lemma filter_concat {A} (f : A -> bool) ll : filter f (concat ll) = concat (map (filter f) ll).
Proof. induction ll as [|l ll IH]; [reflexivity|]. cbn. rewrite filter_app. now rewrite IH. Qed.

(** If every q-point can be calculated and compared, then for every number of processes (and whatever
    [numq] is passed) the script leaves the matrix of the special q-point in eps0mat_qtm.h5 and those of
    all others, each once and in q order, in epsmat_qtm.h5 (nothing is written when there are none); each
    process keeps in memory exactly the matrices of its own block of q-points. *)
Theorem C103_script : forall (M : Type) calc dim numq q0 refs0 refs (eps : nat -> M) p numq_arg,
  0 < p -> q0 < numq -> (forall q, q < numq -> goes_well calc dim q0 refs0 refs q (eps q)) ->
  exists out, script calc dim numq q0 refs0 refs p numq_arg = Ok out
  /\ o_eps0 out = Some [eps q0]
  /\ o_eps out = (if numq =? 1 then None else Some (map eps (others q0 numq)))
  /\ length (o_mem out) = p
  /\ (forall r mem, nth_error (o_mem out) r = Some mem -> forall q,
        mem q = if existsb (Nat.eqb q) (nth r (array_split (seq 0 numq) p) []) then Some (eps q) else None).
Proof.
  intros M calc dim numq q0 refs0 refs eps p numq_arg Hp Hq G.
  assert (OTH : forall old, (if numq =? 1 then old else Some (map eps (others q0 numq))) = write_list old (map eps (others q0 numq))).
  { intros old. destruct (Nat.eqb_spec numq 1) as [-> |N1].
    - assert (q0 = 0) as -> by lia. reflexivity.
    - assert (EX : exists q, In q (others q0 numq)).
      { exists (if q0 =? 0 then 1 else 0). unfold others. apply filter_In. destruct (Nat.eqb_spec q0 0) as [-> |Z0].
        - split; [apply in_seq; lia|reflexivity].
        - split; [apply in_seq; lia|]. destruct (Nat.eqb_spec 0 q0); [lia|reflexivity]. }
      destruct EX as (q & Hin). destruct (others q0 numq) as [|x l]; [easy|reflexivity]. }
  unfold script. destruct (Nat.ltb_spec 1 p) as [H1|H1].
  - pose proof (array_split_concat p numq Hp) as CC. set (parts := array_split (seq 0 numq) p) in *.
    assert (ND : Forall (@NoDup nat) parts) by (apply concat_NoDup_parts; rewrite CC; apply seq_NoDup).
    destruct (sequence_rel (loop calc dim q0 refs0 refs true) (fun qs s =>
       (forall q, l_epsinv s q = if existsb (Nat.eqb q) qs then Some (eps q) else None)
       /\ eps0_file s = (if existsb (Nat.eqb q0) qs then Some [eps q0] else None)
       /\ epsmats s = map eps (filter (fun q => negb (q =? q0)) qs)) parts) as (sts & SE & FF).
    { intros qs Hqs. rewrite Forall_forall in ND.
      destruct (fold_ok calc dim q0 refs0 refs eps true qs (ND qs Hqs)) with (s := st0 (M := M)) as (s & E & A1 & A2 & A3).
      - intros q Hin. apply G. assert (I : In q (seq 0 numq)) by (rewrite <- CC; apply in_concat; now exists qs). apply in_seq in I. lia.
      - exists s. split; [exact E|]. split; [exact A1|]. split; [exact A2|]. exact A3. }
    rewrite SE. cbn [bind]. eexists. split; [reflexivity|]. cbn [o_eps0 o_eps o_mem].
    assert (EM : concat (map epsmats sts) = map eps (others q0 numq)).
    { unfold others. rewrite <- CC, filter_concat, concat_map. f_equal. rewrite map_map. clear -FF. induction FF as [|qs s l l' (_ & _ & H) _ IH]; [reflexivity|]. cbn. now rewrite H, IH. }
    assert (NIL : concat (map (fun _ : st M => @nil M) sts) = []) by (clear; induction sts; [reflexivity|assumption]).
    split; [|split; [|split]].
    + assert (I0 : In q0 (concat parts)) by (rewrite CC; apply in_seq; lia).
      clear -FF I0. induction FF as [|qs s l l' (_ & H & _) FT IH]; [easy|]. cbn [map last_written]. cbn in I0. apply in_app_or in I0.
      assert (TAIL : forall l l' , Forall2 (fun qs (s : st M) => (forall q, l_epsinv s q = if existsb (Nat.eqb q) qs then Some (eps q) else None)
       /\ eps0_file s = (if existsb (Nat.eqb q0) qs then Some [eps q0] else None) /\ epsmats s = map eps (filter (fun q => negb (q =? q0)) qs)) l l' ->
       last_written (map eps0_file l') = None \/ last_written (map eps0_file l') = Some [eps q0]).
      { clear. induction 1 as [|qs s l l' (_ & H & _) _ IH]; [now left|]. cbn [map last_written]. destruct IH as [-> | ->]; [|now right]. rewrite H. destruct (existsb _ qs); [now right|now left]. }
      destruct (in_dec Nat.eq_dec q0 (concat l)) as [I|NI].
      * now rewrite (IH I).
      * destruct I0 as [I0|I0]; [|easy].
        assert (EX : existsb (Nat.eqb q0) qs = true) by (apply existsb_exists; exists q0; split; [exact I0|apply Nat.eqb_refl]). rewrite H, EX.
        destruct (last_written (map eps0_file l')) eqn:LW; [|reflexivity]. exfalso. 
        assert (IN : forall l l', Forall2 (fun qs (s : st M) => (forall q, l_epsinv s q = if existsb (Nat.eqb q) qs then Some (eps q) else None)
       /\ eps0_file s = (if existsb (Nat.eqb q0) qs then Some [eps q0] else None) /\ epsmats s = map eps (filter (fun q => negb (q =? q0)) qs)) l l' ->
           ~ In q0 (concat l) -> last_written (map eps0_file l') = None).
        { clear. induction 1 as [|qs s l l' (_ & H & _) _ IH]; intros NI; [reflexivity|]. cbn in NI. cbn [map last_written].
          rewrite IH by (intros I; apply NI, in_or_app; now right). rewrite H. destruct (existsb (Nat.eqb q0) qs) eqn:E; [|reflexivity].
          apply existsb_exists in E as (x & Hx & Ex). apply Nat.eqb_eq in Ex. subst x. exfalso. apply NI, in_or_app. now left. }
        rewrite (IN l l' FT NI) in LW. discriminate.
    + rewrite EM, NIL. cbn [write_list]. now rewrite OTH.
    + assert (LL : length parts = length sts) by (clear -FF; induction FF; [reflexivity|cbn; now f_equal]).
      rewrite map_length, <- LL. unfold parts, array_split. clear. assert (LS : forall (sz : list nat) (l : list nat), length (split_sizes sz l) = length sz) by (induction sz; intros; cbn; [reflexivity|now rewrite IHsz]).
      rewrite LS. unfold array_split_sizes. now rewrite map_length, seq_length.
    + intros r mem Hr q. clear -FF Hr. revert r Hr. induction FF as [|qs s l l' (H & _ & _) _ IH]; intros r Hr; [now destruct r|].
      destruct r as [|r]; cbn in Hr |- *; [injection Hr as <-; apply H|now apply IH].
  - assert (p = 1) as -> by lia.
    destruct (fold_ok calc dim q0 refs0 refs eps true (seq 0 numq) (seq_NoDup numq 0)) with (s := st0 (M := M)) as (s & E & A1 & A2 & A3).
    { intros q Hin. apply in_seq in Hin. apply G. lia. }
    change (loop calc dim q0 refs0 refs true (seq 0 numq)) with (foldm (one_q calc dim q0 refs0 refs true) st0 (seq 0 numq)). rewrite E. cbn [bind].
    eexists. split; [reflexivity|]. cbn [o_eps0 o_eps o_mem write_list]. 
    assert (EX : existsb (Nat.eqb q0) (seq 0 numq) = true) by (apply existsb_exists; exists q0; split; [apply in_seq; lia|apply Nat.eqb_refl]).
    split; [now rewrite A2, EX|]. split; [rewrite A3; now rewrite OTH|]. split; [reflexivity|].
    intros r mem Hr q. destruct r as [|r]; [|destruct r; discriminate]. injection Hr as <-. rewrite A1. cbn [st0 l_epsinv].
    assert (SP : nth 0 (array_split (seq 0 numq) 1) [] = seq 0 numq).
    { pose proof (array_split_concat 1 numq Nat.lt_0_1) as CC. unfold array_split, array_split_sizes in *. cbn [seq map split_sizes] in *. cbn [concat] in CC. rewrite app_nil_r in CC. exact CC. }
    now rewrite SP.
Qed.
Print Assumptions C103_script.

(** Conversely, if the calculation or the comparison fails for any q-point, the run fails for every
    number of processes. *)
Theorem C103_failure : forall (M : Type) calc (dim : M -> nat) numq q0 refs0 refs p numq_arg q,
  0 < p -> q < numq -> (forall m, ~ goes_well calc dim q0 refs0 refs q m) ->
  exists e, script calc dim numq q0 refs0 refs p numq_arg = Err e.
Proof.
  intros M calc dim numq q0 refs0 refs p numq_arg q Hp Hq B.
  assert (IQ : In q (seq 0 numq)) by (apply in_seq; lia).
  unfold script. destruct (Nat.ltb_spec 1 p) as [H1|H1].
  - destruct (sequence _) as [sts|e] eqn:SE; [|now exists e]. exfalso.
    rewrite <- (array_split_concat p numq Hp) in IQ. apply in_concat in IQ as (qs & Hqs & Hin).
    destruct (sequence_inv _ _ _ SE qs Hqs) as (s & E). unfold loop in E.
    destruct (fold_inv calc dim q0 refs0 refs true qs _ _ E q Hin) as (m & W). now apply (B m).
  - destruct (loop _ _ _ _ _ _ _) as [s|e] eqn:E; [|now exists e]. exfalso. unfold loop in E.
    destruct (fold_inv calc dim q0 refs0 refs true _ _ _ E q IQ) as (m & W). now apply (B m).
Qed.
Print Assumptions C103_failure.

(** The comparison uses the reference of the same q-point for all those after the special one, so for
    all of them when it is the first; otherwise the q-points before it are compared with another one's
    reference: the first with the last entry of the file, the others with that of their predecessor. *)
Theorem C103_reference : forall (A : Type) q0 (refs0 : list A) refs q, q <> q0 ->
  (q0 < q -> looked_at q0 refs0 refs q = nth_error refs (position q0 q))
  /\ (q < q0 -> position q0 q = q
      /\ looked_at q0 refs0 refs q = nth_error refs (if q =? 0 then length refs - 1 else q - 1)).
Proof.
  intros A q0 refs0 refs q N. unfold looked_at, position. destruct (Nat.eqb_spec q q0); [easy|]. split; intros H.
  - destruct (Nat.ltb_spec q q0); [lia|]. destruct q as [|q]; [lia|]. f_equal. lia.
  - destruct (Nat.ltb_spec q q0); [|lia]. split; [reflexivity|]. destruct q as [|q]; cbn [Nat.eqb].
    + destruct refs as [|x l _] using rev_ind; [reflexivity|]. rewrite rev_unit, app_length, nth_error_app2 by (cbn; lia).
      replace (length l + length [x] - 1 - length l) with 0 by (cbn; lia). reflexivity.
    + f_equal. lia.
Qed.
Print Assumptions C103_reference.

(** The notebook version runs the first [numq] q-points in one process and writes files only on request. *)
Theorem C103_example : forall (M : Type) calc dim numq q0 refs0 refs (eps : nat -> M) numq_arg writing,
  let n := match numq_arg with Some k => k | None => numq end in
  (forall q, q < n -> goes_well calc dim q0 refs0 refs q (eps q)) ->
  exists out mem, example calc dim numq q0 refs0 refs numq_arg writing = Ok out
  /\ o_mem out = [mem] /\ (forall q, mem q = if q <? n then Some (eps q) else None)
  /\ (writing = false -> o_eps0 out = None /\ o_eps out = None)
  /\ (writing = true -> o_eps0 out = (if q0 <? n then Some [eps q0] else None)
                        /\ o_eps out = match map eps (others q0 n) with [] => None | l => Some l end).
Proof.
  intros M calc dim numq q0 refs0 refs eps numq_arg writing n G.
  destruct (fold_ok calc dim q0 refs0 refs eps writing (seq 0 n) (seq_NoDup n 0)) with (s := st0 (M := M)) as (s & E & A1 & A2 & A3).
  { intros q Hin. apply in_seq in Hin. apply G. lia. }
  assert (EX : forall q, existsb (Nat.eqb q) (seq 0 n) = (q <? n)).
  { intros q. destruct (Nat.ltb_spec q n) as [H|H].
    - apply existsb_exists. exists q. split; [apply in_seq; lia|apply Nat.eqb_refl].
    - destruct (existsb (Nat.eqb q) (seq 0 n)) eqn:X; [|reflexivity]. apply existsb_exists in X as (x & Hx & Ex). apply in_seq in Hx. apply Nat.eqb_eq in Ex. lia. }
  unfold example, loop. fold n. rewrite E. cbn [bind]. eexists. exists (l_epsinv s). split; [reflexivity|]. cbn [o_eps0 o_eps o_mem]. split; [reflexivity|].
  split; [intros q; rewrite A1, EX; reflexivity|]. rewrite A2, A3, EX. split; intros ->.
  - split; [now destruct (q0 <? n)|reflexivity].
  - split; [reflexivity|]. cbn [st0 epsmats app]. unfold others. now destruct (map eps _).
Qed.
Print Assumptions C103_example.

(** Five q-points on three processes, the special one first; matrices are their own number, of size 2. *)
Example C103_instance :
  (forall q, q < 5 -> goes_well (fun q => Ok q) (fun _ => 2) 0 [(2, 2)] [(2, 2); (2, 3); (2, 2); (2, 2)] q q)
  /\ exists out, script (fun q => Ok q) (fun _ => 2) 5 0 [(2, 2)] [(2, 2); (2, 3); (2, 2); (2, 2)] 3 (Some 1) = Ok out
     /\ o_eps0 out = Some [0] /\ o_eps out = Some [1; 2; 3; 4].
Proof.
  split.
  - intros q Hq. split; [reflexivity|]. do 5 (destruct q as [|q]; [eexists; split; [reflexivity|now left]|]). lia.
  - eexists. split; [reflexivity|]. split; reflexivity.
Qed.
