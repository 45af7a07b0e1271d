(** Properties C39, C40 (timers), C56 (timing decorator). *)
From Verif Require Import Base LoggerModel LoggerProofs.
From Coq Require Import Reals.
Local Open Scope nat_scope.

(* ------------------------------------------------------------------ *)
(** * Specification: one stopwatch per label. *)

(** A stopwatch: number of starts, accumulated time, and the start time if running. *)
Record stopwatch := SW { calls : Z; total : R; running : option R }.

(** What one operation does to the stopwatch of its own label ([None]: no such timer). *)
Definition sw_step (o : op) (s : option stopwatch) : option stopwatch * res unit :=
  match o, s with
  | Start _ now, None => (Some (SW 1 0%R (Some now)), Ok tt)
  | Start _ now, Some (SW c T None) => (Some (SW (c + 1) T (Some now)), Ok tt)
  | Start _ now, Some (SW c T (Some _)) => (s, Err ValueError)          (* double start refused *)
  | Stop _ now, Some (SW c T (Some t0)) => (Some (SW c (T + (now - t0)) None), Ok tt)
  | Stop _ now, _ => (s, Err ValueError)                                 (* unmatched stop refused *)
  | Reset _, Some _ => (Some (SW 0 0%R None), Ok tt)
  | Reset _, None => (None, Err ValueError)
  | Delete _, Some _ => (None, Ok tt)
  | Delete _, None => (None, Err ValueError)
  end.

(** Two labels denote the same timer when they are equal up to trailing NUL characters
    (ordinary labels have none). *)
Definition name (l : label) : label := strip0 l.
Definition on (k : label) (o : op) : bool := label_eqb (name (op_label o)) k.
(** The stopwatch named [k] after a history: only the operations on [k] count. *)
Definition sw_run (k : label) (ops : list op) : option stopwatch :=
  fold_left (fun s o => fst (sw_step o s)) (filter (on k) ops) None.

(** Reading the timer named [k] off the table. *)
Definition shows (t : table) (k : label) : option stopwatch :=
  match lookup t_label k t with
  | None => None
  | Some x => Some (SW (t_call x) (t_time x) (if t_status x then Some (t_start x) else None))
  end.

Definition short (l : label) : Prop := length (name l) <= 30.

(* ------------------------------------------------------------------ *)
Lemma find_absent l (t : table) : ~ In (strip0 l) (map t_label t) -> find_timer l t = Ok None.
Proof. intros H. unfold find_timer. now rewrite (find_idx_none t_label). Qed.
Lemma find_present l a x b : NoDup (map t_label (a ++ x :: b)) -> t_label x = strip0 l ->
  find_timer l (a ++ x :: b) = Ok (Some (length a)).
Proof. intros N E. unfold find_timer. now rewrite (find_idx_some t_label _ _ _ _ _ N E). Qed.

Lemma in_dec_label k (t : table) : {In k (map t_label t)} + {~ In k (map t_label t)}.
Proof. apply in_dec, list_eq_dec, Nat.eq_dec. Qed.

Lemma shows_replace t a x b y k : t = a ++ x :: b -> NoDup (map t_label t) -> t_label y = t_label x ->
  shows (a ++ y :: b) k = if label_eqb k (t_label x) then Some (SW (t_call y) (t_time y) (if t_status y then Some (t_start y) else None)) else shows t k.
Proof.
  intros -> N E. unfold shows. rewrite (proj2 (lookup_replace t_label k a x y b N E)).
  destruct (label_eqb k (t_label x)); reflexivity.
Qed.
Lemma lookup_mid a x b : NoDup (map t_label (a ++ x :: b)) -> lookup t_label (t_label x) (a ++ x :: b) = Some x.
Proof. intros N. apply lookup_some; [exact N|]. split; [apply in_elt|reflexivity]. Qed.

(** Invariant of the table: unique labels, of at most 30 characters. *)
Definition table_ok (t : table) : Prop := NoDup (map t_label t) /\ forall x, In x t -> length (t_label x) <= 30.

Lemma table_ok_replace a x y b : table_ok (a ++ x :: b) -> t_label y = t_label x -> table_ok (a ++ y :: b).
Proof.
  intros [N L] E. split; [now apply (lookup_replace t_label [] a x y b)|].
  intros z Hz. apply in_app_or in Hz. cbn in Hz. destruct Hz as [Hz|[<-|Hz]].
  - apply L, in_or_app. now left.
  - rewrite E. apply L, in_elt.
  - apply L, in_or_app. right. now right.
Qed.

Lemma set_same l a x b f :
  NoDup (map t_label (a ++ x :: b)) -> t_label x = strip0 l -> t_label (f x) = t_label x ->
  match nth_error (a ++ x :: b) (length a) with None => None | Some z => Some (set_nth (a ++ x :: b) (length a) (f z)) end
  = Some (a ++ f x :: b).
Proof. intros _ _ _. now rewrite nth_error_mid, set_nth_app. Qed.

Lemma step_spec o t : table_ok t -> short (op_label o) ->
  (length t < 500 \/ In (name (op_label o)) (map t_label t)) ->
  let k := name (op_label o) in
  table_ok (fst (step o t))
  /\ shows (fst (step o t)) k = fst (sw_step o (shows t k)) /\ snd (step o t) = snd (sw_step o (shows t k))
  /\ (forall k', k' <> k -> shows (fst (step o t)) k' = shows t k')
  /\ (forall k', In k' (map t_label (fst (step o t))) -> k' = k \/ In k' (map t_label t)).
Proof.
  intros K S C. cbv zeta. destruct K as [N L]. unfold name in *.
  destruct (in_dec_label (strip0 (op_label o)) t) as [H|H].
  - apply in_map_iff in H. destruct H as (x & E & H). apply in_split in H. destruct H as (a & b & ->).
    assert (SH : shows (a ++ x :: b) (strip0 (op_label o)) = Some (SW (t_call x) (t_time x) (if t_status x then Some (t_start x) else None))).
    { unfold shows. rewrite <- E, lookup_mid by exact N. reflexivity. }
    assert (RP : forall y, t_label y = t_label x -> table_ok (a ++ y :: b)
        /\ shows (a ++ y :: b) (strip0 (op_label o)) = Some (SW (t_call y) (t_time y) (if t_status y then Some (t_start y) else None))
        /\ (forall k', k' <> strip0 (op_label o) -> shows (a ++ y :: b) k' = shows (a ++ x :: b) k')
        /\ (forall k', In k' (map t_label (a ++ y :: b)) -> k' = strip0 (op_label o) \/ In k' (map t_label (a ++ x :: b)))).
    { intros y Ey. split; [now apply (table_ok_replace a x y b)|]. split; [|split].
      - rewrite (shows_replace _ a x b y _ eq_refl N Ey), E, label_eqb_refl. reflexivity.
      - intros k' Hk. rewrite (shows_replace _ a x b y _ eq_refl N Ey), E, label_eqb_neq by exact Hk. reflexivity.
      - intros k'. rewrite !map_app. cbn. rewrite Ey. auto. }
    assert (FP := find_present (op_label o) a x b N E).
    assert (SAME : table_ok (a ++ x :: b) /\ (forall k', k' <> strip0 (op_label o) -> shows (a ++ x :: b) k' = shows (a ++ x :: b) k')
        /\ (forall k', In k' (map t_label (a ++ x :: b)) -> k' = strip0 (op_label o) \/ In k' (map t_label (a ++ x :: b)))).
    { split; [split; assumption|]. split; auto. }
    rewrite SH. destruct o as [l now|l now|l|l]; cbn [op_label step] in *.
    + unfold start_timer, start_row. rewrite FP, nth_error_mid. destruct (t_status x) eqn:ST; cbn [fst snd sw_step].
      * rewrite SH. split; [apply SAME|]. split; [reflexivity|]. split; [reflexivity|apply SAME].
      * rewrite set_nth_app. destruct (RP (MkTimer (t_label x) (t_call x + 1) (t_time x) true now) eq_refl) as (R1 & R2 & R3 & R4).
        split; [exact R1|]. split; [exact R2|]. split; [reflexivity|]. split; [exact R3|exact R4].
    + unfold stop_timer. rewrite FP, nth_error_mid. destruct (t_status x) eqn:ST; cbn [fst snd sw_step].
      * rewrite set_nth_app. destruct (RP (MkTimer (t_label x) (t_call x) (t_time x + (now - t_start x))%R false 0%R) eq_refl) as (R1 & R2 & R3 & R4).
        split; [exact R1|]. split; [exact R2|]. split; [reflexivity|]. split; [exact R3|exact R4].
      * rewrite SH. split; [apply SAME|]. split; [reflexivity|]. split; [reflexivity|apply SAME].
    + unfold reset_timer. rewrite FP, nth_error_mid, set_nth_app. cbn [fst snd sw_step].
      destruct (RP (MkTimer (t_label x) 0 0%R false (t_start x)) eq_refl) as (R1 & R2 & R3 & R4).
      split; [exact R1|]. split; [exact R2|]. split; [reflexivity|]. split; [exact R3|exact R4].
    + unfold delete_timer. rewrite FP.
      destruct (nth_error (a ++ x :: b) (length (a ++ x :: b) - 1)) as [z|] eqn:NZ.
      2:{ exfalso. apply nth_error_None in NZ. rewrite app_length in NZ. cbn in NZ. lia. }
      cbn [fst snd sw_step]. pose proof (delete_perm a x b z NZ) as P. apply Permutation_sym in P.
      assert (NR : NoDup (map t_label (a ++ b))) by apply (lookup_removed t_label [] a x b N).
      assert (SHP : forall k', shows (firstn (length (a ++ x :: b) - 1) (set_nth (a ++ x :: b) (length a) z)) k' = shows (a ++ b) k').
      { intros k'. unfold shows. now rewrite <- (lookup_perm t_label k' _ _ NR P). }
      split; [|split; [|split; [reflexivity|split]]].
      * split; [eapply Permutation_NoDup; [apply Permutation_map, P|exact NR]|].
        intros y Hy. apply L. apply (Permutation_in _ (Permutation_sym P)) in Hy. apply in_app_or in Hy. apply in_or_app. cbn. tauto.
      * rewrite SHP. unfold shows. rewrite (proj2 (lookup_removed t_label _ a x b N)), E, label_eqb_refl. reflexivity.
      * intros k' Hk. rewrite SHP. unfold shows. rewrite (proj2 (lookup_removed t_label _ a x b N)), E, label_eqb_neq by exact Hk. reflexivity.
      * intros k' Hk. right. apply (Permutation_in _ (Permutation_map t_label (Permutation_sym P))) in Hk.
        rewrite map_app in *. cbn. apply in_app_or in Hk. apply in_or_app. cbn. tauto.
  - assert (SH : shows t (strip0 (op_label o)) = None) by (unfold shows; now rewrite lookup_none).
    rewrite SH. pose proof (find_absent _ _ H) as FA.
    destruct o as [l now|l now|l|l]; cbn [op_label step] in *;
    [|unfold stop_timer|unfold reset_timer|unfold delete_timer]; try (rewrite FA; cbn [fst snd sw_step];
      split; [now split|]; split; [exact SH|]; split; [reflexivity|]; split; auto).
    destruct C as [C|C]; [|contradiction].
    unfold start_timer. rewrite FA. destruct (Nat.leb_spec MAX_ENTRIES (length t)) as [C'|_]; [unfold MAX_ENTRIES in C'; lia|].
    unfold start_row. rewrite nth_error_mid. cbn [t_status t_label t_call t_time]. rewrite set_nth_app. cbn [fst snd sw_step].
    set (y := MkTimer (to_u30 l) (0 + 1) 0%R true now).
    assert (Ey : t_label y = strip0 l) by (cbn; now apply to_u30_short).
    assert (H' : ~ In (t_label y) (map t_label t)) by now rewrite Ey.
    assert (AN := fun k => lookup_app_new t_label k t y N H').
    split; [split; [apply (AN [])|]|split; [|split; [reflexivity|split]]].
    + intros z Hz. apply in_app_or in Hz. destruct Hz as [Hz|[<-|[]]]; [now apply L|]. rewrite Ey. exact S.
    + unfold shows. rewrite (proj2 (AN _)), Ey, label_eqb_refl. reflexivity.
    + intros k' Hk. unfold shows. rewrite (proj2 (AN _)), Ey, label_eqb_neq by exact Hk. reflexivity.
    + intros k' Hk. rewrite map_app in Hk. apply in_app_or in Hk. destruct Hk as [Hk|[Hk|[]]]; [now right|left]. now rewrite <- Hk, Ey.
Qed.

(** C39.  For every history of operations with labels of at most 30 characters and at most
    500 different names: the table never holds a name twice, every timer reads exactly as
    its own stopwatch driven by the operations on that name alone, and each operation
    succeeds or raises exactly as that stopwatch does.  [U] is any list containing the
    names used. *)
Theorem C39_refines_stopwatch : forall ops U,
  (forall o, In o ops -> short (op_label o) /\ In (name (op_label o)) U) -> length U <= 500 ->
  NoDup (map t_label (fst (run ops [])))
  /\ (forall k, shows (fst (run ops [])) k = sw_run k ops)
  /\ (forall i o, nth_error ops i = Some o ->
        nth_error (snd (run ops [])) i = Some (snd (sw_step o (sw_run (name (op_label o)) (firstn i ops))))).
Proof.
  intros ops U HU HL.
  assert (G : forall ops done t, (forall o, In o ops -> short (op_label o) /\ In (name (op_label o)) U) ->
     table_ok t -> (forall k, In k (map t_label t) -> In k U) -> (forall k, shows t k = sw_run k done) ->
     NoDup (map t_label (fst (run ops t)))
     /\ (forall k, shows (fst (run ops t)) k = sw_run k (done ++ ops))
     /\ (forall i o, nth_error ops i = Some o ->
        nth_error (snd (run ops t)) i = Some (snd (sw_step o (sw_run (name (op_label o)) (done ++ firstn i ops)))))).
  { clear ops HU. induction ops as [|o ops IH]; intros done t HU K HI HS.
    - cbn. split; [apply K|]. split; [intros k; rewrite app_nil_r; apply HS|]. intros [|i] o H; discriminate.
    - cbn [run]. destruct (HU o (or_introl eq_refl)) as [Sh Hin].
      assert (C : length t < 500 \/ In (name (op_label o)) (map t_label t)).
      { destruct (in_dec_label (name (op_label o)) t) as [H|H]; [now right|left].
        assert (Hlen : length (name (op_label o) :: map t_label t) <= length U).
        { apply NoDup_incl_length; [constructor; [exact H|apply K]|]. intros k [<-|Hk]; auto. }
        cbn in Hlen. rewrite map_length in Hlen. lia. }
      destruct (step_spec o t K Sh C) as (K1 & S1 & R1 & O1 & I1).
      destruct (step o t) as [t1 x] eqn:ES. cbn [fst snd] in *.
      destruct (run ops t1) as [t2 xs] eqn:ER.
      specialize (IH (done ++ [o]) t1). rewrite ER in IH. cbn [fst snd] in *.
      destruct IH as (A1 & A2 & A3).
      + intros o' H. apply HU. now right.
      + exact K1.
      + intros k Hk. destruct (I1 k Hk) as [->|Hk']; auto.
      + intros k. unfold sw_run. rewrite filter_app. cbn [filter]. unfold on at 2.
        destruct (label_eqb (name (op_label o)) k) eqn:Ek.
        * apply label_eqb_spec in Ek. subst k. rewrite fold_left_app. cbn. rewrite S1, HS. reflexivity.
        * rewrite app_nil_r. rewrite O1; [apply HS|]. intros ->. rewrite label_eqb_refl in Ek. discriminate.
      + split; [exact A1|]. split.
        * intros k. rewrite A2. now rewrite <- app_assoc.
        * intros [|i] o' H; cbn in H |- *.
          -- injection H as <-. rewrite app_nil_r, <- HS. now rewrite R1.
          -- rewrite (A3 i o' H). now rewrite <- app_assoc. }
  specialize (G ops [] [] HU). cbn in G. destruct G as (G1 & G2 & G3).
  - split; [constructor|intros x []].
  - intros k [].
  - reflexivity.
  - repeat split; assumption.
Qed.
Print Assumptions C39_refines_stopwatch.

(** Reading of the specification: a timer started and stopped n times shows n calls and the
    sum of the n elapsed times, whatever happened to other names in between. *)
Fixpoint laps (k : label) (ts : list (R * R)) : list op :=
  match ts with [] => [] | (a, b) :: r => Start k a :: Stop k b :: laps k r end.
Theorem C39_laps : forall ops U k (ts : list (R * R)),
  (forall o, In o ops -> short (op_label o) /\ In (name (op_label o)) U) -> length U <= 500 ->
  filter (on (name k)) ops = laps k ts -> ts <> [] ->
  shows (fst (run ops [])) (name k)
  = Some (SW (Z.of_nat (length ts)) (fold_right Rplus 0%R (map (fun p => (snd p - fst p)%R) ts)) None).
Proof.
  intros ops U k ts HU HL F NE. rewrite (proj1 (proj2 (C39_refines_stopwatch ops U HU HL))).
  unfold sw_run. rewrite F.
  assert (G : forall ts c T, fold_left (fun s o => fst (sw_step o s)) (laps k ts) (Some (SW c T None))
     = Some (SW (c + Z.of_nat (length ts)) (T + fold_right Rplus 0%R (map (fun p => (snd p - fst p)%R) ts)) None)).
  { clear. induction ts as [|[a b] r IH]; intros c T.
    - cbn. f_equal. f_equal; [lia|ring].
    - cbn [laps fold_left sw_step fst snd map fold_right length]. rewrite IH. f_equal. f_equal; [lia|ring]. }
  destruct ts as [|[a b] r]; [contradiction|]. cbn [laps fold_left sw_step fst]. rewrite G.
  cbn [length map fold_right fst snd]. f_equal. f_equal; [lia|ring].
Qed.
Print Assumptions C39_laps.

(** C39, limit of the claim: with 500 live timers a new one cannot be started (IndexError),
    and nothing changes. *)
Theorem C39_full_table_refuted : forall l now t, length t = 500 -> ~ In (name l) (map t_label t) ->
  start_timer l now t = (t, Err IndexError).
Proof.
  intros l now t H N. unfold start_timer. rewrite find_absent by exact N.
  destruct (Nat.leb_spec MAX_ENTRIES (length t)) as [_|C]; [reflexivity|unfold MAX_ENTRIES in C; lia].
Qed.
Print Assumptions C39_full_table_refuted.

(* ------------------------------------------------------------------ *)
(** The tables a program can reach, with any labels at all. *)
Definition reachable (t : table) : Prop := exists ops, t = fst (run ops []).
Lemma step_len30 o t : (forall x, In x t -> length (t_label x) <= 30) -> forall x, In x (fst (step o t)) -> length (t_label x) <= 30.
Proof.
  intros H.
  assert (SN : forall i y, length (t_label y) <= 30 -> forall x, In x (set_nth t i y) -> length (t_label x) <= 30).
  { intros i y Hy. clear -H Hy. revert i. induction t as [|z t IH]; intros i x Hx; [destruct Hx|].
    destruct i; cbn in Hx; destruct Hx as [<-|Hx]; auto; [apply H; now right|apply H; now left|].
    eapply IH; [|exact Hx]. intros w Hw. apply H. now right. }
  assert (NE : forall i y, nth_error t i = Some y -> length (t_label y) <= 30) by (intros i y E; apply H; eapply nth_error_In; eauto).
  destruct o as [l now|l now|l|l]; cbn [step].
  - unfold start_timer. destruct (find_timer l t) as [[i|]|e]; cbn [fst].
    + unfold start_row. destruct (nth_error t i) eqn:E; [|exact H]. destruct (t_status t0); [exact H|]. cbn [fst].
      apply SN. cbn. eapply NE; eauto.
    + destruct (MAX_ENTRIES <=? length t); [exact H|]. unfold start_row. rewrite nth_error_mid. cbn [t_status]. rewrite set_nth_app. cbn [fst].
      intros x Hx. apply in_app_or in Hx. destruct Hx as [Hx|[<-|[]]]; [auto|]. cbn. apply to_u30_length.
    + exact H.
  - unfold stop_timer. destruct (find_timer l t) as [[i|]|e]; cbn [fst]; try exact H.
    destruct (nth_error t i) eqn:E; [|exact H]. destruct (t_status t0); [|exact H]. cbn [fst]. apply SN. cbn. eapply NE; eauto.
  - unfold reset_timer. destruct (find_timer l t) as [[i|]|e]; cbn [fst]; try exact H.
    destruct (nth_error t i) eqn:E; [|exact H]. cbn [fst]. apply SN. cbn. eapply NE; eauto.
  - unfold delete_timer. destruct (find_timer l t) as [[i|]|e]; cbn [fst]; try exact H.
    destruct (nth_error t (length t - 1)) eqn:E; [|exact H]. cbn [fst]. intros x Hx.
    apply (SN i t0 (NE _ _ E)). rewrite <- (firstn_skipn (length t - 1)). apply in_or_app. left. exact Hx.
Qed.
Lemma reachable_len30 t : reachable t -> forall x, In x t -> length (t_label x) <= 30.
Proof.
  intros [ops ->]. assert (G : forall ops t, (forall x, In x t -> length (t_label x) <= 30) -> forall x, In x (fst (run ops t)) -> length (t_label x) <= 30).
  { clear. induction ops as [|o ops IH]; intros t H x Hx; [auto|]. cbn [run] in Hx.
    pose proof (step_len30 o t H) as S. destruct (step o t) as [t1 r]. cbn [fst] in S.
    specialize (IH t1 S x). destruct (run ops t1). apply IH, Hx. }
  apply G. intros x [].
Qed.

(** C40.  A label of at most 30 characters that start accepted can be stopped, at any later
    clock reading, in any table of unique names (the tables of C39). *)
Theorem C40_short_label : forall l now now' t, NoDup (map t_label t) -> (forall x, In x t -> length (t_label x) <= 30) -> short l ->
  snd (start_timer l now t) = Ok tt -> snd (stop_timer l now' (fst (start_timer l now t))) = Ok tt.
Proof.
  intros l now now' t N L S H.
  assert (C : length t < 500 \/ In (name l) (map t_label t)).
  { destruct (in_dec_label (name l) t) as [I|I]; [now right|left].
    destruct (Nat.leb_spec MAX_ENTRIES (length t)) as [C|C]; [|exact C].
    unfold start_timer in H. rewrite find_absent in H by exact I. destruct (Nat.leb_spec MAX_ENTRIES (length t)); [discriminate|lia]. }
  destruct (step_spec (Start l now) t (conj N L) S C) as ([N1 L1] & S1 & R1 & _ & _). cbn [step op_label] in *.
  rewrite H in R1.
  assert (C1 : length (fst (start_timer l now t)) < 500 \/ In (name l) (map t_label (fst (start_timer l now t)))).
  { right. destruct (in_dec_label (name l) (fst (start_timer l now t))) as [I|I]; [exact I|exfalso].
    unfold shows in S1. rewrite lookup_none in S1 by exact I.
    cbn [sw_step] in S1. destruct (match lookup t_label (name l) t with None => None | Some x => _ end) as [[c T [s|]]|]; discriminate. }
  destruct (step_spec (Stop l now') _ (conj N1 L1) S C1) as (_ & _ & R2 & _ & _). cbn [step op_label] in *.
  rewrite R2, S1. destruct (shows t (name l)) as [[c T [s|]]|]; cbn in *; [discriminate|reflexivity|reflexivity].
Qed.
Print Assumptions C40_short_label.

(** C40 is false for longer labels: whatever the program did before, start accepts the
    label (while there is room) and stop with the same label always raises ValueError. *)
Theorem C40_long_label_refuted : forall t, reachable t -> forall l now, 30 < length (name l) ->
  (length t < 500 -> snd (start_timer l now t) = Ok tt)
  /\ (forall now', snd (stop_timer l now' t) = Err ValueError)
  /\ (forall now', snd (stop_timer l now' (fst (start_timer l now t))) = Err ValueError).
Proof.
  intros t Ht l now HL. pose proof (reachable_len30 t Ht) as L.
  assert (AB : forall t', (forall x, In x t' -> length (t_label x) <= 30) -> find_timer l t' = Ok None).
  { intros t' L'. apply find_absent. intros H. apply in_map_iff in H. destruct H as (x & E & Hx). apply L' in Hx. rewrite E in Hx. unfold name in HL. lia. }
  split; [|split].
  - intros C. unfold start_timer. rewrite AB by exact L. destruct (Nat.leb_spec MAX_ENTRIES (length t)) as [C'|_]; [unfold MAX_ENTRIES in C'; lia|].
    unfold start_row. now rewrite nth_error_mid.
  - intros now'. unfold stop_timer. now rewrite AB.
  - intros now'. unfold stop_timer. rewrite AB; [reflexivity|]. apply (step_len30 (Start l now) t L).
Qed.
Print Assumptions C40_long_label_refuted.
Example C40_long_label_exists : 30 < length (name (repeat 97 31)). Proof. vm_compute. lia. Qed.

(** Non-vacuity of C39: three timers, a refused double start, a reset and a delete that
    moves a row. *)
Definition ex_ops : list op := [Start [97] 1%R; Start [98] 2%R; Start [97] 3%R; Stop [97] 4%R; Start [99] 5%R; Delete [97]; Stop [99] 7%R].
Example C39_nonvacuous : (forall o, In o ex_ops -> short (op_label o) /\ In (name (op_label o)) [[97]; [98]; [99]])
  /\ length [[97]; [98]; [99]] <= 500
  /\ filter (on (name [99])) ex_ops = laps [99] [(5%R, 7%R)].
Proof.
  split; [|split; [cbn; lia|reflexivity]]. intros o H. cbn in H.
  repeat (destruct H as [<-|H]; [split; [unfold short; vm_compute; lia|vm_compute; tauto]|]). destruct H.
Qed.

(* ------------------------------------------------------------------ *)
(** * C56: the timing decorator. *)

(** The labels occurring in a program. *)
Fixpoint names (p : prog) : list label :=
  match p with
  | PSkip | PRaise _ => []
  | PSeq p q => names p ++ names q
  | PTimed l p => name l :: names p
  | PTry p => names p
  end.
(** No decorated function is re-entered while it is running. *)
Fixpoint no_reentry (p : prog) : Prop :=
  match p with
  | PSkip | PRaise _ => True
  | PSeq p q => no_reentry p /\ no_reentry q
  | PTimed l p => ~ In (name l) (names p) /\ no_reentry p
  | PTry p => no_reentry p
  end.
(** How often the function labelled [k] is called when the program runs without timers. *)
Fixpoint executed (k : label) (p : prog) : Z :=
  match p with
  | PSkip | PRaise _ => 0%Z
  | PSeq p q => (executed k p + match exec_off p with Ok _ => executed k q | Err _ => 0 end)%Z
  | PTimed l p => ((if label_eqb (name l) k then 1 else 0) + executed k p)%Z
  | PTry p => executed k p
  end.

Definition calls_of (s : option stopwatch) : Z := match s with Some x => calls x | None => 0%Z end.
Definition time_of (s : option stopwatch) : R := match s with Some x => total x | None => 0%R end.
Definition running_of (s : option stopwatch) : option R := match s with Some x => running x | None => None end.

Lemma not_in_names k p : ~ In k (names p) -> executed k p = 0%Z.
Proof.
  induction p as [|e|p IHp q IHq|l p IH|p IH]; cbn; intros H; auto.
  - rewrite IHp by (intros C; apply H, in_or_app; now left). destruct (exec_off p); [|reflexivity].
    rewrite IHq; [reflexivity|intros C; apply H, in_or_app; now right].
  - rewrite label_eqb_neq by (intros E; apply H; now left). rewrite IH; [reflexivity|tauto].
Qed.

Lemma cap_ok t U k : NoDup (map t_label t) -> (forall k, In k (map t_label t) -> In k U) -> length U <= 500 -> In k U ->
  length t < 500 \/ In k (map t_label t).
Proof.
  intros N HI HL Hk. destruct (in_dec_label k t) as [H|H]; [now right|left].
  assert (Hlen : length (k :: map t_label t) <= length U).
  { apply NoDup_incl_length; [constructor; [exact H|exact N]|]. intros k' [<-|Hk']; auto. }
  cbn in Hlen. rewrite map_length in Hlen. lia.
Qed.

(** C56.  Running a program of decorated functions, without re-entry, with labels of at most
    30 characters and at most 500 names in all, in any state where none of its timers is
    running: the outcome (normal or exceptional) is that of the undecorated program; no timer
    of the program is left running; each label's call count grows by the number of its
    executions; accumulated time does not decrease for a monotone clock; all other timers,
    running or not, are untouched. *)
Theorem C56_transparent : forall p clk t n U,
  NoDup (map t_label t) -> (forall x, In x t -> length (t_label x) <= 30) ->
  (forall k, In k (map t_label t) \/ In k (names p) -> In k U) -> length U <= 500 ->
  (forall k, In k (names p) -> length k <= 30) -> no_reentry p ->
  (forall k, In k (names p) -> running_of (shows t k) = None) ->
  let t' := fst (fst (exec p clk (t, n))) in
  snd (exec p clk (t, n)) = exec_off p
  /\ (forall k, ~ In k (names p) -> shows t' k = shows t k)
  /\ (forall k, In k (names p) -> running_of (shows t' k) = None
        /\ calls_of (shows t' k) = (calls_of (shows t k) + executed k p)%Z)
  /\ ((forall i j, i <= j -> (clk i <= clk j)%R) -> forall k, (time_of (shows t k) <= time_of (shows t' k))%R).
Proof.
  intros p clk t n U N L HU HL HS NR NRUN.
  assert (G : forall p t n, table_ok t -> (forall k, In k (map t_label t) \/ In k (names p) -> In k U) ->
    (forall k, In k (names p) -> length k <= 30) -> no_reentry p -> (forall k, In k (names p) -> running_of (shows t k) = None) ->
    let t' := fst (fst (exec p clk (t, n))) in
    snd (exec p clk (t, n)) = exec_off p
    /\ (forall k, ~ In k (names p) -> shows t' k = shows t k)
    /\ (forall k, In k (names p) -> running_of (shows t' k) = None /\ calls_of (shows t' k) = (calls_of (shows t k) + executed k p)%Z)
    /\ ((forall i j, i <= j -> (clk i <= clk j)%R) -> forall k, (time_of (shows t k) <= time_of (shows t' k))%R)
    /\ table_ok t' /\ (forall k, In k (map t_label t') -> In k U) /\ n <= snd (fst (exec p clk (t, n)))).
  { clear p t n N L HU HS NR NRUN.
    induction p as [|e|p IHp q IHq|l p IH|p IH]; intros t n K HU HS NR NRUN; cbv zeta.
    - cbn. split; [reflexivity|]. split; [auto|]. split; [intros k []|]. split; [intros; apply Rle_refl|]. repeat split; auto; try apply K.
    - cbn. split; [reflexivity|]. split; [auto|]. split; [intros k []|]. split; [intros; apply Rle_refl|]. repeat split; auto; try apply K.
    - cbn [names no_reentry] in *. destruct NR as [NRp NRq].
      assert (INp : forall k, In k (names p) -> In k (names p ++ names q)) by (intros; apply in_or_app; auto).
      assert (INq : forall k, In k (names q) -> In k (names p ++ names q)) by (intros; apply in_or_app; auto).
      destruct (IHp t n K) as (A1 & A2 & A3 & A4 & A5 & A6 & A7); auto.
      { intros k [H|H]; apply HU; auto. }
      cbn [exec exec_off executed]. destruct (exec p clk (t, n)) as [[t1 n1] r1]. cbn [fst snd] in *.
      assert (B3 : forall k, running_of (shows t1 k) = running_of (shows t k) \/ In k (names p)).
      { intros k. destruct (in_dec (list_eq_dec Nat.eq_dec) k (names p)); [now right|left]. now rewrite A2. }
      assert (C1 : forall k, calls_of (shows t1 k) = (calls_of (shows t k) + executed k p)%Z).
      { intros k. destruct (in_dec (list_eq_dec Nat.eq_dec) k (names p)) as [H|H]; [now apply A3|].
        rewrite A2, not_in_names by exact H. lia. }
      destruct r1 as [u|e]; rewrite <- A1; cbn [fst snd].
      + destruct (IHq t1 n1 A5) as (Q1 & Q2 & Q3 & Q4 & Q5 & Q6 & Q7); auto.
        { intros k [H|H]; auto. }
        { intros k H. destruct (in_dec (list_eq_dec Nat.eq_dec) k (names p)) as [H'|H']; [now apply A3|]. rewrite A2 by exact H'. auto. }
        split; [exact Q1|]. split; [intros k H; rewrite Q2, A2; auto; intros C; apply H; auto|]. split; [|split; [|split; [exact Q5|split; [exact Q6|lia]]]].
        * intros k H. destruct (in_dec (list_eq_dec Nat.eq_dec) k (names q)) as [H'|H'].
          -- split; [now apply Q3|]. rewrite (proj2 (Q3 k H')), C1. lia.
          -- rewrite (Q2 k H'), (not_in_names k q H'), C1. split; [|lia]. apply A3. apply in_app_or in H. tauto.
        * intros M k. eapply Rle_trans; [apply A4, M|apply Q4, M].
      + split; [reflexivity|]. split; [intros k H; apply A2; intros C; apply H; auto|]. split; [|split; [exact A4|split; [exact A5|split; [exact A6|exact A7]]]].
        intros k H. rewrite C1. split; [|lia]. destruct (in_dec (list_eq_dec Nat.eq_dec) k (names p)) as [H'|H']; [now apply A3|].
        rewrite A2 by exact H'. auto.
    - cbn [names no_reentry] in *. destruct NR as [NI NRp].
      cbn [exec exec_off].
      assert (Hk : In (name l) U) by (apply HU; right; now left).
      assert (Sh : short l) by (apply HS; now left).
      assert (C0 := cap_ok t U (name l) (proj1 K) (fun k H => HU k (or_introl H)) HL Hk).
      destruct (step_spec (Start l (clk n)) t K Sh C0) as (K1 & S1 & R1 & O1 & I1). cbn [step op_label] in *.
      assert (RN := NRUN (name l) (or_introl eq_refl)).
      assert (R1' : snd (start_timer l (clk n) t) = Ok tt).
      { rewrite R1. destruct (shows t (name l)) as [[c T [s|]]|]; cbn in *; try reflexivity. discriminate. }
      assert (S1' : shows (fst (start_timer l (clk n) t)) (name l) = Some (SW (calls_of (shows t (name l)) + 1) (time_of (shows t (name l))) (Some (clk n)))).
      { rewrite S1. destruct (shows t (name l)) as [[c T [s|]]|]; cbn in *; try reflexivity. discriminate. }
      clear S1 R1. destruct (start_timer l (clk n) t) as [t1 r1]. cbn [fst snd] in *. subst r1.
      destruct (IH t1 (S n) K1) as (A1 & A2 & A3 & A4 & A5 & A6 & A7); auto.
      { intros k [H|H]; [destruct (I1 k H) as [->|H']; auto|apply HU; right; now right]. }
      { intros k H. apply HS. now right. }
      { intros k H. rewrite O1; [apply NRUN; now right|]. intros ->. contradiction. }
      destruct (exec p clk (t1, S n)) as [[t2 n2] r2]. cbn [fst snd] in *.
      assert (S2 : shows t2 (name l) = Some (SW (calls_of (shows t (name l)) + 1) (time_of (shows t (name l))) (Some (clk n)))) by (rewrite A2; auto).
      assert (C2 := cap_ok t2 U (name l) (proj1 A5) A6 HL Hk).
      destruct (step_spec (Stop l (clk n2)) t2 A5 Sh C2) as (K3 & S3 & R3 & O3 & I3). cbn [step op_label] in *.
      rewrite S2 in S3, R3. cbn [sw_step fst snd] in S3, R3.
      destruct (stop_timer l (clk n2) t2) as [t3 r3]. cbn [fst snd] in *. subst r3. cbn [fst snd].
      split; [exact A1|]. split; [|split; [|split; [|split; [exact K3|split]]]].
      + intros k H. rewrite O3 by (intros ->; apply H; now left). rewrite A2 by (intros C; apply H; now right). apply O1. intros ->. apply H. now left.
      + intros k H. cbn [executed]. destruct (list_eq_dec Nat.eq_dec (name l) k) as [E|E].
        * subst k. rewrite S3, label_eqb_refl, (not_in_names _ _ NI). cbn. split; [reflexivity|lia].
        * destruct H as [H|H]; [contradiction|]. rewrite O3 by congruence. rewrite label_eqb_neq by exact E.
          destruct (A3 k H) as [X1 X2]. rewrite X2, O1 by congruence. split; [exact X1|lia].
      + intros M k. destruct (list_eq_dec Nat.eq_dec (name l) k) as [E|E].
        * subst k. rewrite S3. cbn. assert (clk n <= clk n2)%R by (apply M; lia).
          apply Rplus_le_reg_l with (- time_of (shows t (name l)))%R.
          replace (- time_of (shows t (name l)) + time_of (shows t (name l)))%R with 0%R by ring.
          replace (- time_of (shows t (name l)) + (time_of (shows t (name l)) + (clk n2 - clk n)))%R with (clk n2 - clk n)%R by ring.
          apply Rge_le, Rge_minus, Rle_ge. exact H.
        * rewrite O3 by congruence. rewrite <- O1 by congruence. apply A4, M.
      + intros k H. destruct (I3 k H) as [->|H']; auto.
      + lia.
    - cbn [names no_reentry exec exec_off executed] in *.
      destruct (IH t n K) as (A1 & A2 & A3 & A4 & A5 & A6 & A7); auto.
      destruct (exec p clk (t, n)) as [[t1 n1] r1]. cbn [fst snd] in *. repeat split; auto; try apply A3; try apply A5; auto. }
  specialize (G p t n (conj N L) HU HS NR NRUN). cbv zeta in G |- *.
  destruct G as (G1 & G2 & G3 & G4 & _). repeat split; auto; apply G3; assumption.
Qed.
Print Assumptions C56_transparent.

(** C56 is false for re-entrant functions: a decorated function that calls itself raises
    ValueError although the undecorated program returns normally (the timer is stopped). *)
Theorem C56_recursion_refuted : forall l clk t n, NoDup (map t_label t) -> (forall x, In x t -> length (t_label x) <= 30) ->
  length t < 500 -> length (name l) <= 30 -> running_of (shows t (name l)) = None ->
  exec_off (PTimed l (PTimed l PSkip)) = Ok tt
  /\ snd (exec (PTimed l (PTimed l PSkip)) clk (t, n)) = Err ValueError.
Proof.
  intros l clk t n N L C Sh RN. split; [reflexivity|].
  destruct (step_spec (Start l (clk n)) t (conj N L) Sh (or_introl C)) as (K1 & S1 & R1 & O1 & I1). cbn [step op_label] in *.
  assert (R1' : snd (start_timer l (clk n) t) = Ok tt).
  { rewrite R1. destruct (shows t (name l)) as [[c T [s|]]|]; cbn in *; try reflexivity. discriminate. }
  assert (S1' : shows (fst (start_timer l (clk n) t)) (name l) = Some (SW (calls_of (shows t (name l)) + 1) (time_of (shows t (name l))) (Some (clk n)))).
  { rewrite S1. destruct (shows t (name l)) as [[c T [s|]]|]; cbn in *; try reflexivity. discriminate. }
  clear S1 R1. cbn [exec]. destruct (start_timer l (clk n) t) as [t1 r1]. cbn [fst snd] in *. subst r1.
  assert (C1 : length t1 < 500 \/ In (name l) (map t_label t1)).
  { right. destruct (in_dec_label (name l) t1) as [I|I]; [exact I|exfalso]. unfold shows in S1'. rewrite lookup_none in S1' by exact I. discriminate. }
  destruct (step_spec (Start l (clk (S n))) t1 K1 Sh C1) as (K2 & S2 & R2 & _ & I2). cbn [step op_label] in *.
  rewrite S1' in S2, R2. cbn [sw_step fst snd] in S2, R2.
  destruct (start_timer l (clk (S n)) t1) as [t2 r2]. cbn [fst snd] in *. subst r2. cbn [fst snd].
  assert (C2 : length t2 < 500 \/ In (name l) (map t_label t2)).
  { right. destruct (in_dec_label (name l) t2) as [I|I]; [exact I|exfalso]. unfold shows in S2. rewrite lookup_none in S2 by exact I. discriminate. }
  destruct (step_spec (Stop l (clk (S (S n)))) t2 K2 Sh C2) as (_ & _ & R3 & _ & _). cbn [step op_label] in *.
  rewrite S2 in R3. cbn in R3. destruct (stop_timer l (clk (S (S n))) t2) as [t3 r3]. cbn in *. subst r3. reflexivity.
Qed.
Print Assumptions C56_recursion_refuted.

Example C56_nonvacuous : let p := PSeq (PTimed [97] (PTimed [98] PSkip)) (PTry (PTimed [97] (PRaise KeyError))) in
  no_reentry p /\ (forall k, In k (names p) -> length k <= 30) /\ executed [97] p = 2%Z /\ exec_off p = Ok tt.
Proof.
  cbv zeta. split; [|split; [|split; reflexivity]].
  - cbn. repeat split; try tauto. intros [H|[]]. discriminate.
  - intros k H. cbn in H. repeat (destruct H as [<-|H]; [cbn; lia|]). destruct H.
Qed.

(* ------------------------------------------------------------------ *)
(** * Counters behave as integer-valued variables. *)
Definition count_of (t : ctable) (k : label) : option Z := option_map c_count (lookup c_label k t).
(** C39, counters.  Adding, clearing and deleting act on the named counter only. *)
Theorem C39_counters : forall l v t, NoDup (map c_label t) -> short l ->
  (length t < 500 \/ In (name l) (map c_label t)) ->
  (let t' := fst (add_to_counter l v t) in
     snd (add_to_counter l v t) = Ok tt /\ NoDup (map c_label t')
     /\ count_of t' (name l) = Some (match count_of t (name l) with Some c => c + v | None => v end)%Z
     /\ forall k, k <> name l -> count_of t' k = count_of t k)
  /\ (let t' := fst (clear_counter l t) in
     (count_of t (name l) = None -> clear_counter l t = (t, Err ValueError))
     /\ (count_of t (name l) <> None -> snd (clear_counter l t) = Ok tt /\ NoDup (map c_label t') /\ count_of t' (name l) = Some 0%Z)
     /\ forall k, k <> name l -> count_of t' k = count_of t k)
  /\ (let t' := fst (delete_counter l t) in
     (count_of t (name l) = None -> delete_counter l t = (t, Err ValueError))
     /\ (count_of t (name l) <> None -> snd (delete_counter l t) = Ok tt /\ NoDup (map c_label t') /\ count_of t' (name l) = None)
     /\ forall k, k <> name l -> count_of t' k = count_of t k).
Proof.
  intros l v t N Sh C. unfold short, name in *.
  assert (D : {In (strip0 l) (map c_label t)} + {~ In (strip0 l) (map c_label t)}) by apply in_dec, list_eq_dec, Nat.eq_dec.
  destruct D as [H|H].
  - apply in_map_iff in H. destruct H as (x & E & H). apply in_split in H. destruct H as (a & b & ->).
    assert (F : find_counter l (a ++ x :: b) = Ok (Some (length a))) by (unfold find_counter; now rewrite (find_idx_some c_label _ _ _ _ _ N E)).
    assert (LK : lookup c_label (strip0 l) (a ++ x :: b) = Some x) by (apply lookup_some; [exact N|]; split; [apply in_elt|exact E]).
    assert (RP : forall y, c_label y = c_label x -> NoDup (map c_label (a ++ y :: b)) /\ count_of (a ++ y :: b) (strip0 l) = Some (c_count y)
      /\ forall k, k <> strip0 l -> count_of (a ++ y :: b) k = count_of (a ++ x :: b) k).
    { intros y Ey. unfold count_of. split; [apply (lookup_replace c_label [] a x y b N Ey)|]. split.
      - rewrite (proj2 (lookup_replace c_label _ a x y b N Ey)), E, label_eqb_refl. reflexivity.
      - intros k Hk. rewrite (proj2 (lookup_replace c_label _ a x y b N Ey)), E, label_eqb_neq by exact Hk. reflexivity. }
    assert (CX : count_of (a ++ x :: b) (strip0 l) = Some (c_count x)) by (unfold count_of; now rewrite LK).
    cbv zeta. split; [|split].
    + unfold add_to_counter, add_row. rewrite F, nth_error_mid, set_nth_app. cbn [fst snd].
      destruct (RP (MkCounter (c_label x) (c_count x + v)) eq_refl) as (R1 & R2 & R3). rewrite CX. repeat split; auto.
    + unfold clear_counter. rewrite F, nth_error_mid, set_nth_app. cbn [fst snd].
      destruct (RP (MkCounter (c_label x) 0) eq_refl) as (R1 & R2 & R3). rewrite CX. repeat split; auto. discriminate.
    + unfold delete_counter. rewrite F.
      destruct (nth_error (a ++ x :: b) (length (a ++ x :: b) - 1)) as [z|] eqn:NZ.
      2:{ exfalso. apply nth_error_None in NZ. rewrite app_length in NZ. cbn in NZ. lia. }
      cbn [fst snd]. pose proof (delete_perm a x b z NZ) as P. apply Permutation_sym in P.
      assert (NR : NoDup (map c_label (a ++ b))) by apply (lookup_removed c_label [] a x b N).
      rewrite CX. split; [discriminate|]. split.
      * intros _. split; [reflexivity|]. split; [eapply Permutation_NoDup; [apply Permutation_map, P|exact NR]|].
        unfold count_of. rewrite <- (lookup_perm c_label _ _ _ NR P), (proj2 (lookup_removed c_label _ a x b N)), E, label_eqb_refl. reflexivity.
      * intros k Hk. unfold count_of. rewrite <- (lookup_perm c_label _ _ _ NR P), (proj2 (lookup_removed c_label _ a x b N)), E, label_eqb_neq by exact Hk. reflexivity.
  - assert (F : find_counter l t = Ok None) by (unfold find_counter; now rewrite (find_idx_none c_label)).
    assert (CN : count_of t (strip0 l) = None) by (unfold count_of; now rewrite lookup_none).
    cbv zeta. split; [|split].
    + unfold add_to_counter. rewrite F. destruct C as [C|C]; [|contradiction].
      destruct (Nat.leb_spec MAX_ENTRIES (length t)) as [C'|_]; [unfold MAX_ENTRIES in C'; lia|].
      unfold add_row. rewrite nth_error_mid, set_nth_app. cbn [fst snd c_label c_count]. set (y := MkCounter (to_u30 l) (0 + v)).
      assert (Ey : c_label y = strip0 l) by (cbn; now apply to_u30_short).
      assert (H' : ~ In (c_label y) (map c_label t)) by now rewrite Ey.
      assert (AN := fun k => lookup_app_new c_label k t y N H').
      split; [reflexivity|]. split; [apply (AN [])|]. rewrite CN. unfold count_of. split.
      * rewrite (proj2 (AN _)), Ey, label_eqb_refl. reflexivity.
      * intros k Hk. rewrite (proj2 (AN _)), Ey, label_eqb_neq by exact Hk. reflexivity.
    + unfold clear_counter. rewrite F, CN. cbn. repeat split; auto; congruence.
    + unfold delete_counter. rewrite F, CN. cbn. repeat split; auto; congruence.
Qed.
Print Assumptions C39_counters.

(** C40: two starts of a label longer than 30 characters leave two rows of the same stored name; from then on every call
    with that stored name raises RuntimeError and changes nothing. *)
Lemma find_idx_app {A} (f : A -> bool) t1 t2 i : find_idx f (t1 ++ t2) i = find_idx f t1 i ++ find_idx f t2 (i + length t1).
Proof.
  revert i. induction t1 as [|x t1 IH]; intros i; cbn [find_idx app length]; [now rewrite Nat.add_0_r|].
  rewrite IH, <- app_assoc. do 2 f_equal. f_equal. lia.
Qed.
Theorem C40_long_label_twice_refuted : forall t, reachable t -> forall l n1 n2, 30 < length (name l) -> length t < 499 ->
  let t2 := fst (start_timer l n2 (fst (start_timer l n1 t))) in
  forall l', name l' = to_u30 l -> forall now,
  start_timer l' now t2 = (t2, Err RuntimeError) /\ stop_timer l' now t2 = (t2, Err RuntimeError)
  /\ reset_timer l' t2 = (t2, Err RuntimeError) /\ delete_timer l' t2 = (t2, Err RuntimeError).
Proof.
  intros t Ht l n1 n2 HL HT t2 l' E' now. pose proof (reachable_len30 t Ht) as L.
  assert (AB : forall t', (forall x, In x t' -> length (t_label x) <= 30) -> find_timer l t' = Ok None).
  { intros t' L'. apply find_absent. intros H. apply in_map_iff in H. destruct H as (x & E & Hx). apply L' in Hx. rewrite E in Hx. unfold name in HL. lia. }
  assert (ST : forall t' n, (forall x, In x t' -> length (t_label x) <= 30) -> length t' < 500 ->
     fst (start_timer l n t') = t' ++ [MkTimer (to_u30 l) 1 0%R true n]).
  { intros t' n L' C'. unfold start_timer. rewrite AB by exact L'. destruct (Nat.leb_spec MAX_ENTRIES (length t')) as [C''|_]; [unfold MAX_ENTRIES in C''; lia|].
    unfold start_row. rewrite nth_error_mid. cbn [t_status t_label t_call t_time fst]. change (0 + 1)%Z with 1%Z.
    clear. induction t' as [|x t' IH]; cbn [app length set_nth]; [reflexivity|]. now rewrite IH. }
  assert (E2 : t2 = (t ++ [MkTimer (to_u30 l) 1 0%R true n1]) ++ [MkTimer (to_u30 l) 1 0%R true n2]).
  { unfold t2. rewrite (ST t n1) by (auto; lia). apply ST.
    - pose proof (step_len30 (Start l n1) t L) as X. cbn [step] in X. now rewrite (ST t n1) in X by (auto; lia).
    - rewrite app_length. cbn [length]. lia. }
  assert (R2 : label_eqb (to_u30 l) (strip0 l') = true).
  { apply label_eqb_spec. unfold name in E'. now symmetry. }
  assert (F : find_timer l' t2 = Err RuntimeError).
  { unfold find_timer. rewrite E2, !find_idx_app. cbn [find_idx t_label]. rewrite R2. cbn [app].
    destruct (find_idx _ t 0) as [|x y]; cbn [app]; [reflexivity|]. now destruct y. }
  unfold start_timer, stop_timer, reset_timer, delete_timer. rewrite F. repeat split; reflexivity.
Qed.
Print Assumptions C40_long_label_twice_refuted.

(** C40: the same for counters: a label longer than 30 characters makes a new row at every addition, and after two of them
    the stored name is ambiguous: RuntimeError. *)
Theorem C40_long_counter_refuted : forall t l v1 v2, (forall x, In x t -> length (c_label x) <= 30) -> 30 < length (name l) -> length t < 499 ->
  let t2 := fst (add_to_counter l v2 (fst (add_to_counter l v1 t))) in
  t2 = t ++ [MkCounter (to_u30 l) v1; MkCounter (to_u30 l) v2]
  /\ forall l', name l' = to_u30 l -> forall v, add_to_counter l' v t2 = (t2, Err RuntimeError) /\ clear_counter l' t2 = (t2, Err RuntimeError).
Proof.
  intros t l v1 v2 L HL HT. cbv zeta.
  assert (SU : length (to_u30 l) <= 30).
  { unfold to_u30. assert (X : forall a, length (strip0 a) <= length a).
    { induction a as [|c a IH]; cbn [strip0 length]; [lia|]. destruct (strip0 a); [destruct (c =? 0); cbn [length]; lia|cbn [length] in *; lia]. }
    eapply Nat.le_trans; [apply X|]. rewrite firstn_length. lia. }
  assert (AB : forall t', (forall x, In x t' -> length (c_label x) <= 30) -> find_counter l t' = Ok None).
  { intros t' L'. unfold find_counter. rewrite (find_idx_none c_label); [reflexivity|]. intros H. apply in_map_iff in H. destruct H as (x & E & Hx). apply L' in Hx. rewrite E in Hx. unfold name in HL. lia. }
  assert (ST : forall t' v, (forall x, In x t' -> length (c_label x) <= 30) -> length t' < 500 ->
     fst (add_to_counter l v t') = t' ++ [MkCounter (to_u30 l) v]).
  { intros t' v L' C'. unfold add_to_counter. rewrite AB by exact L'. destruct (Nat.leb_spec MAX_ENTRIES (length t')) as [C''|_]; [unfold MAX_ENTRIES in C''; lia|].
    unfold add_row. rewrite nth_error_mid. cbn [c_label c_count fst]. change (0 + v)%Z with v.
    clear. induction t' as [|x t' IH]; cbn [app length set_nth]; [reflexivity|]. now rewrite IH. }
  assert (E2 : fst (add_to_counter l v2 (fst (add_to_counter l v1 t))) = t ++ [MkCounter (to_u30 l) v1; MkCounter (to_u30 l) v2]).
  { rewrite (ST t v1) by (auto; lia). rewrite ST; [now rewrite <- app_assoc| |rewrite app_length; cbn [length]; lia].
    intros x Hx. apply in_app_iff in Hx as [Hx|[<-|[]]]; [auto|exact SU]. }
  split; [exact E2|]. rewrite E2. intros l' E' v.
  assert (R2 : label_eqb (to_u30 l) (strip0 l') = true) by (apply label_eqb_spec; unfold name in E'; now symmetry).
  assert (F : find_counter l' (t ++ [MkCounter (to_u30 l) v1; MkCounter (to_u30 l) v2]) = Err RuntimeError).
  { unfold find_counter. rewrite find_idx_app. cbn [find_idx c_label]. rewrite R2. cbn [app].
    destruct (find_idx _ t 0) as [|x y]; cbn [app]; [reflexivity|]. now destruct y. }
  unfold add_to_counter, clear_counter. rewrite F. split; reflexivity.
Qed.
Print Assumptions C40_long_counter_refuted.
