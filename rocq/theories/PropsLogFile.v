(** C113: setting up log files. *)
From Coq Require Import Ascii.
From Verif Require Import Base LogFileModel LogFileSpec LogFileProofs.
Local Open Scope nat_scope.

Theorem C113_log_file : forall fs lines next before p flevel capture stamp w1 w2 after,
  sane fs next -> Forall no_setfile after ->
  content (run (before ++ SetFile p flevel capture stamp w1 w2 :: after) (start fs lines next)) p
  = Some (owed (last_enabled false before) (last_level 20 before) flevel capture after).
Proof.
  intros fs lines next before p flevel capture stamp w1 w2 after Hs Ha. rewrite run_app.
  set (s := run before (start fs lines next)).
  assert (I : inv s) by (apply inv_run, inv_start, Hs). cbn [run fold_left].
  change (fold_left (fun s o => run_op o s) after) with (run after). cbn [run_op].
  destruct (set_filehandle_facts p flevel capture stamp w1 w2 s I) as (A & B & D & F & E & L & G & K & _).
  destruct (owed_run (s_next s) flevel after (set_filehandle p flevel capture stamp w1 w2 s) Ha A) as [X Y].
  { intros lvl. rewrite B, D. destruct I as (_ & _ & I3 & _). destruct capture; [|now apply hits_fresh].
    rewrite hits_app, (hits_fresh (s_warn s)) by assumption. unfold hits. cbn. rewrite Nat.eqb_refl.
    destruct (flevel <=? lvl)%Z; reflexivity. }
  unfold content. rewrite Y, G. destruct (text_dec p p); [|congruence]. cbn. rewrite X, K, E, L, D. cbn. f_equal.
  unfold s. rewrite enabled_run, level_run. reflexivity.
Qed.
Print Assumptions C113_log_file.

Theorem C113_old_log : forall fs lines next before p flevel capture stamp w1 w2 c,
  sane fs next -> let s := run before (start fs lines next) in content s p = Some c ->
  exists ws, content (run_op (SetFile p flevel capture stamp w1 w2) s) (old_name p stamp) = Some (c ++ ws)
             /\ forall m, In m ws -> w1 = Some m \/ w2 = Some m.
Proof.
  intros fs lines next before p flevel capture stamp w1 w2 c Hs s Hc.
  assert (I : inv s) by (apply inv_run, inv_start, Hs). cbn [run_op].
  destruct (set_filehandle_facts p flevel capture stamp w1 w2 s I) as (A & B & D & F & E & L & G & K & M).
  unfold content in *. rewrite G. destruct (text_dec p (old_name p stamp)) as [X|X]; [now apply eq_sym, old_name_neq in X|].
  destruct (s_fs s p) as [i|] eqn:Ei; [|discriminate]. destruct (text_dec (old_name p stamp) (old_name p stamp)); [|congruence].
  cbn in *. injection Hc as <-. destruct (M i) as (ws & W1 & W2).
  { destruct I as (I1 & _). apply I1 in Ei. lia. }
  exists ws. rewrite W1. split; [reflexivity|]. intros m Hm. destruct (W2 m Hm); auto.
Qed.
Print Assumptions C113_old_log.

Theorem C113_no_log_lost : forall fs lines next before after p c,
  sane fs next -> let s := run before (start fs lines next) in targets_free after s ->
  content s p = Some c -> exists q c', content (run after s) q = Some c' /\ prefix c c'.
Proof.
  intros fs lines next before after p c Hs s Ht Hc.
  assert (I : inv s) by (apply inv_run, inv_start, Hs). destruct (keep_run after s I Ht) as [A B].
  unfold content in *. destruct (s_fs s p) as [i|] eqn:Ei; [|discriminate]. cbn in Hc. injection Hc as <-.
  destruct (A p i Ei) as [q Hq]. exists q, (s_lines (run after s) i). rewrite Hq. split; [reflexivity|].
  apply B. destruct I as (I1 & _). eauto.
Qed.
Print Assumptions C113_no_log_lost.

Theorem C113_distinct_stamps : forall fs lines next before after path q c,
  sane fs next -> Forall (only_path path) (before ++ after) -> NoDup (stamps (before ++ after)) ->
  (forall t, In t (stamps (before ++ after)) -> fs (old_name path t) = None) ->
  let s := run before (start fs lines next) in
  content s q = Some c -> exists q' c', content (run (before ++ after) (start fs lines next)) q' = Some c' /\ prefix c c'.
Proof.
  intros fs lines next before after path q c Hs Hp Hn Hf s Hc. rewrite run_app. fold s.
  apply only_path_app in Hp. destruct Hp as [Hp1 Hp2]. rewrite stamps_app in Hn, Hf.
  assert (I0 : inv (start fs lines next)) by (apply inv_start, Hs).
  apply (C113_no_log_lost fs lines next before after q c Hs); [|exact Hc]. fold s.
  apply (one_path_free path fs after s (stamps before)); auto.
  - now apply inv_run.
  - apply (names_run path fs before (start fs lines next) []); auto.
    intros q0 i H. left. cbn in H. congruence.
  - intros t Ht. apply Hf, in_or_app. now right.
Qed.
Print Assumptions C113_distinct_stamps.

Theorem C113_same_second_refuted : forall p stamp t0 m m', m <> m' ->
  let before := [Enable true; SetFile p 20 false t0 None None; Message 20 m] in
  let after := [SetFile p 20 false stamp None None; Message 20 m'; SetFile p 20 false stamp None None] in
  content (run before (start no_files (fun _ => []) 0)) p = Some [m]
  /\ forall q c, content (run (before ++ after) (start no_files (fun _ => []) 0)) q = Some c -> ~ In m c.
Proof.
  intros p stamp t0 m m' N before after.
  assert (E1 : text_dec p p = left eq_refl).
  { destruct (text_dec p p) as [e|]; [|congruence]. f_equal. apply Eqdep_dec.UIP_dec, text_dec. }
  assert (NE : old_name p stamp <> p) by apply old_name_neq.
  split.
  - unfold before. change [Enable true; SetFile p 20 false t0 None None; Message 20 m] with ([Enable true] ++ SetFile p 20 false t0 None None :: [Message 20 m]).
    rewrite C113_log_file; [reflexivity|intros ? ? [=]|repeat constructor].
  - intros q c. unfold before, after. cbn [app].
    change (run [Enable true; SetFile p 20 false t0 None None; Message 20 m; SetFile p 20 false stamp None None; Message 20 m'; SetFile p 20 false stamp None None] (start no_files (fun _ => []) 0))
      with (set_filehandle p 20 false stamp None None (run [Message 20 m'] (set_filehandle p 20 false stamp None None (run [Enable true; SetFile p 20 false t0 None None; Message 20 m] (start no_files (fun _ => []) 0))))).
    set (s1 := run [Enable true; SetFile p 20 false t0 None None; Message 20 m] _).
    assert (J0 : inv (start no_files (fun _ => []) 0)) by (apply inv_start; intros ? ? [=]).
    assert (I1 : inv s1) by (now apply inv_run).
    set (s2 := set_filehandle p 20 false stamp None None s1). set (s3 := run [Message 20 m'] s2).
    assert (I2 : inv s2) by (now apply (inv_op (SetFile p 20 false stamp None None))).
    assert (I3 : inv s3) by (now apply inv_run).
    assert (P1 : s_fs s1 p = Some 0).
    { unfold s1. cbn. unfold bind. now rewrite E1. }
    assert (X1 : forall r, r <> p -> s_fs s1 r = None).
    { intros r Hr. unfold s1. cbn. unfold bind. destruct (text_dec p r); [congruence|reflexivity]. }
    assert (N1 : s_next s1 = 1) by reflexivity.
    destruct (set_filehandle_facts p 20 false stamp None None s1 I1) as (Q2 & _ & _ & N2 & E2 & L2 & G2 & K2 & _). fold s2 in Q2, N2, E2, L2, G2, K2.
    destruct (set_filehandle_facts p 20 false stamp None None s3 I3) as (Q4 & _ & _ & N4 & E4 & L4 & G4 & K4 & M4).
    destruct (log_message_sbl 20 m' s2) as (A & B & D & F & G & H & J).
    assert (F3 : s_fs s3 = s_fs s2) by exact H. assert (N3 : s_next s3 = 2) by (transitivity (s_next s2); [exact J|now rewrite N2, N1]).
    assert (L3 : s_lines s3 1 = [m']).
    { unfold s3. cbn [run fold_left run_op]. rewrite log_message_lines, Q2. rewrite N1 in *. rewrite K2. unfold allowed. rewrite E2, L2. reflexivity. }
    unfold content. rewrite G4. destruct (text_dec p q) as [<-|Nq].
    + cbn [option_map]. rewrite K4. intros [= <-] [].
    + rewrite F3, G2. destruct (text_dec p p); [|congruence]. rewrite N1.
      destruct (text_dec (old_name p stamp) q) as [eq1|Nq'].
      * cbn [option_map]. destruct (M4 1) as (ws & W1 & W2); [lia|]. rewrite W1, L3. intros [= <-]. cbn. intros [X|X]; [congruence|].
        destruct (W2 m X); discriminate.
      * rewrite G2. destruct (text_dec p q); [contradiction|]. rewrite P1.
        destruct (text_dec (old_name p stamp) q); [contradiction|]. rewrite X1 by auto. discriminate.
Qed.
Print Assumptions C113_same_second_refuted.

Theorem C113_message_one_file : forall fs lines next ops lvl m q1 q2, sane fs next ->
  let s := run ops (start fs lines next) in
  content (run_op (Message lvl m) s) q1 <> content s q1 -> content (run_op (Message lvl m) s) q2 <> content s q2 ->
  s_fs s q1 = s_fs s q2.
Proof.
  intros fs lines next ops lvl m q1 q2 Hs s. assert (I : inv s) by (apply inv_run, inv_start, Hs).
  assert (Key : forall q, content (run_op (Message lvl m) s) q <> content s q -> exists h, s_qtm s = [h] /\ s_fs s q = Some (h_file h)).
  { intros q. unfold content. cbn [run_op]. destruct (log_message_sbl lvl m s) as (_ & _ & _ & _ & _ & H & _). rewrite H.
    destruct (s_fs s q) as [i|]; [|cbn; congruence]. cbn. rewrite log_message_lines. intros N.
    destruct (allowed s lvl && (s_level s <=? lvl)%Z); [|rewrite app_nil_r in N; congruence].
    destruct I as (_ & _ & _ & I4). destruct (s_qtm s) as [|h [|h' r]]; [cbn in N; rewrite app_nil_r in N; congruence| |cbn in I4; lia].
    exists h. split; [reflexivity|]. unfold hits in N. cbn in N. destruct (Nat.eqb_spec (h_file h) i); [congruence|].
    cbn in N. rewrite app_nil_r in N. congruence. }
  intros H1 H2. destruct (Key _ H1) as (h & A & B). destruct (Key _ H2) as (h' & A' & B'). congruence.
Qed.
Print Assumptions C113_message_one_file.

Theorem C113_warning_one_file_refuted : forall p t t' m,
  let s := run [Enable true; SetFile p 20 true t None None; SetFile p 20 true t' None None; Warning m]
               (start no_files (fun _ => []) 0) in
  content s p = Some [m] /\ content s (old_name p t') = Some [m] /\ p <> old_name p t'.
Proof.
  intros p t t' m s. assert (NE : old_name p t' <> p) by apply old_name_neq.
  assert (S0 : sane no_files 0) by (intros ? ? [=]).
  split; [|split; [|auto]].
  - unfold s. change [Enable true; SetFile p 20 true t None None; SetFile p 20 true t' None None; Warning m]
      with ([Enable true; SetFile p 20 true t None None] ++ SetFile p 20 true t' None None :: [Warning m]).
    rewrite C113_log_file; [reflexivity|exact S0|repeat constructor].
  - unfold s. set (s1 := run [Enable true; SetFile p 20 true t None None] (start no_files (fun _ => []) 0)).
    change (run _ (start no_files (fun _ => []) 0)) with (log_warning m (set_filehandle p 20 true t' None None s1)).
    assert (I1 : inv s1) by (apply inv_run, inv_start, S0).
    destruct (set_filehandle_facts p 20 true t' None None s1 I1) as (Q2 & W2 & C2 & N2 & E2 & L2 & G2 & K2 & M2).
    set (s2 := set_filehandle p 20 true t' None None s1) in *.
    assert (P1 : s_fs s1 p = Some 0).
    { unfold s1. cbn. unfold bind. destruct (text_dec p p); [reflexivity|congruence]. }
    destruct (log_warning_sbl m s2) as (A & B & D & F & G & H & J).
    unfold content. rewrite H, G2. destruct (text_dec p (old_name p t')); [congruence|].
    rewrite P1. destruct (text_dec (old_name p t') (old_name p t')); [|congruence].
    cbn. rewrite log_warning_lines, W2, C2. unfold allowed. rewrite E2.
    destruct (M2 0) as (ws & X & Y); [cbn; lia|]. rewrite X.
    destruct ws as [|x ws]; [reflexivity|]. destruct (Y x (or_introl eq_refl)); discriminate.
Qed.
Print Assumptions C113_warning_one_file_refuted.

Theorem C113_off_writes_nothing : forall fs lines next ops q c,
  sane fs next -> Forall off ops -> content (run ops (start fs lines next)) q = Some c ->
  c = [] \/ exists i, c = lines i.
Proof.
  intros fs lines next ops q c Hs Ho.
  assert (G : forall r s, inv s -> Forall off r -> s_enabled s = false -> next <= s_next s ->
    (forall i, s_lines s i = lines i \/ next <= i /\ i < s_next s /\ s_lines s i = []) ->
    forall i, s_lines (run r s) i = lines i \/ s_lines (run r s) i = []).
  { induction r as [|o r IH]; intros s I O E N H i.
    - destruct (H i) as [X|(_ & _ & X)]; auto.
    - inversion O as [|? ? O1 O2]; subst. destruct (off_op o s next lines I O1 E N H) as (A & B & D).
      exact (IH _ (inv_op o s I) O2 A B D i). }
  unfold content. destruct (s_fs (run ops (start fs lines next)) q) as [i|]; [|discriminate].
  cbn. intros [= <-]. destruct (G ops (start fs lines next)) with (i := i) as [X|X]; eauto using inv_start.
Qed.
Print Assumptions C113_off_writes_nothing.

Theorem C113_warning_shown_refuted : forall p flevel t m,
  let s := run [SetFile p flevel true t None None] (start no_files (fun _ => []) 0) in
  s_err (run_op (Warning m) s) = s_err s /\ forall q, content (run_op (Warning m) s) q = content s q.
Proof. intros p flevel t m s. split; reflexivity. Qed.
Print Assumptions C113_warning_shown_refuted.

Theorem C113_old_name : forall name stamp, exists stem suffix,
  name = stem ++ suffix /\ old_name name stamp = stem ++ [".";"p";"r";"e"]%char ++ stamp ++ suffix
  /\ (suffix = [] \/ exists ext, suffix = "."%char :: ext /\ ext <> [] /\ ~ In "."%char ext).
Proof.
  intros name stamp. destruct (split_suffix name) as [a b] eqn:E. exists a, b.
  split; [now apply split_suffix_app|]. split; [unfold old_name; now rewrite E|]. eapply split_suffix_shape, E.
Qed.
Print Assumptions C113_old_name.

(** ---- several processes ---- *)
Theorem C113_common_file_done : forall P f0 next lines w, 0 < P -> f0 < next -> reach P (first_world (Some f0) next lines) w ->
  (all_finished P w \/ can_step P w)
  /\ (all_finished P w -> w_old w = Some f0 /\ exists g, w_log w = Some g /\ g <> f0 /\ w_pc w 0 = Finished g
       /\ forall r, r < P -> w_pc w r = Finished f0 \/ w_pc w r = Finished g).
Proof.
  intros P f0 n0 lines w HP Hn H. apply phase_reach in H; [|exact HP]. split; [eapply phase_progress; eassumption|].
  intros F. destruct (F 0 HP) as [g0 F0].
  destruct H as [(L & O & N & A)|[(L & O & N & Z0 & A)|[(L & O & N & Z0 & A)|(L & O & Z0 & A)]]].
  - destruct (A 0 HP); congruence.
  - congruence.
  - congruence.
  - split; [exact O|]. exists n0. destruct Z0 as [Z0|Z0]; [congruence|]. repeat split; auto; [lia|].
    intros r Hr. destruct (Nat.eq_dec r 0) as [-> |Nr]; [auto|]. destruct (A r Hr Nr) as [X|[X|X]]; auto.
    destruct (F r Hr); congruence.
Qed.
Print Assumptions C113_common_file_done.

Theorem C113_steps_bounded : forall P log next lines n w, 0 < P -> steps P n (first_world log next lines) w -> n <= 4 * P.
Proof. intros P log next lines n w HP H. apply steps_total in H; [|exact HP]. rewrite total_first in H. lia. Qed.
Print Assumptions C113_steps_bounded.

Theorem C113_common_file_refuted : forall P f0 next lines, 2 <= P -> f0 < next -> exists w,
  reach P (first_world (Some f0) next lines) w /\ w_pc w 1 = Finished f0 /\ w_old w = Some f0 /\ w_log w = None.
Proof.
  intros P f0 next lines HP Hn.
  (* every process checks *)
  assert (C : forall k, k <= P -> exists w, reach P (first_world (Some f0) next lines) w /\ w_log w = Some f0 /\ w_old w = None /\ w_next w = next
     /\ (forall r, r < k -> w_pc w r = Barrier) /\ (forall r, k <= r -> w_pc w r = Check)).
  { induction k as [|k IH]; intros Hk.
    - exists (first_world (Some f0) next lines). repeat split; cbn; auto; [exists 0; constructor|lia].
    - destruct IH as (w & [n R1] & L & O & N & B & D); [lia|].
      eexists. repeat split; [exists (S n); econstructor; [exact R1|apply (step_check P k); [lia|apply D; lia]]|..]; cbn; auto.
      + intros r Hr. rewrite L. destruct (Nat.eq_dec r k) as [-> |]; [apply at_same|rewrite at_other by assumption; apply B; lia].
      + intros r Hr. rewrite L. rewrite at_other by lia. apply D. lia. }
  destruct (C P (le_n P)) as (w & [n R1] & L & O & N & B & _).
  assert (R2 := steps_S P n _ _ _ R1 (step_barrier P w ltac:(lia) B)).
  set (w2 := MkW _ _ _ _ _) in R2.
  assert (R3 := steps_S P _ _ _ _ R2 (step_open_old P 1 w2 f0 ltac:(lia) eq_refl L)).
  set (w3 := MkW _ _ _ _ _) in R3.
  assert (R4 := steps_S P _ _ _ _ R3 (step_rename P w3 f0 eq_refl L)).
  eexists. split; [eexists; exact R4|]. repeat split.
Qed.
Print Assumptions C113_common_file_refuted.

Theorem C113_new_file_never_renamed : forall P next lines w, 0 < P -> reach P (first_world None next lines) w ->
  w_old w = None /\ forall r f, r < P -> w_pc w r = Finished f -> w_log w = Some f.
Proof.
  intros P n0 lines w HP H. apply phase0_reach in H; [|exact HP]. destruct H as (O & [(L & N & A)|(L & _ & A)]); split; auto.
  - intros r f Hr Hf. destruct (A r Hr); congruence.
  - intros r f Hr Hf. destruct (A r Hr) as [X|[X|[X|X]]]; congruence.
Qed.
Print Assumptions C113_new_file_never_renamed.

Theorem C113_new_file_done_refuted : forall P next lines, 2 <= P -> exists w,
  reach P (first_world None next lines) w /\ w_pc w 0 = Finished next /\ w_pc w 1 = Barrier
  /\ forall w', reach P w w' -> w_pc w' 1 = Barrier.
Proof.
  intros P next lines HP.
  assert (R1 := steps_S P 0 _ _ _ (steps_O P (first_world None next lines)) (step_check P 0 (first_world None next lines) ltac:(lia) eq_refl)).
  set (w1 := MkW _ _ _ _ _) in R1.
  assert (R2 := steps_S P _ _ _ _ R1 (step_open_new P 0 w1 ltac:(lia) eq_refl eq_refl)).
  set (w2 := MkW _ _ _ _ _) in R2.
  assert (R3 := steps_S P _ _ _ _ R2 (step_check P 1 w2 ltac:(lia) eq_refl)).
  set (w3 := MkW _ _ _ _ _) in R3.
  exists w3. split; [eexists; exact R3|]. split; [reflexivity|]. split; [reflexivity|].
  intros w' [n H]. assert (K : w_pc w3 0 = Finished next /\ w_pc w3 1 = Barrier) by (split; reflexivity).
  enough (w_pc w' 0 = Finished next /\ w_pc w' 1 = Barrier) by tauto.
  clearbody w3. clear R1 R2 R3 w1 w2. induction H as [|n a b c _ IH S2]; [exact K|].
  destruct (IH K) as [X Y]. eapply stuck_step; eauto. lia.
Qed.
Print Assumptions C113_new_file_done_refuted.

(** Processes that have returned may log in between; nothing written is lost. *)
Theorem C113_lines_kept : forall P w w', lsteps P w w' -> forall i, i < w_next w -> prefix (w_lines w i) (w_lines w' i).
Proof.
  intros P w w' H. enough (w_next w <= w_next w' /\ forall i, i < w_next w -> prefix (w_lines w i) (w_lines w' i)) by tauto.
  induction H as [w|a b c _ [N IH] S2].
  - split; [lia|]. intros i _. exists []. now rewrite app_nil_r.
  - destruct (lstep_lines P b c S2) as [N2 L2]. split; [lia|]. intros i Hi. destruct (IH i Hi) as [x Hx].
    destruct (L2 i ltac:(lia)) as [y Hy]. exists (x ++ y). etransitivity; [exact Hy|]. now rewrite Hx, app_assoc.
Qed.
Print Assumptions C113_lines_kept.

(** Non-vacuity: "run.log" is set up twice; warnings captured. *)
Definition run_log : text := ["r";"u";"n";".";"l";"o";"g"]%char.
Definition example_ops : list op :=
  [SetFile run_log 20 true ["1"]%char None None; Enable true; Message 20 1; Message 10 2; Warning 3;
   SetFile run_log 30 true ["2"]%char (Some 8) (Some 9); Message 20 4; Message 30 5; Warning 6].
Example C113_example :
  content (run example_ops (start no_files (fun _ => []) 0)) run_log = Some [5; 6]
  /\ content (run example_ops (start no_files (fun _ => []) 0)) (old_name run_log ["2"]%char) = Some [1; 3; 8; 9; 6]
  /\ old_name run_log ["2"]%char = ["r";"u";"n";".";"p";"r";"e";"2";".";"l";"o";"g"]%char
  /\ NoDup (stamps example_ops) /\ Forall (only_path run_log) example_ops /\ Forall off [SetFile run_log 20 true [] None None; Warning 3].
Proof.
  split; [reflexivity|]. split; [reflexivity|]. split; [reflexivity|]. split.
  - repeat constructor; cbn; intuition discriminate.
  - split; repeat constructor.
Qed.
