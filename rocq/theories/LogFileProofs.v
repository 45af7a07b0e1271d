From Coq Require Import Ascii.
From Verif Require Import Base LogFileModel LogFileSpec.
Local Open Scope nat_scope.

Lemma bind_none f p : bind f p None p = None.
Proof. unfold bind. now destruct (text_dec p p). Qed.
Lemma split_suffix_app : forall n a b, split_suffix n = (a, b) -> n = a ++ b.
Proof.
  assert (L : forall n a b, last_dot n = Some (a, b) -> n = a ++ b).
  { induction n as [|c n IH]; cbn; intros a b H; [discriminate|].
    destruct (last_dot n) as [[x y]|] eqn:E.
    - injection H as <- <-. cbn. f_equal. now apply IH.
    - destruct (ascii_dec c "."); [|discriminate]. injection H as <- <-. reflexivity. }
  intros n a b H. unfold split_suffix in H. destruct (last_dot n) as [[[|c x] y]|] eqn:E.
  - injection H as <- <-. now rewrite app_nil_r.
  - apply L in E. destruct y as [|d [|e y]]; injection H as <- <-; subst; rewrite ?app_nil_r; auto.
  - injection H as <- <-. now rewrite app_nil_r.
Qed.
Lemma last_dot_shape : forall n a b, last_dot n = Some (a, b) -> exists y, b = "."%char :: y /\ ~ In "."%char y.
Proof.
  assert (NN : forall n, last_dot n = None -> ~ In "."%char n).
  { induction n as [|c n IH]; cbn; [tauto|]. destruct (last_dot n) as [[x y]|] eqn:E; [discriminate|].
    destruct (ascii_dec c "."); [discriminate|]. intros _ [E1|H]; [congruence|]. now apply IH. }
  induction n as [|c n IH]; cbn; intros a b H; [discriminate|].
  destruct (last_dot n) as [[x y]|] eqn:E.
  - injection H as <- <-. eapply IH; reflexivity.
  - destruct (ascii_dec c "."); [|discriminate]. injection H as <- <-. subst c. eauto.
Qed.
Lemma split_suffix_shape : forall n a b, split_suffix n = (a, b) ->
  b = [] \/ exists y, b = "."%char :: y /\ y <> [] /\ ~ In "."%char y.
Proof.
  intros n a b H. unfold split_suffix in H. destruct (last_dot n) as [[[|c x] y]|] eqn:E.
  - injection H as <- <-. now left.
  - destruct (last_dot_shape _ _ _ E) as (z & Hz & Hn). destruct y as [|d [|e y]]; injection H as <- <-; auto.
    right. injection Hz as -> Hz. exists z. rewrite <- Hz in *. repeat split; auto. discriminate.
  - injection H as <- <-. now left.
Qed.
Lemma old_name_len p t : length (old_name p t) = length p + 4 + length t.
Proof.
  unfold old_name. destruct (split_suffix p) as [a b] eqn:E. apply split_suffix_app in E. subst p.
  rewrite !app_length. cbn. lia.
Qed.
Lemma old_name_neq p t : old_name p t <> p.
Proof. intros H. apply (f_equal (@length ascii)) in H. rewrite old_name_len in H. lia. Qed.
Lemma old_name_inj p t u : old_name p t = old_name p u -> t = u.
Proof.
  unfold old_name. destruct (split_suffix p) as [a b]. intros H.
  apply app_inv_head in H. apply app_inv_head in H. now apply app_inv_tail in H.
Qed.

(** ---- one process ---- *)
Definition inv (s : st) : Prop :=
  (forall p i, s_fs s p = Some i -> i < s_next s) /\ Forall (fun h => h_file h < s_next s) (s_qtm s)
  /\ Forall (fun h => h_file h < s_next s) (s_warn s) /\ length (s_qtm s) <= 1.

(** What a record does: only the lines change. *)
Definition same_but_lines (s t : st) : Prop :=
  s_enabled t = s_enabled s /\ s_level t = s_level s /\ s_qtm t = s_qtm s /\ s_warn t = s_warn s
  /\ s_capture t = s_capture s /\ s_fs t = s_fs s /\ s_next t = s_next s.
Lemma sbl_refl s : same_but_lines s s. Proof. now repeat split. Qed.
Lemma sbl_trans a b c : same_but_lines a b -> same_but_lines b c -> same_but_lines a c.
Proof. unfold same_but_lines. intuition congruence. Qed.

Lemma call_handlers_sbl hs lvl m : forall s, same_but_lines s (call_handlers hs lvl m s) /\ s_err (call_handlers hs lvl m s) = s_err s.
Proof.
  induction hs as [|h hs IH]; intros s; cbn; [split; [apply sbl_refl|reflexivity]|].
  destruct (IH (if (h_level h <=? lvl)%Z then set_lines s (fun i => if i =? h_file h then s_lines s i ++ [m] else s_lines s i) else s)) as [A B].
  unfold call_handlers in A, B.
  split; [eapply sbl_trans; [|exact A]|etransitivity; [exact B|]]; destruct (h_level h <=? lvl)%Z; cbn; auto using sbl_refl; now repeat split.
Qed.
(** The lines of a file after a record: one copy for every admitted handler on it. *)
Definition hits (hs : list handler) (lvl : Z) (i : inode) : nat :=
  length (filter (fun h => (h_file h =? i) && (h_level h <=? lvl)%Z) hs).
Lemma call_handlers_lines hs lvl m : forall s i,
  s_lines (call_handlers hs lvl m s) i = s_lines s i ++ repeat m (hits hs lvl i).
Proof.
  induction hs as [|h hs IH]; intros s i; cbn; [now rewrite app_nil_r|].
  unfold call_handlers in *. rewrite IH. unfold hits. cbn.
  destruct (h_level h <=? lvl)%Z; rewrite ?andb_true_r, ?andb_false_r; [|reflexivity].
  cbn. rewrite (Nat.eqb_sym i). destruct (h_file h =? i); cbn; [|reflexivity]. now rewrite <- app_assoc.
Qed.
Lemma log_message_sbl lvl m s : same_but_lines s (log_message lvl m s).
Proof.
  unfold log_message. destruct (_ && _); [|apply sbl_refl].
  destruct (s_qtm s) eqn:E; [destruct (30 <=? lvl)%Z; repeat split|]. apply call_handlers_sbl.
Qed.
Lemma log_message_lines lvl m s i : s_lines (log_message lvl m s) i
  = s_lines s i ++ (if allowed s lvl && (s_level s <=? lvl)%Z then repeat m (hits (s_qtm s) lvl i) else []).
Proof.
  unfold log_message. destruct (_ && _); [|now rewrite app_nil_r].
  destruct (s_qtm s) eqn:E; [|apply call_handlers_lines].
  destruct (30 <=? lvl)%Z; cbn; now rewrite app_nil_r.
Qed.
Lemma log_warning_sbl m s : same_but_lines s (log_warning m s).
Proof. unfold log_warning. destruct (s_capture s); [destruct (allowed s 30); [apply call_handlers_sbl|apply sbl_refl]|repeat split]. Qed.
Lemma log_warning_lines m s i : s_lines (log_warning m s) i
  = s_lines s i ++ (if s_capture s && allowed s 30 then repeat m (hits (s_warn s) 30 i) else []).
Proof.
  unfold log_warning. destruct (s_capture s); cbn; [destruct (allowed s 30)|]; cbn;
    rewrite ?app_nil_r; auto. apply call_handlers_lines.
Qed.
Definition warn_opt (w : option line) (s : st) : st := match w with Some m => log_warning m s | None => s end.
Lemma warn_opt_sbl w s : same_but_lines s (warn_opt w s).
Proof. destruct w; [apply log_warning_sbl|apply sbl_refl]. Qed.
Lemma warn_opt_lines w s i : exists ws, s_lines (warn_opt w s) i = s_lines s i ++ ws /\ (forall m, In m ws -> Some m = w).
Proof.
  destruct w as [m|]; [|exists []; split; [now rewrite app_nil_r|easy]].
  eexists. split; [apply log_warning_lines|]. intros x. destruct (_ && _); [|easy].
  intros H. apply repeat_spec in H. now subst.
Qed.
Lemma hits_fresh hs lvl n : Forall (fun h => h_file h < n) hs -> hits hs lvl n = 0.
Proof.
  unfold hits. induction 1 as [|h hs A _ IH]; cbn; [reflexivity|].
  destruct (Nat.eqb_spec (h_file h) n); [lia|]. cbn. exact IH.
Qed.

(** The set-up call, in one piece. *)
Definition cleared (w1 : option line) (s : st) : st :=
  match s_qtm s with [] => s | _ => set_qtm (warn_opt w1 s) [] end.
Lemma cleared_facts w1 s : let t := cleared w1 s in
  s_qtm t = [] /\ s_warn t = s_warn s /\ s_fs t = s_fs s /\ s_next t = s_next s /\ s_enabled t = s_enabled s
  /\ s_level t = s_level s /\ s_capture t = s_capture s
  /\ forall i, exists ws, s_lines t i = s_lines s i ++ ws /\ (forall m, In m ws -> Some m = w1).
Proof.
  cbn. unfold cleared. destruct (s_qtm s) eqn:E.
  - repeat split; auto. intros i. exists []. rewrite app_nil_r. split; easy.
  - destruct (warn_opt_sbl w1 s) as (A & B & D & F & G & H & I). repeat split; cbn; auto.
    intros i. apply warn_opt_lines.
Qed.
Lemma set_filehandle_facts p lvl cap t w1 w2 s : inv s -> let u := set_filehandle p lvl cap t w1 w2 s in
  s_qtm u = [MkH (s_next s) lvl]
  /\ s_warn u = (if cap then s_warn s ++ [MkH (s_next s) lvl] else s_warn s)
  /\ s_capture u = cap /\ s_next u = S (s_next s) /\ s_enabled u = s_enabled s /\ s_level u = s_level s
  /\ (forall q, s_fs u q = if text_dec p q then Some (s_next s)
                           else match s_fs s p with
                                | Some i => if text_dec (old_name p t) q then Some i else s_fs s q
                                | None => s_fs s q
                                end)
  /\ s_lines u (s_next s) = []
  /\ (forall i, i <> s_next s -> exists ws, s_lines u i = s_lines s i ++ ws /\ (forall m, In m ws -> Some m = w1 \/ Some m = w2)).
Proof.
  intros (I1 & I2 & I3 & I4). cbn. unfold set_filehandle.
  change (match s_qtm s with [] => s | _ => set_qtm (match w1 with Some m => log_warning m s | None => s end) [] end) with (cleared w1 s).
  destruct (cleared_facts w1 s) as (A & B & D & F & G & H & K & L). cbn in *.
  set (a := cleared w1 s) in *. rewrite <- D. destruct (s_fs a p) as [i|] eqn:E.
  - change (match w2 with Some m => log_warning m a | None => a end) with (warn_opt w2 a).
    destruct (warn_opt_sbl w2 a) as (A' & B' & D' & F' & G' & H' & K').
    pose proof (warn_opt_lines w2 a) as L'. set (b := warn_opt w2 a) in *.
    unfold open_append. cbn. rewrite !bind_none. cbn.
    rewrite D', F', K', A', B', A, B, F, G, H. repeat split; auto.
    + intros q. rewrite H'. unfold bind. destruct (text_dec p q); reflexivity.
    + now rewrite Nat.eqb_refl.
    + intros j Hj. destruct (Nat.eqb_spec j (s_next s)); [contradiction|].
      destruct (L j) as (x & X1 & X2). destruct (L' j) as (y & Y1 & Y2).
      exists (x ++ y). rewrite Y1, X1, app_assoc. split; [reflexivity|].
      intros m Hm. apply in_app_or in Hm. destruct Hm; auto.
  - unfold open_append. rewrite E. cbn. rewrite A, B, F, G, H. repeat split; auto.
    + now rewrite Nat.eqb_refl.
    + intros j Hj. destruct (Nat.eqb_spec j (s_next s)); [contradiction|].
      destruct (L j) as (x & X1 & X2). exists x. auto.
Qed.
Lemma sbl_inv s t : same_but_lines s t -> inv s -> inv t.
Proof. intros (A & B & D & F & G & H & I) J. unfold inv. rewrite D, F, H, I. exact J. Qed.
Lemma inv_op o s : inv s -> inv (run_op o s).
Proof.
  intros I. destruct o as [p lvl c t w1 w2|lvl m|m|b|l]; cbn.
  - destruct (set_filehandle_facts p lvl c t w1 w2 s I) as (A & B & D & F & _ & _ & G & _).
    destruct I as (I1 & I2 & I3 & I4). unfold inv. rewrite A, B, F. repeat split.
    + intros q i. rewrite G. destruct (text_dec p q); [intros [= <-]; lia|].
      destruct (s_fs s p) as [j|] eqn:E; [destruct (text_dec _ q); [intros [= <-]|]|].
      * apply I1 in E. lia.
      * intros X. apply I1 in X. lia.
      * intros X. apply I1 in X. lia.
    + constructor; [cbn; lia|constructor].
    + assert (X : Forall (fun h => h_file h < S (s_next s)) (s_warn s)) by (eapply Forall_impl; [|exact I3]; cbn; lia).
      destruct c; [|exact X]. apply Forall_app. split; [exact X|]. constructor; [cbn; lia|constructor].
    + cbn. lia.
  - eapply sbl_inv; [apply log_message_sbl|exact I].
  - eapply sbl_inv; [apply log_warning_sbl|exact I].
  - exact I.
  - exact I.
Qed.
Lemma inv_run ops : forall s, inv s -> inv (run ops s).
Proof. induction ops as [|o r IH]; cbn; intros s I; [exact I|]. apply IH. now apply inv_op. Qed.
Lemma inv_start fs lines next : sane fs next -> inv (start fs lines next).
Proof. intros H. repeat split; cbn; auto. Qed.
Lemma run_app a b s : run (a ++ b) s = run b (run a s).
Proof. apply fold_left_app. Qed.
Lemma enabled_op o s : s_enabled (run_op o s) = match o with Enable b => b | _ => s_enabled s end.
Proof.
  destruct o as [p lvl c t w1 w2|lvl m|m|b|l]; cbn; auto.
  - unfold set_filehandle, open_append. fold (cleared w1 s). 
    change (match s_qtm s with [] => s | _ => set_qtm (match w1 with Some m => log_warning m s | None => s end) [] end) with (cleared w1 s).
    destruct (cleared_facts w1 s) as (A & B & D & F & G & H & K & L). cbn in *.
    set (a := cleared w1 s) in *. destruct (s_fs a p).
    + change (match w2 with Some m => log_warning m a | None => a end) with (warn_opt w2 a).
      destruct (warn_opt_sbl w2 a) as (A' & B' & D' & F' & G' & H' & K'). cbn.
      destruct (bind _ p None p); cbn; congruence.
    + destruct (s_fs a p); cbn; congruence.
  - apply log_message_sbl.
  - apply log_warning_sbl.
Qed.
Lemma level_op o s : s_level (run_op o s) = match o with SetLevel b => b | _ => s_level s end.
Proof.
  destruct o as [p lvl c t w1 w2|lvl m|m|b|l]; cbn; auto.
  - unfold set_filehandle, open_append. 
    change (match s_qtm s with [] => s | _ => set_qtm (match w1 with Some m => log_warning m s | None => s end) [] end) with (cleared w1 s).
    destruct (cleared_facts w1 s) as (A & B & D & F & G & H & K & L). cbn in *.
    set (a := cleared w1 s) in *. destruct (s_fs a p).
    + change (match w2 with Some m => log_warning m a | None => a end) with (warn_opt w2 a).
      destruct (warn_opt_sbl w2 a) as (A' & B' & D' & F' & G' & H' & K'). cbn.
      destruct (bind _ p None p); cbn; congruence.
    + destruct (s_fs a p); cbn; congruence.
  - apply log_message_sbl.
  - apply log_warning_sbl.
Qed.
Lemma enabled_run ops : forall s, s_enabled (run ops s) = last_enabled (s_enabled s) ops.
Proof.
  induction ops as [|o r IH]; cbn; intros s; [reflexivity|]. etransitivity; [apply IH|].
  rewrite enabled_op. destruct o; reflexivity.
Qed.
Lemma level_run ops : forall s, s_level (run ops s) = last_level (s_level s) ops.
Proof.
  induction ops as [|o r IH]; cbn; intros s; [reflexivity|]. etransitivity; [apply IH|].
  rewrite level_op. destruct o; reflexivity.
Qed.

(** The state in which file [i] is the log: one handler of each logger on it, the others elsewhere. *)
Lemma owed_run i flevel : forall ops s, Forall no_setfile ops -> s_qtm s = [MkH i flevel] ->
  (forall lvl, hits (s_warn s) lvl i = if s_capture s && (flevel <=? lvl)%Z then 1 else 0) ->
  s_lines (run ops s) i = s_lines s i ++ owed (s_enabled s) (s_level s) flevel (s_capture s) ops
  /\ s_fs (run ops s) = s_fs s.
Proof.
  induction ops as [|o r IH]; intros s F Q W; [cbn; now rewrite app_nil_r|].
  inversion F as [|? ? Fo Fr]; subst. cbn [run fold_left]. change (fold_left (fun s o => run_op o s) r) with (run r).
  destruct o as [p lvl c t w1 w2|lvl m|m|b|l]; [destruct Fo| | | |].
  - cbn [run_op owed]. destruct (log_message_sbl lvl m s) as (A & B & D & G & H & K & L).
    destruct (IH (log_message lvl m s) Fr) as [X Y]; [now rewrite D|now rewrite G, H|]. rewrite X, Y, A, B, H, K.
    split; [|reflexivity]. rewrite log_message_lines, Q. unfold allowed, hits. cbn. rewrite Nat.eqb_refl. cbn.
    rewrite <- app_assoc. f_equal. f_equal. destruct (s_enabled s || _), (s_level s <=? lvl)%Z, (flevel <=? lvl)%Z; reflexivity.
  - cbn [run_op owed]. destruct (log_warning_sbl m s) as (A & B & D & G & H & K & L).
    destruct (IH (log_warning m s) Fr) as [X Y]; [now rewrite D|now rewrite G, H|]. rewrite X, Y, A, B, H, K.
    split; [|reflexivity]. rewrite log_warning_lines, W. unfold allowed. cbn. rewrite orb_false_r.
    rewrite <- app_assoc. f_equal. f_equal. destruct (s_enabled s), (s_capture s), (flevel <=? 30)%Z; reflexivity.
  - cbn [run_op owed]. apply (IH (MkSt b (s_level s) (s_qtm s) (s_warn s) (s_capture s) (s_fs s) (s_lines s) (s_next s) (s_err s)) Fr Q W).
  - cbn [run_op owed]. apply (IH (MkSt (s_enabled s) l (s_qtm s) (s_warn s) (s_capture s) (s_fs s) (s_lines s) (s_next s) (s_err s)) Fr Q W).
Qed.
Lemma hits_app a b lvl i : hits (a ++ b) lvl i = hits a lvl i + hits b lvl i.
Proof. unfold hits. now rewrite filter_app, app_length. Qed.

(** Bound files stay bound and only grow. *)
Lemma keep_op o s : inv s -> (match o with SetFile p _ _ t _ _ => s_fs s p = None \/ s_fs s (old_name p t) = None | _ => True end) ->
  (forall q i, s_fs s q = Some i -> exists q', s_fs (run_op o s) q' = Some i)
  /\ (forall i, i < s_next s -> prefix (s_lines s i) (s_lines (run_op o s) i)) /\ s_next s <= s_next (run_op o s).
Proof.
  intros I H. destruct o as [p lvl c t w1 w2|lvl m|m|b|l].
  - cbn [run_op]. destruct (set_filehandle_facts p lvl c t w1 w2 s I) as (A & B & D & F & _ & _ & G & K & L).
    repeat split; [| |rewrite F; lia].
    + intros q i Hq. destruct (text_dec p q) as [<-|N].
      * exists (old_name p t). rewrite G. destruct (text_dec p (old_name p t)) as [X|X]; [now apply eq_sym, old_name_neq in X|].
        rewrite Hq. destruct (text_dec (old_name p t) (old_name p t)); congruence.
      * exists q. rewrite G. destruct (text_dec p q); [contradiction|]. destruct (s_fs s p) as [j|] eqn:E; [|exact Hq].
        destruct (text_dec (old_name p t) q) as [<-|]; [|exact Hq]. destruct H as [H|H]; congruence.
    + intros i Hi. destruct (L i) as (ws & X & _); [lia|]. now exists ws.
  - destruct (log_message_sbl lvl m s) as (A & B & D & G & K & M & L). cbn [run_op]. rewrite M, L. repeat split; eauto.
    intros i _. eexists. apply log_message_lines.
  - destruct (log_warning_sbl m s) as (A & B & D & G & K & M & L). cbn [run_op]. rewrite M, L. repeat split; eauto.
    intros i _. eexists. apply log_warning_lines.
  - cbn. repeat split; eauto. intros. exists []. now rewrite app_nil_r.
  - cbn. repeat split; eauto. intros. exists []. now rewrite app_nil_r.
Qed.
Lemma keep_run : forall ops s, inv s -> targets_free ops s ->
  (forall q i, s_fs s q = Some i -> exists q', s_fs (run ops s) q' = Some i)
  /\ (forall i, i < s_next s -> prefix (s_lines s i) (s_lines (run ops s) i)).
Proof.
  induction ops as [|o r IH]; intros s I T; [cbn; split; [eauto|]; intros; exists []; now rewrite app_nil_r|].
  destruct T as [T1 T2]. destruct (keep_op o s I T1) as (A & B & D).
  destruct (IH _ (inv_op o s I) T2) as [X Y]. cbn [run fold_left]. split.
  - intros q i H. destruct (A q i H) as [q' H']. eauto.
  - intros i Hi. destruct (B i Hi) as [c Hc]. destruct (Y i ltac:(lia)) as [d Hd]. exists (c ++ d).
    etransitivity; [exact Hd|]. now rewrite Hc, app_assoc.
Qed.

(** One path: where names can be. *)
Lemma names_op p o s (used : list text) (fs0 : fsys) : inv s -> only_path p o ->
  (forall q i, s_fs s q = Some i -> fs0 q <> None \/ q = p \/ exists t, In t used /\ q = old_name p t) ->
  forall q i, s_fs (run_op o s) q = Some i ->
    fs0 q <> None \/ q = p \/ exists t, In t (used ++ stamps [o]) /\ q = old_name p t.
Proof.
  intros I O H q i. destruct o as [p' lvl c t w1 w2|lvl m|m|b|l].
  - cbn in O. subst p'. cbn [run_op]. destruct (set_filehandle_facts p lvl c t w1 w2 s I) as (_ & _ & _ & _ & _ & _ & G & _).
    rewrite G. destruct (text_dec p q) as [<-|N]; [auto|].
    assert (X : s_fs s q = Some i -> fs0 q <> None \/ q = p \/ exists u, In u (used ++ stamps [SetFile p lvl c t w1 w2]) /\ q = old_name p u).
    { intros Y. destruct (H q i Y) as [A|[A|(u & A & B)]]; auto. right. right. exists u. rewrite in_app_iff. auto. }
    destruct (s_fs s p) as [j|] eqn:E; [|exact X].
    destruct (text_dec (old_name p t) q) as [<-|]; [|exact X].
    intros _. right. right. exists t. rewrite in_app_iff. cbn. auto.
  - cbn [run_op]. destruct (log_message_sbl lvl m s) as (_ & _ & _ & _ & _ & M & _). rewrite M. cbn. rewrite app_nil_r. apply H.
  - cbn [run_op]. destruct (log_warning_sbl m s) as (_ & _ & _ & _ & _ & M & _). rewrite M. cbn. rewrite app_nil_r. apply H.
  - cbn. rewrite app_nil_r. apply H.
  - cbn. rewrite app_nil_r. apply H.
Qed.
Lemma stamps_cons o r : stamps (o :: r) = stamps [o] ++ stamps r.
Proof. destruct o; reflexivity. Qed.
Lemma one_path_free p (fs0 : fsys) : forall ops s used, inv s -> Forall (only_path p) ops ->
  (forall q i, s_fs s q = Some i -> fs0 q <> None \/ q = p \/ exists t, In t used /\ q = old_name p t) ->
  NoDup (used ++ stamps ops) -> (forall t, In t (stamps ops) -> fs0 (old_name p t) = None) -> targets_free ops s.
Proof.
  induction ops as [|o r IH]; intros s used I O H N F; [exact Logic.I|].
  inversion O as [|? ? Oo Or]; subst. split.
  - destruct o as [p' lvl c t w1 w2| | | |]; auto. cbn in Oo. subst p'. right.
    destruct (s_fs s (old_name p t)) as [i|] eqn:E; [|reflexivity]. exfalso.
    destruct (H _ _ E) as [A|[A|(u & A & B)]].
    + apply A, F. now left.
    + now apply old_name_neq in A.
    + apply old_name_inj in B. subst u. cbn in N. apply NoDup_remove_2 in N. apply N, in_or_app. now left.
  - apply (IH _ (used ++ stamps [o])); auto.
    + now apply inv_op.
    + now apply names_op.
    + rewrite <- app_assoc, <- stamps_cons. exact N.
    + intros t Ht. apply F. rewrite stamps_cons. apply in_or_app. now right.
Qed.
Lemma only_path_app p a b : Forall (only_path p) (a ++ b) <-> Forall (only_path p) a /\ Forall (only_path p) b.
Proof. apply Forall_app. Qed.
Lemma stamps_app a b : stamps (a ++ b) = stamps a ++ stamps b.
Proof. induction a as [|o a IH]; [reflexivity|]. cbn [app]. rewrite stamps_cons, (stamps_cons o a), IH. apply app_assoc. Qed.
Lemma names_run p (fs0 : fsys) : forall ops s used, inv s -> Forall (only_path p) ops ->
  (forall q i, s_fs s q = Some i -> fs0 q <> None \/ q = p \/ exists t, In t used /\ q = old_name p t) ->
  forall q i, s_fs (run ops s) q = Some i -> fs0 q <> None \/ q = p \/ exists t, In t (used ++ stamps ops) /\ q = old_name p t.
Proof.
  induction ops as [|o r IH]; intros s used I O H q i; [cbn; rewrite app_nil_r; apply H|].
  inversion O as [|? ? Oo Or]; subst. rewrite stamps_cons, app_assoc. cbn [run fold_left].
  apply (IH (run_op o s) _ (inv_op o s I) Or). now apply names_op.
Qed.

(** Logging off. *)
Lemma off_op o s (n : inode) (l0 : inode -> list line) : inv s -> off o -> s_enabled s = false -> n <= s_next s ->
  (forall i, s_lines s i = l0 i \/ n <= i /\ i < s_next s /\ s_lines s i = []) ->
  s_enabled (run_op o s) = false /\ n <= s_next (run_op o s) /\
  (forall i, s_lines (run_op o s) i = l0 i \/ n <= i /\ i < s_next (run_op o s) /\ s_lines (run_op o s) i = []).
Proof.
  intros I O E N H. rewrite enabled_op.
  assert (AL : forall lvl, (lvl <= 50)%Z -> allowed s lvl = false).
  { intros lvl L. unfold allowed. rewrite E. cbn. now apply Z.ltb_ge. }
  destruct o as [p lvl c t w1 w2|lvl m|m|b|l]; cbn [run_op off] in *.
  - split; [exact E|]. destruct (set_filehandle_facts p lvl c t w1 w2 s I) as (_ & _ & _ & F & _).
    rewrite F. split; [lia|].
    assert (WO : forall (w : option line) u, s_enabled u = false -> forall i, s_lines (warn_opt w u) i = s_lines u i).
    { intros [m|] u Eu i; [|reflexivity]. cbn [warn_opt]. rewrite log_warning_lines. unfold allowed. rewrite Eu. cbn.
      rewrite andb_false_r. apply app_nil_r. }
    assert (CL : forall i, s_lines (cleared w1 s) i = s_lines s i).
    { intros i. unfold cleared. destruct (s_qtm s); [reflexivity|]. cbn. now apply WO. }
    assert (LL : forall i, s_lines (set_filehandle p lvl c t w1 w2 s) i = if i =? s_next s then [] else s_lines s i).
    { intros i. unfold set_filehandle.
      change (match s_qtm s with [] => s | _ => set_qtm (match w1 with Some m => log_warning m s | None => s end) [] end) with (cleared w1 s).
      destruct (cleared_facts w1 s) as (A & B & D & Fn & G & _). cbn in *.
      rewrite <- Fn. set (a := cleared w1 s) in *. unfold open_append. destruct (s_fs a p) as [j|] eqn:Ep.
      - change (match w2 with Some m => log_warning m a | None => a end) with (warn_opt w2 a).
        destruct (warn_opt_sbl w2 a) as (A' & B' & D' & F' & G' & H' & K'). cbn.
        rewrite !bind_none. cbn.
        rewrite K', WO, CL; [reflexivity|congruence].
      - rewrite Ep. cbn. now rewrite CL. }
    intros i. rewrite LL. destruct (Nat.eqb_spec i (s_next s)) as [-> |Hi].
    + right. repeat split; auto.
    + destruct (H i) as [X|(X1 & X2 & X3)]; [now left|right]. repeat split; auto; lia.
  - destruct (log_message_sbl lvl m s) as (_ & _ & _ & _ & _ & _ & L). rewrite L. repeat split; auto.
    intros i. rewrite log_message_lines, AL, app_nil_r; auto.
  - destruct (log_warning_sbl m s) as (_ & _ & _ & _ & _ & _ & L). rewrite L. repeat split; auto.
    intros i. rewrite log_warning_lines, AL, andb_false_r, app_nil_r by lia. apply H.
  - subst b. auto.
  - auto.
Qed.

(** ---- several processes ---- *)
Definition cost (c : pc) : nat := match c with Check => 4 | Barrier => 3 | Rename => 2 | Open => 1 | Finished _ => 0 end.
Definition total (P : nat) (f : nat -> pc) : nat := list_sum (map (fun r => cost (f r)) (seq 0 P)).
Lemma list_sum_ext (f g : nat -> nat) l : (forall x, In x l -> f x = g x) -> list_sum (map f l) = list_sum (map g l).
Proof. induction l as [|a l IH]; intros H; [reflexivity|]. cbn. rewrite (H a); [|now left]. f_equal. apply IH. intros. apply H. now right. Qed.
Lemma at_same f r c : at_rank f r c r = c. Proof. unfold at_rank. now rewrite Nat.eqb_refl. Qed.
Lemma ls_cons a l : list_sum (a :: l) = a + list_sum l. Proof. reflexivity. Qed.
Lemma list_sum_le (f g : nat -> nat) l : (forall x, In x l -> f x <= g x) -> list_sum (map f l) <= list_sum (map g l).
Proof.
  induction l as [|a l IH]; intros H; [reflexivity|]. change (f a + list_sum (map f l) <= g a + list_sum (map g l)).
  apply Nat.add_le_mono; [apply H; now left|apply IH; intros; apply H; now right].
Qed.
Lemma list_sum_lt (f g : nat -> nat) l : l <> [] -> (forall x, In x l -> f x < g x) -> list_sum (map f l) < list_sum (map g l).
Proof.
  destruct l as [|a l]; intros N H; [congruence|]. change (f a + list_sum (map f l) < g a + list_sum (map g l)).
  apply Nat.add_lt_le_mono; [apply H; now left|]. apply list_sum_le. intros. apply Nat.lt_le_incl, H. now right.
Qed.
Lemma total_at P f r c : r < P -> cost c < cost (f r) -> total P (at_rank f r c) < total P f.
Proof.
  intros H L. unfold total.
  replace P with (r + S (P - r - 1)) by lia. rewrite seq_app. cbn [seq]. rewrite !map_app, !list_sum_app. cbn [map]. rewrite !ls_cons.
  rewrite (list_sum_ext (fun q => cost (at_rank f r c q)) (fun q => cost (f q)) (seq 0 r)).
  2:{ intros q Hq. apply in_seq in Hq. unfold at_rank. destruct (Nat.eqb_spec q r); [lia|reflexivity]. }
  rewrite (list_sum_ext (fun q => cost (at_rank f r c q)) (fun q => cost (f q)) (seq (S (0 + r)) _)).
  2:{ intros q Hq. apply in_seq in Hq. unfold at_rank. destruct (Nat.eqb_spec q r); [lia|reflexivity]. }
  rewrite at_same. cbn [Nat.add]. lia.
Qed.
Lemma step_total P w w' : 0 < P -> step P w w' -> total P (w_pc w') < total P (w_pc w).
Proof.
  intros HP H. inversion H; subst; cbn.
  - apply total_at; [assumption|]. rewrite H1. destruct (w_log w); cbn; lia.
  - unfold total. apply list_sum_lt; [destruct P; [lia|discriminate]|]. intros q Hq. apply in_seq in Hq.
    rewrite H1 by lia. destruct (q =? 0); cbn; lia.
  - apply total_at; [assumption|]. rewrite H0. cbn. lia.
  - apply total_at; [assumption|]. rewrite H1. cbn. lia.
  - apply total_at; [assumption|]. rewrite H1. cbn. lia.
Qed.
Lemma steps_total P n w w' : 0 < P -> steps P n w w' -> total P (w_pc w') + n <= total P (w_pc w).
Proof. intros HP. induction 1 as [|n a b c _ IH S]; [lia|]. apply step_total in S; [lia|assumption]. Qed.
Lemma total_first P log next lines : total P (w_pc (first_world log next lines)) = 4 * P.
Proof.
  unfold total. cbn [first_world w_pc cost]. rewrite <- (seq_length P 0) at 2. induction (seq 0 P) as [|a l IH]; [reflexivity|].
  cbn [map length]. rewrite ls_cons. lia.
Qed.

(** The log exists before the call. *)
Definition phase (P : nat) (f0 n0 : inode) (w : world) : Prop :=
  (w_log w = Some f0 /\ w_old w = None /\ w_next w = n0 /\ forall r, r < P -> w_pc w r = Check \/ w_pc w r = Barrier)
  \/ (w_log w = Some f0 /\ w_old w = None /\ w_next w = n0 /\ w_pc w 0 = Rename
      /\ forall r, r < P -> r <> 0 -> w_pc w r = Open \/ w_pc w r = Finished f0)
  \/ (w_log w = None /\ w_old w = Some f0 /\ w_next w = n0 /\ w_pc w 0 = Open
      /\ forall r, r < P -> r <> 0 -> w_pc w r = Open \/ w_pc w r = Finished f0)
  \/ (w_log w = Some n0 /\ w_old w = Some f0 /\ (w_pc w 0 = Open \/ w_pc w 0 = Finished n0)
      /\ forall r, r < P -> r <> 0 -> w_pc w r = Open \/ w_pc w r = Finished f0 \/ w_pc w r = Finished n0).
Ltac pcase := repeat match goal with H : ?a = _, K : ?a = _ |- _ => rewrite H in K; try discriminate K end.
Lemma at_other f r c q : q <> r -> at_rank f r c q = f q.
Proof. intros H. unfold at_rank. now destruct (Nat.eqb_spec q r). Qed.
Lemma phase_step P f0 n0 w w' : 0 < P -> phase P f0 n0 w -> step P w w' -> phase P f0 n0 w'.
Proof.
  intros HP Ph H.
  destruct Ph as [(L & O & N & A)|[(L & O & N & Z0 & A)|[(L & O & N & Z0 & A)|(L & O & Z0 & A)]]];
    inversion H as [r w1 Hr Hc|w1 Hp Hb|w1 f Hc Hl|r w1 f Hr Hc Hl|r w1 Hr Hc Hl]; subst w1; subst w'.
  - left. cbn. rewrite L. repeat split; auto. intros q Hq. destruct (Nat.eq_dec q r) as [-> |]; [rewrite at_same|rewrite at_other by assumption]; auto.
  - right. left. cbn. repeat split; auto. intros q Hq Nq. destruct (Nat.eqb_spec q 0); [contradiction|auto].
  - destruct (A 0 HP); congruence.
  - destruct (A r Hr); congruence.
  - destruct (A r Hr); congruence.
  - destruct (Nat.eq_dec r 0) as [-> |Nr]; [congruence|]. destruct (A r Hr Nr); congruence.
  - specialize (Hb 0 HP). congruence.
  - right. right. left. cbn. rewrite L in Hl. injection Hl as <-. repeat split; auto.
    intros q Hq Nq. rewrite at_other by assumption. auto.
  - right. left. cbn. rewrite L in Hl. injection Hl as <-. destruct (Nat.eq_dec r 0) as [-> |Nr]; [congruence|].
    repeat split; auto; [now rewrite at_other by auto|].
    intros q Hq Nq. destruct (Nat.eq_dec q r) as [-> |]; [rewrite at_same|rewrite at_other by assumption]; auto.
  - congruence.
  - destruct (Nat.eq_dec r 0) as [-> |Nr]; [congruence|]. destruct (A r Hr Nr); congruence.
  - specialize (Hb 0 HP). congruence.
  - congruence.
  - congruence.
  - right. right. right. cbn. rewrite N. repeat split; auto.
    + destruct (Nat.eq_dec r 0) as [-> |]; [rewrite at_same|rewrite at_other by auto]; auto.
    + intros q Hq Nq. destruct (Nat.eq_dec q r) as [-> |]; [rewrite at_same|rewrite at_other by assumption]; auto.
      destruct (A q Hq Nq); auto.
  - destruct (Nat.eq_dec r 0) as [-> |Nr]; [destruct Z0; congruence|]. destruct (A r Hr Nr) as [X|[X|X]]; congruence.
  - specialize (Hb 0 HP). destruct Z0; congruence.
  - destruct Z0; congruence.
  - right. right. right. cbn. rewrite L in Hl. injection Hl as <-. repeat split; auto.
    + destruct (Nat.eq_dec r 0) as [-> |]; [rewrite at_same|rewrite at_other by auto]; auto.
    + intros q Hq Nq. destruct (Nat.eq_dec q r) as [-> |]; [rewrite at_same|rewrite at_other by assumption]; auto.
  - congruence.
Qed.
Lemma phase_first P f0 n0 lines : phase P f0 n0 (first_world (Some f0) n0 lines).
Proof. left. cbn. auto. Qed.
Lemma phase_reach P f0 n0 lines w : 0 < P -> reach P (first_world (Some f0) n0 lines) w -> phase P f0 n0 w.
Proof.
  intros HP [n H]. remember (first_world (Some f0) n0 lines) as w0. revert Heqw0. induction H as [|n a b c S1 IH S2]; intros ->; [apply phase_first|].
  eapply phase_step; eauto.
Qed.
Lemma search (P : nat) (Q : nat -> Prop) : (forall r, {Q r} + {~ Q r}) -> (forall r, r < P -> Q r) \/ exists r, r < P /\ ~ Q r.
Proof.
  intros D. induction P as [|P [IH|(r & H & N)]]; [left; lia| |right; exists r; split; [lia|exact N]].
  destruct (D P) as [d|d]; [left|right; exists P; auto].
  intros r Hr. destruct (Nat.eq_dec r P) as [-> |]; [exact d|apply IH; lia].
Qed.
Lemma pc_barrier_dec (c : pc) : {c = Barrier} + {c <> Barrier}.
Proof. destruct c; [right|left|right|right|right]; congruence. Qed.
Lemma pc_fin_dec (c : pc) : {exists f, c = Finished f} + {~ exists f, c = Finished f}.
Proof. destruct c as [| | | |h]; try (right; intros [f H]; discriminate). left. eauto. Qed.
Lemma phase_progress P f0 n0 w : 0 < P -> phase P f0 n0 w -> all_finished P w \/ can_step P w.
Proof.
  intros HP Ph. destruct (search P (fun r => exists f, w_pc w r = Finished f)) as [F|(r & Hr & N)];
    [intros r; apply pc_fin_dec|left; exact F|right].
  destruct Ph as [(L & O & Nx & A)|[(L & O & Nx & Z0 & A)|[(L & O & Nx & Z0 & A)|(L & O & Z0 & A)]]].
  - destruct (search P (fun q => w_pc w q = Barrier)) as [B|(q & Hq & NB)]; [intros; apply pc_barrier_dec| |].
    + eexists. apply step_barrier; assumption.
    + destruct (A q Hq) as [X|X]; [|contradiction]. eexists. apply step_check; eassumption.
  - eexists. eapply step_rename; eassumption.
  - eexists. exact (step_open_new P 0 w HP Z0 L).
  - destruct (Nat.eq_dec r 0) as [-> |Nr].
    + destruct Z0 as [X|X]; [|exfalso; apply N; eauto]. eexists. exact (step_open_old P 0 w _ HP X L).
    + destruct (A r Hr Nr) as [X|[X|X]]; try (exfalso; apply N; eauto; fail). eexists. exact (step_open_old P r w _ Hr X L).
Qed.

(** The log does not exist before the call. *)
Definition phase0 (P : nat) (n0 : inode) (w : world) : Prop :=
  w_old w = None /\
  ((w_log w = None /\ w_next w = n0 /\ forall r, r < P -> w_pc w r = Check \/ w_pc w r = Open)
   \/ (w_log w = Some n0 /\ (exists r, r < P /\ w_pc w r = Finished n0)
       /\ forall r, r < P -> w_pc w r = Check \/ w_pc w r = Open \/ w_pc w r = Barrier \/ w_pc w r = Finished n0)).
Lemma phase0_step P n0 w w' : 0 < P -> phase0 P n0 w -> step P w w' -> phase0 P n0 w'.
Proof.
  intros HP (O & Ph) H. destruct Ph as [(L & N & A)|(L & (k & Hk & Fk) & A)];
    inversion H as [r w1 Hr Hc|w1 Hp Hb|w1 f Hc Hl|r w1 f Hr Hc Hl|r w1 Hr Hc Hl]; subst w1; subst w'; split; cbn; auto.
  - left. rewrite L. repeat split; auto. intros q Hq. destruct (Nat.eq_dec q r) as [-> |]; [rewrite at_same|rewrite at_other by assumption]; auto.
  - specialize (Hb 0 HP). destruct (A 0 HP); congruence.
  - congruence.
  - congruence.
  - congruence.
  - right. rewrite N. repeat split; auto.
    + exists r. rewrite at_same. auto.
    + intros q Hq. destruct (Nat.eq_dec q r) as [-> |]; [rewrite at_same|rewrite at_other by assumption]; auto.
      destruct (A q Hq); auto.
  - right. rewrite L. repeat split; auto.
    + exists k. split; [assumption|]. rewrite at_other; [assumption|]. intros ->. congruence.
    + intros q Hq. destruct (Nat.eq_dec q r) as [-> |]; [rewrite at_same|rewrite at_other by assumption]; auto.
  - specialize (Hb k Hk). congruence.
  - destruct (A 0 HP) as [X|[X|[X|X]]]; congruence.
  - destruct (A 0 HP) as [X|[X|[X|X]]]; congruence.
  - right. rewrite L in Hl. injection Hl as <-. repeat split; auto.
    + exists k. split; [assumption|]. rewrite at_other; [assumption|]. intros ->. congruence.
    + intros q Hq. destruct (Nat.eq_dec q r) as [-> |]; [rewrite at_same|rewrite at_other by assumption]; auto.
  - congruence.
Qed.
Lemma phase0_reach P n0 lines w : 0 < P -> reach P (first_world None n0 lines) w -> phase0 P n0 w.
Proof.
  intros HP [n H]. remember (first_world None n0 lines) as w0. revert Heqw0. induction H as [|n a b c S1 IH S2]; intros ->;
    [split; [reflexivity|left; cbn; auto]|]. eapply phase0_step; eauto.
Qed.
Lemma stuck_step P w w' k r f : step P w w' -> k < P -> w_pc w k = Finished f -> w_pc w r = Barrier ->
  w_pc w' k = Finished f /\ w_pc w' r = Barrier.
Proof.
  intros H Hk Fk Br. inversion H as [q w1 Hq Hc|w1 Hp Hb|w1 g Hc Hl|q w1 g Hq Hc Hl|q w1 Hq Hc Hl]; subst w1; subst w'; cbn.
  - split; rewrite at_other; auto; intros ->; congruence.
  - specialize (Hb k Hk). congruence.
  - split; rewrite at_other; auto; intros ->; congruence.
  - split; rewrite at_other; auto; intros ->; congruence.
  - split; rewrite at_other; auto; intros ->; congruence.
Qed.

Lemma lstep_lines P w w' : lstep P w w' -> w_next w <= w_next w' /\ forall i, i < w_next w -> prefix (w_lines w i) (w_lines w' i).
Proof.
  assert (RF : forall u i, prefix (w_lines u i) (w_lines u i)) by (intros u i; exists []; now rewrite app_nil_r).
  intros [w1 w2 H|r w1 f m Hr Hf].
  - inversion H; subst; cbn; (split; [lia|]); intros i Hi; try apply RF.
    destruct (Nat.eqb_spec i (w_next w1)); [lia|apply RF].
  - cbn. split; [auto|]. intros i _. destruct (i =? f); [now exists [m]|apply RF].
Qed.
