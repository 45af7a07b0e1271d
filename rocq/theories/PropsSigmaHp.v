(** Property C94: reading sigma_hp.log. *)
From Coq Require Import Reals String Ascii Lia.
From Verif Require Import Base QeInpModel QeInpSpec QeInpProofs PropsQeInp SigmaHpModel.
Import ListNotations.
Local Open Scope nat_scope.

(* ------------------------------------------------------------------ *)
(** * Specification: what such a file contains *)
(** A table: its "k =" line (point number and coordinates), an ignored line, the line of column names, the rows (number of
    the band and the other columns) and the blank line that ends it. *)
Record table := MkTable { t_k : text; t_ik : Z; t_kvec : R * R * R; t_skip : text; t_head : text;
  t_rows : list (text * (Z * list R)); t_blank : text }.
Inductive block := Other (l : text) | Tbl (t : table).
Definition block_lines (b : block) : list text :=
  match b with Other l => [l] | Tbl t => t_k t :: t_skip t :: t_head t :: map fst (t_rows t) ++ [t_blank t] end.
Definition file_lines (bs : list block) : list text := List.concat (map block_lines bs).

Definition starts (p t : text) : Prop := exists r, t = p ++ r.
Definition is_k_line (l : text) : Prop := starts (T "k =") (strip l).
(** A line outside the tables. *)
Definition other_ok (l : text) : Prop := ~ is_k_line l /\ ~ starts (T "=====") l /\ forall ws, words l <> T "header" :: ws.
Definition row_reads (r : text * (Z * list R)) : Prop :=
  exists w ws, words (fst r) = w :: ws /\ py_int w = Ok (fst (snd r)) /\ map py_float ws = map Ok (snd (snd r)).
Definition table_ok (t : table) : Prop :=
  is_k_line (t_k t) /\
  (exists w2 w3 w4 w7, nth_error (words (t_k t)) 2 = Some w2 /\ nth_error (words (t_k t)) 3 = Some w3 /\ nth_error (words (t_k t)) 4 = Some w4
     /\ nth_error (words (t_k t)) 7 = Some w7 /\ py_float w2 = Ok (fst (fst (t_kvec t))) /\ py_float w3 = Ok (snd (fst (t_kvec t)))
     /\ py_float w4 = Ok (snd (t_kvec t)) /\ py_int w7 = Ok (t_ik t)) /\
  Forall row_reads (t_rows t) /\ words (t_blank t) = [].
(** The column names in force: those of the first table. *)
Fixpoint columns (bs : list block) : list text :=
  match bs with [] => [] | Tbl t :: _ => words (t_head t) | Other _ :: r => columns r end.
Definition block_ok (b : block) : Prop := match b with Other l => other_ok l | Tbl t => table_ok t end.
Definition wide (h : list text) (b : block) : Prop :=
  match b with Other _ => True | Tbl t => forall r, In r (t_rows t) -> S (List.length (snd (snd r))) = List.length h end.
Definition names_ok (h : list text) : Prop := NoDup h /\ hd_error h = Some (T "n") /\ ~ In (T "kvec") h.
(** What a dictionary of a point holds when it has the content of table t under the column names h. *)
Definition holds (h : list text) (t : table) (e : inner) : Prop :=
  assoc (T "kvec") e = Some [NF (fst (fst (t_kvec t))); NF (snd (fst (t_kvec t))); NF (snd (t_kvec t))]
  /\ assoc (T "n") e = Some (map (fun r => NI (fst (snd r))) (t_rows t))
  /\ forall j c, nth_error h (S j) = Some c -> assoc c e = Some (map (fun r => NF (nth j (snd (snd r)) 0%R)) (t_rows t)).

(* ------------------------------------------------------------------ *)
Lemma prefix_iff p t : prefix p t = true <-> starts p t.
Proof.
  revert t. induction p as [|a p IH]; intros t; cbn [prefix].
  - split; [intros _; now exists t|easy].
  - destruct t as [|b t]; [split; [discriminate|intros (r & E); discriminate E]|]. rewrite andb_true_iff, IH, Ascii.eqb_eq. split.
    + intros (-> & r & ->). now exists r.
    + intros (r & E). injection E as -> ->. split; [easy|now exists r].
Qed.
Lemma prefix_no p t : ~ starts p t -> prefix p t = false.
Proof. intros H. destruct (prefix p t) eqn:E; [|easy]. exfalso. now apply H, prefix_iff. Qed.
Lemma zassoc_zset k v l k' : zassoc k' (zset k v l) = if (k =? k')%Z then Some v else zassoc k' l.
Proof.
  induction l as [|[a b] l IH]; cbn [zset zassoc]; [reflexivity|].
  destruct (Z.eqb_spec a k) as [->|N]; cbn [zassoc]; [now destruct (k =? k')%Z|]. rewrite IH.
  destruct (Z.eqb_spec a k') as [->|]; [|reflexivity]. destruct (Z.eqb_spec k k'); [congruence|reflexivity].
Qed.
Lemma assoc_upd {A} k (v : A) l k' : assoc k' (upd k v l) = if teqb k k' then Some v else assoc k' l.
Proof.
  induction l as [|[a b] l IH]; cbn [upd assoc]; [reflexivity|].
  destruct (teqb a k) eqn:E1; cbn [assoc]; [apply teqb_eq in E1; subst a; now destruct (teqb k k')|]. rewrite IH.
  destruct (teqb a k') eqn:E2; [|reflexivity]. apply teqb_eq in E2. subst a. destruct (teqb k k') eqn:E3; [|reflexivity].
  apply teqb_eq in E3. subst. now rewrite teqb_refl in E1.
Qed.
Lemma push_ok D ik c x e l : zassoc ik (d_k D) = Some e -> assoc c e = Some l ->
  push D ik c x = Ok (MkDict (d_text D) (zset ik (upd c (l ++ [x]) e) (d_k D))).
Proof. intros H1 H2. unfold push. now rewrite H1, H2. Qed.
Lemma teqb_ne a b : a <> b -> teqb a b = false. Proof. apply teqb_neq. Qed.

(** Appending the numeric columns of one row. *)
Lemma push_cols h ws (xs : nat -> R) ik : NoDup h -> forall is D e, NoDup is -> zassoc ik (d_k D) = Some e ->
  (forall i, In i is -> exists c w l, nth_error h i = Some c /\ nth_error ws i = Some w /\ py_float w = Ok (xs i) /\ assoc c e = Some l) ->
  exists D' e', foldm (fun D' i => do c <- item_ h i; do w <- item_ ws i; do x <- py_float w; push D' ik c (NF x)) D is = Ok D'
    /\ zassoc ik (d_k D') = Some e' /\ d_text D' = d_text D
    /\ (forall k, k <> ik -> zassoc k (d_k D') = zassoc k (d_k D))
    /\ (forall i c l, In i is -> nth_error h i = Some c -> assoc c e = Some l -> assoc c e' = Some (l ++ [NF (xs i)]))
    /\ (forall c, (forall i, In i is -> nth_error h i <> Some c) -> assoc c e' = assoc c e).
Proof.
  intros NH. induction is as [|i is IH]; intros D e NI HE HI.
  - exists D, e. repeat split; auto. intros i c l [].
  - inversion NI as [|? ? N1 N2]; subst. destruct (HI i (or_introl eq_refl)) as (c & w & l & H1 & H2 & H3 & H4).
    cbn [foldm]. unfold item_ at 1 2. rewrite H1, H2. cbn [bind]. rewrite H3. cbn [bind]. rewrite (push_ok D ik c _ e l HE H4). cbn [bind].
    set (D1 := MkDict _ _). set (e1 := upd c (l ++ [NF (xs i)]) e).
    assert (DI : forall j c', In j is -> nth_error h j = Some c' -> c' <> c).
    { intros j c' Hj E ->. apply N1. replace i with j; [exact Hj|]. apply (proj1 (NoDup_nth_error h) NH); [apply nth_error_Some; congruence|congruence]. }
    destruct (IH D1 e1 N2) as (D' & e' & F1 & F2 & F3 & F4 & F5 & F6).
    + unfold D1. cbn [d_k]. rewrite zassoc_zset, Z.eqb_refl. reflexivity.
    + intros j Hj. destruct (HI j (or_intror Hj)) as (c' & w' & l' & G1 & G2 & G3 & G4). exists c', w', l'. repeat split; auto.
      unfold e1. rewrite assoc_upd, teqb_ne; [exact G4|]. intros X. apply (DI j c' Hj G1). now symmetry.
    + exists D', e'. split; [exact F1|]. split; [exact F2|]. split; [exact F3|]. split.
      { intros k Hk. rewrite F4 by exact Hk. unfold D1. cbn [d_k]. rewrite zassoc_zset. destruct (Z.eqb_spec ik k); [congruence|reflexivity]. }
      split.
      * intros j c' l' [<-|Hj] G1 G2.
        -- rewrite H1 in G1. injection G1 as <-. rewrite H4 in G2. injection G2 as <-. rewrite F6; [unfold e1; now rewrite assoc_upd, teqb_refl|].
           intros j Hj E. now apply (DI j c).
        -- apply F5; auto. unfold e1. rewrite assoc_upd, teqb_ne; [exact G2|]. intros X. apply (DI j c' Hj G1). now symmetry.
      * intros c' Hc. rewrite F6 by (intros j Hj; apply Hc; now right). unfold e1. rewrite assoc_upd, teqb_ne; [reflexivity|].
        intros X. apply (Hc i (or_introl eq_refl)). now rewrite <- X.
Qed.

Section Tables.
  Context (h : list text) (NM : names_ok h).
  Let NH : NoDup h := proj1 NM.
  Lemma h0 : nth_error h 0 = Some (T "n"). Proof. pose proof (proj1 (proj2 NM)) as H. clear - H. destruct h; [discriminate|exact H]. Qed.

  (** The content for the first rows of a table. *)
  Definition upto (t : table) (rows : list (text * (Z * list R))) (e : inner) : Prop :=
    holds h (MkTable (t_k t) (t_ik t) (t_kvec t) (t_skip t) (t_head t) rows (t_blank t)) e.
  Lemma words_acc_nil l : forall acc, words_acc acc l = [] -> acc = [] /\ forall c, In c l -> is_ws c = true.
  Proof.
    induction l as [|c l IH]; intros acc H; cbn [words_acc] in H.
    - destruct acc; [split; [easy|intros c []]|discriminate].
    - destruct (is_ws c) eqn:E.
      + destruct acc; [|discriminate]. destruct (IH [] H) as [_ A]. split; [easy|]. intros d [<-|Hd]; auto.
      + destruct (IH _ H) as [A _]. discriminate.
  Qed.
  Lemma lstrip_all p l : (forall c, In c l -> p c = true) -> lstrip_p p l = [].
  Proof. induction l as [|c l IH]; intros H; [easy|]. cbn [lstrip_p]. rewrite (H c) by now left. apply IH. intros d Hd. apply H. now right. Qed.
  Lemma words_nil_strip l : words l = [] -> strip l = [].
  Proof. intros H. destruct (words_acc_nil l [] H) as [_ A]. unfold strip, strip_p. rewrite lstrip_all by exact A. reflexivity. Qed.
  Lemma words_cons_strip l w ws : words l = w :: ws -> exists c r, strip l = c :: r.
  Proof. intros H. destruct (strip l) as [|c r] eqn:E; [|eauto]. rewrite <- words_strip, E in H. discriminate H. Qed.

  Lemma row_step t D rows e r : row_reads r -> S (List.length (snd (snd r))) = List.length h ->
    assoc (T "header") (d_text D) = Some h -> zassoc (t_ik t) (d_k D) = Some e -> upto t rows e ->
    exists D' e', row_line D (t_ik t) (fst r) = Ok D' /\ d_text D' = d_text D /\ zassoc (t_ik t) (d_k D') = Some e'
      /\ (forall k, k <> t_ik t -> zassoc k (d_k D') = zassoc k (d_k D)) /\ upto t (rows ++ [r]) e'.
  Proof.
    intros (w & ws & HW & HN & HX) HL HH HE (U1 & U2 & U3). cbn [t_kvec t_rows] in U1, U2, U3.
    unfold row_line. rewrite words_strip, HW. unfold item_ at 1. cbn [nth_error bind]. rewrite HH, HE. cbn [bind]. rewrite U2, HN. cbn [bind].
    rewrite (push_ok D _ _ _ e _ HE U2). cbn [bind].
    set (D1 := MkDict _ _). set (e1 := upd (T "n") (map (fun r0 => NI (fst (snd r0))) rows ++ [NI (fst (snd r))]) e).
    assert (LX : List.length ws = List.length (snd (snd r))). { apply (f_equal (@List.length _)) in HX. now rewrite !map_length in HX. }
    destruct (push_cols h (w :: ws) (fun i => nth (i - 1) (snd (snd r)) 0%R) (t_ik t) NH (seq 1 (List.length (w :: ws) - 1)) D1 e1)
      as (D' & e' & F1 & F2 & F3 & F4 & F5 & F6).
    - apply seq_NoDup.
    - unfold D1. cbn [d_k]. rewrite zassoc_zset, Z.eqb_refl. reflexivity.
    - intros i Hi. apply in_seq in Hi. cbn [List.length] in Hi. destruct i as [|i]; [lia|].
      destruct (nth_error h (S i)) as [c|] eqn:E1; [|apply nth_error_None in E1; lia].
      destruct (nth_error ws i) as [w'|] eqn:E2; [|apply nth_error_None in E2; lia].
      exists c, w'. assert (NC : T "n" <> c).
      { intros <-. pose proof h0 as E0. assert (X : 0 = S i); [|discriminate]. apply (proj1 (NoDup_nth_error h) NH); [apply nth_error_Some; congruence|congruence]. }
      exists (map (fun r0 => NF (nth i (snd (snd r0)) 0%R)) rows). split; [reflexivity|]. split; [exact E2|]. split.
      + replace (S i - 1) with i by lia. apply (f_equal (fun l => nth_error l i)) in HX. rewrite !nth_error_map, E2 in HX. cbn [option_map] in HX.
        destruct (nth_error (snd (snd r)) i) as [x|] eqn:E3; [|discriminate]. cbn [option_map] in HX. injection HX as ->. now rewrite (nth_error_nth _ _ 0%R E3).
      + unfold e1. rewrite assoc_upd, teqb_ne by exact NC. now apply U3.
    - exists D', e'. split; [exact F1|]. split; [exact F3|]. split; [exact F2|]. split.
      { intros k Hk. rewrite F4 by exact Hk. unfold D1. cbn [d_k]. rewrite zassoc_zset. destruct (Z.eqb_spec (t_ik t) k); [congruence|reflexivity]. }
      assert (POS : forall i j c, nth_error h i = Some c -> nth_error h j = Some c -> i = j).
      { intros i j c A B. apply (proj1 (NoDup_nth_error h) NH); [apply nth_error_Some; congruence|congruence]. }
      unfold upto, holds. cbn [t_kvec t_rows]. split; [|split].
      + rewrite F6. * unfold e1. rewrite assoc_upd, teqb_ne; [exact U1|]. intros X. vm_compute in X. discriminate X.
        * intros i _ E. apply nth_error_In in E. now apply (proj2 (proj2 NM)).
      + rewrite F6. * unfold e1. rewrite assoc_upd, teqb_refl, map_app. reflexivity.
        * intros i Hi E. apply in_seq in Hi. pose proof (POS _ _ _ E h0). lia.
      + intros j c E. rewrite map_app. cbn [map].
        assert (NC : T "n" <> c) by (intros <-; pose proof (POS _ _ _ E h0); lia).
        assert (LJ : S j < List.length h) by (apply nth_error_Some; congruence).
        assert (X : assoc c e' = Some (map (fun r0 => NF (nth j (snd (snd r0)) 0%R)) rows ++ [NF (nth (S j - 1) (snd (snd r)) 0%R)])).
        { apply (F5 (S j) c); [apply in_seq; cbn [List.length]; lia|exact E|]. unfold e1. rewrite assoc_upd, teqb_ne by exact NC. now apply U3. }
        replace (S j - 1) with j in X by lia. exact X.
  Qed.

  Lemma rows_run t rest : forall todo rows D e, Forall row_reads todo -> (forall r, In r todo -> S (List.length (snd (snd r))) = List.length h) ->
    assoc (T "header") (d_text D) = Some h -> zassoc (t_ik t) (d_k D) = Some e -> upto t rows e ->
    exists D' e', loop (Rows (t_ik t)) D (map fst todo ++ rest) = loop (Rows (t_ik t)) D' rest /\ d_text D' = d_text D /\ zassoc (t_ik t) (d_k D') = Some e'
      /\ (forall k, k <> t_ik t -> zassoc k (d_k D') = zassoc k (d_k D)) /\ upto t (rows ++ todo) e'.
  Proof.
    induction todo as [|r todo IH]; intros rows D e HR HW HH HE HU; cbn [map List.app].
    - exists D, e. rewrite app_nil_r. auto.
    - cbn [loop]. inversion HR as [|? ? R1 R2]; subst. pose proof R1 as (w & ws & W & _). destruct (words_cons_strip _ _ _ W) as (c & q & ->).
      destruct (row_step t D rows e r R1 (HW r (or_introl eq_refl)) HH HE HU) as (D1 & e1 & F1 & F2 & F3 & F4 & F5). rewrite F1. cbn [bind].
      destruct (IH (rows ++ [r]) D1 e1 R2) as (D' & e' & G1 & G2 & G3 & G4 & G5); auto.
      { intros r' Hr. apply HW. now right. } { now rewrite F2. }
      exists D', e'. split; [exact G1|]. split; [now rewrite G2|]. split; [exact G3|]. split; [intros k Hk; now rewrite G4, F4|].
      rewrite <- app_assoc in G5. exact G5.
  Qed.
  Lemma init_cols cs : forall e c, assoc c (fold_left (fun e c => upd c [] e) cs e) = if existsb (fun x => teqb x c) cs then Some [] else @assoc (list num) c e.
  Proof.
    induction cs as [|x cs IH]; intros e c; cbn [fold_left existsb]; [reflexivity|]. rewrite IH, assoc_upd.
    destruct (teqb x c), (existsb (fun x0 => teqb x0 c) cs); reflexivity.
  Qed.
  Lemma table_start t rest D : table_ok t ->
    (assoc (T "header") (d_text D) = Some h \/ assoc (T "header") (d_text D) = None /\ words (t_head t) = h) ->
    exists D' e', loop Top D (t_k t :: t_skip t :: t_head t :: rest) = loop (Rows (t_ik t)) D' rest /\ assoc (T "header") (d_text D') = Some h
      /\ (forall w, w <> T "header" -> assoc w (d_text D') = assoc w (d_text D)) /\ zassoc (t_ik t) (d_k D') = Some e'
      /\ (forall k, k <> t_ik t -> zassoc k (d_k D') = zassoc k (d_k D)) /\ upto t [] e'.
  Proof.
    intros (K & (w2 & w3 & w4 & w7 & E2 & E3 & E4 & E7 & P2 & P3 & P4 & P7) & _ & _) HH.
    cbn [loop]. rewrite (proj2 (prefix_iff _ _) K). unfold k_line. rewrite words_strip. unfold item_.
    rewrite E7. cbn [bind]. rewrite P7. cbn [bind]. rewrite E2. cbn [bind]. rewrite P2. cbn [bind]. rewrite E3. cbn [bind]. rewrite P3. cbn [bind].
    rewrite E4. cbn [bind]. rewrite P4. cbn [bind fst snd loop]. unfold header_line. cbn [d_text d_k]. rewrite words_strip.
    set (txt := match assoc (T "header") (d_text D) with Some _ => _ | None => _ end).
    assert (TX : assoc (T "header") txt = Some h /\ forall w, w <> T "header" -> assoc w txt = assoc w (d_text D)).
    { unfold txt. destruct HH as [HH|[HH HW']]; rewrite HH; [now split|]. split; [now rewrite assoc_upd, teqb_refl, HW'|].
      intros w Hw. rewrite assoc_upd, teqb_ne; congruence. }
    destruct TX as [TX1 TX2]. rewrite TX1. cbn [bind]. rewrite zassoc_zset, Z.eqb_refl. cbn [bind fst snd].
    set (e0 := fold_left _ h _). set (D1 := MkDict txt _).
    assert (I1 : zassoc (t_ik t) (d_k D1) = Some e0) by (unfold D1; cbn [d_k]; now rewrite zassoc_zset, Z.eqb_refl).
    exists D1, e0. split; [reflexivity|]. split; [exact TX1|]. split; [exact TX2|]. split; [exact I1|]. split.
    - intros k Hk. unfold D1. cbn [d_k]. rewrite zassoc_zset. destruct (Z.eqb_spec (t_ik t) k); [congruence|].
      rewrite zassoc_zset. destruct (Z.eqb_spec (t_ik t) k); [congruence|reflexivity].
    - unfold upto, holds. cbn [t_kvec t_rows map]. unfold e0. split; [|split].
      + rewrite init_cols. replace (existsb (fun x => teqb x (T "kvec")) h) with false; [reflexivity|]. symmetry. apply not_true_iff_false. intros X.
        apply existsb_exists in X as (x & X1 & X2). apply teqb_eq in X2. subst x. now apply (proj2 (proj2 NM)).
      + rewrite init_cols. replace (existsb (fun x => teqb x (T "n")) h) with true; [reflexivity|]. symmetry. apply existsb_exists. exists (T "n"). split; [|apply teqb_refl].
        apply nth_error_In with 0. apply h0.
      + intros j c E. rewrite init_cols. replace (existsb (fun x => teqb x c) h) with true; [reflexivity|]. symmetry. apply existsb_exists. exists c. split; [|apply teqb_refl].
        now apply nth_error_In with (S j).
  Qed.
  Lemma table_loop t rest D : table_ok t -> (forall r, In r (t_rows t) -> S (List.length (snd (snd r))) = List.length h) ->
    (assoc (T "header") (d_text D) = Some h \/ assoc (T "header") (d_text D) = None /\ words (t_head t) = h) ->
    exists D' e', loop Top D (block_lines (Tbl t) ++ rest) = loop Top D' rest /\ assoc (T "header") (d_text D') = Some h
      /\ (forall w, w <> T "header" -> assoc w (d_text D') = assoc w (d_text D)) /\ zassoc (t_ik t) (d_k D') = Some e'
      /\ (forall k, k <> t_ik t -> zassoc k (d_k D') = zassoc k (d_k D)) /\ holds h t e'.
  Proof.
    intros HT HW HH. destruct (table_start t (map fst (t_rows t) ++ [t_blank t] ++ rest) D HT HH) as (D1 & e1 & F1 & F2 & F3 & F4 & F5 & F6).
    destruct HT as (_ & _ & HR & HB).
    destruct (rows_run t ([t_blank t] ++ rest) (t_rows t) [] D1 e1 HR HW F2 F4 F6) as (D' & e' & G1 & G2 & G3 & G4 & G5).
    exists D', e'. split.
    { cbn [block_lines List.app]. rewrite <- app_assoc. rewrite F1, G1. cbn [List.app loop]. now rewrite words_nil_strip. }
    split; [now rewrite G2|]. split; [intros w Hw; now rewrite G2, F3|]. split; [exact G3|]. split; [intros k Hk; now rewrite G4, F5|]. destruct t; exact G5.
  Qed.
End Tables.

(** The last table of a point, and the last line outside the tables beginning with a word (without the "=" words). *)
Fixpoint last_table (ik : Z) (bs : list block) : option table :=
  match bs with
  | [] => None
  | b :: r => match last_table ik r with
              | Some t => Some t
              | None => match b with Tbl t => if (t_ik t =? ik)%Z then Some t else None | Other _ => None end
              end
  end.
Fixpoint last_other (w : text) (bs : list block) : option (list text) :=
  match bs with
  | [] => None
  | b :: r => match last_other w r with
              | Some t => Some t
              | None => match b with
                        | Other l => match words l with x :: ws => if teqb x w then Some (filter (fun y => negb (teqb y (T "="))) ws) else None | [] => None end
                        | Tbl _ => None end
              end
  end.

Lemma other_step D l rest : other_ok l -> loop Top D (l :: rest) = loop Top (other_line D l) rest.
Proof.
  intros (O1 & O2 & _). cbn [loop]. rewrite (prefix_no _ _ O1), (prefix_no _ _ O2). reflexivity.
Qed.
Lemma other_text D l : d_k (other_line D l) = d_k D /\ forall w, assoc w (d_text (other_line D l)) =
  match words l with x :: ws => if teqb x w then Some (filter (fun y => negb (teqb y (T "="))) ws) else assoc w (d_text D) | [] => assoc w (d_text D) end.
Proof.
  unfold other_line. rewrite words_strip. destruct (words l) as [|x ws]; [now split|]. cbn [d_k d_text]. split; [reflexivity|]. intros w. apply assoc_upd.
Qed.
Lemma In_firstn {A} (x : A) n l : In x (firstn n l) -> In x l.
Proof. intros H. rewrite <- (firstn_skipn n l). apply in_or_app. now left. Qed.
Lemma blocks_loop h rest : names_ok h -> forall bs D, Forall block_ok bs -> Forall (wide h) bs ->
  (assoc (T "header") (d_text D) = Some h \/ assoc (T "header") (d_text D) = None /\ (columns bs = h \/ forall t, ~ In (Tbl t) bs)) ->
  exists D', loop Top D (file_lines bs ++ rest) = loop Top D' rest
    /\ (forall ik, match last_table ik bs with Some t => exists e, zassoc ik (d_k D') = Some e /\ holds h t e | None => zassoc ik (d_k D') = zassoc ik (d_k D) end)
    /\ (forall w, w <> T "header" -> assoc w (d_text D') = match last_other w bs with Some v => Some v | None => assoc w (d_text D) end)
    /\ (assoc (T "header") (d_text D) = Some h \/ (exists t, In (Tbl t) bs) -> assoc (T "header") (d_text D') = Some h)
    /\ ((forall t, ~ In (Tbl t) bs) -> assoc (T "header") (d_text D') = assoc (T "header") (d_text D)).
Proof.
  intros NM. induction bs as [|b bs IH]; intros D HB HW HH.
  - exists D. split; [reflexivity|]. split; [reflexivity|]. split; [reflexivity|]. split; [|reflexivity]. intros [X|(t & [])]. exact X.
  - inversion HB as [|? ? B1 B2]; inversion HW as [|? ? W1 W2]; subst.
    change (file_lines (b :: bs)) with (block_lines b ++ file_lines bs). rewrite <- app_assoc. destruct b as [l|t].
    + cbn [block_lines List.app]. rewrite other_step by exact B1. destruct (other_text D l) as [K1 K2].
      assert (KH : assoc (T "header") (d_text (other_line D l)) = assoc (T "header") (d_text D)).
      { rewrite K2. destruct B1 as (_ & _ & B1). destruct (words l) as [|x ws]; [reflexivity|]. destruct (teqb x (T "header")) eqn:E; [|reflexivity].
        apply teqb_eq in E. subst x. exfalso. now apply (B1 ws). }
      destruct (IH (other_line D l) B2 W2) as (D' & F1 & F2 & F3 & F4 & F5).
      { rewrite KH. destruct HH as [HH|[HH [X|X]]]; [now left| |]; right; (split; [exact HH|]); [left; exact X|right]. intros t Ht. apply (X t). now right. }
      exists D'. split; [exact F1|]. split; [|split; [|split]].
      * intros ik. specialize (F2 ik). cbn [last_table]. destruct (last_table ik bs); [exact F2|]. now rewrite K1 in F2.
      * intros w Hw. rewrite F3 by exact Hw. cbn [last_other]. destruct (last_other w bs); [reflexivity|]. rewrite K2. destruct (words l) as [|x ws]; [reflexivity|]. now destruct (teqb x w).
      * intros X. apply F4. rewrite KH. destruct X as [X|(t & [X|X])]; [now left|discriminate X|right; now exists t].
      * intros X. rewrite F5, KH; [reflexivity|]. intros t Ht. apply (X t). now right.
    + destruct (table_loop h NM t (file_lines bs ++ rest) D B1) as (D1 & e & F1 & F2 & F3 & F4 & F5 & F6).
      { exact W1. } { destruct HH as [HH|[HH [X|X]]]; [now left|right; now split|]. exfalso. apply (X t). now left. }
      destruct (IH D1 B2 W2) as (D' & G1 & G2 & G3 & G4 & _); [now left|].
      exists D'. rewrite F1. split; [exact G1|]. split; [|split; [|split]].
      * intros ik. specialize (G2 ik). cbn [last_table]. destruct (last_table ik bs) as [t'|]; [exact G2|].
        destruct (Z.eqb_spec (t_ik t) ik) as [<-|N]; [exists e; split; [now rewrite G2|exact F6]|]. rewrite G2. apply F5. congruence.
      * intros w Hw. rewrite G3 by exact Hw. cbn [last_other]. destruct (last_other w bs); [reflexivity|]. now apply F3.
      * intros _. apply G4. now left.
      * intros X. exfalso. apply (X t). now left.
Qed.

(** ---- C94: a complete file, ended by the end of the file or by a line of "=" signs, is read completely: for every k-point
    the last table with its number, column by column under the names of the FIRST table; nothing else appears; the lines
    outside the tables are stored under their first word. ---- *)
Theorem C94_tables : forall bs rest, Forall block_ok bs -> names_ok (columns bs) -> Forall (wide (columns bs)) bs ->
  (rest = [] \/ exists l r, rest = l :: r /\ starts (T "=====") l /\ ~ is_k_line l) ->
  exists D, read_sigma_hp (file_lines bs ++ rest) = Ok D
    /\ (forall ik t, last_table ik bs = Some t -> exists e, zassoc ik (d_k D) = Some e /\ holds (columns bs) t e)
    /\ (forall ik, last_table ik bs = None -> zassoc ik (d_k D) = None)
    /\ assoc (T "header") (d_text D) = Some (columns bs)
    /\ (forall w, w <> T "header" -> assoc w (d_text D) = last_other w bs).
Proof.
  intros bs rest HB NM HW HR. destruct (blocks_loop (columns bs) rest NM bs (MkDict [] []) HB HW) as (D & F1 & F2 & F3 & F4 & _).
  { right. split; [reflexivity|now left]. }
  exists D. split; [|split; [|split; [|split]]].
  - unfold read_sigma_hp. rewrite F1. destruct HR as [->|(l & r & -> & S1 & S2)]; [reflexivity|]. cbn [loop].
    rewrite (prefix_no _ _ S2), (proj2 (prefix_iff _ _) S1). reflexivity.
  - intros ik t E. specialize (F2 ik). now rewrite E in F2.
  - intros ik E. specialize (F2 ik). now rewrite E in F2.
  - apply F4. right. clear - NM. induction bs as [|[l|t] bs IH]; cbn [columns] in NM.
    + destruct NM as (_ & X & _). discriminate X.
    + destruct (IH NM) as (t & Ht). exists t. now right.
    + exists t. now left.
  - intros w Hw. rewrite F3 by exact Hw. now destruct (last_other w bs).
Qed.
Print Assumptions C94_tables.

(** Up to the last row of a table. *)
Lemma reach_rows bs t rest : Forall block_ok bs -> table_ok t -> names_ok (columns (bs ++ [Tbl t])) ->
  Forall (wide (columns (bs ++ [Tbl t]))) (bs ++ [Tbl t]) ->
  exists D e, read_sigma_hp (file_lines bs ++ (t_k t :: t_skip t :: t_head t :: map fst (t_rows t)) ++ rest) = loop (Rows (t_ik t)) D rest
    /\ assoc (T "header") (d_text D) = Some (columns (bs ++ [Tbl t])) /\ zassoc (t_ik t) (d_k D) = Some e /\ holds (columns (bs ++ [Tbl t])) t e.
Proof.
  intros HB HT NM HW. set (h := columns (bs ++ [Tbl t])) in *. apply Forall_app in HW as [HW1 HW2]. inversion HW2 as [|? ? W _]; subst. cbn [wide] in W.
  destruct (blocks_loop h ((t_k t :: t_skip t :: t_head t :: map fst (t_rows t)) ++ rest) NM bs (MkDict [] []) HB HW1) as (D & F1 & _ & _ & F4 & F5).
  { right. split; [reflexivity|]. destruct bs as [|b bs']; [right; intros x []|]. unfold h. clear.
    assert (X : forall l, (exists x, In (Tbl x) l /\ columns (l ++ [Tbl t]) = columns l) \/ forall x, ~ In (Tbl x) l).
    { induction l as [|[y|y] l IH]; [right; intros x []| |left; exists y; split; [now left|reflexivity]].
      destruct IH as [(x & I1 & I2)|I]; [left; exists x; split; [now right|exact I2]|right]. intros x [E|E]; [discriminate|now apply (I x)]. }
    destruct (X (b :: bs')) as [(x & _ & E)|E]; [left; now symmetry|now right]. }
  unfold read_sigma_hp. rewrite F1.
  assert (HH : assoc (T "header") (d_text D) = Some h \/ assoc (T "header") (d_text D) = None /\ words (t_head t) = h).
  { destruct (Exists_dec (fun b => match b with Tbl _ => True | Other _ => False end) bs) as [E|E]; [intros [x|x]; [right|left]; auto| |].
    - left. apply F4. right. apply Exists_exists in E as ([x|x] & E1 & E2); [contradiction|]. now exists x.
    - right. assert (NT : forall x, ~ In (Tbl x) bs). { intros x Hx. apply E. apply Exists_exists. now exists (Tbl x). }
      split.
      + now rewrite F5.
      + unfold h. clear - NT. induction bs as [|[y|y] bs IH]; [reflexivity|cbn [List.app columns]; apply IH; intros x Hx; apply (NT x); now right|].
        exfalso. apply (NT y). now left. }
  destruct (table_start h NM t (map fst (t_rows t) ++ rest) D HT HH) as (D1 & e1 & G1 & G2 & _ & G4 & _ & G6).
  destruct HT as (_ & _ & HR & _).
  destruct (rows_run h NM t rest (t_rows t) [] D1 e1) as (D' & e' & X & X2 & X3 & _ & X4); auto.
  exists D', e'. cbn [List.app]. rewrite G1, X. split; [reflexivity|]. split; [now rewrite X2|]. split; [exact X3|]. destruct t; exact X4.
Qed.
(** ---- C94: a file that stops inside a table (also right after its last row) is refused with StopIteration. ---- *)
Theorem C94_truncated : forall bs t m, Forall block_ok bs -> table_ok t -> names_ok (columns (bs ++ [Tbl t])) ->
  Forall (wide (columns (bs ++ [Tbl t]))) (bs ++ [Tbl t]) -> 0 < m < List.length (block_lines (Tbl t)) ->
  read_sigma_hp (file_lines bs ++ firstn m (block_lines (Tbl t))) = Err StopIteration.
Proof.
  intros bs t m HB HT NM HW Hm. set (h := columns (bs ++ [Tbl t])) in *. apply Forall_app in HW as [HW1 HW2]. inversion HW2 as [|? ? W _]; subst. cbn [wide] in W.
  destruct (blocks_loop h (firstn m (block_lines (Tbl t))) NM bs (MkDict [] []) HB HW1) as (D & F1 & _ & _ & F4 & F5).
  { right. split; [reflexivity|]. destruct bs as [|b bs']; [right; intros x []|]. unfold h. clear.
    assert (X : forall l, (exists x, In (Tbl x) l /\ columns (l ++ [Tbl t]) = columns l) \/ forall x, ~ In (Tbl x) l).
    { induction l as [|[y|y] l IH]; [right; intros x []| |left; exists y; split; [now left|reflexivity]].
      destruct IH as [(x & I1 & I2)|I]; [left; exists x; split; [now right|exact I2]|right]. intros x [E|E]; [discriminate|now apply (I x)]. }
    destruct (X (b :: bs')) as [(x & _ & E)|E]; [left; now symmetry|now right]. }
  unfold read_sigma_hp. rewrite F1.
  assert (HH : assoc (T "header") (d_text D) = Some h \/ assoc (T "header") (d_text D) = None /\ words (t_head t) = h).
  { destruct (Exists_dec (fun b => match b with Tbl _ => True | Other _ => False end) bs) as [E|E]; [intros [x|x]; [right|left]; auto| |].
    - left. apply F4. right. apply Exists_exists in E as ([x|x] & E1 & E2); [contradiction|]. now exists x.
    - right. assert (NT : forall x, ~ In (Tbl x) bs). { intros x Hx. apply E. apply Exists_exists. now exists (Tbl x). }
      split.
      + now rewrite F5.
      + unfold h. clear - NT. induction bs as [|[y|y] bs IH]; [reflexivity|cbn [List.app columns]; apply IH; intros x Hx; apply (NT x); now right|].
        exfalso. apply (NT y). now left. }
  cbn [block_lines List.length] in Hm. destruct m as [|[|[|m]]]; [lia| | |]; cbn [block_lines firstn].
  - cbn [loop]. destruct HT as (K & (w2 & w3 & w4 & w7 & E2 & E3 & E4 & E7 & P2 & P3 & P4 & P7) & _). rewrite (proj2 (prefix_iff _ _) K). unfold k_line. rewrite words_strip. unfold item_.
    rewrite E7. cbn [bind]. rewrite P7. cbn [bind]. rewrite E2. cbn [bind]. rewrite P2. cbn [bind]. rewrite E3. cbn [bind]. rewrite P3. cbn [bind].
    rewrite E4. cbn [bind]. rewrite P4. reflexivity.
  - cbn [loop]. destruct HT as (K & (w2 & w3 & w4 & w7 & E2 & E3 & E4 & E7 & P2 & P3 & P4 & P7) & _). rewrite (proj2 (prefix_iff _ _) K). unfold k_line. rewrite words_strip. unfold item_.
    rewrite E7. cbn [bind]. rewrite P7. cbn [bind]. rewrite E2. cbn [bind]. rewrite P2. cbn [bind]. rewrite E3. cbn [bind]. rewrite P3. cbn [bind].
    rewrite E4. cbn [bind]. rewrite P4. reflexivity.
  - destruct (table_start h NM t (firstn m (map fst (t_rows t) ++ [t_blank t])) D HT HH) as (D1 & e1 & G1 & G2 & _ & G4 & _ & G6). rewrite G1.
    rewrite app_length, map_length in Hm. cbn [List.length] in Hm. rewrite firstn_app, map_length. replace (m - List.length (t_rows t)) with 0 by lia. cbn [firstn].
    rewrite firstn_map. destruct HT as (_ & _ & HR & _).
    destruct (rows_run h NM t [] (firstn m (t_rows t)) [] D1 e1) as (D' & e' & X & _); auto.
    { apply Forall_forall. intros r Hr. apply (proj1 (Forall_forall _ _) HR). eapply In_firstn. exact Hr. } { intros r Hr. apply W. eapply In_firstn. exact Hr. }
Qed.
Print Assumptions C94_truncated.

(** ---- C94: a second table for the same point (the other spin) replaces the first completely. ---- *)
Theorem C94_second_spin_refuted : forall bs t1 t2 rest, In (Tbl t1) bs -> Forall block_ok (bs ++ [Tbl t2]) -> t_ik t1 = t_ik t2 ->
  names_ok (columns (bs ++ [Tbl t2])) -> Forall (wide (columns (bs ++ [Tbl t2]))) (bs ++ [Tbl t2]) ->
  (rest = [] \/ exists l r, rest = l :: r /\ starts (T "=====") l /\ ~ is_k_line l) ->
  exists D e, read_sigma_hp (file_lines (bs ++ [Tbl t2]) ++ rest) = Ok D /\ zassoc (t_ik t1) (d_k D) = Some e /\ holds (columns (bs ++ [Tbl t2])) t2 e.
Proof.
  intros bs t1 t2 rest _ HB E NM HW HR. destruct (C94_tables _ rest HB NM HW HR) as (D & F1 & F2 & _).
  assert (L : last_table (t_ik t1) (bs ++ [Tbl t2]) = Some t2).
  { rewrite E. clear. induction bs as [|b bs IH]; cbn [List.app last_table]; [now rewrite Z.eqb_refl|]. now rewrite IH. }
  destruct (F2 _ _ L) as (e & E1 & E2). eauto.
Qed.
Print Assumptions C94_second_spin_refuted.

(** ---- C94: a row with more words than column names is refused with IndexError (if the words up to there are numbers). ---- *)
Theorem C94_long_row : forall bs t l more n w ws xs, Forall block_ok (bs ++ [Tbl t]) -> names_ok (columns (bs ++ [Tbl t])) ->
  Forall (wide (columns (bs ++ [Tbl t]))) (bs ++ [Tbl t]) ->
  words l = w :: ws -> py_int w = Ok n -> map py_float (firstn (List.length (columns (bs ++ [Tbl t])) - 1) ws) = map Ok xs ->
  List.length (columns (bs ++ [Tbl t])) <= List.length ws ->
  read_sigma_hp (file_lines bs ++ (t_k t :: t_skip t :: t_head t :: map fst (t_rows t)) ++ l :: more) = Err IndexError.
Proof.
  intros bs t l more n w ws xs HB NM HW WL HN HX HL. set (h := columns (bs ++ [Tbl t])) in *.
  pose proof HB as HB'. apply Forall_app in HB' as [HB1 HB2]. inversion HB2 as [|? ? HT _]; subst. cbn [block_ok] in HT.
  destruct (reach_rows bs t (l :: more) HB1 HT NM HW) as (D & e & -> & HH & HE & (U1 & U2 & U3)). fold h in HH, U1, U2, U3.
  cbn [loop]. destruct (words_cons_strip _ _ _ WL) as (c & q & ->).
  assert (E : row_line D (t_ik t) l = Err IndexError); [|now rewrite E].
  unfold row_line. rewrite words_strip, WL. unfold item_ at 1. cbn [nth_error bind]. rewrite HH, HE. cbn [bind]. rewrite U2, HN. cbn [bind].
  rewrite (push_ok D _ _ _ e _ HE U2). cbn [bind].
  set (D1 := MkDict _ _). set (e1 := upd (T "n") (map (fun r0 => NI (fst (snd r0))) (t_rows t) ++ [NI n]) e).
  assert (L0 : 0 < List.length h). { destruct NM as (_ & X & _). destruct h; [discriminate X|cbn; lia]. }
  assert (LX : List.length xs = List.length h - 1). { apply (f_equal (@List.length _)) in HX. rewrite !map_length, firstn_length in HX. lia. }
  cbn [List.length]. replace (S (List.length ws) - 1) with ((List.length h - 1) + S (List.length ws - List.length h)) by lia.
  rewrite seq_app. cbn [seq].
  destruct (push_cols h (w :: ws) (fun i => nth (i - 1) xs 0%R) (t_ik t) (proj1 NM) (seq 1 (List.length h - 1)) D1 e1) as (D' & e' & F1 & _).
  - apply seq_NoDup.
  - unfold D1. cbn [d_k]. rewrite zassoc_zset, Z.eqb_refl. reflexivity.
  - intros i Hi. apply in_seq in Hi. destruct i as [|i]; [lia|].
    destruct (nth_error h (S i)) as [c'|] eqn:E1; [|apply nth_error_None in E1; lia].
    destruct (nth_error ws i) as [w'|] eqn:E2; [|apply nth_error_None in E2; lia].
    assert (NC : T "n" <> c').
    { intros <-. pose proof (h0 h NM) as E0. assert (X : 0 = S i); [|discriminate]. apply (proj1 (NoDup_nth_error h) (proj1 NM)); [apply nth_error_Some; congruence|congruence]. }
    exists c', w', (map (fun r0 => NF (nth i (snd (snd r0)) 0%R)) (t_rows t)). split; [reflexivity|]. split; [exact E2|]. split.
    + replace (S i - 1) with i by lia. apply (f_equal (fun l => nth_error l i)) in HX. rewrite !nth_error_map in HX.
      assert (E3 : nth_error (firstn (List.length h - 1) ws) i = Some w').
      { rewrite <- E2. rewrite <- (firstn_skipn (List.length h - 1) ws) at 2. symmetry. apply nth_error_app1. rewrite firstn_length. lia. }
      rewrite E3 in HX. cbn [option_map] in HX. destruct (nth_error xs i) as [x|] eqn:E4; [|discriminate]. cbn [option_map] in HX. injection HX as ->. now rewrite (nth_error_nth _ _ 0%R E4).
    + unfold e1. rewrite assoc_upd, teqb_ne by exact NC. now apply U3.
  - eapply foldm_err; [exact F1|]. unfold item_ at 1. replace (1 + (List.length h - 1)) with (List.length h) by lia.
    rewrite (proj2 (nth_error_None h (List.length h))) by lia. reflexivity.
Qed.
Print Assumptions C94_long_row.

(** Non-vacuity: a preamble line, two points, two bands each, and the closing line. *)
Definition fl (s : string) : R := match py_float (T s) with Ok x => x | Err _ => 0%R end.
Definition tab (kl : string) (ik : Z) : table :=
  MkTable (T kl) ik (fl "0.0", fl "0.0", fl "0.5") (T "") (T "   n        Emf      Eo")
    [(T "   1   -5.25  -5.0", (1%Z, [fl "-5.25"; fl "-5.0"])); (T "   2    6.5   6.75", (2%Z, [fl "6.5"; fl "6.75"]))] (T "  ").
Definition ex_file : list block :=
  [Other (T " frequency_dependence  =  0"); Other (T ""); Tbl (tab "  k =  0.0 0.0 0.5 ik =   1 spin = 1" 1); Tbl (tab "  k =  0.0 0.0 0.5 ik =   2 spin = 1" 2)].
Lemma not_starts p t : prefix p t = false -> ~ starts p t.
Proof. intros H S. apply prefix_iff in S. congruence. Qed.
Lemma tab_ok kl ik : prefix (T "k =") (strip (T kl)) = true -> words (T kl) = map T ["k"; "="; "0.0"; "0.0"; "0.5"; "ik"; "="; match ik with 1%Z => "1" | _ => "2" end; "spin"; "="; "1"]%string ->
  ik = 1%Z \/ ik = 2%Z -> table_ok (tab kl ik).
Proof.
  intros H1 H2 H3. split; [now apply prefix_iff|]. split.
  - cbn [t_k tab]. rewrite H2. cbn [map nth_error]. do 4 eexists. do 4 (split; [reflexivity|]). do 3 (split; [reflexivity|]). destruct H3 as [->| ->]; reflexivity.
  - split; [|reflexivity]. apply Forall_cons; [|apply Forall_cons; [|apply Forall_nil]]; (do 2 eexists; split; [vm_compute; reflexivity|split; reflexivity]).
Qed.
Example C94_nonvacuous : Forall block_ok ex_file /\ names_ok (columns ex_file) /\ Forall (wide (columns ex_file)) ex_file
  /\ starts (T "=====") (T "======") /\ ~ is_k_line (T "======") /\ last_table 2 ex_file = Some (tab "  k =  0.0 0.0 0.5 ik =   2 spin = 1" 2)
  /\ last_other (T "frequency_dependence") ex_file = Some [T "0"].
Proof.
  split; [|split; [|split; [|split; [|split; [|split]]]]].
  - apply Forall_cons; [|apply Forall_cons; [|apply Forall_cons; [|apply Forall_cons; [|apply Forall_nil]]]].
    + split; [apply not_starts; reflexivity|]. split; [apply not_starts; reflexivity|]. intros ws. vm_compute. intros X; discriminate X.
    + split; [apply not_starts; reflexivity|]. split; [apply not_starts; reflexivity|]. intros ws. vm_compute. intros X; discriminate X.
    + apply tab_ok; auto.
    + apply tab_ok; auto.
  - split; [|split; [reflexivity|]].
    + change (columns ex_file) with (map T ["n"; "Emf"; "Eo"]%string). repeat constructor; cbn; intuition discriminate.
    + change (columns ex_file) with (map T ["n"; "Emf"; "Eo"]%string). cbn. intuition discriminate.
  - apply Forall_cons; [exact I|apply Forall_cons; [exact I|apply Forall_cons; [|apply Forall_cons; [|apply Forall_nil]]]]; intros r [<-|[<-|[]]]; reflexivity.
  - now exists (T "=").
  - apply not_starts. reflexivity.
  - reflexivity.
  - reflexivity.
Qed.
