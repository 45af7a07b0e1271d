(** C51: the Quantum ESPRESSO input reader. *)
From Coq Require Import Reals Ascii String Lra.
From Verif Require Import Base QeInpModel QeInpSpec QeInpProofs.
Local Open Scope nat_scope.

(** [lower] in the statements below: capital letters become small letters, nothing else changes. *)
Definition capitals : text := T "ABCDEFGHIJKLMNOPQRSTUVWXYZ".
Definition smalls : text := T "abcdefghijklmnopqrstuvwxyz".
Theorem C51_letter_case : forall t, length (lower t) = length t /\
  forall i c, nth_error t i = Some c ->
    (forall j, nth_error capitals j = Some c -> nth_error (lower t) i = nth_error smalls j) /\
    (~ In c capitals -> nth_error (lower t) i = Some c).
Proof.
  intros t. split; [apply map_length|]. intros i c E. unfold lower. rewrite nth_error_map, E. cbn [option_map]. clear E t i. split.
  - intros j. do 26 (destruct j as [|j]; [cbn; injection 1 as <-; reflexivity|]). destruct j; discriminate.
  - intros N. f_equal. unfold lower1. destruct ((65 <=? nat_of_ascii c) && (nat_of_ascii c <=? 90)) eqn:E; [|easy]. exfalso. apply N. clear N. revert E. generalize c. clear c. allchars;
    intros _; cbn; repeat (left; reflexivity) || (try tauto).
Qed.
Print Assumptions C51_letter_case.

(** ---- dictionaries ---- *)
Lemma assoc_upd {A} k k' (v : A) l : assoc k (upd k' v l) = if teqb k' k then Some v else assoc k l.
Proof.
  induction l as [|[a b] l IH]; cbn [upd assoc]; [now destruct (teqb k' k)|].
  destruct (teqb a k') eqn:E; cbn [assoc].
  - apply teqb_eq in E. subst a. now destruct (teqb k' k).
  - destruct (teqb a k) eqn:E2; [|exact IH]. apply teqb_eq in E2. subst a.
    destruct (teqb k' k) eqn:E3; [|easy]. apply teqb_eq in E3. subst. now rewrite teqb_refl in E.
Qed.
Fixpoint zassoc (k : Z) (l : list (Z * R)) : option R :=
  match l with [] => None | (k', v) :: t => if (k' =? k)%Z then Some v else zassoc k t end.
Lemma zassoc_zupd k k' v l : zassoc k (zupd k' v l) = if (k' =? k)%Z then Some v else zassoc k l.
Proof.
  induction l as [|[a b] l IH]; cbn [zupd zassoc]; [now destruct (k' =? k)%Z|].
  destruct (Z.eqb_spec a k') as [->|E]; cbn [zassoc]; [now destruct (k' =? k)%Z|].
  destruct (Z.eqb_spec a k) as [->|E2]; [|exact IH]. destruct (Z.eqb_spec k' k); [congruence|easy].
Qed.
(** The entry [i] of an indexed field. *)
Definition entry (i : Z) (v : option value) : option R := match v with Some (VDict d) => zassoc i d | _ => None end.
Definition sets (k : text) (a : asg) : bool := teqb (lower (a_key a)) k.
Definition sets_entry (k : text) (i : Z) (a : asg) : bool := sets k a && (idx_value a =? i)%Z.

Lemma last_such_snoc {A} (p : A -> bool) l x : last_such p (l ++ [x]) = if p x then Some x else last_such p l.
Proof. unfold last_such. rewrite rev_app_distr. reflexivity. Qed.
Lemma apply_all_snoc fs data l a : apply_all fs data (l ++ [a]) =
  match assoc (lower (a_key a)) fs with Some (ty, _) => apply_asg ty a (apply_all fs data l) | None => apply_all fs data l end.
Proof. unfold apply_all. now rewrite fold_left_app. Qed.
Lemma apply_asg_other k ty a data : sets k a = false -> assoc k (apply_asg ty a data) = assoc k data.
Proof. unfold sets, apply_asg. intros H. destruct ty; rewrite assoc_upd, H; easy. Qed.
Lemma apply_all_scalar fs k ty d l : assoc k fs = Some (ty, d) -> ty <> TDict ->
  assoc k (apply_all fs [] l) = option_map (fun a => field_value ty (a_lit a)) (last_such (sets k) l).
Proof.
  intros E N. induction l as [|a l IH] using rev_ind; [easy|]. rewrite apply_all_snoc, last_such_snoc.
  destruct (sets k a) eqn:S.
  - unfold sets in S. apply teqb_eq in S. rewrite S, E. unfold apply_asg. rewrite S. destruct ty; try easy; rewrite assoc_upd, teqb_refl; easy.
  - destruct (assoc (lower (a_key a)) fs) as [[ty' d']|]; [|exact IH]. rewrite apply_asg_other by exact S. exact IH.
Qed.
Lemma apply_all_dict fs k d i l : assoc k fs = Some (TDict, d) ->
  entry i (assoc k (apply_all fs [] l)) = option_map (fun a => num_value (a_lit a)) (last_such (sets_entry k i) l).
Proof.
  intros E. induction l as [|a l IH] using rev_ind; [easy|]. rewrite apply_all_snoc, last_such_snoc. unfold sets_entry at 1.
  destruct (sets k a) eqn:S; cbn [andb].
  - unfold sets in S. apply teqb_eq in S. rewrite S, E. unfold apply_asg. rewrite S, assoc_upd, teqb_refl. cbn [entry]. rewrite zassoc_zupd.
    destruct (idx_value a =? i)%Z; [easy|]. rewrite <- IH. unfold entry. now destruct (assoc k (apply_all fs [] l)) as [[]|].
  - destruct (assoc (lower (a_key a)) fs) as [[ty' d']|]; [|exact IH]. rewrite apply_asg_other by exact S. exact IH.
Qed.
(** An indexed field is present exactly when some entry was assigned, and it is a dict. *)
Lemma apply_all_dict_shape fs k d l : assoc k fs = Some (TDict, d) ->
  match assoc k (apply_all fs [] l) with Some (VDict _) => True | Some _ => False | None => last_such (sets k) l = None end.
Proof.
  intros E. induction l as [|a l IH] using rev_ind; [easy|]. rewrite apply_all_snoc, last_such_snoc. destruct (sets k a) eqn:S.
  - unfold sets in S. apply teqb_eq in S. rewrite S, E. unfold apply_asg. rewrite S, assoc_upd, teqb_refl. exact I.
  - destruct (assoc (lower (a_key a)) fs) as [[ty' d']|]; [|exact IH]. rewrite apply_asg_other by exact S. exact IH.
Qed.
Lemma apply_all_keys fs l k : assoc k fs = None -> assoc k (apply_all fs [] l) = None.
Proof.
  intros E. induction l as [|a l IH] using rev_ind; [easy|]. rewrite apply_all_snoc.
  destruct (assoc (lower (a_key a)) fs) as [[ty' d']|] eqn:E2; [|exact IH]. rewrite apply_asg_other; [exact IH|].
  unfold sets. apply teqb_neq. intros X. rewrite X in E2. congruence.
Qed.
Lemma apply_all_app fs data a b : apply_all fs data (a ++ b) = apply_all fs (apply_all fs data a) b.
Proof. unfold apply_all. apply fold_left_app. Qed.
Definition asgs_all (nl : list nline) : list asg := flat_map asgs_of nl.
(** Every assignment is to a known field and of that field's kind. *)
Definition fits (fs : fields) (nl : list nline) : Prop :=
  forall a, In a (asgs_all nl) -> exists ty d, assoc (lower (a_key a)) fs = Some (ty, d) /\ typed ty a.
Lemma namelist_good name fs nl data rest : In (name, Namelist fs) annotations ->
  (forall n, In n nl -> nline_ok n) -> fits fs nl ->
  namelist fs data (map nline_text nl ++ rest) = namelist fs (apply_all fs data (asgs_all nl)) rest.
Proof.
  intros Hn. pose proof (names_good _ _ Hn) as G. revert data. induction nl as [|n nl IH]; intros data H F; [easy|].
  cbn [map List.app]. assert (Hok := H n (or_introl eq_refl)). destruct n as [w c t|l k w].
  - destruct Hok as [Hw Hc]. rewrite nline_comment by auto. apply IH; [intros; apply H; now right|exact F].
  - destruct Hok as (N & Hw & Hb).
    assert (W : forall a, In a l -> asg_wf fs a).
    { intros a Ha. split; [now apply Hb|]. apply F. apply in_or_app. now left. }
    rewrite nline_assigns by (auto; intros a Ha; eapply wf_good; eauto). rewrite (assigns_core fs data l W G). cbn [bind].
    rewrite IH; [|intros; apply H; now right|intros a Ha; apply F; apply in_or_app; now right].
    cbn [asgs_all flat_map asgs_of]. now rewrite apply_all_app.
Qed.

(** A namelist of well-kinded assignments, with any blanks, letter case, comments, comma-separated
    groups and trailing commas, up to the line that starts with "/": the value of every scalar field is
    the value of the last assignment to it, the entry [i] of every indexed field is the value of the last
    assignment to key(i), fields that are not assigned are absent and nothing else is recorded. *)
Theorem C51_namelist_read : forall name fs nl w t rest, In (name, Namelist fs) annotations ->
  (forall n, In n nl -> nline_ok n) -> fits fs nl -> blank w ->
  exists data, namelist fs [] (map nline_text nl ++ (w ++ "/"%char :: t) :: rest) = Ok (data, rest) /\
    (forall k ty d, assoc k fs = Some (ty, d) -> ty <> TDict ->
       assoc k data = option_map (fun a => field_value ty (a_lit a)) (last_such (sets k) (asgs_all nl))) /\
    (forall k d i, assoc k fs = Some (TDict, d) ->
       entry i (assoc k data) = option_map (fun a => num_value (a_lit a)) (last_such (sets_entry k i) (asgs_all nl))) /\
    (forall k, assoc k fs = None -> assoc k data = None).
Proof.
  intros name fs nl w t rest Hn H F Hw. exists (apply_all fs [] (asgs_all nl)).
  rewrite (namelist_good name) by assumption. rewrite nline_end by exact Hw. repeat split.
  - intros k ty d E N. now apply (apply_all_scalar fs k ty d).
  - intros k d i E. now apply (apply_all_dict fs k d).
  - intros k E. now apply apply_all_keys.
Qed.
Print Assumptions C51_namelist_read.

(** ---- the namelist object ---- *)
Definition required (fs : fields) (k : text) : Prop := exists ty, assoc k fs = Some (ty, None).
Lemma assoc_in {A} k (v : A) l : assoc k l = Some v -> In (k, v) l.
Proof. induction l as [|[a b] l IH]; [easy|]. cbn [assoc]. destruct (teqb a k) eqn:E; [|intros; right; auto]. apply teqb_eq in E. subst. injection 1 as ->. now left. Qed.
Lemma assoc_nodup {A} k (v : A) l : NoDup (map fst l) -> In (k, v) l -> assoc k l = Some v.
Proof.
  induction l as [|[a b] l IH]; [easy|]. cbn [map]. rewrite NoDup_cons_iff. intros [N D] [H|H]; cbn [assoc].
  - injection H as -> ->. now rewrite teqb_refl.
  - destruct (teqb a k) eqn:E; [|auto]. apply teqb_eq in E. subst. exfalso. apply N. apply (in_map fst) in H. exact H.
Qed.
Fixpoint nodupb (l : list text) : bool := match l with [] => true | x :: t => negb (existsb (teqb x) t) && nodupb t end.
Lemma nodupb_ok l : nodupb l = true -> NoDup l.
Proof.
  induction l as [|x l IH]; cbn [nodupb]; [constructor|]. intros H. apply andb_prop in H as [H1 H2]. constructor; [|auto].
  intros I. assert (existsb (teqb x) l = true) by (apply existsb_exists; exists x; split; [exact I|apply teqb_refl]). rewrite H in H1. discriminate.
Qed.
Lemma fields_nodup name fs : In (name, Namelist fs) annotations -> NoDup (map fst fs).
Proof.
  intros H. apply nodupb_ok. unfold annotations in H. cbn [In] in H.
  repeat (destruct H as [H|H]; [try discriminate; injection H as _ <-; vm_compute; reflexivity|]). destruct H.
Qed.
Lemma build_gen fs data obj : build fs data = Ok obj ->
  obj = map (fun f => (fst f, match assoc (fst f) data with Some v => v | None => match snd (snd f) with Some d => d | None => VNone end end)) fs.
Proof.
  unfold build. revert obj. induction fs as [|f fs IH]; intros obj; cbn [map sequence].
  - injection 1 as <-. reflexivity.
  - match goal with |- context [sequence ?x] => destruct (sequence x) as [r|e] end; cbn [bind].
    + specialize (IH _ eq_refl). destruct (assoc (fst f) data) as [v|]; cbn [bind]; [injection 1 as <-; now rewrite <- IH|].
      destruct (snd (snd f)) as [d|]; cbn [bind]; [injection 1 as <-; now rewrite <- IH|discriminate].
    + destruct (assoc (fst f) data) as [v|]; cbn [bind]; [discriminate|]. destruct (snd (snd f)); discriminate.
Qed.
Lemma build_err fs data e : build fs data = Err e -> e = TypeError /\ exists k ty, In (k, (ty, None)) fs /\ assoc k data = None.
Proof.
  unfold build. induction fs as [|[k [ty d]] fs IH]; cbn [map sequence fst snd]; [discriminate|].
  destruct (assoc k data) as [v|] eqn:E; cbn [bind].
  - match goal with |- context [sequence ?x] => destruct (sequence x) as [r|e'] end; cbn [bind]; [discriminate|]. injection 1 as <-.
    destruct (IH eq_refl) as (-> & k' & ty' & H1 & H2). split; [easy|]. exists k', ty'. split; [now right|easy].
  - destruct d as [d|]; cbn [bind].
    + match goal with |- context [sequence ?x] => destruct (sequence x) as [r|e'] end; cbn [bind]; [discriminate|]. injection 1 as <-.
      destruct (IH eq_refl) as (-> & k' & ty' & H1 & H2). split; [easy|]. exists k', ty'. split; [now right|easy].
    + injection 1 as <-. split; [easy|]. exists k, ty. split; [now left|easy].
Qed.
Lemma build_ok fs data : (forall k ty, In (k, (ty, None)) fs -> assoc k data <> None) -> exists obj, build fs data = Ok obj.
Proof.
  intros H. destruct (build fs data) as [obj|e] eqn:E; [now exists obj|]. apply build_err in E as (_ & k & ty & H1 & H2). now apply H in H1.
Qed.
Lemma assoc_map_fst {A B} (g : text * A -> B) k l : assoc k (map (fun f => (fst f, g f)) l) = option_map (fun v => g (k, v)) (assoc k l).
Proof.
  induction l as [|[a b] l IH]; [easy|]. cbn [map assoc fst]. destruct (teqb a k) eqn:E; [|exact IH]. apply teqb_eq in E. now subst.
Qed.

(** ---- one namelist in a file: "&name", its lines, the "/" line ---- *)
Lemma header w name w' : blank w -> blank w' -> nonws name -> name <> [] ->
  strip (lower (w ++ "&"%char :: name ++ w')) = "&"%char :: lower name.
Proof.
  intros Hw Hw' Hn N. apply blank_ws in Hw, Hw'. rewrite lower_app, (lower_blank w) by exact Hw. cbn [lower map].
  change (map lower1 (name ++ w')) with (lower (name ++ w')). rewrite lower_app, (lower_blank w') by exact Hw'.
  change (lower1 "&") with "&"%char. change ("&"%char :: lower name ++ w') with (("&"%char :: lower name) ++ w').
  assert (L : nonws (lower name)). { intros c Hc. apply in_lower in Hc as (d & Hd & <-). rewrite lower_ws_iff. now apply Hn. }
  apply strip_core; auto; [easy|]. change ("&"%char :: lower name) with (["&"%char] ++ lower name).
  apply lastnot_app; [destruct name; easy|]. now apply nonws_last.
Qed.
Lemma name_chars name k : In (name, k) annotations -> nonws name /\ name <> [].
Proof.
  intros H. assert (X : (forallb (fun c => negb (is_ws c)) name && negb (teqb name [])) = true).
  { unfold annotations in H. cbn [In] in H. repeat (destruct H as [H|H]; [injection H as <- _; vm_compute; reflexivity|]). destruct H. }
  apply andb_prop in X as [X1 X2]. split.
  - intros c Hc. rewrite forallb_forall in X1. apply X1 in Hc. now destruct (is_ws c).
  - intros ->. discriminate.
Qed.
Lemma annotations_assoc name k : In (name, k) annotations -> assoc name annotations = Some k.
Proof. apply assoc_nodup. apply nodupb_ok. vm_compute. reflexivity. Qed.

(** The namelist of a file: "&NAME" in any letter case, its lines, the "/" line.  If some required field
    is not assigned, reading the file raises TypeError; otherwise reading goes on after the "/" line with
    an object that holds, for every field, the value of the last assignment or else the default. *)
Theorem C51_namelist_object : forall fuel all w NAME w' name fs nl w2 t rest,
  lower NAME = name -> In (name, Namelist fs) annotations -> blank w -> blank w' -> blank w2 ->
  (forall n, In n nl -> nline_ok n) -> fits fs nl ->
  let file := (w ++ "&"%char :: NAME ++ w') :: map nline_text nl ++ (w2 ++ "/"%char :: t) :: rest in
  let assigned k := last_such (sets k) (asgs_all nl) in
  ((exists k, required fs k /\ assigned k = None) -> file_loop (S fuel) all file = Err TypeError) /\
  ((forall k, required fs k -> assigned k <> None) ->
   exists obj, file_loop (S fuel) all file = file_loop fuel (upd name (SNamelist obj) all) rest /\
     map fst obj = map fst fs /\
     (forall k ty d, assoc k fs = Some (ty, d) -> ty <> TDict ->
        assoc k obj = match assigned k with Some a => Some (field_value ty (a_lit a)) | None => d end) /\
     (forall k d i, assoc k fs = Some (TDict, d) ->
        entry i (assoc k obj) = match assigned k with
                                | Some _ => option_map (fun a => num_value (a_lit a)) (last_such (sets_entry k i) (asgs_all nl))
                                | None => entry i d end)).
Proof.
  intros fuel all w NAME w' name fs nl w2 t rest EN Hn Hw Hw' Hw2 H F file assigned.
  destruct (name_chars _ _ Hn) as [NW NN].
  assert (NW' : nonws NAME). { intros c Hc. specialize (NW (lower1 c)). rewrite lower_ws_iff in NW. apply NW. rewrite <- EN. now apply in_map. }
  assert (NN' : NAME <> []) by (intros ->; now apply NN).
  assert (RES : forall data, data = apply_all fs [] (asgs_all nl) ->
    (forall k ty d, assoc k fs = Some (ty, d) -> (assoc k data = None <-> assigned k = None))).
  { intros data -> k ty d E. destruct (match ty with TDict => true | _ => false end) eqn:ET.
    - destruct ty; try discriminate. pose proof (apply_all_dict_shape fs k d (asgs_all nl) E) as S. fold (assigned k) in S.
      destruct (assoc k (apply_all fs [] (asgs_all nl))) as [v|] eqn:EA; [|easy]. split; [easy|]. intros A.
      exfalso. revert EA A. unfold assigned. generalize (asgs_all nl). clear -E. intros l. induction l as [|a l IH] using rev_ind; [easy|].
      rewrite apply_all_snoc, last_such_snoc. destruct (sets k a) eqn:S; [easy|]. intros EA A. apply IH; [|exact A].
      destruct (assoc (lower (a_key a)) fs) as [[ty' d']|]; [|exact EA]. now rewrite apply_asg_other in EA by exact S.
    - assert (N : ty <> TDict) by (intros ->; discriminate). rewrite (apply_all_scalar fs k ty d _ E N). fold (assigned k). now destruct (assigned k). }
  specialize (RES _ eq_refl). set (data := apply_all fs [] (asgs_all nl)) in *.
  assert (STEP : file_loop (S fuel) all file = (do obj <- build fs data; file_loop fuel (upd name (SNamelist obj) all) rest)).
  { unfold file. cbn [file_loop]. rewrite header by assumption. cbn [Ascii.eqb]. rewrite EN, (annotations_assoc _ _ Hn).
    change (("&" =? "&")%char) with true. cbv iota. rewrite (namelist_good name) by assumption. rewrite nline_end by exact Hw2. reflexivity. }
  pose proof (fields_nodup _ _ Hn) as ND. split.
  - intros (k & (ty & Ek) & A). rewrite STEP. destruct (build fs data) as [obj|e] eqn:E; [|apply build_err in E as [-> _]; reflexivity].
    exfalso. apply (RES k ty None Ek) in A. unfold build in E. apply sequence_ok in E.
    apply assoc_in in Ek. apply (in_map (fun f => match assoc (fst f) data with
                          | Some v => Ok (fst f, v)
                          | None => match snd (snd f) with Some d => Ok (fst f, d) | None => Err TypeError end
                          end)) in Ek. rewrite E in Ek. cbn [fst snd] in Ek. rewrite A in Ek. apply in_map_iff in Ek as (x & X & _). discriminate.
  - intros R. destruct (build_ok fs data) as (obj & Eo).
    { intros k ty I A. apply (assoc_nodup _ _ _ ND) in I. apply (R k); [now exists ty|]. now apply (RES k ty None I). }
    exists obj. rewrite STEP, Eo. cbn [bind]. split; [easy|]. apply build_gen in Eo.
    assert (AO : forall k ty d, assoc k fs = Some (ty, d) -> assoc k obj = match assoc k data with Some v => Some v | None => d end).
    { intros k ty d E. rewrite Eo, (assoc_map_fst (fun f => match assoc (fst f) data with Some v => v | None => match snd (snd f) with Some d => d | None => VNone end end)), E.
      cbn [option_map fst snd]. destruct (assoc k data) eqn:EA; [easy|]. destruct d; [easy|]. exfalso. apply (R k); [now exists ty|]. now apply (RES k ty None E). }
    split; [rewrite Eo, map_map; reflexivity|]. split.
    + intros k ty d E N. rewrite (AO k ty d E). unfold data. rewrite (apply_all_scalar fs k ty d _ E N). fold (assigned k). now destruct (assigned k).
    + intros k d i E. rewrite (AO k TDict d E). destruct (assigned k) eqn:EA.
      * rewrite <- (apply_all_dict fs k d i _ E). fold data. destruct (assoc k data) eqn:ED; [easy|]. apply (RES k TDict d E) in ED. congruence.
      * apply (RES k TDict d E) in EA. now rewrite EA.
Qed.
Print Assumptions C51_namelist_object.

(** ---- the languages of integers and reals ---- *)
(** Any run of white space. *)
Definition spaces (w : text) : Prop := forall c, In c w -> is_ws c = true.
Lemma is_digit_hd d t : match d :: t with c :: _ => is_digit c = true \/ c = "."%char | [] => True end -> is_digit d = true \/ d = "."%char.
Proof. easy. Qed.
(** An integer is read exactly when the text is an optional sign and decimal digits between white space. *)
Theorem C51_int_language : forall t z, py_int t = Ok z <->
  exists w s ds w', spaces w /\ spaces w' /\ int_ok ds /\ t = w ++ int_text s ds ++ w' /\ z = signed s (denotes ds).
Proof.
  intros t z. split.
  - unfold py_int. destruct (strip_split is_ws t) as (a & b & Ha & Hb & E & _). fold (strip t) in E.
    destruct (take_sign_inv (strip t)) as (s & S). destruct (take_sign (strip t)) as [neg r]. destruct S as [S ->].
    pose proof (span_inv r) as P. destruct (span_digits r) as [d rest]. destruct P as (P1 & P2 & _).
    destruct d as [|c d]; [discriminate|]. destruct rest; [|discriminate]. injection 1 as <-. rewrite app_nil_r in P1. subst r.
    destruct (digits_of_text (c :: d) P2) as (ds & Hd & Eds).
    exists a, s, ds, b. split; [exact Ha|]. split; [exact Hb|]. split; [split; [intros ->; discriminate|exact Hd]|]. split.
    + rewrite E at 1. rewrite S, Eds. reflexivity.
    + rewrite Eds, digits_val_spec by exact Hd. apply sgnz_signed.
  - intros (w & s & ds & w' & Hw & Hw' & Hd & -> & ->). rewrite py_int_ws by assumption. now apply py_int_text.
Qed.
Print Assumptions C51_int_language.

Definition e_exp (r : real_lit) : Prop := match r_exp r with Some (c, _) => c = "e"%char \/ c = "E"%char | None => True end.
Lemma real_nonws r : real_ok r -> nonws (real_text r).
Proof.
  intros (H1 & H2 & _ & H4) c Hc. unfold real_text in Hc. rewrite !in_app_iff in Hc. destruct Hc as [Hc|[Hc|[Hc|Hc]]].
  - destruct (r_sgn r); cbn in Hc; [easy|destruct Hc as [<-|[]]; reflexivity|destruct Hc as [<-|[]]; reflexivity].
  - apply digit_ws. now apply (digits_alls _ H1).
  - unfold frac_digits in *. destruct (r_frac r) as [f|]; [|easy]. destruct Hc as [<-|Hc]; [reflexivity|]. apply digit_ws. now apply (digits_alls _ H2).
  - destruct (r_exp r) as [[c' [s ds]]|]; [|easy]. destruct H4 as [H4 [_ H5]]. destruct Hc as [<-|Hc]; [now destruct H4 as [-> |[-> |[-> | ->]]]|]. now apply (int_nonws s ds).
Qed.
Definition with_e (r : real_lit) : real_lit := MkReal (r_sgn r) (r_int r) (r_frac r) (option_map (fun p => ("e"%char, snd p)) (r_exp r)).
Lemma py_float_text r : real_ok r -> e_exp r -> py_float (real_text r) = Ok (real_value r).
Proof.
  intros H He. pose proof (py_float_norm r H) as P. rewrite <- P. unfold py_float.
  rewrite nonws_strip by now apply real_nonws. rewrite nonws_strip by now apply norm_nonws.
  destruct (r_exp r) as [[c [s ds]]|] eqn:EE.
  2:{ unfold real_text, exp_norm, frac_text. rewrite EE. reflexivity. }
  unfold e_exp in He. rewrite EE in He. destruct He as [-> | ->].
  { unfold real_text, exp_norm, frac_text. rewrite EE. reflexivity. }
  pose proof H as (H1 & H2 & H3 & _). unfold real_text, exp_norm. rewrite EE. fold (frac_text r).
  assert (HD : forall u, match digits_text (r_int r) ++ frac_text r ++ u with c :: _ => is_digit c = true \/ c = "."%char | [] => r_int r = [] /\ r_frac r = None end).
  { intros u. destruct (r_int r) as [|d dd] eqn:E.
    - cbn [digits_text map List.app]. unfold frac_text, frac_digits in *. destruct (r_frac r); [cbn; now right|]. cbn in H3. congruence.
    - cbn. left. apply (digit_chars d), H1. now left. }
  assert (HD' : forall u, match digits_text (r_int r) ++ frac_text r ++ u with c :: _ => is_digit c = true \/ c = "."%char | [] => True end).
  { intros u. specialize (HD u). destruct (digits_text (r_int r) ++ frac_text r ++ u); easy. }
  rewrite !take_sign_text by apply HD'.
  rewrite !span_app; try (now apply digits_alls); try (unfold frac_text; destruct (r_frac r); easy).
  unfold frac_text, frac_digits in *. destruct (r_frac r) as [f|]; [|reflexivity]. cbn [List.app].
  change (("." =? ".")%char) with true. cbv iota. rewrite !span_app; try (now apply digits_alls); try easy.
Qed.
Lemma py_float_ws a t b : spaces a -> spaces b -> py_float (a ++ t ++ b) = py_float t.
Proof. intros Ha Hb. unfold py_float. now rewrite strip_ws_l, strip_ws_r by assumption. Qed.
Lemma py_exponent_inv t z : py_exponent t = Ok z ->
  exists x, (match x with Some (c, (s, ds)) => (c = "e"%char \/ c = "E"%char) /\ int_ok ds /\ t = c :: int_text s ds /\ z = signed s (denotes ds) | None => t = [] /\ z = 0%Z end).
Proof.
  unfold py_exponent. destruct t as [|c t]; [injection 1 as <-; now exists None|].
  destruct (Ascii.eqb_spec c "e") as [E|E]; cbn [orb].
  2:{ destruct (Ascii.eqb_spec c "E") as [E2|]; [|discriminate]. subst c. destruct (take_sign_inv t) as (s & S). destruct (take_sign t) as [neg r]. destruct S as [-> ->].
    pose proof (span_inv r) as P. destruct (span_digits r) as [d rest]. destruct P as (P1 & P2 & _).
    destruct d as [|c d]; [discriminate|]. destruct rest; [|discriminate]. injection 1 as <-. rewrite app_nil_r in P1. subst r.
    destruct (digits_of_text (c :: d) P2) as (ds & Hd & Eds). exists (Some ("E"%char, (s, ds))). split; [now right|]. split; [split; [intros ->; discriminate|exact Hd]|].
    split; [now rewrite Eds|]. rewrite Eds, digits_val_spec by exact Hd. apply sgnz_signed. }
  subst c. destruct (take_sign_inv t) as (s & S). destruct (take_sign t) as [neg r]. destruct S as [-> ->].
  pose proof (span_inv r) as P. destruct (span_digits r) as [d rest]. destruct P as (P1 & P2 & _).
  destruct d as [|c d]; [discriminate|]. destruct rest; [|discriminate]. injection 1 as <-. rewrite app_nil_r in P1. subst r.
  destruct (digits_of_text (c :: d) P2) as (ds & Hd & Eds). exists (Some ("e"%char, (s, ds))). split; [now left|]. split; [split; [intros ->; discriminate|exact Hd]|].
  split; [now rewrite Eds|]. rewrite Eds, digits_val_spec by exact Hd. apply sgnz_signed.
Qed.
(** A real is read exactly when the text is a decimal literal (exponent letter e or E) between white
    space, and its value is exact. *)
Theorem C51_float_language : forall t x, py_float t = Ok x <->
  exists w r w', spaces w /\ spaces w' /\ real_ok r /\ e_exp r /\ t = w ++ real_text r ++ w' /\ x = real_value r.
Proof.
  intros t x. split.
  2:{ intros (w & r & w' & Hw & Hw' & Hr & He & -> & ->). rewrite py_float_ws by assumption. now apply py_float_text. }
  intros H. assert (X : exists w r w', spaces w /\ spaces w' /\ real_ok r /\ e_exp r /\ t = w ++ real_text r ++ w').
  { revert H. unfold py_float. destruct (strip_split is_ws t) as (a & b & Ha & Hb & E & _). fold (strip t) in E.
    destruct (take_sign_inv (strip t)) as (s & S). destruct (take_sign (strip t)) as [neg r]. destruct S as [S ->].
    pose proof (span_inv r) as P. destruct (span_digits r) as [d r1]. destruct P as (P1 & P2 & _).
    destruct (digits_of_text d P2) as (ds & Hds & Eds).
    assert (Y : exists fr, let '(fp, r2) := match r1 with c :: r' => if Ascii.eqb c "." then span_digits r' else ([], r1) | [] => ([], []) end in
       r1 = match fr with Some f => "."%char :: digits_text f | None => [] end ++ r2 /\ fp = digits_text (match fr with Some f => f | None => [] end) /\
       digits_ok (match fr with Some f => f | None => [] end)).
    { destruct r1 as [|c r']; [exists None; easy|]. destruct (Ascii.eqb_spec c "."); [|exists None; easy]. subst c.
      pose proof (span_inv r') as Q. destruct (span_digits r') as [f r2]. destruct Q as (Q1 & Q2 & _).
      destruct (digits_of_text f Q2) as (fs & Hfs & Efs). exists (Some fs). subst. easy. }
    destruct Y as (fr & Y). destruct (match r1 with c :: r' => if Ascii.eqb c "." then span_digits r' else ([], r1) | [] => ([], []) end) as [fp r2].
    destruct Y as (Y1 & Y2 & Y3).
    destruct (d ++ fp) as [|c0 l0] eqn:ED; [discriminate|]. destruct (py_exponent r2) as [e|] eqn:EX; [|discriminate]. intros _.
    apply py_exponent_inv in EX as (ex & EX).
    exists a, (MkReal s ds fr ex), b. split; [exact Ha|]. split; [exact Hb|]. split; [|split].
    - unfold real_ok, frac_digits. cbn [r_int r_frac r_exp r_sgn]. split; [exact Hds|]. split; [exact Y3|]. split.
      + intros N. apply app_eq_nil in N as [N1 N2]. rewrite Eds, N1, Y2, N2 in ED. discriminate.
      + destruct ex as [[c [s' ds']]|]; [|easy]. destruct EX as ([-> | ->] & EX1 & _); split; auto.
    - unfold e_exp. cbn. destruct ex as [[c [s' ds']]|]; [|easy]. now destruct EX.
    - rewrite E at 1. f_equal. f_equal. rewrite S, P1, Y1, Eds. unfold real_text. cbn [r_int r_frac r_exp r_sgn]. do 3 f_equal.
      destruct ex as [[c [s' ds']]|]; [now destruct EX as (_ & _ & -> & _)|now destruct EX]. }
  destruct X as (w & r & w' & Hw & Hw' & Hr & He & ->). exists w, r, w'. do 5 (split; [now auto|]).
  rewrite py_float_ws in H by assumption. rewrite py_float_text in H by assumption. injection H. auto.
Qed.
Print Assumptions C51_float_language.

(** ---- what is rejected ---- *)
(** Letters of either case, digits and underscores. *)
Definition identifier (k : text) : Prop := k <> [] /\ forall c, In c k -> wordc (lower1 c) = true.
Lemma identifier_good k : identifier k -> good_name (lower k) = true.
Proof.
  intros [N H]. unfold good_name. apply andb_true_intro. split.
  - destruct k; [easy|]. reflexivity.
  - apply forallb_forall. intros c Hc. apply in_lower in Hc as (d & Hd & <-). now apply H.
Qed.
Lemma foldm_err {A B} (f : A -> B -> res A) l1 x l2 a a' e : foldm f a l1 = Ok a' -> f a' x = Err e -> foldm f a (l1 ++ x :: l2) = Err e.
Proof. intros H1 H2. rewrite foldm_app, H1. cbn [bind foldm]. now rewrite H2. Qed.
Lemma asg_unknown fs data a : asg_good a -> assoc (lower (a_key a)) fs = None -> assignment fs data (lower (asg_text a)) = Err ValueError.
Proof.
  intros (H & GK) E. pose proof H as (_ & _ & H3 & H4 & _ & HL). apply blank_ws in H3, H4.
  rewrite lower_asg by exact H. unfold assignment. rewrite split_sep by (apply lhs_free; auto).
  rewrite split_none.
  2:{ intros I. rewrite !in_app_iff in I. destruct I as [I|[I|I]]; [apply H3 in I; discriminate| |apply H4 in I; discriminate]. revert I. apply lit_free; auto. }
  cbv zeta. rewrite lhs_strip by auto.
  destruct (lhs_index a H GK) as (i & EI & HI). rewrite EI. cbn [bind fst snd]. now rewrite E.
Qed.
(** An assignment to a name that is not a field of the namelist raises ValueError, wherever it stands. *)
Theorem C51_unknown_key_rejected : forall name fs nl l1 bad l2 k w rest,
  In (name, Namelist fs) annotations -> (forall n, In n nl -> nline_ok n) -> fits fs nl ->
  (forall a, In a (l1 ++ bad :: l2) -> asg_blank a /\ identifier (a_key a)) -> blank w ->
  fits fs [Assigns l1 0 []] -> assoc (lower (a_key bad)) fs = None ->
  namelist fs [] (map nline_text nl ++ nline_text (Assigns (l1 ++ bad :: l2) k w) :: rest) = Err ValueError.
Proof.
  intros name fs nl l1 bad l2 k w rest Hn H F Hb Hw F1 E. rewrite (namelist_good name) by assumption.
  assert (GD : forall a, In a (l1 ++ bad :: l2) -> asg_good a) by (intros a Ha; destruct (Hb a Ha); split; [easy|now apply identifier_good]).
  rewrite nline_assigns; [|destruct l1; easy|exact Hw|exact GD].
  rewrite !map_app. cbn [map]. erewrite foldm_err; [reflexivity| |].
  - apply (assigns_core fs _ l1); [|exact (names_good _ _ Hn)]. intros a Ha. split; [apply Hb; apply in_or_app; now left|]. apply F1. cbn. now rewrite app_nil_r.
  - apply asg_unknown; [|exact E]. apply GD. apply in_or_app. right. now left.
Qed.
Print Assumptions C51_unknown_key_rejected.

Definition quotes (q : text) : Prop := forall c, In c q -> c = "'"%char.
(** The texts a field of each type accepts. *)
Definition acceptable (ty : typ) (v : text) : Prop :=
  match ty with
  | TInt => exists w s ds w', spaces w /\ spaces w' /\ int_ok ds /\ v = w ++ int_text s ds ++ w'
  | TFloat => exists w r w', spaces w /\ spaces w' /\ real_ok r /\ map (fun c => if Ascii.eqb c "d" then "e"%char else c) v = w ++ real_text r ++ w'
  | TBool => v = T ".true" \/ v = T ".false"
  | TStr => True
  | TDict => False
  end.
Lemma parse_acceptable ty v x : parse_typ ty v = Ok x -> acceptable ty v.
Proof.
  destruct ty; cbn [parse_typ acceptable]; try easy.
  - unfold rmap. destruct (py_int v) as [z|] eqn:E; [|discriminate]. intros _. apply C51_int_language in E as (w & s & ds & w' & H1 & H2 & H3 & H4 & _). exists w, s, ds, w'. auto.
  - unfold rmap. destruct (py_float (replace_d v)) as [z|] eqn:E; [|discriminate]. intros _. apply C51_float_language in E as (w & r & w' & H1 & H2 & H3 & _ & H4 & _). exists w, r, w'. auto.
  - destruct (teqb v (T ".true")) eqn:E; [apply teqb_eq in E; auto|]. destruct (teqb v (T ".false")) eqn:E2; [apply teqb_eq in E2; auto|discriminate].
Qed.
Lemma py_int_err t e : py_int t = Err e -> e = ValueError.
Proof. unfold py_int. destruct (take_sign _) as [n r]. destruct (span_digits r) as [[|c d] [|c' d']]; congruence. Qed.
Lemma py_float_err t e : py_float t = Err e -> e = ValueError.
Proof.
  unfold py_float. destruct (take_sign _) as [n r]. destruct (span_digits r) as [d r1].
  destruct (match r1 with c :: r' => if Ascii.eqb c "." then span_digits r' else ([], r1) | [] => ([], []) end) as [fp r2]. destruct (d ++ fp); [congruence|].
  destruct (py_exponent r2) as [z|e'] eqn:E; cbn [bind]; [discriminate|]. injection 1 as <-. revert E. unfold py_exponent. destruct r2 as [|c r2]; [discriminate|].
  destruct (Ascii.eqb c "e" || Ascii.eqb c "E"); [|congruence]. destruct (take_sign r2) as [n' r']. destruct (span_digits r') as [[|c1 d1] [|c2 d2]]; congruence.
Qed.
Lemma parse_err ty v e : ty <> TDict -> parse_typ ty v = Err e -> e = ValueError.
Proof.
  destruct ty; cbn [parse_typ]; intros N; try easy.
  - unfold rmap. destruct (py_int v) eqn:E; [discriminate|]. injection 1 as <-. now apply py_int_err in E.
  - unfold rmap. destruct (py_float (replace_d v)) eqn:E; [discriminate|]. injection 1 as <-. now apply py_float_err in E.
  - destruct (teqb v (T ".true")); [discriminate|]. destruct (teqb v (T ".false")); congruence.
Qed.
(** A line that holds one piece. *)
Lemma one_piece fs data w0 c t rest : spaces w0 -> is_ws c = false -> wordc (lower1 c) = true -> ~ In ","%char (c :: t) ->
  namelist fs data ((w0 ++ c :: t) :: rest) = (do data' <- assignment fs data (lower (c :: t)); namelist fs data' rest).
Proof.
  intros Hw Hc Hwc Hn. cbn [namelist]. rewrite lower_app, (lower_blank w0) by exact Hw. rewrite strip_ws_l by exact Hw.
  assert (NL : ~ In ","%char (lower (c :: t))) by (intros I; revert I; apply lower_free; auto).
  set (Y := lower (c :: t)) in *. destruct (strip_split is_ws Y) as (p & q & Hp & Hq & ES & _). fold (strip Y) in ES.
  assert (EZ : exists u, strip Y = lower1 c :: u).
  { unfold Y. cbn [lower map]. change (lower1 c :: map lower1 t) with ([] ++ lower1 c :: map lower1 t). apply strip_first; [easy|]. now rewrite lower_ws_iff. }
  destruct EZ as (u & EZ).
  assert (NZ : ~ In ","%char (strip Y)) by (intros I; apply NL; rewrite ES, !in_app_iff; auto).
  rewrite rstrip_id.
  2:{ unfold lastnot. destruct (rev (strip Y)) as [|x l] eqn:ER; [easy|]. cbn. apply Ascii.eqb_neq. intros ->. apply NZ. apply in_rev. rewrite ER. now left. }
  rewrite EZ. unfold lstrip. rewrite lstrip_id by (cbn; now rewrite lower_ws_iff).
  destruct (wordc_facts _ Hwc) as (_ & _ & _ & _ & _ & C1 & C2 & C3).
  destruct (Ascii.eqb_spec (lower1 c) "!"); [easy|]. destruct (Ascii.eqb_spec (lower1 c) "#"); [easy|]. cbn [orb]. destruct (Ascii.eqb_spec (lower1 c) "/"); [easy|].
  rewrite <- EZ, line_strip. unfold assign_line. rewrite split_none by exact NL. cbn [foldm bind]. unfold bind. now destruct (assignment fs data Y).
Qed.
Lemma key_line fs data w0 K w1 v rest : spaces w0 -> identifier K -> spaces w1 -> ~ In ","%char v -> ~ In "="%char v ->
  namelist fs data ((w0 ++ K ++ w1 ++ "="%char :: v) :: rest) =
  match assoc (lower K) fs with
  | None => Err ValueError
  | Some (TDict, _) => Err TypeError
  | Some (ty, _) => do x <- parse_typ ty (strip_p (is_c "'") (strip (lower v))); namelist fs (upd (lower K) x data) rest
  end.
Proof.
  intros Hw0 [NK HK] Hw1 Nc Ne. destruct K as [|c K]; [easy|].
  assert (HC : forall x, In x (c :: K) -> is_ws x = false /\ x <> ","%char /\ x <> "="%char /\ x <> "("%char).
  { intros x Hx. pose proof (HK x Hx) as W. destruct (wordc_facts _ W) as (A1 & A2 & A3 & A4 & _). rewrite lower_ws_iff in A1.
    split; [exact A1|]. split; [|split]; intros ->; discriminate. }
  assert (HL : forall x, In x (lower (c :: K)) -> is_ws x = false /\ x <> ","%char /\ x <> "="%char /\ x <> "("%char).
  { intros x Hx. apply in_lower in Hx as (y & Hy & <-). destruct (wordc_facts _ (HK y Hy)) as (A1 & A2 & A3 & A4 & _). auto. }
  change ((c :: K) ++ w1 ++ "="%char :: v) with (c :: (K ++ w1 ++ "="%char :: v)).
  rewrite one_piece; [|exact Hw0|apply HC; now left|apply HK; now left|].
  2:{ change (c :: K ++ w1 ++ "="%char :: v) with ((c :: K) ++ w1 ++ ["="%char] ++ v). rewrite !in_app_iff. intros [I|[I|[I|I]]]; [now apply HC in I|apply Hw1 in I; discriminate|destruct I as [I|[]]; discriminate|easy]. }
  change (c :: K ++ w1 ++ "="%char :: v) with ((c :: K) ++ w1 ++ ["="%char] ++ v). rewrite !lower_app, (lower_blank w1) by exact Hw1.
  change (lower ["="%char]) with ["="%char]. cbn [List.app]. rewrite app_assoc. unfold assignment.
  rewrite split_sep. 2:{ rewrite in_app_iff. intros [I|I]; [now apply HL in I|apply Hw1 in I; discriminate]. }
  rewrite split_none by (intros I; revert I; apply lower_free; auto). cbv zeta.
  assert (ES : strip (lower (c :: K) ++ w1) = lower (c :: K)).
  { rewrite strip_ws_r by exact Hw1. apply nonws_strip. intros x Hx. now apply HL. }
  rewrite ES. rewrite mem_c_false by (intros I; now apply HL in I). cbn [bind fst snd].
  destruct (assoc (lower (c :: K)) fs) as [[ty d]|]; [|easy]. destruct ty; try reflexivity; unfold bind; now destruct (parse_typ _ _).
Qed.
(** A value that is not of the field's type (up to white space around it and quotes around that) raises
    ValueError. *)
Theorem C51_malformed_rejected : forall fs data w0 K w1 v rest ty d,
  spaces w0 -> identifier K -> spaces w1 -> ~ In ","%char v -> ~ In "="%char v ->
  assoc (lower K) fs = Some (ty, d) -> ty <> TDict ->
  (~ exists w q core q' w', lower v = w ++ q ++ core ++ q' ++ w' /\ spaces w /\ spaces w' /\ quotes q /\ quotes q' /\ acceptable ty core) ->
  namelist fs data ((w0 ++ K ++ w1 ++ "="%char :: v) :: rest) = Err ValueError.
Proof.
  intros fs data w0 K w1 v rest ty d Hw0 HK Hw1 Nc Ne E N NE. rewrite key_line by assumption. rewrite E.
  assert (X : parse_typ ty (strip_p (is_c "'") (strip (lower v))) = Err ValueError).
  { destruct (parse_typ ty (strip_p (is_c "'") (strip (lower v)))) as [x|e] eqn:EP; [|apply parse_err in EP as ->; auto].
    exfalso. apply NE. apply parse_acceptable in EP.
    destruct (strip_split is_ws (lower v)) as (w & w' & A1 & A2 & A3 & _). fold (strip (lower v)) in A3.
    destruct (strip_split (is_c "'") (strip (lower v))) as (q & q' & B1 & B2 & B3 & _).
    exists w, q, (strip_p (is_c "'") (strip (lower v))), q', w'. split; [rewrite A3 at 1; rewrite B3 at 1; now rewrite <- !app_assoc|].
    split; [exact A1|]. split; [exact A2|]. split; [intros c Hc; apply B1 in Hc; now apply Ascii.eqb_eq in Hc|]. split; [intros c Hc; apply B2 in Hc; now apply Ascii.eqb_eq in Hc|]. exact EP. }
  rewrite X. destruct ty; easy.
Qed.
Print Assumptions C51_malformed_rejected.
(** Consequences.  A comment after a number on the same line is a malformed value. *)
Lemma real_no_bang r c : real_ok r -> In c (real_text r) -> c <> "!"%char.
Proof.
  intros (H1 & H2 & _ & H4) Hc. unfold real_text in Hc. rewrite !in_app_iff in Hc. destruct Hc as [Hc|[Hc|[Hc|Hc]]].
  - destruct (r_sgn r); cbn in Hc; [easy|destruct Hc as [<-|[]]; discriminate|destruct Hc as [<-|[]]; discriminate].
  - intros ->. now apply (digits_alls _ H1) in Hc.
  - unfold frac_digits in *. destruct (r_frac r) as [f|]; [|easy]. destruct Hc as [<-|Hc]; [discriminate|]. intros ->. now apply (digits_alls _ H2) in Hc.
  - destruct (r_exp r) as [[c' [s ds]]|]; [|easy]. destruct H4 as [H4 [_ H5]]. destruct Hc as [<-|Hc]; [destruct H4 as [-> |[-> |[-> | ->]]]; discriminate|].
    destruct (int_chars s ds c H5 Hc) as [X|[-> | ->]]; [|discriminate|discriminate]. intros ->. discriminate.
Qed.
Theorem C51_inline_comment_rejected : forall fs data w0 K w1 v rest ty d,
  spaces w0 -> identifier K -> spaces w1 -> ~ In ","%char v -> ~ In "="%char v ->
  assoc (lower K) fs = Some (ty, d) -> ty = TInt \/ ty = TFloat \/ ty = TBool -> In "!"%char v ->
  namelist fs data ((w0 ++ K ++ w1 ++ "="%char :: v) :: rest) = Err ValueError.
Proof.
  intros fs data w0 K w1 v rest ty d Hw0 HK Hw1 Nc Ne E Hty I. apply (C51_malformed_rejected _ _ _ _ _ _ _ ty d); auto.
  { destruct Hty as [-> |[-> | ->]]; discriminate. }
  intros (w & q & core & q' & w' & EV & Hw & Hw' & Hq & Hq' & A).
  assert (IL : In "!"%char (lower v)) by (apply (in_map lower1) in I; exact I). rewrite EV, !in_app_iff in IL.
  destruct IL as [J|[J|[J|[J|J]]]]; [apply Hw in J; discriminate|apply Hq in J; discriminate| |apply Hq' in J; discriminate|apply Hw' in J; discriminate].
  destruct Hty as [-> |[-> | ->]]; cbn [acceptable] in A.
  - destruct A as (a & s & ds & b & Ha & Hb & Hd & ->). rewrite !in_app_iff in J. destruct J as [J|[J|J]]; [apply Ha in J; discriminate| |apply Hb in J; discriminate].
    destruct (int_chars s ds _ (proj2 Hd) J) as [X|[X|X]]; discriminate.
  - destruct A as (a & r & b & Ha & Hb & Hr & ER). apply (in_map (fun c => if Ascii.eqb c "d" then "e"%char else c)) in J.
    rewrite ER in J. change (if ("!" =? "d")%char then "e"%char else "!"%char) with "!"%char in J. rewrite !in_app_iff in J.
    destruct J as [J|[J|J]]; [apply Ha in J; discriminate| |apply Hb in J; discriminate]. now apply (real_no_bang r "!"%char Hr) in J.
  - destruct A as [-> | ->]; cbn in J; repeat (destruct J as [J|J]; [discriminate|]); destruct J.
Qed.
Print Assumptions C51_inline_comment_rejected.

(** REFUTED: Fortran logicals.  ".true." and ".false.", in any letter case, are rejected for every logical
    field; only the misspelled ".true" and ".false" are read. *)
Theorem C51_logicals_refuted : forall fs data w0 K w1 a v b rest d,
  spaces w0 -> identifier K -> spaces w1 -> spaces a -> spaces b ->
  assoc (lower K) fs = Some (TBool, d) -> lower v = T ".true." \/ lower v = T ".false." ->
  namelist fs data ((w0 ++ K ++ w1 ++ "="%char :: a ++ v ++ b) :: rest) = Err ValueError.
Proof.
  intros fs data w0 K w1 a v b rest d Hw0 HK Hw1 Ha Hb E Hv.
  assert (NI : forall x, is_ws x = false -> lower1 x = x -> ~ In x (T ".true.") -> ~ In x (T ".false.") -> ~ In x (a ++ v ++ b)).
  { intros x Wx Lx N1 N2. rewrite !in_app_iff. intros [I|[I|I]]; [apply Ha in I; congruence| |apply Hb in I; congruence].
    apply (in_map lower1) in I. rewrite Lx in I. change (map lower1 v) with (lower v) in I. destruct Hv as [Hv|Hv]; rewrite Hv in I; auto. }
  apply (C51_malformed_rejected _ _ _ _ _ _ _ TBool d); auto; try discriminate.
  1,2: apply NI; try reflexivity; cbn; intros I; repeat (destruct I as [I|I]; [discriminate|]); destruct I.
  intros (w & q & core & q' & w' & EV & Hw & Hw' & Hq & Hq' & A). cbn [acceptable] in A.
  rewrite !lower_app, (lower_blank a), (lower_blank b) in EV by assumption.
  (* count the visible characters *)
  assert (CT : forall t1 t2 : text, t1 = t2 -> filter (fun x => negb (is_ws x) && negb (Ascii.eqb x "'")) t1 = filter (fun x => negb (is_ws x) && negb (Ascii.eqb x "'")) t2) by (intros ? ? ->; reflexivity).
  apply CT in EV. rewrite !filter_app in EV.
  assert (FS : forall u, spaces u -> filter (fun x => negb (is_ws x) && negb (Ascii.eqb x "'")) u = []).
  { induction u as [|x u IH]; intros Hu; [easy|]. cbn [filter]. rewrite (Hu x) by now left. cbn [negb andb]. apply IH. intros y Hy. apply Hu. now right. }
  assert (FQ : forall u, quotes u -> filter (fun x => negb (is_ws x) && negb (Ascii.eqb x "'")) u = []).
  { induction u as [|x u IH]; intros Hu; [easy|]. cbn [filter]. rewrite (Hu x) by now left. change (("'" =? "'")%char) with true. cbn [negb]. rewrite Bool.andb_false_r. apply IH. intros y Hy. apply Hu. now right. }
  rewrite (FS a Ha), (FS b Hb), (FS w Hw), (FS w' Hw'), (FQ q Hq), (FQ q' Hq') in EV. rewrite !app_nil_r in EV. cbn [List.app] in EV.
  destruct Hv as [Hv|Hv], A as [-> | ->]; rewrite Hv in EV; vm_compute in EV; discriminate.
Qed.
Print Assumptions C51_logicals_refuted.
Example C51_logical_example :
  namelist system_fields [] [T "nosym = .true."; T "/"] = Err ValueError /\
  namelist system_fields [] [T "nosym = .true"; T "/"] = Ok ([(T "nosym", VBool true)], []).
Proof. vm_compute. easy. Qed.

(** REFUTED: quoted strings are read back as the same values.  Letter case is lost, and a comma inside the
    quotes is taken for the end of the assignment. *)
Theorem C51_string_case_refuted :
  namelist control_fields [] [T "prefix = 'Si'"; T "/"] = Ok ([(T "prefix", VStr (T "si"))], []) /\
  namelist control_fields [] [T "pseudo_dir = '/home/A/pseudo'"; T "/"] = Ok ([(T "pseudo_dir", VStr (T "/home/a/pseudo"))], []).
Proof. vm_compute. easy. Qed.
Print Assumptions C51_string_case_refuted.
Theorem C51_comma_in_string_refuted : forall t1 t2 rest,
  ~ In ","%char t1 -> ~ In "="%char t1 -> ~ In ","%char t2 -> ~ In "="%char t2 ->
  namelist control_fields [] ((T "title='" ++ t1 ++ ","%char :: t2 ++ ["'"%char]) :: rest) = Err ValueError.
Proof.
  intros t1 t2 rest A1 A2 A3 A4. cbn [namelist]. set (raw := T "title='" ++ t1 ++ ","%char :: t2 ++ ["'"%char]).
  assert (EL : lower raw = T "title='" ++ lower t1 ++ ","%char :: lower t2 ++ ["'"%char]).
  { unfold raw. rewrite !lower_app. cbn [lower map]. change (map lower1 (t2 ++ ["'"%char])) with (lower (t2 ++ ["'"%char])). rewrite lower_app. reflexivity. }
  assert (ES : strip (lower raw) = lower raw).
  { rewrite EL. apply strip_id; [easy|]. apply lastnot_app; [now destruct (lower t1)|]. apply lastnot_app; [easy|].
    change (","%char :: lower t2 ++ ["'"%char]) with ((","%char :: lower t2) ++ ["'"%char]). apply lastnot_app; easy. }
  rewrite ES. rewrite rstrip_id.
  2:{ rewrite EL. apply lastnot_app; [now destruct (lower t1)|]. apply lastnot_app; [easy|].
    change (","%char :: lower t2 ++ ["'"%char]) with ((","%char :: lower t2) ++ ["'"%char]). apply lastnot_app; easy. }
  assert (ASG : assign_line control_fields [] (lower raw) = Err ValueError).
  { rewrite EL. unfold assign_line. rewrite app_assoc. rewrite split_sep.
    2:{ rewrite in_app_iff. intros [I|I]; [cbn in I; repeat (destruct I as [I|I]; [discriminate|]); destruct I|]. revert I. apply lower_free; auto. }
    rewrite split_none.
    2:{ rewrite in_app_iff. intros [I|I]; [revert I; apply lower_free; auto|]. destruct I as [I|[]]; discriminate. }
    assert (FST : exists d, assignment control_fields [] (T "title='" ++ lower t1) = Ok d).
    { unfold assignment. change (T "title='") with (T "title" ++ ["="%char] ++ T "'"). rewrite <- !app_assoc. cbn [List.app]. 
      rewrite split_sep by (cbn; intros I; repeat (destruct I as [I|I]; [discriminate|]); destruct I).
      rewrite split_none.
      - eexists. cbv zeta. change (strip (T "title")) with (T "title"). reflexivity.
      - cbn [T list_ascii_of_string List.app]. intros [I|I]; [discriminate|]. revert I. apply lower_free; auto. }
    destruct FST as (d & FST). cbn [foldm]. rewrite FST. cbn [bind]. unfold assignment.
    rewrite split_none; [reflexivity|]. rewrite in_app_iff. intros [I|I]; [revert I; apply lower_free; auto|]. destruct I as [I|[]]; discriminate. }
  rewrite ASG. rewrite EL. reflexivity.
Qed.
Print Assumptions C51_comma_in_string_refuted.

(** A blank line inside a namelist, and a namelist that is not closed by "/", raise IndexError. *)
Theorem C51_blank_line : forall name fs nl w rest, In (name, Namelist fs) annotations ->
  (forall n, In n nl -> nline_ok n) -> fits fs nl -> spaces w ->
  namelist fs [] (map nline_text nl ++ w :: rest) = Err IndexError /\
  namelist fs [] (map nline_text nl) = Err IndexError.
Proof.
  intros name fs nl w rest Hn H F Hw. split.
  - rewrite (namelist_good name) by assumption. cbn [namelist]. rewrite (lower_blank w) by exact Hw.
    assert (E : strip w = []) by (rewrite <- (app_nil_l w), strip_ws_r by exact Hw; reflexivity). rewrite E. reflexivity.
  - rewrite <- (app_nil_r (map nline_text nl)). rewrite (namelist_good name) by assumption. reflexivity.
Qed.
Print Assumptions C51_blank_line.

(** An indexed field assigned without an index raises TypeError. *)
Theorem C51_missing_index : forall fs data w0 K w1 v rest d,
  spaces w0 -> identifier K -> spaces w1 -> ~ In ","%char v -> ~ In "="%char v -> assoc (lower K) fs = Some (TDict, d) ->
  namelist fs data ((w0 ++ K ++ w1 ++ "="%char :: v) :: rest) = Err TypeError.
Proof. intros. rewrite key_line by assumption. now rewrite H4. Qed.
Print Assumptions C51_missing_index.

(** ---- cards ---- *)
(** A row: white space, then words, each followed by white space (which only the last may lack). *)
Definition row_ok (lead : text) (ws : list (text * text)) : Prop :=
  spaces lead /\ ws <> [] /\ (forall x, In x ws -> fst x <> [] /\ nonws (fst x) /\ spaces (snd x)) /\
  (forall x, In x (removelast ws) -> snd x <> []).
Definition row_text (lead : text) (ws : list (text * text)) : text := lead ++ List.concat (map (fun x => fst x ++ snd x) ws).
Lemma words_acc_word w acc t : nonws w -> words_acc acc (w ++ t) = words_acc (rev w ++ acc) t.
Proof.
  revert acc. induction w as [|c w IH]; intros acc H; [easy|]. cbn [List.app words_acc]. rewrite (H c) by now left.
  rewrite IH by (intros x Hx; apply H; now right). cbn [rev]. now rewrite <- app_assoc.
Qed.
Lemma words_spaces a t : spaces a -> words_acc [] (a ++ t) = words_acc [] t.
Proof. induction a as [|c a IH]; intros H; [easy|]. cbn [List.app words_acc]. rewrite (H c) by now left. apply IH. intros x Hx. apply H. now right. Qed.
Lemma words_end acc s t : acc <> [] -> spaces s -> (s = [] -> t = []) -> words_acc acc (s ++ t) = rev acc :: words_acc [] t.
Proof.
  intros N H E. destruct s as [|c s].
  - rewrite E by easy. cbn. destruct acc; easy.
  - cbn [List.app words_acc]. rewrite (H c) by now left. destruct acc; [easy|]. f_equal. apply words_spaces. intros x Hx. apply H. now right.
Qed.
Lemma words_row lead ws : row_ok lead ws -> words (row_text lead ws) = map fst ws.
Proof.
  intros (H1 & _ & H2 & H3). unfold words, row_text. rewrite words_spaces by exact H1. clear H1.
  induction ws as [|[w s] ws IH]; [easy|]. cbn [map List.concat fst snd]. destruct (H2 (w, s) (or_introl eq_refl)) as (A1 & A2 & A3). cbn [fst snd] in *.
  rewrite <- app_assoc, words_acc_word by exact A2. rewrite app_nil_r. rewrite words_end.
  - rewrite rev_involutive. f_equal. apply IH; [intros x Hx; apply H2; now right|]. intros x Hx. apply H3. destruct ws; [easy|]. now right.
  - intros E. apply A1. rewrite <- (rev_involutive w), E. reflexivity.
  - exact A3.
  - intros ->. destruct ws as [|y ws]; [easy|]. exfalso. now apply (H3 (w, []) (or_introl eq_refl)).
Qed.
Lemma words_trailing b : spaces b -> forall core acc, words_acc acc (core ++ b) = words_acc acc core.
Proof.
  intros Hb. induction core as [|c core IH]; intros acc.
  - cbn [List.app]. destruct acc as [|a acc].
    + rewrite <- (app_nil_r b), words_spaces by exact Hb. reflexivity.
    + rewrite <- (app_nil_r b), words_end by easy. reflexivity.
  - cbn [List.app words_acc]. destruct (is_ws c); [destruct acc; now rewrite IH|apply IH].
Qed.
Lemma words_strip t : words (strip t) = words t.
Proof.
  destruct (strip_split is_ws t) as (a & b & Ha & Hb & E & _). fold (strip t) in E. rewrite E at 2. unfold words.
  rewrite words_spaces by exact Ha. now rewrite words_trailing by exact Hb.
Qed.
(** What a word means in a column. *)
Definition cell_means (ty : typ) (w : text) (v : value) : Prop :=
  match ty with
  | TStr => v = VStr w
  | TFloat => exists r, real_ok r /\ e_exp r /\ w = real_text r /\ v = VFloat (real_value r)
  | _ => False
  end.
Lemma convert_means tys ws vs : Forall2 (fun tw v => cell_means (fst tw) (snd tw) v) (combine tys ws) vs -> length ws = length tys ->
  convert_row tys ws = Ok vs.
Proof.
  revert ws vs. induction tys as [|ty tys IH]; intros [|w ws] vs H L; try discriminate L.
  - inversion H. reflexivity.
  - cbn [combine] in H. inversion H as [|? v ? vs' H1 H2]; subst. cbn [convert_row]. cbn [fst snd] in H1.
    assert (C : cell_value ty w = Ok v).
    { destruct ty; cbn [cell_means] in H1; try easy; cbn [cell_value].
      - destruct H1 as (r & A & B & -> & ->). now rewrite py_float_text.
      - now rewrite H1. }
    rewrite C. cbn [bind]. rewrite (IH ws vs' H2) by (cbn in L; lia). reflexivity.
Qed.
Lemma strip_row lead ws : row_ok lead ws -> strip (row_text lead ws) <> [].
Proof.
  intros H E. pose proof (words_row lead ws H) as W. rewrite <- words_strip, E in W. destruct H as (_ & N & _). destruct ws; [easy|discriminate].
Qed.
(** A row and the values of its columns. *)
Definition means (tys : list typ) (row : text * list (text * text)) (vs : list value) : Prop :=
  row_ok (fst row) (snd row) /\ length (snd row) = length tys /\
  Forall2 (fun tw v => cell_means (fst tw) (snd tw) v) (combine tys (map fst (snd row))) vs.
Lemma card_rows_means tys rows vss rest : Forall2 (means tys) rows vss ->
  card_rows (Some tys) true (length rows) (map (fun r => row_text (fst r) (snd r)) rows ++ rest) = Ok (vss, rest).
Proof.
  induction 1 as [|row vs rows vss (R1 & R2 & R3) _ IH]; [easy|]. cbn [length map List.app card_rows].
  destruct (strip (row_text (fst row) (snd row))) as [|c t] eqn:E; [now apply strip_row in E|]. rewrite <- E, words_strip, words_row by exact R1.
  rewrite (convert_means tys _ vs R3) by now rewrite map_length. cbn [bind]. rewrite IH. reflexivity.
Qed.
Lemma opt_chars_free opt c : (forall x, In x opt -> wordc (lower1 x) = true) -> wordc (lower1 c) = false -> ~ In c opt.
Proof. intros H E I. apply H in I. congruence. Qed.
(** The header of a card: its name in any letter case, then nothing, or an option in braces or without. *)
Inductive head_opt := NoOpt | Braced (w1 w2 opt w3 : text) | Plain (w1 opt : text).
Definition opt_ok (o : head_opt) : Prop :=
  match o with
  | NoOpt => True
  | Braced w1 w2 opt w3 => spaces w1 /\ spaces w2 /\ spaces w3 /\ identifier opt
  | Plain w1 opt => spaces w1 /\ w1 <> [] /\ identifier opt
  end.
Definition opt_text (o : head_opt) : text :=
  match o with NoOpt => [] | Braced w1 w2 opt w3 => w1 ++ "{"%char :: w2 ++ opt ++ w3 ++ ["}"%char] | Plain w1 opt => w1 ++ opt end.
Definition opt_name (o : head_opt) : option text := match o with NoOpt => None | Braced _ _ opt _ => Some (lower opt) | Plain _ opt => Some (lower opt) end.
Lemma id_nonws k : identifier k -> nonws k.
Proof. intros [_ H] c Hc. destruct (wordc_facts _ (H c Hc)) as (A & _). now rewrite lower_ws_iff in A. Qed.
Lemma id_lower k : identifier k -> identifier (lower k).
Proof. intros [N H]. split; [destruct k; easy|]. intros c Hc. apply in_lower in Hc as (d & Hd & <-). rewrite lower_idem. now apply H. Qed.
Lemma header_words NAME o : identifier NAME -> opt_ok o -> let line := lower (NAME ++ opt_text o) in
  exists rest, (if mem_c "{" line then split_on "{" line else words line) = rest /\
  match opt_name o with
  | None => rest = [lower NAME]
  | Some opt => exists c u, rest = [c; u] /\ strip c = lower NAME /\ strip (rstrip_p (is_c "}") u) = opt
  end.
Proof.
  intros HN Ho line. eexists. split; [reflexivity|]. unfold line. pose proof (id_lower _ HN) as HN'. pose proof (id_nonws _ HN') as WN.
  assert (BR : ~ In "{"%char (lower NAME)). { apply opt_chars_free; [|reflexivity]. intros x Hx. now apply HN'. }
  destruct o as [|w1 w2 opt w3|w1 opt]; cbn [opt_text opt_name].
  - rewrite app_nil_r. rewrite mem_c_false by exact BR. unfold words. rewrite <- (app_nil_r (lower NAME)) at 1. rewrite words_acc_word by exact WN. rewrite app_nil_r.
    cbn. destruct (rev (lower NAME)) eqn:E; [exfalso; apply (proj1 HN'); rewrite <- (rev_involutive (lower NAME)), E; easy|]. now rewrite <- E, rev_involutive.
  - destruct Ho as (A1 & A2 & A3 & A4). pose proof (id_lower _ A4) as A5. rewrite !lower_app. cbn [lower map].
    change (map lower1 (w2 ++ opt ++ w3 ++ ["}"%char])) with (lower (w2 ++ opt ++ w3 ++ ["}"%char])). rewrite !lower_app, (lower_blank w1), (lower_blank w2), (lower_blank w3) by assumption.
    change (lower1 "{") with "{"%char. change (lower ["}"%char]) with ["}"%char].
    rewrite mem_c_true by (rewrite !in_app_iff; right; right; now left).
    rewrite app_assoc, split_sep.
    2:{ rewrite in_app_iff. intros [I|I]; [easy|apply A1 in I; discriminate]. }
    assert (BO : ~ In "{"%char (lower opt)) by (apply opt_chars_free; [intros x Hx; now apply A5|reflexivity]).
    rewrite split_none.
    2:{ rewrite !in_app_iff. intros [I|[I|[I|I]]]; [apply A2 in I; discriminate|easy|apply A3 in I; discriminate|]. destruct I as [I|[]]; discriminate. }
    eexists _, _. split; [reflexivity|]. split; [rewrite strip_ws_r by exact A1; now apply nonws_strip|].
    rewrite !app_assoc. rewrite rstrip_app by (intros x [<-|[]]; reflexivity).
    rewrite rstrip_id.
    + rewrite <- app_assoc, strip_ws_l, strip_ws_r by assumption. now apply nonws_strip, id_nonws.
    + destruct w3 as [|x w3] using rev_ind.
      * rewrite app_nil_r. apply lastnot_app; [apply A5|]. unfold lastnot. destruct (rev (lower opt)) as [|x l] eqn:E; [easy|]. cbn. apply Ascii.eqb_neq. intros ->.
        assert (I : In "}"%char (lower opt)) by (apply in_rev; rewrite E; now left). apply A5 in I. discriminate.
      * apply lastnot_app; [now destruct w3|]. apply lastnot_app; [easy|]. cbn. apply Ascii.eqb_neq. intros ->.
        assert (I : is_ws "}"%char = true) by (apply A3, in_or_app; right; now left). discriminate.
  - destruct Ho as (A1 & N1 & A4). pose proof (id_lower _ A4) as A5. rewrite !lower_app, (lower_blank w1) by assumption.
    rewrite mem_c_false.
    2:{ rewrite !in_app_iff. intros [I|[I|I]]; [easy|apply A1 in I; discriminate|]. apply A5 in I. discriminate. }
    assert (W : words (row_text [] [(lower NAME, w1); (lower opt, [])]) = map fst [(lower NAME, w1); (lower opt, [])]).
    { apply words_row. split; [easy|]. split; [easy|]. split.
      - intros x [<-|[<-|[]]]; cbn [fst snd]; (split; [now (apply HN' || apply A5)|]); (split; [now apply id_nonws|]); easy.
      - intros x [<-|[]]. exact N1. }
    unfold row_text in W. cbn [map List.concat fst snd List.app] in W. rewrite !app_nil_r, <- app_assoc in W. rewrite W.
    eexists _, _. split; [reflexivity|]. split; [now apply nonws_strip|]. rewrite rstrip_id; [now apply nonws_strip, id_nonws|].
    unfold lastnot. destruct (rev (lower opt)) as [|x l] eqn:E; [easy|]. cbn. apply Ascii.eqb_neq. intros ->.
    assert (I : In "}"%char (lower opt)) by (apply in_rev; rewrite E; now left). apply A5 in I. discriminate.
Qed.
Lemma header_line NAME o : identifier NAME -> opt_ok o -> strip (lower (NAME ++ opt_text o)) = lower (NAME ++ opt_text o).
Proof.
  intros HN Ho. pose proof (id_lower _ HN) as HN'. pose proof (id_nonws _ HN') as WN. rewrite lower_app. apply strip_id.
  - apply hdnot_app; [apply HN'|]. now apply nonws_hd.
  - destruct o as [|w1 w2 opt w3|w1 opt]; cbn [opt_text].
    + rewrite app_nil_r. now apply nonws_last.
    + replace (w1 ++ "{"%char :: w2 ++ opt ++ w3 ++ ["}"%char]) with ((w1 ++ "{"%char :: w2 ++ opt ++ w3) ++ ["}"%char]) by (rewrite <- !app_assoc; cbn [List.app]; now rewrite <- !app_assoc).
      rewrite lower_app, app_assoc. apply lastnot_app; easy.
    + destruct Ho as (_ & _ & A). pose proof (id_lower _ A) as A'. rewrite lower_app, app_assoc. apply lastnot_app; [apply A'|]. now apply nonws_last, id_nonws.
Qed.

(** ATOMIC_SPECIES and ATOMIC_POSITIONS: as many rows as ntyp or nat says are read in order, labels keep
    their letter case, the numeric columns hold the values written, and reading goes on after them.  A
    missing option of ATOMIC_POSITIONS is recorded as the string "None". *)
Theorem C51_card_read : forall fuel all lead NAME o trail count tys rows vss rest,
  (lower NAME = T "atomic_species" /\ count = T "ntyp" /\ tys = [TStr; TFloat; TStr] \/
   lower NAME = T "atomic_positions" /\ count = T "nat" /\ tys = [TStr; TFloat; TFloat; TFloat]) ->
  spaces lead -> spaces trail -> opt_ok o ->
  sys_field all count = Ok (VInt (Z.of_nat (length rows))) -> rows <> [] -> Forall2 (means tys) rows vss ->
  file_loop (S fuel) all ((lead ++ NAME ++ opt_text o ++ trail) :: map (fun r => row_text (fst r) (snd r)) rows ++ rest) =
  file_loop fuel (upd (lower NAME) (SCard (if teqb (lower NAME) (T "atomic_positions")
                                           then Some (match opt_name o with Some x => x | None => T "None" end) else opt_name o) vss) all) rest.
Proof.
  intros fuel all lead NAME o trail count tys rows vss rest HC Hl Ht Ho Hs NR HF.
  assert (HN : identifier NAME).
  { assert (X : forallb wordc (lower NAME) = true /\ lower NAME <> []) by (destruct HC as [[-> _]|[-> _]]; vm_compute; easy). destruct X as [X1 X2]. split.
    - intros ->. now apply X2.
    - intros c Hc. rewrite forallb_forall in X1. apply X1. now apply in_map. }
  cbn [file_loop]. rewrite lower_app, (lower_blank lead), strip_ws_l by exact Hl. rewrite app_assoc, lower_app, (lower_blank trail), strip_ws_r by exact Ht.
  rewrite header_line by assumption. destruct (header_words NAME o HN Ho) as (hw & E1 & E2).
  assert (HD : exists c t, lower (NAME ++ opt_text o) = c :: t /\ Ascii.eqb c "&" = false).
  { rewrite lower_app. pose proof (id_lower _ HN) as [N W]. destruct (lower NAME) as [|c t]; [easy|]. eexists _, _. split; [reflexivity|]. apply Ascii.eqb_neq. intros ->.
    specialize (W "&"%char (or_introl eq_refl)). discriminate. }
  destruct HD as (c0 & t0 & EH & AH). rewrite EH, AH. rewrite <- EH. clear EH AH c0 t0.
  assert (CR : card_rows (Some tys) true (length rows) (map (fun r => row_text (fst r) (snd r)) rows ++ rest) = Ok (vss, rest)) by now apply card_rows_means.
  assert (PO : positive (sys_field all count) = Ok (length rows)).
  { rewrite Hs. cbn [positive]. destruct rows; [easy|]. destruct (Z.leb_spec (Z.of_nat (length (p :: rows))) 0); [cbn in H; lia|]. now rewrite Nat2Z.id. }
  assert (CARD : card all (lower (NAME ++ opt_text o)) (map (fun r => row_text (fst r) (snd r)) rows ++ rest) =
     Ok (lower NAME, SCard (if teqb (lower NAME) (T "atomic_positions") then Some (match opt_name o with Some x => x | None => T "None" end) else opt_name o) vss, rest)).
  { unfold card. rewrite E1.
    assert (FIN : forall opt, opt = opt_name o ->
      match assoc (lower NAME) annotations with
      | None => Err KeyError
      | Some (Namelist _) => Err AttributeError
      | Some (Card has_option row) =>
          let option_ := if has_option then Some (match opt with Some o => o | None => T "None" end) else opt in
          do nrest <-
            (if teqb (lower NAME) (T "atomic_species") then do n <- positive (sys_field all (T "ntyp")); Ok (n, map (fun r => row_text (fst r) (snd r)) rows ++ rest)
             else if teqb (lower NAME) (T "atomic_positions") then do n <- positive (sys_field all (T "nat")); Ok (n, map (fun r => row_text (fst r) (snd r)) rows ++ rest)
             else if teqb (lower NAME) (T "k_points") then
               match option_ with
               | Some o => if teqb o (T "automatic") then Ok (1, map (fun r => row_text (fst r) (snd r)) rows ++ rest)
                           else match map (fun r => row_text (fst r) (snd r)) rows ++ rest with
                                | [] => Err ValueError
                                | l :: rest => do n <- positive (rmap VInt (py_int (strip (lower l)))); Ok (n, rest)
                                end
               | None => Err ValueError
               end
             else Ok (3, map (fun r => row_text (fst r) (snd r)) rows ++ rest));
          let cs := teqb (lower NAME) (T "atomic_species") || teqb (lower NAME) (T "atomic_positions") in
          do rr <- card_rows row cs (fst nrest) (snd nrest);
          Ok (lower NAME, SCard option_ (fst rr), snd rr)
      end = Ok (lower NAME, SCard (if teqb (lower NAME) (T "atomic_positions") then Some (match opt_name o with Some x => x | None => T "None" end) else opt_name o) vss, rest)).
    { intros opt ->. destruct HC as [(-> & -> & ->)|(-> & -> & ->)].
      - change (assoc (T "atomic_species") annotations) with (Some (Card false (Some [TStr; TFloat; TStr]))).
        change (teqb (T "atomic_species") (T "atomic_species")) with true. change (teqb (T "atomic_species") (T "atomic_positions")) with false. cbv iota zeta.
        rewrite PO. cbn [bind fst snd orb]. rewrite CR. reflexivity.
      - change (assoc (T "atomic_positions") annotations) with (Some (Card true (Some [TStr; TFloat; TFloat; TFloat]))).
        change (teqb (T "atomic_positions") (T "atomic_species")) with false. change (teqb (T "atomic_positions") (T "atomic_positions")) with true. cbv iota zeta.
        rewrite PO. cbn [bind fst snd orb]. rewrite CR. reflexivity. }
    destruct (opt_name o) as [opt|] eqn:EO.
    - destruct E2 as (c & u & -> & S1 & S2). cbn [List.app]. rewrite S1. rewrite (lower_lower NAME). rewrite ?EO in FIN. apply (FIN (Some (lower (strip (rstrip_p (is_c "}") u))))).
      rewrite S2. f_equal. destruct o; [discriminate| |]; cbn [opt_name] in EO; injection EO as <-; apply lower_lower.
    - rewrite E2. rewrite nonws_strip by now apply id_nonws, id_lower. rewrite (lower_lower NAME). rewrite ?EO in FIN. now apply (FIN None). }
  rewrite CARD. reflexivity.
Qed.
Print Assumptions C51_card_read.

(** ---- K_POINTS and CELL_PARAMETERS ---- *)
Lemma card_step fuel all lead NAME o trail lines : identifier NAME -> spaces lead -> spaces trail -> opt_ok o ->
  file_loop (S fuel) all ((lead ++ NAME ++ opt_text o ++ trail) :: lines) =
  (do nr <- match assoc (lower NAME) annotations with
      | None => Err KeyError
      | Some (Namelist _) => Err AttributeError
      | Some (Card has_option row) =>
          let option_ := if has_option then Some (match opt_name o with Some o => o | None => T "None" end) else opt_name o in
          do nrest <-
            (if teqb (lower NAME) (T "atomic_species") then do n <- positive (sys_field all (T "ntyp")); Ok (n, lines)
             else if teqb (lower NAME) (T "atomic_positions") then do n <- positive (sys_field all (T "nat")); Ok (n, lines)
             else if teqb (lower NAME) (T "k_points") then
               match option_ with
               | Some o => if teqb o (T "automatic") then Ok (1, lines)
                           else match lines with
                                | [] => Err ValueError
                                | l :: rest => do n <- positive (rmap VInt (py_int (strip (lower l)))); Ok (n, rest)
                                end
               | None => Err ValueError
               end
             else Ok (3, lines));
          let cs := teqb (lower NAME) (T "atomic_species") || teqb (lower NAME) (T "atomic_positions") in
          do rr <- card_rows row cs (fst nrest) (snd nrest);
          Ok (lower NAME, SCard option_ (fst rr), snd rr)
      end;
   file_loop fuel (upd (fst (fst nr)) (snd (fst nr)) all) (snd nr)).
Proof.
  intros HN Hl Ht Ho. cbn [file_loop]. rewrite lower_app, (lower_blank lead), strip_ws_l by exact Hl. rewrite app_assoc, lower_app, (lower_blank trail), strip_ws_r by exact Ht.
  rewrite header_line by assumption. destruct (header_words NAME o HN Ho) as (hw & E1 & E2).
  assert (HD : exists c t, lower (NAME ++ opt_text o) = c :: t /\ Ascii.eqb c "&" = false).
  { rewrite lower_app. pose proof (id_lower _ HN) as [N W]. destruct (lower NAME) as [|c t]; [easy|]. eexists _, _. split; [reflexivity|]. apply Ascii.eqb_neq. intros ->.
    specialize (W "&"%char (or_introl eq_refl)). discriminate. }
  destruct HD as (c0 & t0 & EH & AH). rewrite EH, AH. rewrite <- EH. clear EH AH c0 t0.
  f_equal. unfold card. rewrite E1.
  assert (LO : forall opt, opt_name o = Some opt -> lower opt = opt).
  { intros opt EO. destruct o; [discriminate| |]; cbn [opt_name] in EO; injection EO as <-; apply lower_lower. }
  destruct (opt_name o) as [opt|].
  - destruct E2 as (c & u & -> & S1 & S2). rewrite S1, (lower_lower NAME), S2, (LO opt eq_refl). reflexivity.
  - rewrite E2. rewrite nonws_strip by now apply id_nonws, id_lower. rewrite (lower_lower NAME). reflexivity.
Qed.
Lemma text_rows n lines rest : length lines = n -> (forall l, In l lines -> strip (lower l) <> []) ->
  card_rows None false n (lines ++ rest) = Ok (map (fun l => [VStr (strip (lower l))]) lines, rest).
Proof.
  revert n. induction lines as [|l lines IH]; intros n E H; cbn in E; subst n; [easy|]. cbn [List.app card_rows map].
  destruct (strip (lower l)) as [|c t] eqn:ES; [exfalso; apply (H l (or_introl eq_refl)); exact ES|]. cbn [bind].
  rewrite IH by (auto; intros x Hx; apply H; now right). reflexivity.
Qed.
Lemma id_of NAME name : lower NAME = name -> good_name name = true -> identifier NAME.
Proof.
  intros <- H. apply andb_prop in H as [H1 H2]. split; [intros ->; discriminate|]. intros c Hc. rewrite forallb_forall in H2. apply H2. now apply in_map.
Qed.
(** K_POINTS: with the option automatic one line is read; with any other option, or none, the next line
    is the number of k-points and that many lines follow.  Lines are kept as text, in order. *)
Theorem C51_kpoints_card : forall fuel all lead NAME o trail lines rest,
  lower NAME = T "k_points" -> spaces lead -> spaces trail -> opt_ok o ->
  (forall l, In l lines -> strip (lower l) <> []) ->
  (opt_name o = Some (T "automatic") -> length lines = 1 ->
   file_loop (S fuel) all ((lead ++ NAME ++ opt_text o ++ trail) :: lines ++ rest) =
   file_loop fuel (upd (T "k_points") (SCard (opt_name o) (map (fun l => [VStr (strip (lower l))]) lines)) all) rest) /\
  (opt_name o <> Some (T "automatic") -> forall w ds w', spaces w -> spaces w' -> int_ok ds -> lines <> [] ->
   denotes ds = Z.of_nat (length lines) ->
   file_loop (S fuel) all ((lead ++ NAME ++ opt_text o ++ trail) :: (w ++ digits_text ds ++ w') :: lines ++ rest) =
   file_loop fuel (upd (T "k_points") (SCard (Some (match opt_name o with Some x => x | None => T "None" end)) (map (fun l => [VStr (strip (lower l))]) lines)) all) rest).
Proof.
  intros fuel all lead NAME o trail lines rest EN Hl Ht Ho HL. assert (HN : identifier NAME) by (apply (id_of NAME _ EN); reflexivity). split.
  - intros EO L1. rewrite card_step by assumption. rewrite EN, EO.
    change (assoc (T "k_points") annotations) with (Some (Card true None)). cbv iota zeta.
    change (teqb (T "k_points") (T "atomic_species")) with false. change (teqb (T "k_points") (T "atomic_positions")) with false. change (teqb (T "k_points") (T "k_points")) with true.
    change (teqb (T "automatic") (T "automatic")) with true. cbv iota. cbn [bind fst snd orb]. rewrite text_rows by auto. reflexivity.
  - intros NE w ds w' Hw Hw' Hd NL ED. rewrite card_step by assumption. rewrite EN.
    change (assoc (T "k_points") annotations) with (Some (Card true None)). cbv iota zeta.
    change (teqb (T "k_points") (T "atomic_species")) with false. change (teqb (T "k_points") (T "atomic_positions")) with false. change (teqb (T "k_points") (T "k_points")) with true. cbv iota.
    assert (X : teqb (match opt_name o with Some o0 => o0 | None => T "None" end) (T "automatic") = false).
    { apply teqb_neq. intros X. destruct (opt_name o) as [x|]; [subst x; now apply NE|discriminate]. }
    rewrite X. assert (PI : py_int (strip (lower (w ++ digits_text ds ++ w'))) = Ok (Z.of_nat (length lines))).
    { destruct Hd as [Hd1 Hd2]. rewrite !lower_app, (lower_blank w), (lower_blank w'), lower_digits by assumption. rewrite strip_ws_l, strip_ws_r by assumption.
      rewrite nonws_strip by (intros c Hc; apply digit_ws; now apply (digits_alls ds)). rewrite <- ED. exact (py_int_text NoSign ds (conj Hd1 Hd2)). }
    rewrite PI. unfold rmap. cbn [positive]. destruct lines as [|l0 lines]; [easy|]. destruct (Z.leb_spec (Z.of_nat (length (l0 :: lines))) 0); [cbn in H; lia|]. rewrite Nat2Z.id. cbn [bind fst snd orb].
    rewrite text_rows by auto. reflexivity.
Qed.
Print Assumptions C51_kpoints_card.

Lemma lower_real r : real_ok r -> e_exp r -> lower (real_text r) = real_text (with_e r) /\ real_ok (with_e r) /\ e_exp (with_e r) /\ real_value (with_e r) = real_value r.
Proof.
  intros H He. pose proof H as (H1 & H2 & H3 & H4). destruct r as [s i f e]. unfold with_e, real_ok, e_exp, real_value, real_exponent, frac_digits, real_text in *. cbn [r_sgn r_int r_frac r_exp] in *.
  split; [|split; [|split]].
  - rewrite !lower_app. f_equal; [now destruct s|]. f_equal; [now apply lower_digits|]. f_equal.
    + destruct f as [f|]; [|easy]. cbn [lower map]. f_equal. now apply lower_digits.
    + destruct e as [[c [s' ds]]|]; [|easy]. cbn [option_map snd lower map]. f_equal; [now destruct He as [-> | ->]|]. apply lower_int. now destruct H4 as (_ & _ & ?).
  - repeat split; auto. destruct e as [[c [s' ds]]|]; [|easy]. cbn. split; [now left|easy].
  - destruct e as [[c [s' ds]]|]; [|easy]. now left.
  - now destruct e as [[c [s' ds]]|].
Qed.
Lemma lower_concat l : lower (List.concat l) = List.concat (map lower l).
Proof. induction l as [|x l IH]; [easy|]. cbn [List.concat map]. now rewrite lower_app, IH. Qed.
Lemma in_removelast_map {A B} (f : A -> B) l x : In x (removelast (map f l)) -> exists y, In y (removelast l) /\ x = f y.
Proof.
  induction l as [|a l IH]; [easy|]. destruct l as [|b l]; [easy|]. intros [<-|H]; [exists a; split; [now left|easy]|]. destruct (IH H) as (y & Hy & ->). exists y. split; [now right|easy].
Qed.
Definition lower_row (row : text * list (text * text)) : text * list (text * text) := (fst row, map (fun x => (lower (fst x), snd x)) (snd row)).
Lemma lower_row_ok row : row_ok (fst row) (snd row) -> row_ok (fst (lower_row row)) (snd (lower_row row)) /\ lower (row_text (fst row) (snd row)) = row_text (fst (lower_row row)) (snd (lower_row row)).
Proof.
  destruct row as [lead ws]. cbn [fst snd lower_row]. intros (H1 & H2 & H3 & H4). split.
  - split; [exact H1|]. split; [destruct ws; easy|]. split.
    + intros x Hx. apply in_map_iff in Hx as (y & <- & Hy). destruct (H3 y Hy) as (A1 & A2 & A3). cbn [fst snd]. split; [destruct (fst y); easy|]. split; [|exact A3].
      intros c Hc. apply in_lower in Hc as (d & Hd & <-). rewrite lower_ws_iff. now apply A2.
    + intros x Hx. apply in_removelast_map in Hx as (y & Hy & ->). cbn [snd]. now apply H4.
  - unfold row_text. rewrite lower_app, (lower_blank lead) by exact H1. f_equal. rewrite lower_concat, !map_map. f_equal. apply map_ext_in. intros y Hy.
    destruct (H3 y Hy) as (_ & _ & A3). cbv beta. cbn [fst snd]. rewrite lower_app. f_equal. now apply lower_blank.
Qed.
Lemma card_rows_lower tys rows vss rest : (forall ty, In ty tys -> ty = TFloat) -> Forall2 (means tys) rows vss ->
  card_rows (Some tys) false (length rows) (map (fun r => row_text (fst r) (snd r)) rows ++ rest) = Ok (vss, rest).
Proof.
  intros HT. induction 1 as [|row vs rows vss (R1 & R2 & R3) _ IH]; [easy|]. cbn [length map List.app card_rows].
  destruct (lower_row_ok row R1) as [R1' EL]. rewrite EL. destruct (strip (row_text (fst (lower_row row)) (snd (lower_row row)))) as [|c t] eqn:E; [now apply strip_row in E|].
  rewrite <- E, words_strip, words_row by exact R1'. cbn [lower_row snd]. rewrite map_map. cbn [fst].
  assert (X : convert_row tys (map (fun x => lower (fst x)) (snd row)) = Ok vs).
  { apply convert_means; [|now rewrite map_length]. clear -R3 R2 HT. revert R2 R3. destruct row as [lead ws]. cbn [snd]. revert tys vs HT.
    induction ws as [|w ws IH]; intros [|ty tys] vs HT L H; try discriminate L; [inversion H; constructor|]. cbn [map combine] in *.
    inversion H as [|? v ? vs' H1 H2]; subst. constructor.
    - cbn [fst snd] in *. rewrite (HT ty) in * by now left. destruct H1 as (r & A & B & -> & ->). destruct (lower_real r A B) as (C1 & C2 & C3 & C4).
      exists (with_e r). rewrite C4. auto.
    - apply IH; [intros; apply HT; now right|cbn in L; lia|exact H2]. }
  rewrite X. cbn [bind]. rewrite IH. reflexivity.
Qed.
(** CELL_PARAMETERS: exactly three rows of three numbers. *)
Theorem C51_cell_card : forall fuel all lead NAME o trail rows vss rest,
  lower NAME = T "cell_parameters" -> spaces lead -> spaces trail -> opt_ok o ->
  length rows = 3 -> Forall2 (means [TFloat; TFloat; TFloat]) rows vss ->
  file_loop (S fuel) all ((lead ++ NAME ++ opt_text o ++ trail) :: map (fun r => row_text (fst r) (snd r)) rows ++ rest) =
  file_loop fuel (upd (T "cell_parameters") (SCard (Some (match opt_name o with Some x => x | None => T "None" end)) vss) all) rest.
Proof.
  intros fuel all lead NAME o trail rows vss rest EN Hl Ht Ho L HF. assert (HN : identifier NAME) by (apply (id_of NAME _ EN); reflexivity).
  rewrite card_step by assumption. rewrite EN.
  change (assoc (T "cell_parameters") annotations) with (Some (Card true (Some [TFloat; TFloat; TFloat]))). cbv iota zeta.
  change (teqb (T "cell_parameters") (T "atomic_species")) with false. change (teqb (T "cell_parameters") (T "atomic_positions")) with false. change (teqb (T "cell_parameters") (T "k_points")) with false. cbv iota.
  cbn [bind fst snd orb]. rewrite <- L. rewrite (card_rows_lower [TFloat; TFloat; TFloat] rows vss); [reflexivity| |exact HF]. intros ty [<-|[<-|[<-|[]]]]; reflexivity.
Qed.
Print Assumptions C51_cell_card.

(** A file that is read has all of the six required sections; a file whose sections are read without
    error but lacks one of them raises TypeError. *)
Definition needed (k : text) : Prop :=
  k = T "control" \/ k = T "system" \/ k = T "electrons" \/ k = T "atomic_species" \/ k = T "atomic_positions" \/ k = T "k_points".
Theorem C51_required_sections : forall lines all, file_loop (length lines) [] lines = Ok all ->
  ((forall k, needed k -> assoc k all <> None) -> from_file lines = Ok all) /\
  ((exists k, needed k /\ assoc k all = None) -> from_file lines = Err TypeError).
Proof.
  intros lines all E. unfold from_file. rewrite E. cbn [bind]. split.
  - intros H. replace (forallb _ required_sections) with true; [easy|]. symmetry. apply forallb_forall. intros k Hk.
    specialize (H k). destruct (assoc k all); [easy|]. exfalso. apply H; [|easy]. unfold needed. cbn in Hk. intuition auto.
  - intros (k & Hk & EK). destruct (forallb _ required_sections) eqn:F; [|easy]. exfalso. rewrite forallb_forall in F. specialize (F k). cbv beta in F. rewrite EK in F.
    assert (false = true); [|discriminate]. apply F. unfold needed in Hk. cbn. intuition auto.
Qed.
Print Assumptions C51_required_sections.

(** Card numbers with a Fortran d exponent are rejected, although namelist numbers may have one. *)
Theorem C51_card_d_exponent_refuted :
  py_float (T "1.0d0") = Err ValueError /\
  (exists x, namelist system_fields [] [T "ecutwfc = 1.0d0"; T "/"] = Ok ([(T "ecutwfc", VFloat x)], [])) /\
  card_rows (Some [TStr; TFloat; TFloat; TFloat]) true 1 [T "Si 0.0 0.0 2.5d-1"] = Err ValueError.
Proof. split; [reflexivity|]. split; [eexists; reflexivity|reflexivity]. Qed.
Print Assumptions C51_card_d_exponent_refuted.

(** A section that is not known: ValueError for a namelist, KeyError for a card. *)
Theorem C51_unknown_section : forall fuel all w NAME w' rest, spaces w -> spaces w' -> identifier NAME -> assoc (lower NAME) annotations = None ->
  file_loop (S fuel) all ((w ++ "&"%char :: NAME ++ w') :: rest) = Err ValueError /\
  file_loop (S fuel) all ((w ++ NAME ++ w') :: rest) = Err KeyError.
Proof.
  intros fuel all w NAME w' rest Hw Hw' HN E. pose proof (id_lower _ HN) as HN'. pose proof (id_nonws _ HN') as WN. split.
  - cbn [file_loop]. rewrite lower_app, (lower_blank w), strip_ws_l by exact Hw. change (lower ("&"%char :: NAME ++ w')) with ("&"%char :: lower (NAME ++ w')).
    rewrite lower_app, (lower_blank w') by exact Hw'. change ("&"%char :: lower NAME ++ w') with (("&"%char :: lower NAME) ++ w'). rewrite strip_ws_r by exact Hw'.
    rewrite nonws_strip by (intros x [<-|Hx]; [reflexivity|now apply WN]). change (("&" =? "&")%char) with true. cbv iota. now rewrite E.
  - cbn [file_loop]. rewrite lower_app, (lower_blank w), strip_ws_l by exact Hw. rewrite lower_app, (lower_blank w'), strip_ws_r by exact Hw'. rewrite nonws_strip by exact WN.
    assert (C : card all (lower NAME) rest = Err KeyError).
    { destruct (header_words NAME NoOpt HN I) as (hw & E1 & E2). cbn [opt_text opt_name] in E1, E2. rewrite app_nil_r in E1. unfold card. rewrite E1, E2.
      rewrite nonws_strip by exact WN. rewrite (lower_lower NAME), E. reflexivity. }
    destruct (lower NAME) as [|c t] eqn:EN; [now destruct HN'|]. destruct (Ascii.eqb_spec c "&") as [->|_]; [|now rewrite C].
    destruct HN' as [_ W]. specialize (W "&"%char (or_introl eq_refl)). discriminate.
Qed.
Print Assumptions C51_unknown_section.

(** The bound on the iterations of the model's file loop never stops it early. *)
Lemma namelist_shorter fs : forall lines data d r, namelist fs data lines = Ok (d, r) -> length r < length lines.
Proof.
  induction lines as [|raw lines IH]; intros data d r; cbn [namelist]; [discriminate|].
  destruct (lstrip _) as [|c t]; [discriminate|]. destruct (Ascii.eqb c "!" || Ascii.eqb c "#").
  - intros H. apply IH in H. cbn [length]. lia.
  - destruct (Ascii.eqb c "/"); [injection 1 as _ <-; cbn; lia|]. destruct (assign_line _ _ _); cbn [bind]; [|discriminate]. intros H. apply IH in H. cbn [length]. lia.
Qed.
Lemma card_rows_shorter row cs : forall n lines d r, card_rows row cs n lines = Ok (d, r) -> length r <= length lines.
Proof.
  induction n as [|n IH]; intros lines d r; cbn [card_rows]; [injection 1 as _ <-; lia|].
  destruct lines as [|raw lines]; [discriminate|]. destruct (strip _) as [|c t]; [discriminate|].
  match goal with |- bind ?x _ = _ -> _ => destruct x as [v|e] end; cbn [bind]; [|discriminate].
  destruct (card_rows row cs n lines) as [[d' r']|] eqn:E; cbn [bind fst snd]; [|discriminate]. injection 1 as _ <-. apply IH in E. cbn [length]. lia.
Qed.
Lemma card_shorter all line lines x r : card all line lines = Ok (x, r) -> length r <= length lines.
Proof.
  unfold card. destruct (if mem_c "{" line then split_on "{" line else words line) as [|c [|o [|? ?]]]; try discriminate;
  (destruct (assoc _ annotations) as [[f|has row]|]; try discriminate); cbv zeta;
  (match goal with |- bind ?y _ = _ -> _ => destruct y as [[n rest]|e] eqn:EN end; cbn [bind fst snd]; [|discriminate]);
  (match goal with |- bind ?y _ = _ -> _ => destruct y as [[d r']|e] eqn:ER end; cbn [bind fst snd]; [|discriminate]);
  injection 1 as _ <-; apply card_rows_shorter in ER.
  all: enough (length rest <= length lines) by lia; clear ER; revert EN.
  all: repeat match goal with
       | |- (if ?b then _ else _) = _ -> _ => destruct b
       | |- bind ?y _ = _ -> _ => destruct y; cbn [bind]; [|discriminate]
       | |- Ok _ = Ok _ -> _ => injection 1 as _ <-; lia
       | |- match ?l with [] => _ | _ => _ end = _ -> _ => destruct l; [discriminate|]
       | |- match ?l with Some _ => _ | None => _ end = _ -> _ => destruct l; try discriminate
       end.
  all: try (injection 1 as _ <-; cbn [length]; lia).
Qed.
Theorem C51_fuel : forall lines fuel all, length lines <= fuel -> file_loop fuel all lines = file_loop (length lines) all lines.
Proof.
  assert (G : forall n lines f1 f2 all, length lines <= n -> length lines <= f1 -> length lines <= f2 -> file_loop f1 all lines = file_loop f2 all lines).
  { induction n as [|n IH]; intros lines f1 f2 all Hn H1 H2.
    - destruct lines; [|cbn in Hn; lia]. destruct f1, f2; reflexivity.
    - destruct lines as [|raw lines]; [destruct f1, f2; reflexivity|]. cbn [length] in *. destruct f1 as [|f1]; [lia|]. destruct f2 as [|f2]; [lia|].
      cbn [file_loop]. destruct (strip (lower raw)) as [|c name]; [apply IH; lia|]. destruct (Ascii.eqb c "&").
      + destruct (assoc name annotations) as [[fs|? ?]|]; try easy. destruct (namelist fs [] lines) as [[d r]|] eqn:E; cbn [bind fst snd]; [|easy].
        apply namelist_shorter in E. destruct (build fs d); cbn [bind]; [|easy]. apply IH; lia.
      + destruct (card all (c :: name) lines) as [[x r]|] eqn:E; cbn [bind fst snd]; [|easy]. apply card_shorter in E. apply IH; lia. }
  intros lines fuel all H. apply (G (length lines)); lia.
Qed.
Print Assumptions C51_fuel.

(** A complete file. *)
Definition silicon : list text := map T
  ["&CONTROL"; "  calculation = 'scf', ! comment"; "/"; "&SYSTEM"; "ibrav = 2, celldm(1) = 10.2,"; "! cutoff";
   "nat=1, ntyp=1, ecutwfc=2.5D1"; "/"; "&electrons"; "/"; "ATOMIC_SPECIES"; "Si 28.0855 Si.upf"; "ATOMIC_POSITIONS {alat}"; "Si 0.00 0.25 1e-2"; "K_POINTS automatic"; "2 2 2 0 0 0"]%string.
Example C51_silicon_comment : from_file silicon = Err ValueError.
Proof. vm_compute. reflexivity. Qed.
Definition silicon2 : list text := map T
  ["&CONTROL"; "  calculation = 'scf',"; "/"; "&SYSTEM"; "ibrav = 2, celldm(1) = 10.2,"; "! cutoff";
   "nat=1, ntyp=1, ecutwfc=2.5D1"; "/"; "&electrons"; "/"; "ATOMIC_SPECIES"; "Si 28.0855 Si.upf"; "ATOMIC_POSITIONS {alat}"; "Si 0.00 0.25 1e-2"; "K_POINTS automatic"; "2 2 2 0 0 0"]%string.
Example C51_silicon_read : exists all sys, from_file silicon2 = Ok all /\ assoc (T "system") all = Some (SNamelist sys) /\
  assoc (T "ibrav") sys = Some (VInt 2) /\ assoc (T "nspin") sys = Some (VInt 1) /\
  assoc (T "ecutwfc") sys = Some (VFloat (IZR 25 * powerRZ 10 (1 - 1))) /\
  (exists rows, assoc (T "atomic_positions") all = Some (SCard (Some (T "alat")) rows) /\ length rows = 1) /\
  (exists rows, assoc (T "k_points") all = Some (SCard (Some (T "automatic")) rows) /\ rows = [[VStr (T "2 2 2 0 0 0")]]).
Proof. eexists _, _. split; [reflexivity|]. split; [reflexivity|]. split; [reflexivity|]. split; [reflexivity|]. split; [reflexivity|]. split; eexists; split; reflexivity. Qed.
(** A case of C51_namelist_object and one of C51_card_read. *)
Definition ex_asg (k : text) (i : option (text * (sgn * list nat) * text)) (l : lit) : asg := MkAsg (T " ") k i (T " ") (T " ") l [].
Example C51_object_example :
  let nl := [Comment [] "!"%char (T " cutoffs"); Assigns [ex_asg (T "NAT") None (LInt NoSign [2]); ex_asg (T "ntyp") None (LInt NoSign [1])] 1 [];
             Assigns [ex_asg (T "celldm") (Some ([], (NoSign, [1]), [])) (LReal (MkReal NoSign [1;0] (Some [2]) None))] 0 [];
             Assigns [ex_asg (T "ibrav") None (LInt NoSign [2]); ex_asg (T "ecutwfc") None (LReal (MkReal NoSign [2] (Some [5]) (Some ("D"%char, (Plus, [1])))))] 0 []] in
  (forall n, In n nl -> nline_ok n) /\ fits system_fields nl /\ (forall k, required system_fields k -> last_such (sets k) (asgs_all nl) <> None) /\
  map nline_text nl = map T ["! cutoffs"; " NAT = 2, ntyp = 1,"; " celldm(1) = 10.2"; " ibrav = 2, ecutwfc = 2.5D+1"]%string.
Proof.
  intros nl. assert (BL : blank (T " ")) by (intros c [<-|[]]; now left). assert (BN : blank []) by (intros c []).
  assert (DG : forall ds, forallb (fun d => d <? 10) ds = true -> digits_ok ds).
  { intros ds H d Hd. rewrite forallb_forall in H. apply H in Hd. now apply Nat.ltb_lt. }
  split; [|split; [|split]].
  - intros n [<-|[<-|[<-|[<-|[]]]]]; cbn [nline_ok].
    + split; [exact BN|now left].
    + split; [easy|]. split; [exact BN|]. intros a [<-|[<-|[]]]; repeat split; cbn; auto; try easy; apply DG; reflexivity.
    + split; [easy|]. split; [exact BN|]. intros a [<-|[]]; repeat split; cbn; auto; try easy; apply DG; reflexivity.
    + split; [easy|]. split; [exact BN|]. intros a [<-|[<-|[]]]; repeat split; cbn; auto; try easy; apply DG; reflexivity.
  - intros a [<-|[<-|[<-|[<-|[<-|[]]]]]]; eexists _, _; (split; [reflexivity|]); cbn; easy.
  - intros k (ty & E). apply assoc_in in E. cbn [In system_fields] in E.
    repeat (destruct E as [E|E]; [try discriminate E; injection E as <- _; vm_compute; discriminate|]). destruct E.
  - reflexivity.
Qed.
Example C51_card_example :
  let rows := [(T " ", [(T "Si", T "  "); (T "0.0", T " "); (T "0.25", T " "); (T "-1E-2", [])])] in
  Forall2 (means [TStr; TFloat; TFloat; TFloat]) rows
    [[VStr (T "Si"); VFloat (real_value (MkReal NoSign [0] (Some [0]) None)); VFloat (real_value (MkReal NoSign [0] (Some [2;5]) None));
      VFloat (real_value (MkReal Minus [1] None (Some ("E"%char, (Minus, [2])))))]] /\
  opt_ok (Braced (T " ") [] (T "crystal") []).
Proof.
  intros rows. assert (DG : forall ds, forallb (fun d => d <? 10) ds = true -> digits_ok ds).
  { intros ds H d Hd. rewrite forallb_forall in H. apply H in Hd. now apply Nat.ltb_lt. }
  assert (SP : forall w, forallb is_ws w = true -> spaces w) by (intros w H c Hc; rewrite forallb_forall in H; auto).
  assert (NW : forall w, forallb (fun c => negb (is_ws c)) w = true -> nonws w) by (intros w H c Hc; rewrite forallb_forall in H; apply H in Hc; now destruct (is_ws c)).
  split.
  - constructor; [|constructor]. split; [|split; [reflexivity|]].
    + split; [apply SP; reflexivity|]. split; [easy|]. split.
      * intros x [<-|[<-|[<-|[<-|[]]]]]; cbn [fst snd]; (split; [easy|]); (split; [apply NW; reflexivity|apply SP; reflexivity]).
      * intros x [<-|[<-|[<-|[]]]]; easy.
    + cbn [map fst snd combine]. constructor; [reflexivity|].
      constructor; [exists (MkReal NoSign [0] (Some [0]) None); split; [|split; [|split; reflexivity]]; repeat split; cbn; auto; try easy; apply DG; reflexivity|].
      constructor; [exists (MkReal NoSign [0] (Some [2;5]) None); split; [|split; [|split; reflexivity]]; repeat split; cbn; auto; try easy; apply DG; reflexivity|].
      constructor; [exists (MkReal Minus [1] None (Some ("E"%char, (Minus, [2])))); split; [|split; [|split; reflexivity]]; repeat split; cbn; auto; try easy; apply DG; reflexivity|]. constructor.
  - repeat split; try (apply SP; reflexivity); try easy. intros c Hc. cbn in Hc. repeat (destruct Hc as [<-|Hc]; [reflexivity|]). destruct Hc.
Qed.

(** The fields: which are integers, reals, logicals, strings and indexed reals, and which must be given. *)
Definition of_type (fs : fields) (p : typ -> bool) : list text := map fst (filter (fun f => p (fst (snd f))) fs).
Definition is_int (ty : typ) : bool := match ty with TInt => true | _ => false end.
Definition is_float (ty : typ) : bool := match ty with TFloat => true | _ => false end.
Definition is_bool (ty : typ) : bool := match ty with TBool => true | _ => false end.
Definition is_str (ty : typ) : bool := match ty with TStr => true | _ => false end.
Definition is_dict (ty : typ) : bool := match ty with TDict => true | _ => false end.
Theorem C51_field_types :
  of_type control_fields is_int = map T ["iprint"]%string /\ of_type control_fields is_float = map T ["max_seconds"]%string /\
  of_type control_fields is_str = map T ["calculation"; "title"; "verbosity"; "restart_mode"; "outdir"; "prefix"; "disk_io"; "pseudo_dir"]%string /\
  of_type control_fields is_bool = [] /\ of_type control_fields is_dict = [] /\
  of_type system_fields is_int = map T ["ibrav"; "nat"; "ntyp"; "nr1"; "nr2"; "nr3"; "nspin"; "nbnd"]%string /\
  of_type system_fields is_float = map T ["ecutwfc"; "a"; "b"; "c"; "cosab"; "cosac"; "cosbc"; "ecutrho"; "degauss"]%string /\
  of_type system_fields is_str = map T ["occupations"; "smearing"; "input_dft"]%string /\
  of_type system_fields is_bool = map T ["noncolin"; "nosym"; "nosym_evc"; "noinv"]%string /\
  of_type system_fields is_dict = map T ["celldm"; "starting_magnetization"]%string /\
  of_type electrons_fields is_int = map T ["electron_maxstep"; "mixing_ndim"; "diago_david_ndim"]%string /\
  of_type electrons_fields is_float = map T ["conv_thr"; "mixing_beta"; "diago_thr_init"]%string /\
  of_type electrons_fields is_str = map T ["mixing_mode"; "diagonalization"; "startingpot"; "startingwfc"]%string /\
  of_type electrons_fields is_bool = map T ["diago_full_acc"]%string /\ of_type electrons_fields is_dict = [] /\
  (forall name fs k, In (name, Namelist fs) annotations -> required fs k ->
     name = T "system" /\ (k = T "ibrav" \/ k = T "nat" \/ k = T "ntyp" \/ k = T "ecutwfc")) /\
  (forall k, k = T "ibrav" \/ k = T "nat" \/ k = T "ntyp" \/ k = T "ecutwfc" -> required system_fields k).
Proof.
  do 15 (split; [vm_compute; reflexivity|]). split.
  - assert (X : forallb (fun a => match snd a with Namelist fs => forallb (fun f => match snd (snd f) with
        None => teqb (fst a) (T "system") && existsb (teqb (fst f)) [T "ibrav"; T "nat"; T "ntyp"; T "ecutwfc"] | Some _ => true end) fs | Card _ _ => true end) annotations = true) by (vm_compute; reflexivity).
    intros name fs k H (ty & E). apply assoc_in in E. rewrite forallb_forall in X. specialize (X _ H). cbn [fst snd] in X. rewrite forallb_forall in X. specialize (X _ E). cbn [fst snd] in X.
    apply andb_prop in X as [X1 X2]. apply teqb_eq in X1. split; [exact X1|]. apply existsb_exists in X2 as (y & Hy & E2). apply teqb_eq in E2. subst y. cbn [In] in Hy. intuition auto.
  - intros k [-> |[-> |[-> | ->]]]; eexists; reflexivity.
Qed.
Print Assumptions C51_field_types.

(** ATOMIC_SPECIES and ATOMIC_POSITIONS: before the system namelist they raise KeyError; with a count that
    is not positive, or with fewer non-blank lines than the count, ValueError. *)
Theorem C51_card_count : forall fuel all lead NAME o trail count tys lines,
  (lower NAME = T "atomic_species" /\ count = T "ntyp" /\ tys = [TStr; TFloat; TStr] \/
   lower NAME = T "atomic_positions" /\ count = T "nat" /\ tys = [TStr; TFloat; TFloat; TFloat]) ->
  spaces lead -> spaces trail -> opt_ok o ->
  (assoc (T "system") all = None -> file_loop (S fuel) all ((lead ++ NAME ++ opt_text o ++ trail) :: lines) = Err KeyError) /\
  (forall z, sys_field all count = Ok (VInt z) -> (z <= 0)%Z -> file_loop (S fuel) all ((lead ++ NAME ++ opt_text o ++ trail) :: lines) = Err ValueError) /\
  (forall rows vss, Forall2 (means tys) rows vss -> forall z, sys_field all count = Ok (VInt z) -> (Z.of_nat (length rows) < z)%Z ->
     forall rest, match rest with [] => True | l :: _ => spaces l end -> lines = map (fun r => row_text (fst r) (snd r)) rows ++ rest ->
     file_loop (S fuel) all ((lead ++ NAME ++ opt_text o ++ trail) :: lines) = Err ValueError).
Proof.
  intros fuel all lead NAME o trail count tys lines HC Hl Ht Ho.
  assert (HN : identifier NAME) by (destruct HC as [(E & _)|(E & _)]; apply (id_of NAME _ E); reflexivity).
  rewrite card_step by assumption.
  assert (STEP : forall R, (forall has, (do nrest <- (do n <- positive (sys_field all count); Ok (n, lines));
          do rr <- card_rows (Some tys) true (fst nrest) (snd nrest); Ok (lower NAME, SCard (if has : bool then Some (match opt_name o with Some o => o | None => T "None" end) else opt_name o) (fst rr), snd rr)) = Err R) ->
     (do nr <- match assoc (lower NAME) annotations with
      | None => Err KeyError
      | Some (Namelist _) => Err AttributeError
      | Some (Card has_option row) =>
          let option_ := if has_option then Some (match opt_name o with Some o => o | None => T "None" end) else opt_name o in
          do nrest <-
            (if teqb (lower NAME) (T "atomic_species") then do n <- positive (sys_field all (T "ntyp")); Ok (n, lines)
             else if teqb (lower NAME) (T "atomic_positions") then do n <- positive (sys_field all (T "nat")); Ok (n, lines)
             else if teqb (lower NAME) (T "k_points") then
               match option_ with
               | Some o => if teqb o (T "automatic") then Ok (1, lines)
                           else match lines with
                                | [] => Err ValueError
                                | l :: rest => do n <- positive (rmap VInt (py_int (strip (lower l)))); Ok (n, rest)
                                end
               | None => Err ValueError
               end
             else Ok (3, lines));
          let cs := teqb (lower NAME) (T "atomic_species") || teqb (lower NAME) (T "atomic_positions") in
          do rr <- card_rows row cs (fst nrest) (snd nrest);
          Ok (lower NAME, SCard option_ (fst rr), snd rr)
      end;
   file_loop fuel (upd (fst (fst nr)) (snd (fst nr)) all) (snd nr)) = Err R).
  { intros R H. destruct HC as [(EN & EC & ET)|(EN & EC & ET)]; rewrite EN, EC, ET in *.
    - change (assoc (T "atomic_species") annotations) with (Some (Card false (Some [TStr; TFloat; TStr]))).
      change (teqb (T "atomic_species") (T "atomic_species")) with true. cbv iota zeta. cbn [orb]. specialize (H false). cbv iota in H. rewrite H. reflexivity.
    - change (assoc (T "atomic_positions") annotations) with (Some (Card true (Some [TStr; TFloat; TFloat; TFloat]))).
      change (teqb (T "atomic_positions") (T "atomic_species")) with false. change (teqb (T "atomic_positions") (T "atomic_positions")) with true. cbv iota zeta. cbn [orb]. specialize (H true). cbv iota in H. rewrite H. reflexivity. }
  split; [|split].
  - intros E. apply STEP. intros has. unfold sys_field. rewrite E. reflexivity.
  - intros z E Hz. apply STEP. intros has. rewrite E. cbn [positive]. destruct (Z.leb_spec z 0); [reflexivity|lia].
  - intros rows vss HF z E Hz rest Hr EL. apply STEP. intros has. rewrite E. cbn [positive]. destruct (Z.leb_spec z 0); [reflexivity|]. cbn [bind fst snd]. rewrite EL.
    assert (X : card_rows (Some tys) true (Z.to_nat z) (map (fun r => row_text (fst r) (snd r)) rows ++ rest) = Err ValueError).
    { assert (L : length rows < Z.to_nat z) by lia. clear -HF L Hr. revert L. generalize (Z.to_nat z). induction HF as [|row vs rows vss (R1 & R2 & R3) _ IH]; intros n L.
      - destruct n as [|n]; [cbn in L; lia|]. cbn [map List.app card_rows]. destruct rest as [|l rest]; [easy|].
        assert (ES : strip l = []) by (rewrite <- (app_nil_l l), strip_ws_r by exact Hr; reflexivity). now rewrite ES.
      - destruct n as [|n]; [cbn in L; lia|]. cbn [length map List.app card_rows] in *.
        destruct (strip (row_text (fst row) (snd row))) as [|c t] eqn:ES; [now apply strip_row in ES|]. rewrite <- ES, words_strip, words_row by exact R1.
        rewrite (convert_means tys _ vs R3) by now rewrite map_length. cbn [bind]. rewrite IH by lia. reflexivity. }
    rewrite X. reflexivity.
Qed.
Print Assumptions C51_card_count.
