(** C75: the BerkeleyGW input readers. *)
From Coq Require Import Reals Ascii String Lra.
From Verif Require Import Base LatModel QeInpModel QeInpSpec QeInpProofs PropsQeInp PropsUpf PropsParseInp BgwInpModel.
Local Open Scope nat_scope.

(** ---- specification: what is written in the file ---- *)
(** A number as JSON writes it. *)
Inductive number := NInt (neg : bool) (ds : list nat) | NReal (neg : bool) (ip : list nat) (fr : option (list nat)) (ex : option (bool * (sgn * list nat))).
Definition minus (neg : bool) : sgn := if neg then Minus else NoSign.
Definition lit_of (neg : bool) (ip : list nat) (fr : option (list nat)) (ex : option (bool * (sgn * list nat))) : real_lit :=
  MkReal (minus neg) ip fr (option_map (fun e : bool * (sgn * list nat) => (if fst e then "E"%char else "e"%char, snd e)) ex).
Definition number_text (n : number) : text :=
  match n with NInt neg ds => int_text (minus neg) ds | NReal neg ip fr ex => real_text (lit_of neg ip fr ex) end.
Definition number_value (n : number) : value :=
  match n with NInt neg ds => VInt (signed (minus neg) (denotes ds)) | NReal neg ip fr ex => VFloat (real_value (lit_of neg ip fr ex)) end.
Definition no_leading_zero (ds : list nat) : Prop := int_ok ds /\ (ds = [0] \/ hd 0 ds <> 0).
Definition number_ok (n : number) : Prop :=
  match n with
  | NInt _ ds => no_leading_zero ds
  | NReal _ ip fr ex => no_leading_zero ip /\ (fr <> None \/ ex <> None) /\
                        (forall f, fr = Some f -> int_ok f) /\ (forall b s ds, ex = Some (b, (s, ds)) -> int_ok ds)
  end.
(** One row of words: leading space, then words with the space that follows each. *)
Definition line := (text * list (text * text))%type.
Definition ltext (l : line) : text := row_text (fst l) (snd l).
Definition lwords (l : line) : list text := map fst (snd l).
Definition line_ok (l : line) : Prop := row_ok (fst l) (snd l).
Definition good_real (r : real_lit) : Prop := real_ok r /\ e_exp r.
(** A point: three coordinates, the scale factor, the q0 flag (an integer). *)
Record prow := MkP { r_line : line; r_x : real_lit; r_y : real_lit; r_z : real_lit; r_s : real_lit; r_q0 : sgn * list nat }.
Definition prow_ok (q0 : bool) (p : prow) : Prop :=
  line_ok (r_line p) /\ good_real (r_x p) /\ good_real (r_y p) /\ good_real (r_z p) /\ good_real (r_s p) /\
  (exists more, lwords (r_line p) = map real_text [r_x p; r_y p; r_z p; r_s p] ++ (if q0 then [int_text (fst (r_q0 p)) (snd (r_q0 p))] else []) ++ more) /\
  (q0 = true -> int_ok (snd (r_q0 p))).
Definition prow_pt (p : prow) : rvec := V (real_value (r_x p)) (real_value (r_y p)) (real_value (r_z p)).
Definition prow_flag (p : prow) : Z := signed (fst (r_q0 p)) (denotes (snd (r_q0 p))).
(** What a file may contain. *)
Inductive item :=
| Blank (w : text)
| Param (l : line) (key : text) (n : number)
| Opt (l : line) (w : text)
| Points (header : line) (rows : list prow) (last : line).
Definition item_lines (i : item) : list text :=
  match i with
  | Blank w => [w]
  | Param l _ _ => [ltext l]
  | Opt l _ => [ltext l]
  | Points h rows e => ltext h :: map (fun p => ltext (r_line p)) rows ++ [ltext e]
  end.
Definition item_ok (block : text) (q0 : bool) (i : item) : Prop :=
  match i with
  | Blank w => spaces w
  | Param l k n => line_ok l /\ (exists more, lwords l = k :: number_text n :: more) /\ field_name k = true /\ number_ok n
  | Opt l w => line_ok l /\ lwords l = [w] /\ w <> T "begin"
  | Points h rows e => line_ok h /\ (exists more, lwords h = T "begin" :: block :: more) /\ (forall p, In p rows -> prow_ok q0 p) /\
                       line_ok e /\ (exists more, lwords e = T "end" :: more)
  end.
Definition params (f : list item) : list (text * value) := flat_map (fun i => match i with Param _ k n => [(k, number_value n)] | _ => [] end) f.
Definition points (f : list item) : list prow := flat_map (fun i => match i with Points _ rows _ => rows | _ => [] end) f.
Definition options (f : list item) : list text := flat_map (fun i => match i with Opt _ w => [w] | _ => [] end) f.
Definition file_text (f : list item) : list text := flat_map item_lines f.
(** The last value given to a parameter. *)
Definition last_value (k : text) (l : list (text * value)) : option value := fold_left (fun o e => if teqb (fst e) k then Some (snd e) else o) l None.

(** ---- numbers ---- *)
Lemma span_digits_spec t d r : span_digits t = (d, r) -> alls is_digit d /\ hdnot is_digit r /\ t = d ++ r.
Proof.
  revert d r. induction t as [|c t IH]; intros d r H; cbn in H.
  - injection H as <- <-. repeat split; easy.
  - destruct (is_digit c) eqn:E.
    + destruct (span_digits t) as [a b]. destruct (IH a b eq_refl) as (A & B & ->). injection H as <- <-. split; [intros x [<-|Hx]; auto|]. now split.
    + injection H as <- <-. split; [easy|]. split; [exact E|easy].
Qed.
Lemma zero_digit d : d < 10 -> Ascii.eqb (ascii_of_nat (48 + d)) "0" = (d =? 0).
Proof. intros H. do 10 (destruct d as [|d]; [reflexivity|]). lia. Qed.
Lemma int_part ds : digits_ok ds -> (js_int_part (digits_text ds) = true <-> no_leading_zero ds).
Proof.
  intros H. unfold no_leading_zero, int_ok. destruct ds as [|d [|e ds]].
  - cbn. split; [easy|]. now intros ((K & _) & _).
  - cbn. split; [|easy]. intros _. split; [easy|]. destruct d; [now left|now right].
  - cbn [digits_text map js_int_part]. rewrite zero_digit by (apply H; now left). split.
    + intros K. split; [easy|]. right. cbn. apply negb_true_iff, Nat.eqb_neq in K. exact K.
    + intros (_ & [K|K]); [discriminate|]. apply negb_true_iff, Nat.eqb_neq. exact K.
Qed.
Lemma opt_minus_text neg ds r : ds <> [] -> digits_ok ds -> opt_minus (sgn_text (minus neg) ++ digits_text ds ++ r) = digits_text ds ++ r.
Proof.
  intros H0 H. destruct neg; cbn; [easy|]. destruct ds as [|d ds]; [easy|]. cbn. specialize (H d (or_introl eq_refl)).
  do 10 (destruct d as [|d]; [reflexivity|]). lia.
Qed.
Lemma span_text ds r : digits_ok ds -> hdnot is_digit r -> span_digits (digits_text ds ++ r) = (digits_text ds, r).
Proof. intros. apply span_app; [now apply digits_alls|easy]. Qed.
Definition exp_part (ex : option (bool * (sgn * list nat))) : text :=
  match ex with Some (b, (s, ds)) => (if b then "E"%char else "e"%char) :: int_text s ds | None => [] end.
Lemma js_exponent_ok ex : (forall b s ds, ex = Some (b, (s, ds)) -> int_ok ds) -> js_exponent (exp_part ex) = true.
Proof.
  destruct ex as [[b [s ds]]|]; [|reflexivity]. intros H. destruct (H b s ds eq_refl) as [H0 H1]. cbn [exp_part js_exponent].
  replace ((if b then "E"%char else "e"%char) =? "e")%char with (negb b) by now destruct b.
  replace ((if b then "E"%char else "e"%char) =? "E")%char with b by now destruct b. rewrite orb_comm.
  replace (b || negb b) with true by now destruct b. cbn [andb]. unfold int_text.
  assert (E : match sgn_text s ++ digits_text ds with c :: q => if (c =? "-")%char || (c =? "+")%char then q else sgn_text s ++ digits_text ds | [] => [] end = digits_text ds).
  { destruct s; [|reflexivity|reflexivity]. cbn. destruct ds as [|d ds]; [easy|]. cbn. specialize (H1 d (or_introl eq_refl)). do 10 (destruct d as [|d]; [reflexivity|]). lia. }
  rewrite E. rewrite <- (app_nil_r (digits_text ds)), span_text by easy. destruct ds; [easy|reflexivity].
Qed.
Lemma exp_hd ex : hdnot is_digit (exp_part ex). Proof. destruct ex as [[[] [s ds]]|]; easy. Qed.
Lemma lit_text neg ip fr ex : real_text (lit_of neg ip fr ex) = sgn_text (minus neg) ++ digits_text ip ++ match fr with Some f => "."%char :: digits_text f | None => [] end ++ exp_part ex.
Proof. unfold real_text, lit_of. cbn [r_sgn r_int r_frac r_exp]. do 3 f_equal. now destruct ex as [[b [s ds]]|]. Qed.
Lemma lit_good neg ip fr ex : number_ok (NReal neg ip fr ex) -> good_real (lit_of neg ip fr ex).
Proof.
  intros (((H0 & H1) & _) & _ & H2 & H3). unfold good_real, real_ok, e_exp, lit_of, frac_digits. cbn [r_sgn r_int r_frac r_exp]. repeat split.
  - exact H1.
  - destruct fr as [f|]; [apply (H2 f eq_refl)|easy].
  - destruct ip; easy.
  - destruct ex as [[b [s ds]]|]; [|easy]. cbn. destruct (H3 b s ds eq_refl). destruct b; repeat split; auto; cbn; auto.
  - destruct ex as [[b [s ds]]|]; [|easy]. cbn. destruct b; auto.
Qed.
Lemma js_value_ok n : number_ok n -> js_value (number_text n) = Ok (number_value n).
Proof.
  unfold js_value. destruct n as [neg ds|neg ip fr ex]; intros H.
  - assert (K := H). destruct H as ((H0 & H1) & H2). assert (E : js_number (number_text (NInt neg ds)) = JsInt).
    { unfold js_number. cbn [number_text]. unfold int_text. rewrite <- (app_nil_r (digits_text ds)), opt_minus_text by easy. rewrite span_text by easy.
      apply int_part in K; [|easy]. now rewrite K. }
    rewrite E. cbn [number_text number_value]. now rewrite py_int_text.
  - assert (K := lit_good _ _ _ _ H). destruct H as (Hi & Hn & Hf & He). assert (Hi' := Hi). destruct Hi as ((H0 & H1) & _).
    assert (E : js_number (number_text (NReal neg ip fr ex)) = JsFloat).
    { unfold js_number. cbn [number_text]. rewrite lit_text, opt_minus_text by easy. rewrite span_text; [|easy|].
      2:{ destruct fr; [reflexivity|]. apply exp_hd. }
      apply int_part in Hi'; [|easy]. rewrite Hi'. destruct fr as [f|].
      - cbn [List.app]. cbn. destruct (Hf f eq_refl) as (F0 & F1). rewrite span_text by (try easy; apply exp_hd). rewrite js_exponent_ok by exact He.
        destruct f; [easy|reflexivity].
      - cbn [List.app]. assert (J := js_exponent_ok ex He). destruct ex as [[b [s ds]]|]; [|destruct Hn; easy]. cbn [exp_part] in *.
        replace ((if b then "E"%char else "e"%char) =? ".")%char with false by now destruct b. now rewrite J. }
    rewrite E. cbn [number_text number_value]. destruct K as (K1 & K2). now rewrite py_float_text.
Qed.
Lemma exp_back t : js_exponent t = true -> exists ex, t = exp_part ex /\ (forall b s ds, ex = Some (b, (s, ds)) -> int_ok ds).
Proof.
  destruct t as [|c t]; [intros _; exists None; split; easy|]. cbn [js_exponent]. intros H. apply andb_true_iff in H as (Hc & H).
  assert (exists s q, t = sgn_text s ++ q /\ match t with s :: q => if Ascii.eqb s "-" || Ascii.eqb s "+" then q else t | [] => [] end = q) as (s & q & Et & Eq).
  { destruct t as [|x t]; [now exists NoSign, []|]. destruct (Ascii.eqb x "-") eqn:E1; [apply Ascii.eqb_eq in E1 as ->; now exists Minus, t|].
    destruct (Ascii.eqb x "+") eqn:E2; [apply Ascii.eqb_eq in E2 as ->; now exists Plus, t|]. cbn. now exists NoSign, (x :: t). }
  cbn zeta in H. rewrite Eq in H. destruct (span_digits q) as [d r] eqn:Es. apply span_digits_spec in Es as (D & _ & ->). destruct d as [|y d]; [easy|]. destruct r; [|easy].
  destruct (digits_of_text _ D) as (ds & Hds & Ed). rewrite Ed, app_nil_r in Et.
  exists (Some (Ascii.eqb c "E", (s, ds))). split.
  - cbn [exp_part]. rewrite Et. unfold int_text. f_equal. destruct (Ascii.eqb c "E") eqn:E; [now apply Ascii.eqb_eq in E|]. rewrite orb_false_r in Hc. now apply Ascii.eqb_eq in Hc.
  - intros b s' ds' K. injection K as _ _ <-. split; [|easy]. intros ->. now cbn in Ed.
Qed.
Lemma js_number_back t : js_number t <> JsBad -> exists n, number_ok n /\ t = number_text n.
Proof.
  unfold js_number. assert (exists neg q, t = sgn_text (minus neg) ++ q /\ opt_minus t = q) as (neg & q & Et & Eq).
  { destruct t as [|x t]; [now exists false, []|]. cbn. destruct (Ascii.eqb x "-") eqn:E; [apply Ascii.eqb_eq in E as ->; now exists true, t|now exists false, (x :: t)]. }
  rewrite Eq. destruct (span_digits q) as [d r] eqn:Es. apply span_digits_spec in Es as (D & Hr & ->). destruct (digits_of_text _ D) as (ds & Hds & ->).
  destruct (js_int_part (digits_text ds)) eqn:Ei; [|easy]. apply int_part in Ei; [|easy].
  destruct r as [|c q']; [intros _; exists (NInt neg ds); split; [exact Ei|]; rewrite Et, app_nil_r; reflexivity|].
  destruct (Ascii.eqb c ".") eqn:Ec.
  - apply Ascii.eqb_eq in Ec as ->. destruct (span_digits q') as [f e] eqn:Es. apply span_digits_spec in Es as (F & He & ->). destruct (digits_of_text _ F) as (fs & Hfs & ->).
    destruct (digits_text fs) as [|y l] eqn:El; [easy|]. rewrite <- El in *. destruct (js_exponent e) eqn:Ee; [|easy]. intros _. apply exp_back in Ee as (ex & -> & Hex).
    exists (NReal neg ds (Some fs) ex). split; [|rewrite Et; cbn [number_text]; rewrite lit_text; reflexivity].
    split; [exact Ei|]. split; [now left|]. split; [|exact Hex]. intros f' K. injection K as <-. split; [|easy]. intros ->. now cbn in El.
  - destruct (js_exponent (c :: q')) eqn:Ee; [|easy]. intros _. apply exp_back in Ee as (ex & Eex & Hex).
    exists (NReal neg ds None ex). split; [|rewrite Et, Eex; cbn [number_text]; rewrite lit_text; reflexivity].
    split; [exact Ei|]. split; [right|]; [|split; easy]. intros ->. now cbn in Eex.
Qed.

(** The words accepted as parameter values are exactly the JSON numbers, with their decimal value; an integer stays an integer. *)
Theorem C75_values : forall t v, js_value t = Ok v <-> exists n, number_ok n /\ t = number_text n /\ v = number_value n.
Proof.
  intros t v. split.
  - intros H. destruct (js_number_back t) as (n & Hn & ->).
    + unfold js_value in H. now destruct (js_number t).
    + exists n. rewrite js_value_ok in H by exact Hn. injection H as <-. auto.
  - intros (n & Hn & -> & ->). now apply js_value_ok.
Qed.
Print Assumptions C75_values.

(** ---- reading the lines ---- *)
Definition raw (f : list item) : list (text * text) := flat_map (fun i => match i with Param _ k n => [(k, number_text n)] | _ => [] end) f.
Definition flags (f : list item) : list bool := map (fun p => negb (prow_flag p =? 0)%Z) (points f).
Definition add (q0 : bool) (st : found) (f : list item) : found :=
  MkF (fd_params st ++ raw f) (fd_pts st ++ map prow_pt (points f)) (fd_q0 st ++ if q0 then flags f else [])
      (fd_scale st ++ map (fun p => real_value (r_s p)) (points f)) (fd_opts st ++ options f).
Lemma words_line l : line_ok l -> words (ltext l) = lwords l.
Proof. intros H. now apply words_row. Qed.
Lemma words_spaces_only w : spaces w -> words w = [].
Proof. intros H. unfold words. rewrite <- (app_nil_r w), words_spaces by exact H. reflexivity. Qed.
Lemma not_end r : good_real r -> teqb (real_text r) (T "end") = false.
Proof. intros (H1 & H2). apply teqb_neq. intros E. assert (K := py_float_text r H1 H2). rewrite E in K. now cbn in K. Qed.
Lemma number_not k n : field_name k = true -> number_ok n -> teqb (number_text n) k = false.
Proof.
  intros H Hn. apply teqb_neq. intros E. apply js_value_ok in Hn. rewrite E in Hn. unfold js_value, js_number in Hn. destruct k as [|c k]; [easy|].
  cbn in H. apply andb_true_iff in H as (H & _). apply andb_true_iff in H as (H & _).
  assert (D : forall c, is_letter c = true -> Ascii.eqb c "-" = false /\ is_digit c = false).
  { intros x Hx. split; revert x Hx; allchars. }
  destruct (D c H) as (D1 & D2). cbn [opt_minus] in Hn. rewrite D1 in Hn. cbn [span_digits] in Hn. rewrite D2 in Hn. easy.
Qed.
Lemma point_ok q0 p st : prow_ok q0 p ->
  point q0 (lwords (r_line p)) st = Ok (MkF (fd_params st) (fd_pts st ++ [prow_pt p]) (fd_q0 st ++ if q0 then [negb (prow_flag p =? 0)%Z] else [])
                                            (fd_scale st ++ [real_value (r_s p)]) (fd_opts st)).
Proof.
  intros (_ & (X1 & X2) & (Y1 & Y2) & (Z1 & Z2) & (S1 & S2) & (more & ->) & Hq). unfold point. cbn [map List.app firstn]. cbn [sequence].
  rewrite !py_float_text by assumption. cbn [bind]. destruct q0.
  - unfold word at 1. cbn [nth_error List.app]. cbn [bind]. rewrite py_int_text by now apply Hq. cbn [bind fd_params fd_pts fd_q0 fd_scale fd_opts].
    unfold word. cbn [nth_error bind]. rewrite py_float_text by assumption. reflexivity.
  - unfold word. cbn [nth_error List.app bind]. rewrite py_float_text by assumption. cbn [bind]. rewrite app_nil_r. reflexivity.
Qed.
Lemma scan_rows name q0 rows : (forall p, In p rows -> prow_ok q0 p) -> forall st rest,
  scan name q0 true st (map (fun p => ltext (r_line p)) rows ++ rest) =
  scan name q0 true (MkF (fd_params st) (fd_pts st ++ map prow_pt rows) (fd_q0 st ++ if q0 then map (fun p => negb (prow_flag p =? 0)%Z) rows else [])
                         (fd_scale st ++ map (fun p => real_value (r_s p)) rows) (fd_opts st)) rest.
Proof.
  induction rows as [|p rows IH]; intros H st rest.
  - cbn [map List.app]. rewrite !app_nil_r. replace (if q0 then [] else @nil bool) with (@nil bool) by now destruct q0. rewrite app_nil_r. now destruct st.
  - assert (Hp := H p (or_introl eq_refl)). assert (Hl := Hp). destruct Hl as (Hl & Hx & _ & _ & _ & (more & Ew) & _).
    cbn [map List.app scan]. rewrite words_line by exact Hl. assert (Pk := point_ok q0 p st Hp). rewrite Ew in Pk |- *. cbn [map List.app] in Pk |- *. rewrite not_end by exact Hx.
    rewrite Pk. cbn [bind]. rewrite IH by (intros; apply H; now right). cbn [fd_params fd_pts fd_q0 fd_scale fd_opts]. rewrite <- !app_assoc. cbn [List.app].
    replace ((if q0 then [negb (prow_flag p =? 0)%Z] else []) ++ (if q0 then map (fun p => negb (prow_flag p =? 0)%Z) rows else []))
      with (if q0 then negb (prow_flag p =? 0)%Z :: map (fun p => negb (prow_flag p =? 0)%Z) rows else []) by now destruct q0. reflexivity.
Qed.
Lemma add_add q0 st a b : add q0 (add q0 st a) b = add q0 st (a ++ b).
Proof.
  unfold add, raw, flags, points, options. cbn [fd_params fd_pts fd_q0 fd_scale fd_opts]. rewrite !flat_map_app, !map_app, <- !app_assoc. f_equal. destruct q0; now rewrite ?app_nil_r.
Qed.
Lemma scan_item block q0 i st rest : field_name block = true -> item_ok block q0 i ->
  scan block q0 false st (item_lines i ++ rest) = scan block q0 false (add q0 st [i]) rest.
Proof.
  intros Hb H. destruct i as [w|l k n|l w|h rows e]; cbn [item_lines item_ok] in *.
  - cbn [List.app scan]. rewrite words_spaces_only by exact H. f_equal. unfold add. cbn. destruct q0; rewrite !app_nil_r; now destruct st.
  - destruct H as (H & (more & Ew) & Hk & Hn). cbn [List.app scan]. rewrite words_line, Ew by exact H. rewrite (number_not block n) by assumption. rewrite andb_false_r.
    f_equal. unfold add. cbn. destruct q0; rewrite !app_nil_r; now destruct st.
  - destruct H as (H & Ew & Hk). cbn [List.app scan]. rewrite words_line, Ew by exact H. apply teqb_neq in Hk. rewrite Hk.
    f_equal. unfold add. cbn. destruct q0; rewrite !app_nil_r; now destruct st.
  - destruct H as (H & (more & Ew) & Hr & He & (more' & Ew')). cbn [List.app scan]. rewrite words_line, Ew by exact H. rewrite !teqb_refl. cbn [andb].
    rewrite <- app_assoc, scan_rows by exact Hr. cbn [List.app scan]. rewrite words_line, Ew' by exact He. rewrite teqb_refl.
    f_equal. unfold add, raw, flags, points, options. cbn [flat_map List.app fd_params fd_pts fd_q0 fd_scale fd_opts]. rewrite !app_nil_r. reflexivity.
Qed.
Lemma scan_file block q0 f : field_name block = true -> (forall i, In i f -> item_ok block q0 i) -> forall st rest,
  scan block q0 false st (file_text f ++ rest) = scan block q0 false (add q0 st f) rest.
Proof.
  intros Hb. induction f as [|i f IH]; intros H st rest.
  - cbn [file_text flat_map List.app]. f_equal. unfold add. cbn. destruct q0; rewrite !app_nil_r; now destruct st.
  - unfold file_text. cbn [flat_map]. rewrite <- app_assoc, scan_item by (try exact Hb; apply H; now left). fold (file_text f).
    rewrite IH by (intros; apply H; now right). now rewrite add_add.
Qed.
Lemma json_dict_gen f : (forall i, In i f -> match i with Param _ k n => field_name k = true /\ number_ok n | _ => True end) -> forall d,
  exists d', foldm (fun d kv => do v <- js_value (snd kv); Ok (upd (fst kv) (ANum v) d)) d (raw f) = Ok d' /\
    (forall k, assoc k d' = fold_left (fun o e => if teqb (fst e) k then Some (ANum (snd e)) else o) (params f) (assoc k d)) /\
    (forall k, In k (map fst d') <-> In k (map fst d) \/ In k (map fst (params f))).
Proof.
  induction f as [|i f IH]; intros H d.
  - exists d. cbn. split; [easy|]. split; [easy|]. tauto.
  - unfold raw, params. cbn [flat_map]. fold (raw f) (params f). destruct i as [w|l k n|l w|h rows e]; try (cbn [List.app]; apply IH; intros; apply H; now right).
    destruct (H _ (or_introl eq_refl)) as (Hk & Hn). cbn [List.app foldm fst snd]. rewrite js_value_ok by exact Hn. cbn [bind].
    destruct (IH (fun i Hi => H i (or_intror Hi)) (upd k (ANum (number_value n)) d)) as (d' & E & A & B). exists d'. split; [exact E|]. split.
    + intros k'. rewrite A, assoc_upd. cbn [fold_left fst snd]. now destruct (teqb k k').
    + intros k'. rewrite B. cbn [map In fst]. assert (In k' (map fst (upd k (ANum (number_value n)) d)) <-> In k' (map fst d) \/ k = k') as ->; [|tauto].
      clear. induction d as [|[a x] d IHd]; cbn; [tauto|]. destruct (teqb a k) eqn:E; cbn; [apply teqb_eq in E as ->; tauto|]. rewrite IHd. tauto.
Qed.
Lemma last_num k l : forall o, fold_left (fun o e => if teqb (fst e) k then Some (ANum (snd e)) else o) l (option_map ANum o) =
  option_map ANum (fold_left (fun (o : option value) (e : text * value) => if teqb (fst e) k then Some (snd e) else o) l o).
Proof. induction l as [|[a v] l IH]; intros o; [easy|]. cbn [fold_left fst snd]. destruct (teqb a k); [apply (IH (Some v))|apply IH]. Qed.
Lemma upd_in {A} k k' (v : A) l : In k' (map fst (upd k v l)) <-> In k' (map fst l) \/ k = k'.
Proof. induction l as [|[a x] l IH]; cbn; [tauto|]. destruct (teqb a k) eqn:E; cbn; [apply teqb_eq in E as ->; tauto|]. rewrite IH. tauto. Qed.
Definition extra (q0 : bool) (pts : text) (f : list item) (k : text) : option attr :=
  if teqb (T "options") k then Some (AWords (options f))
  else if q0 && teqb (T "is_q0") k then Some (AFlags (flags f))
  else if teqb pts k then Some (APoints (map prow_pt (points f)))
  else option_map ANum (last_value k (params f)).
Lemma read_ok block q0 pts f : field_name block = true -> field_name pts = true -> (forall i, In i f -> item_ok block q0 i) ->
  exists d, read_inp block q0 pts (file_text f) = Ok d /\ (forall k, assoc k d = extra q0 pts f k) /\
    (forall k, In k (map fst d) <-> In k (map fst (params f)) \/ k = pts \/ (q0 = true /\ k = T "is_q0") \/ k = T "options").
Proof.
  intros Hb Hp H. unfold read_inp. rewrite <- (app_nil_r (file_text f)), scan_file by assumption. cbn [scan bind].
  unfold add. cbn [fd_params fd_pts fd_q0 fd_scale fd_opts List.app]. unfold json_dict.
  destruct (json_dict_gen f) with (d := @nil (text * attr)) as (d & -> & A & B).
  { intros i Hi. specialize (H i Hi). destruct i; try easy. cbn in H. tauto. }
  cbn [bind]. set (d1 := upd (T "options") _ _).
  assert (L : forall k, assoc k d1 = extra q0 pts f k).
  { intros k. unfold d1, extra. rewrite assoc_upd. destruct (teqb (T "options") k); [reflexivity|].
    assert (Q : assoc k (upd pts (APoints (map prow_pt (points f))) d) = if teqb pts k then Some (APoints (map prow_pt (points f))) else option_map ANum (last_value k (params f))).
    { rewrite assoc_upd, A. destruct (teqb pts k); [reflexivity|]. exact (last_num k (params f) None). }
    destruct q0; cbn [andb]; [rewrite assoc_upd; destruct (teqb (T "is_q0") k); [reflexivity|]|]; exact Q. }
  assert (I : forall k, In k (map fst d1) <-> In k (map fst (params f)) \/ k = pts \/ (q0 = true /\ k = T "is_q0") \/ k = T "options").
  { intros k. unfold d1. rewrite upd_in. destruct q0; rewrite ?upd_in, B; cbn [map In]; intuition congruence. }
  assert (F : forallb (fun e => field_name (fst e)) d1 = true).
  { apply forallb_forall. intros e He. apply (in_map fst) in He. apply I in He. destruct He as [He|[->|[(_ & ->)| ->]]]; try easy.
    apply in_map_iff in He as ((k & v) & <- & He). unfold params in He. apply in_flat_map in He as (i & Hi & He). specialize (H i Hi). destruct i; try easy.
    destruct He as [He|[]]. injection He as <- <-. cbn in H. cbn. tauto. }
  rewrite F. exists d1. split; [reflexivity|]. now split.
Qed.

(** ---- setting the attributes ---- *)
Lemma set_known_assoc o e k : assoc k (set_known o e) = match assoc k o with Some a => Some (if teqb (fst e) k then snd e else a) | None => None end.
Proof.
  unfold set_known. destruct (assoc (fst e) o) eqn:E.
  - rewrite assoc_upd. destruct (teqb (fst e) k) eqn:Ek; [apply teqb_eq in Ek as <-; now rewrite E|]. now destruct (assoc k o).
  - destruct (teqb (fst e) k) eqn:Ek; [apply teqb_eq in Ek as <-; now rewrite E|]. now destruct (assoc k o).
Qed.
Lemma set_all l : NoDup (map fst l) -> forall o k, assoc k (fold_left set_known l o) =
  match assoc k o with Some a => Some (match assoc k l with Some b => b | None => a end) | None => None end.
Proof.
  induction l as [|e l IH]; intros H o k; cbn [fold_left].
  - cbn. now destruct (assoc k o).
  - inversion H as [|? ? N H']; subst. rewrite IH by exact H'. rewrite set_known_assoc. destruct e as [a v]. destruct (assoc k o) as [old|]; [|reflexivity]. f_equal. cbn [assoc fst snd] in *.
    destruct (teqb a k) eqn:E; [|reflexivity]. apply teqb_eq in E as ->. destruct (assoc k l) eqn:El; [|reflexivity]. apply assoc_in in El. apply (in_map fst) in El. now cbn in El.
Qed.
Lemma upd_nodup {A} k (v : A) l : NoDup (map fst l) -> NoDup (map fst (upd k v l)).
Proof.
  induction l as [|[a x] l IH]; cbn; intros H; [constructor; easy|]. inversion H; subst. destruct (teqb a k) eqn:E; cbn; [now constructor|].
  constructor; [|auto]. rewrite upd_in. intros [K|K]; [easy|]. subst. now rewrite teqb_refl in E.
Qed.
Lemma json_nodup l : forall d d', NoDup (map fst d) -> foldm (fun d (kv : text * text) => do v <- js_value (snd kv); Ok (upd (fst kv) (ANum v) d)) d l = Ok d' -> NoDup (map fst d').
Proof.
  induction l as [|[k t] l IH]; intros d d' H E; cbn in E; [now injection E as <-|]. apply bind_ok in E as (d1 & E1 & E). apply bind_ok in E1 as (v & _ & E1). injection E1 as <-.
  revert E. apply IH. now apply upd_nodup.
Qed.
Lemma read_nodup block q0 pts lines d : read_inp block q0 pts lines = Ok d -> NoDup (map fst d).
Proof.
  unfold read_inp. intros E. apply bind_ok in E as (st & _ & E). apply bind_ok in E as (d0 & E0 & E). cbn zeta in E.
  destruct (forallb _ _) eqn:F; [|easy]. injection E as <-. apply (json_nodup _ [] d0 (NoDup_nil _)) in E0. destruct q0; repeat apply upd_nodup; exact E0.
Qed.
Lemma flag_all (P : text -> bool) l : forall o k, assoc k (fold_left (fun o w => if P w then upd w (AFlag true) o else o) l o) =
  if P k && existsb (teqb k) l then Some (AFlag true) else assoc k o.
Proof.
  induction l as [|w l IH]; intros o k; cbn [fold_left existsb]; [now rewrite andb_false_r|]. rewrite IH. destruct (P k) eqn:Ek; cbn [andb].
  - destruct (existsb (teqb k) l); [now rewrite orb_true_r|]. rewrite orb_false_r. rewrite teqb_sym. destruct (teqb w k) eqn:E.
    + apply teqb_eq in E as ->. rewrite Ek, assoc_upd, teqb_refl. reflexivity.
    + destruct (P w); [|reflexivity]. now rewrite assoc_upd, E.
  - destruct (P w) eqn:Ew; [|reflexivity]. rewrite assoc_upd. destruct (teqb w k) eqn:E; [|reflexivity]. apply teqb_eq in E as ->. congruence.
Qed.
Lemma known_all l : forall o k, assoc k (fold_left (fun o w => set_known o (w, AFlag true)) l o) =
  match assoc k o with Some a => Some (if existsb (teqb k) l then AFlag true else a) | None => None end.
Proof.
  induction l as [|w l IH]; intros o k; cbn [fold_left existsb]; [now destruct (assoc k o)|]. rewrite IH, set_known_assoc. cbn [fst snd]. rewrite (teqb_sym k w).
  destruct (assoc k o); [|reflexivity]. f_equal. destruct (teqb w k); cbn; [|reflexivity]. now destruct (existsb _ l).
Qed.
Lemma mem_in k l : existsb (teqb k) l = true <-> In k l.
Proof. rewrite existsb_exists. split; [intros (x & H & E); apply teqb_eq in E as ->; exact H|intros H; exists k; split; [exact H|apply teqb_refl]]. Qed.

(** ---- epsilon.inp ---- *)
(** The value an attribute has when the file does not mention it. *)
Definition default (os : list text) (k : text) : attr := if existsb (teqb k) os then AFlag false else ANone.
(** ... and when it does. *)
Definition given (os : list text) (f : list item) (k : text) : attr := match last_value k (params f) with Some v => ANum v | None => default os k end.
Lemma blank_assoc ps os k : (forall x, In x ps -> existsb (teqb x) os = false) -> assoc k (blank ps os) = if existsb (teqb k) (ps ++ os) then Some (default os k) else None.
Proof.
  intros D. unfold blank. assert (L : forall (a b : list (text * attr)), assoc k (a ++ b) = match assoc k a with Some x => Some x | None => assoc k b end).
  { induction a as [|[x v] a IH]; intros b; [easy|]. cbn. destruct (teqb x k); [reflexivity|apply IH]. }
  rewrite L, existsb_app. assert (M : forall (v : attr) l, assoc k (map (fun p => (p, v)) l) = if existsb (teqb k) l then Some v else None).
  { intros v. induction l as [|x l IH]; [easy|]. cbn. rewrite (teqb_sym k x). destruct (teqb x k); [reflexivity|apply IH]. }
  rewrite !M. unfold default. destruct (existsb (teqb k) ps) eqn:E; cbn [orb].
  - apply mem_in in E. rewrite (D k E). reflexivity.
  - now destruct (existsb (teqb k) os).
Qed.
Lemma last_none k l : ~ In k (map fst l) -> last_value k l = None.
Proof.
  unfold last_value. generalize (@None value). induction l as [|[a v] l IH]; intros z H; [easy|]. cbn [fold_left fst snd]. cbn [map In fst] in H.
  rewrite (proj2 (teqb_neq a k)) by tauto. apply IH. tauto.
Qed.
Lemma last_some k l : In k (map fst l) -> last_value k l <> None.
Proof.
  unfold last_value. assert (Q : forall l (x : value), fold_left (fun o (e : text * value) => if teqb (fst e) k then Some (snd e) else o) l (Some x) <> None).
  { induction l0 as [|[b w] l0 IH0]; intros x; [easy|]. cbn [fold_left fst snd]. destruct (teqb b k); apply IH0. }
  generalize (@None value) at 1. induction l as [|[a v] l IH]; intros z H; [easy|]. cbn [fold_left fst snd]. cbn [map In fst] in H. destruct (teqb a k) eqn:E; [apply Q|].
  apply IH. destruct H as [->|H]; [now rewrite teqb_refl in E|exact H].
Qed.
Lemma eps_disjoint x : In x eps_params -> existsb (teqb x) eps_options = false.
Proof. revert x. apply Forall_forall. repeat (constructor; [reflexivity|]). constructor. Qed.
Lemma sigma_disjoint x : In x sigma_params -> existsb (teqb x) sigma_options = false.
Proof. revert x. apply Forall_forall. repeat (constructor; [reflexivity|]). constructor. Qed.
Lemma eps_attr f : (forall i, In i f -> item_ok (T "qpoints") true i) -> exists o, from_epsilon_inp (file_text f) = Ok o /\
  forall k, assoc k o = if existsb (teqb k) (map fst (params f) ++ [T "qpts"; T "is_q0"; T "options"; T "count"; T "index"]) && existsb (teqb k) (options f) then Some (AFlag true)
                        else if existsb (teqb k) (eps_params ++ eps_options) then Some (match extra true (T "qpts") f k with Some a => a | None => default eps_options k end) else None.
Proof.
  intros H. unfold from_epsilon_inp. destruct (read_ok (T "qpoints") true (T "qpts") f) as (d & E & A & B); [reflexivity|reflexivity|exact H|].
  assert (N := read_nodup _ _ _ _ _ E). rewrite E. cbn [bind]. eexists. split; [reflexivity|]. intros k.
  assert (O : opts_of d = options f) by (unfold opts_of; now rewrite A). rewrite O, flag_all.
  assert (M : existsb (teqb k) (map fst d ++ [T "count"; T "index"]) = existsb (teqb k) (map fst (params f) ++ [T "qpts"; T "is_q0"; T "options"; T "count"; T "index"])).
  { apply eq_true_iff_eq. rewrite !mem_in, !in_app_iff. cbn [In]. rewrite B. intuition. }
  rewrite M. destruct (_ && _); [reflexivity|]. rewrite set_all by exact N. rewrite blank_assoc by exact eps_disjoint. rewrite A. destruct (existsb (teqb k) (eps_params ++ eps_options)); reflexivity.
Qed.
Lemma mem_not k l : ~ In k l -> existsb (teqb k) l = false.
Proof. intros H. destruct (existsb (teqb k) l) eqn:E; [|reflexivity]. now apply mem_in in E. Qed.

(** Reading an epsilon.inp file made of parameter lines, option lines, blank lines and lists of q-points gives an
    object whose q-points and q0 flags are those of the file, in order, and whose every other keyword has the last
    value the file gives it, or its default. *)
Theorem C75_epsilon_inp : forall f, (forall i, In i f -> item_ok (T "qpoints") true i) -> ~ In (T "qpts") (options f) -> ~ In (T "is_q0") (options f) ->
  exists o, from_epsilon_inp (file_text f) = Ok o /\
    assoc (T "qpts") o = Some (APoints (map prow_pt (points f))) /\
    assoc (T "is_q0") o = Some (AFlags (map (fun p => negb (prow_flag p =? 0)%Z) (points f))) /\
    (forall k, In k (eps_params ++ eps_options) -> k <> T "qpts" -> k <> T "is_q0" -> ~ In k (options f) -> assoc k o = Some (given eps_options f k)) /\
    (forall k, ~ In k (eps_params ++ eps_options ++ options f) -> assoc k o = None).
Proof.
  intros f H N1 N2. destruct (eps_attr f H) as (o & E & A). exists o. split; [exact E|]. split; [|split; [|split]].
  - rewrite A, (mem_not _ (options f)) by exact N1. rewrite andb_false_r. reflexivity.
  - rewrite A, (mem_not _ (options f)) by exact N2. rewrite andb_false_r. reflexivity.
  - intros k Hk K1 K2 No. rewrite A, (mem_not _ (options f)) by exact No. rewrite andb_false_r. rewrite (proj2 (mem_in k _)) by exact Hk. f_equal.
    assert (T "options" <> k) as K3. { intros <-. apply mem_in in Hk. now vm_compute in Hk. }
    unfold extra, given. rewrite (proj2 (teqb_neq _ _) K3). apply not_eq_sym in K1, K2. apply teqb_neq in K1, K2. rewrite K1, K2. cbn [andb]. now destruct (last_value k (params f)).
  - intros k Hk. rewrite A. rewrite !in_app_iff in Hk. rewrite (mem_not _ (options f)) by tauto. rewrite andb_false_r. rewrite mem_not by (rewrite in_app_iff; tauto). reflexivity.
Qed.
Print Assumptions C75_epsilon_inp.

(** The options of epsilon.inp are never set: whatever options the file lists, an option keyword stays False (unless
    the file also uses it as a parameter). *)
Theorem C75_epsilon_options_refuted : forall f o k, (forall i, In i f -> item_ok (T "qpoints") true i) -> from_epsilon_inp (file_text f) = Ok o ->
  In k eps_options -> ~ In k (map fst (params f)) -> assoc k o = Some (AFlag false).
Proof.
  intros f o k H E Hk Np. destruct (eps_attr f H) as (o' & E' & A). rewrite E in E'. injection E' as <-. rewrite A.
  assert (Fx : forall x, In x [T "qpts"; T "is_q0"; T "options"; T "count"; T "index"] -> x <> k).
  { intros x Hx ->. apply mem_in in Hk. destruct Hx as [<-|[<-|[<-|[<-|[<-|[]]]]]]; now vm_compute in Hk. }
  rewrite (mem_not k (map fst (params f) ++ _)).
  2:{ rewrite in_app_iff. intros [K|K]; [easy|]. now apply (Fx k K). }
  cbn [andb]. rewrite (proj2 (mem_in k (eps_params ++ eps_options))) by (rewrite in_app_iff; now right). f_equal.
  assert (F1 : teqb (T "options") k = false) by (apply teqb_neq, Fx; do 2 right; left; reflexivity).
  assert (F2 : teqb (T "is_q0") k = false) by (apply teqb_neq, Fx; right; left; reflexivity).
  assert (F3 : teqb (T "qpts") k = false) by (apply teqb_neq, Fx; left; reflexivity).
  unfold extra. rewrite F1, F2, F3. cbn [andb].
  assert (L := last_none k (params f) Np).
  rewrite L. cbn [option_map]. unfold default. now rewrite (proj2 (mem_in k eps_options) Hk).
Qed.
Print Assumptions C75_epsilon_options_refuted.

(** ---- sigma.inp ---- *)
Lemma sigma_attr f : (forall i, In i f -> item_ok (T "kpoints") false i) -> exists o,
  (forall k, assoc k o = if existsb (teqb k) (sigma_params ++ sigma_options)
                         then Some (if existsb (teqb k) (options f) then AFlag true else match extra false (T "kpts") f k with Some a => a | None => default sigma_options k end) else None) /\
  from_sigma_inp (file_text f) = match assoc (T "band_index_max") o, assoc (T "band_index_min") o, assoc (T "kpts") o with
  | Some ANone, _, _ | _, Some ANone, _ => Err AssertionError
  | _, _, Some (APoints []) => Err AssertionError
  | _, _, Some (APoints (_ :: _)) => Ok o
  | _, _, _ => Err TypeError
  end.
Proof.
  intros H. unfold from_sigma_inp. destruct (read_ok (T "kpoints") false (T "kpts") f) as (d & E & A & B); [reflexivity|reflexivity|exact H|].
  assert (N := read_nodup _ _ _ _ _ E). rewrite E. cbn [bind]. eexists. split; [|reflexivity]. intros k.
  assert (O : opts_of d = options f) by (unfold opts_of; now rewrite A). rewrite O, known_all. rewrite set_all by exact N. rewrite blank_assoc by exact sigma_disjoint. rewrite A.
  destruct (existsb (teqb k) (sigma_params ++ sigma_options)); [|reflexivity]. reflexivity.
Qed.
Lemma sigma_plain f k : In k (sigma_params ++ sigma_options) -> k <> T "kpts" -> match extra false (T "kpts") f k with Some a => a | None => default sigma_options k end = given sigma_options f k.
Proof.
  intros Hk K1. assert (T "options" <> k) as K3. { intros <-. apply mem_in in Hk. now vm_compute in Hk. }
  unfold extra, given. rewrite (proj2 (teqb_neq _ _) K3). apply not_eq_sym in K1. apply teqb_neq in K1. rewrite K1. cbn [andb]. now destruct (last_value k (params f)).
Qed.
(** Reading a sigma.inp file: the k-points in order, every option listed is True, every other keyword has the last value
    given or its default; the file is accepted exactly if it gives the two band indices and at least one k-point. *)
Theorem C75_sigma_inp : forall f, (forall i, In i f -> item_ok (T "kpoints") false i) -> ~ In (T "kpts") (options f) ->
  let required := [T "band_index_min"; T "band_index_max"] in
  (forall k, In k required -> In k (map fst (params f)) \/ In k (options f)) -> points f <> [] ->
  exists o, from_sigma_inp (file_text f) = Ok o /\
    assoc (T "kpts") o = Some (APoints (map prow_pt (points f))) /\
    (forall k, In k (sigma_params ++ sigma_options) -> In k (options f) -> assoc k o = Some (AFlag true)) /\
    (forall k, In k (sigma_params ++ sigma_options) -> k <> T "kpts" -> ~ In k (options f) -> assoc k o = Some (given sigma_options f k)) /\
    (forall k, ~ In k (sigma_params ++ sigma_options) -> assoc k o = None).
Proof.
  intros f H N1 required Hr Hp. destruct (sigma_attr f H) as (o & A & E). exists o.
  assert (K : assoc (T "kpts") o = Some (APoints (map prow_pt (points f)))).
  { rewrite A, (mem_not _ (options f)) by exact N1. reflexivity. }
  assert (R1 : forall k, In k required -> exists a, assoc k o = Some a /\ a <> ANone).
  { intros k Hk. rewrite A. replace (existsb (teqb k) (sigma_params ++ sigma_options)) with true by (destruct Hk as [<-|[<-|[]]]; reflexivity).
    eexists. split; [reflexivity|]. destruct (existsb (teqb k) (options f)) eqn:Eo; [easy|]. rewrite sigma_plain by (destruct Hk as [<-|[<-|[]]]; [apply mem_in; reflexivity|apply mem_in; reflexivity] || (destruct Hk as [<-|[<-|[]]]; discriminate)).
    destruct (Hr k Hk) as [Hi|Hi]; [|apply mem_in in Hi; congruence]. unfold given.
    apply last_some in Hi. now destruct (last_value k (params f)). }
  destruct (R1 (T "band_index_max")) as (a1 & E1 & M1); [cbn; tauto|]. destruct (R1 (T "band_index_min")) as (a2 & E2 & M2); [cbn; tauto|].
  split.
  { rewrite E, E1, E2, K. destruct (points f) as [|p ps]; [easy|]. cbn [map]. destruct a1; try easy; destruct a2; easy. }
  split; [exact K|]. split; [|split].
  - intros k Hk Ho. rewrite A. now rewrite (proj2 (mem_in _ _) Hk), (proj2 (mem_in _ _) Ho).
  - intros k Hk Kk No. rewrite A. rewrite (proj2 (mem_in _ _) Hk), (mem_not _ _ No). f_equal. now apply sigma_plain.
  - intros k Hk. rewrite A. now rewrite (mem_not _ _ Hk).
Qed.
Print Assumptions C75_sigma_inp.
Theorem C75_sigma_required : forall f, (forall i, In i f -> item_ok (T "kpoints") false i) -> ~ In (T "kpts") (options f) ->
  points f = [] \/ (exists k, In k [T "band_index_min"; T "band_index_max"] /\ ~ In k (map fst (params f)) /\ ~ In k (options f)) ->
  from_sigma_inp (file_text f) = Err AssertionError.
Proof.
  intros f H N1 Hc. destruct (sigma_attr f H) as (o & A & E). rewrite E.
  assert (K : assoc (T "kpts") o = Some (APoints (map prow_pt (points f)))).
  { rewrite A, (mem_not _ (options f)) by exact N1. reflexivity. }
  assert (S1 : forall k, In k [T "band_index_min"; T "band_index_max"] -> exists a, assoc k o = Some a).
  { intros k Hk. rewrite A. destruct Hk as [<-|[<-|[]]]; eexists; reflexivity. }
  destruct (S1 (T "band_index_min")) as (a & Ea); [cbn; tauto|]. destruct (S1 (T "band_index_max")) as (b & Eb); [cbn; tauto|]. rewrite Ea, Eb, K.
  destruct Hc as [->|(k & Hk & Np & No)]; [destruct b; try easy; destruct a; easy|].
  assert (Ek : assoc k o = Some ANone).
  { rewrite A, (mem_not _ _ No). destruct Hk as [<-|[<-|[]]]; (rewrite (proj2 (mem_in _ _)) by (apply mem_in; reflexivity); f_equal; rewrite sigma_plain; [|apply mem_in; reflexivity|discriminate]; unfold given;
      rewrite last_none by exact Np; reflexivity). }
  destruct Hk as [<-|[<-|[]]].
  - rewrite Ea in Ek. injection Ek as ->. now destruct b.
  - rewrite Eb in Ek. now injection Ek as ->.
Qed.
Print Assumptions C75_sigma_required.

(** A line of two or more words whose second word is not a JSON number (a comment, 1d0, .5, 1., +1) makes the reader
    raise ValueError (json.JSONDecodeError). *)
Theorem C75_bad_value : forall block q0 pts f f' l k w more, field_name block = true ->
  (forall i, In i (f ++ f') -> item_ok block q0 i) -> line_ok l -> lwords l = k :: w :: more -> k <> T "begin" ->
  (forall n, number_ok n -> w <> number_text n) ->
  read_inp block q0 pts (file_text f ++ [ltext l] ++ file_text f') = Err ValueError.
Proof.
  intros block q0 pts f f' l k w more Hb H Hl Ew Hk Hw. unfold read_inp.
  assert (H1 : forall i, In i f -> item_ok block q0 i) by (intros; apply H, in_or_app; now left).
  assert (H2 : forall i, In i f' -> item_ok block q0 i) by (intros; apply H, in_or_app; now right).
  rewrite scan_file by assumption. cbn [List.app scan]. rewrite words_line, Ew by exact Hl. apply teqb_neq in Hk. rewrite Hk. cbn [andb].
  rewrite <- (app_nil_r (file_text f')), scan_file by assumption. cbn [scan bind]. unfold add. cbn [fd_params fd_pts fd_q0 fd_scale fd_opts List.app].
  unfold json_dict. rewrite <- app_assoc. cbn [List.app]. rewrite foldm_app.
  destruct (json_dict_gen f) with (d := @nil (text * attr)) as (d & -> & _). { intros i Hi. specialize (H1 i Hi). destruct i; try easy. cbn in H1. tauto. }
  cbn [bind foldm fst snd]. destruct (js_value w) as [v|e] eqn:Ev.
  - apply C75_values in Ev as (n & Hn & -> & _). now apply (Hw n) in Hn.
  - cbn [bind]. f_equal. unfold js_value, py_int, py_float, py_exponent in Ev. destruct (js_number w); [| |congruence].
    + destruct (take_sign _) as [neg r]. destruct (span_digits r) as [[|c d0] [|]]; cbn in Ev; congruence.
    + destruct (take_sign _) as [neg r]. destruct (span_digits r) as [ip r1]. destruct (match r1 with c :: r' => _ | [] => _ end) as [fp r2]. destruct (ip ++ fp); [cbn in Ev; congruence|].
      destruct r2 as [|c r2]; [cbn in Ev; congruence|]. destruct (_ || _); [|cbn in Ev; congruence]. destruct (take_sign r2) as [n2 r3]. destruct (span_digits r3) as [[|? ?] [|]]; cbn in Ev; congruence.
Qed.
Print Assumptions C75_bad_value.
(** Every attribute name of an accepted file is a legal one: a letter, then letters, digits and underscores only, and not a keyword; a file
    that parses but has another name is refused with ValueError. *)
Definition legal (t : text) : Prop := exists c r, t = c :: r /\
  (let n := nat_of_ascii c in (65 <= n <= 90 \/ 97 <= n <= 122)%nat) /\
  (forall d, In d r -> let n := nat_of_ascii d in (65 <= n <= 90 \/ 97 <= n <= 122 \/ 48 <= n <= 57 \/ n = 95)%nat) /\ ~ In t keywords.
Lemma legal_iff t : field_name t = true <-> legal t.
Proof.
  assert (LT : forall c, is_letter c = true <-> (65 <= nat_of_ascii c <= 90 \/ 97 <= nat_of_ascii c <= 122)%nat).
  { intros c. unfold is_letter. cbv zeta. rewrite orb_true_iff, !andb_true_iff, !Nat.leb_le. reflexivity. }
  assert (NC : forall c, is_name_char c = true <-> (65 <= nat_of_ascii c <= 90 \/ 97 <= nat_of_ascii c <= 122 \/ 48 <= nat_of_ascii c <= 57 \/ nat_of_ascii c = 95)%nat).
  { intros c. unfold is_name_char. rewrite !orb_true_iff, LT. assert (D : is_digit c = true <-> (48 <= nat_of_ascii c <= 57)%nat).
    { unfold is_digit. cbv zeta. rewrite andb_true_iff, !Nat.leb_le. reflexivity. }
    assert (U : Ascii.eqb c "_" = true <-> nat_of_ascii c = 95%nat).
    { split; intros H; [apply Ascii.eqb_eq in H; now subst c|]. apply Ascii.eqb_eq. rewrite <- (ascii_nat_embedding c), H. reflexivity. }
    rewrite D, U. tauto. }
  assert (KW : existsb (teqb t) keywords = true <-> In t keywords).
  { rewrite existsb_exists. split; [intros (k & I & E); apply teqb_eq in E; now subst k|intros I; exists t; split; [exact I|now apply teqb_eq]]. }
  unfold field_name, legal. rewrite andb_true_iff, negb_true_iff. split.
  - intros [A B]. destruct t as [|c r]; [discriminate|]. apply andb_true_iff in A as [A1 A2]. exists c, r. split; [reflexivity|]. split; [now apply LT|]. split.
    + intros d I. rewrite forallb_forall in A2. apply NC. now apply A2.
    + intros I. apply KW in I. congruence.
  - intros (c & r & -> & A & B & K). split; [|apply not_true_iff_false; intros X; now apply K, KW].
    apply andb_true_iff. split; [now apply LT|]. apply forallb_forall. intros d I. apply NC. now apply B.
Qed.
Theorem C75_names_legal : forall block q0 pts lines,
  (forall d, read_inp block q0 pts lines = Ok d -> forall k v, In (k, v) d -> legal k) /\
  (forall f d, scan block q0 false (MkF [] [] [] [] []) lines = Ok f -> json_dict (fd_params f) = Ok d ->
     (exists k v, In (k, v) d /\ ~ legal k) -> read_inp block q0 pts lines = Err ValueError).
Proof.
  intros block q0 pts lines. split.
  - intros d H k v I. unfold read_inp in H. apply bind_ok in H as (f & _ & H). apply bind_ok in H as (d0 & _ & H). cbv zeta in H.
    match type of H with (if forallb ?p ?x then _ else _) = _ => destruct (forallb p x) eqn:E; [|discriminate] end. injection H as <-.
    rewrite forallb_forall in E. apply legal_iff. exact (E _ I).
  - intros f d HF HD (k & v & I & NL). unfold read_inp. rewrite HF. cbn [bind]. rewrite HD. cbn [bind]. cbv zeta.
    match goal with |- (if forallb ?p ?x then _ else _) = _ => destruct (forallb p x) eqn:E; [exfalso|reflexivity] end.
    rewrite forallb_forall in E. apply NL.
    assert (UP : forall (A : Type) k0 (w : A) (l : list (text * A)) kk, (exists v, In (kk, v) l) -> exists v, In (kk, v) (upd k0 w l)).
    { clear. intros A k0 w l kk (v & Iv). revert v Iv. induction l as [|[a b] l IH]; intros v Iv; [destruct Iv|]. cbn [upd]. destruct (teqb a k0) eqn:Ea.
      - destruct Iv as [Eq|Iv]; [injection Eq as -> ->; exists w; now left|exists v; now right].
      - destruct Iv as [Eq|Iv]; [injection Eq as -> ->; exists v; now left|]. destruct (IH v Iv) as (u & Iu). exists u. now right. }
    apply legal_iff.
    match goal with E : forall x, In x ?L -> _ |- _ => assert (X : exists v, In (k, v) L) end.
    { apply UP. destruct q0; [apply UP|]; apply UP; now exists v. }
    destruct X as (u & Iu). exact (E _ Iu).
Qed.
Print Assumptions C75_names_legal.
Example C75_names_case : legal (T "number_bands") /\ ~ legal (T "a-b") /\ read_inp (T "qpoints") true (T "qpts") [T "a-b 1"] = Err ValueError.
Proof.
  split; [apply legal_iff; reflexivity|]. split; [intros H; apply legal_iff in H; discriminate|]. vm_compute. reflexivity.
Qed.
(** A list of points without its end line: the file ends inside the block (StopIteration); a blank line inside the block: IndexError. *)
Theorem C75_unterminated : forall block q0 pts f h more rows, field_name block = true -> (forall i, In i f -> item_ok block q0 i) -> line_ok h -> lwords h = T "begin" :: block :: more ->
  (forall p, In p rows -> prow_ok q0 p) -> let start := file_text f ++ [ltext h] ++ map (fun p => ltext (r_line p)) rows in
  read_inp block q0 pts start = Err RuntimeError /\ (forall w rest, spaces w -> read_inp block q0 pts (start ++ w :: rest) = Err IndexError).
Proof.
  intros block q0 pts f h more rows Hb H Hh Ew Hr start. unfold start, read_inp. split.
  - rewrite scan_file by assumption. cbn [List.app scan]. rewrite words_line, Ew by exact Hh. rewrite !teqb_refl. cbn [andb].
    rewrite <- (app_nil_r (map _ rows)), scan_rows by exact Hr. reflexivity.
  - intros w rest Hw. rewrite <- !app_assoc. rewrite scan_file by assumption. cbn [List.app scan]. rewrite words_line, Ew by exact Hh. rewrite !teqb_refl. cbn [andb].
    rewrite scan_rows by exact Hr. cbn [scan]. rewrite words_spaces_only by exact Hw. reflexivity.
Qed.
Print Assumptions C75_unterminated.

(** ---- a concrete file, and what is lost ---- *)
Definition ln (ws : list string) : line := ([], map (fun w => (T w, T " ")) ws).
Lemma ln_ok ws : ws <> [] -> forallb (fun w => match T w with [] => false | _ => forallb (fun c => negb (is_ws c)) (T w) end) ws = true -> line_ok (ln ws).
Proof.
  intros N H. unfold line_ok, ln. cbn [fst snd]. split; [easy|]. split; [destruct ws; easy|]. split.
  - intros x Hx. apply in_map_iff in Hx as (w & <- & Hw). cbn [fst snd]. rewrite forallb_forall in H. specialize (H w Hw). destruct (T w) eqn:E; [easy|]. repeat split; [easy|now apply nonwsb|now apply spacesb].
  - intros x Hx. assert (Hx' : In x (map (fun w => (T w, T " ")) ws)).
    { clear -Hx. induction (map (fun w => (T w, T " ")) ws) as [|a l IH]; [easy|]. cbn [removelast] in Hx. destruct l; [easy|]. destruct Hx as [->|Hx]; [now left|right; now apply IH]. }
    apply in_map_iff in Hx' as (w & <- & _). easy.
Qed.
Definition d1 (n : nat) (f : list nat) : real_lit := dec NoSign [n] f.
Definition qrow (a b c s : nat) (q : nat) (ws : list string) : prow := MkP (ln ws) (d1 a [5]) (d1 b [0]) (d1 c [0]) (d1 s [0]) (NoSign, [q]).
Definition eps_file (rows : list prow) : list item :=
  [Param (ln ["epsilon_cutoff"; "10.5"]%string) (T "epsilon_cutoff") (NReal false [1;0] (Some [5]) None);
   Blank (T "  "); Param (ln ["number_bands"; "8"; "9"]%string) (T "number_bands") (NInt false [8]);
   Opt (ln ["cell_slab_truncation"]%string) (T "cell_slab_truncation");
   Points (ln ["begin"; "qpoints"]%string) rows (ln ["end"]%string)].
Definition row1 := qrow 0 0 0 2 1 ["0.5"; "0.0"; "0.0"; "2.0"; "1"]%string.
Definition row2 := qrow 0 0 0 1 0 ["0.5"; "0.0"; "0.0"; "1.0"; "0"; "x"]%string.
Definition row3 := qrow 0 0 0 1 2 ["0.5"; "0.0"; "0.0"; "1.0"; "2"]%string.
Lemma row_good (a b c s q : nat) ws more : a < 10 -> b < 10 -> c < 10 -> s < 10 -> q < 10 -> line_ok (ln ws) ->
  lwords (ln ws) = map real_text [d1 a [5]; d1 b [0]; d1 c [0]; d1 s [0]] ++ [int_text NoSign [q]] ++ more -> prow_ok true (qrow a b c s q ws).
Proof.
  intros. assert (G : forall n f, n < 10 -> f < 10 -> good_real (d1 n [f])).
  { intros n f0 ? ?. apply dec_ok; [|easy]. cbn [forallb List.app]. rewrite !(proj2 (Nat.ltb_lt _ _)) by lia. reflexivity. }
  unfold prow_ok, qrow. cbn [r_line r_x r_y r_z r_s r_q0 fst snd]. repeat match goal with |- _ /\ _ => split end; try (apply G; lia); [assumption|exists more; assumption|].
  intros _. split; [easy|]. intros d [<-|[]]. assumption.
Qed.
Lemma eps_file_ok rows : (forall p, In p rows -> prow_ok true p) -> forall i, In i (eps_file rows) -> item_ok (T "qpoints") true i.
Proof.
  intros H i Hi. destruct Hi as [<-|[<-|[<-|[<-|[<-|[]]]]]]; cbn [item_ok].
  - split; [apply ln_ok; easy|]. split; [exists []; reflexivity|]. split; [reflexivity|]. split; [split; [split; [easy|now apply digits_okb]|right; easy]|]. split; [left; easy|]. split; [|easy].
    intros f0 K. injection K as <-. split; [easy|now apply digits_okb].
  - now apply spacesb.
  - split; [apply ln_ok; easy|]. split; [exists [T "9"]; reflexivity|]. split; [reflexivity|]. split; [split; [easy|now apply digits_okb]|right; easy].
  - split; [apply ln_ok; easy|]. split; [reflexivity|]. discriminate.
  - split; [apply ln_ok; easy|]. split; [exists []; reflexivity|]. split; [exact H|]. split; [apply ln_ok; easy|]. exists []; reflexivity.
Qed.
Lemma row1_ok : prow_ok true row1. Proof. apply (row_good 0 0 0 2 1 _ []); try lia; [apply ln_ok; easy|reflexivity]. Qed.
Lemma row2_ok : prow_ok true row2. Proof. apply (row_good 0 0 0 1 0 _ [T "x"]); try lia; [apply ln_ok; easy|reflexivity]. Qed.
Lemma row3_ok : prow_ok true row3. Proof. apply (row_good 0 0 0 1 2 _ []); try lia; [apply ln_ok; easy|reflexivity]. Qed.
Lemma half_dec : real_value (d1 0 [5]) = (1 / 2)%R.
Proof. unfold d1, dec, real_value, real_exponent, frac_digits. cbn -[powerRZ]. cbn. lra. Qed.
Lemma zero_dec : real_value (d1 0 [0]) = 0%R.
Proof. unfold d1, dec, real_value, real_exponent, frac_digits. cbn -[powerRZ]. cbn. lra. Qed.
Lemma two_dec : real_value (d1 2 [0]) = 2%R.
Proof. unfold d1, dec, real_value, real_exponent, frac_digits. cbn -[powerRZ]. cbn. lra. Qed.
Example C75_example : exists o, from_epsilon_inp (file_text (eps_file [row1; row2])) = Ok o /\
  assoc (T "qpts") o = Some (APoints [V (1/2) 0 0; V (1/2) 0 0]) /\ assoc (T "is_q0") o = Some (AFlags [true; false]) /\
  assoc (T "number_bands") o = Some (ANum (VInt 8)) /\ assoc (T "verbosity") o = Some ANone /\ assoc (T "cell_slab_truncation") o = Some (AFlag false).
Proof.
  assert (H : forall i, In i (eps_file [row1; row2]) -> item_ok (T "qpoints") true i) by (apply eps_file_ok; intros p [<-|[<-|[]]]; [apply row1_ok|apply row2_ok]).
  destruct (C75_epsilon_inp (eps_file [row1; row2]) H) as (o & E & A & B & D & _).
  - intros K. apply mem_in in K. now vm_compute in K.
  - intros K. apply mem_in in K. now vm_compute in K.
  - exists o. split; [exact E|]. split; [rewrite A; cbn [points eps_file flat_map List.app map]; unfold prow_pt, row1, row2, qrow; cbn [r_x r_y r_z]; now rewrite half_dec, zero_dec|].
    split; [rewrite B; reflexivity|]. split; [|split].
    + rewrite D; [reflexivity|apply mem_in; reflexivity|discriminate|discriminate|intros K; apply mem_in in K; now vm_compute in K].
    + rewrite D; [reflexivity|apply mem_in; reflexivity|discriminate|discriminate|intros K; apply mem_in in K; now vm_compute in K].
    + apply (C75_epsilon_options_refuted _ _ _ H E); [apply mem_in; reflexivity|]. intros K. apply mem_in in K. now vm_compute in K.
Qed.
(** The scale factor is ignored: a q-point given as (0.5, 0, 0) with divisor 2 is read as (0.5, 0, 0), not (0.25, 0, 0);
    and the flag 2 (metal) cannot be told from 1 (semiconductor). *)
Theorem C75_scale_and_metal_refuted : exists f o, (forall i, In i f -> item_ok (T "qpoints") true i) /\ from_epsilon_inp (file_text f) = Ok o /\
  map (fun p => (real_value (r_x p) / real_value (r_s p))%R) (points f) = [(1/4)%R; (1/2)%R] /\ map prow_flag (points f) = [1; 2]%Z /\
  assoc (T "qpts") o = Some (APoints [V (1/2) 0 0; V (1/2) 0 0]) /\ assoc (T "is_q0") o = Some (AFlags [true; true]).
Proof.
  assert (H : forall i, In i (eps_file [row1; row3]) -> item_ok (T "qpoints") true i) by (apply eps_file_ok; intros p [<-|[<-|[]]]; [apply row1_ok|apply row3_ok]).
  destruct (C75_epsilon_inp (eps_file [row1; row3]) H) as (o & E & A & B & _).
  - intros K. apply mem_in in K. now vm_compute in K.
  - intros K. apply mem_in in K. now vm_compute in K.
  - exists (eps_file [row1; row3]), o. split; [exact H|]. split; [exact E|]. split; [|split; [reflexivity|split; [|rewrite B; reflexivity]]].
    + cbn [points eps_file flat_map List.app map]. unfold row1, row3, qrow. cbn [r_x r_s]. rewrite half_dec, two_dec.
      assert (O : real_value (d1 1 [0]) = 1%R) by (unfold d1, dec, real_value, real_exponent, frac_digits; cbn; lra). rewrite O. f_equal; [lra|]. f_equal. lra.
    + rewrite A; cbn [points eps_file flat_map List.app map]; unfold prow_pt, row1, row3, qrow; cbn [r_x r_y r_z]; now rewrite half_dec, zero_dec.
Qed.
Print Assumptions C75_scale_and_metal_refuted.
Definition krow : prow := MkP (ln ["0.5"; "0.0"; "0.0"; "1.0"]%string) (d1 0 [5]) (d1 0 [0]) (d1 0 [0]) (d1 1 [0]) (NoSign, []).
Definition sigma_file : list item :=
  [Param (ln ["band_index_min"; "1"]%string) (T "band_index_min") (NInt false [1]); Param (ln ["band_index_max"; "8"]%string) (T "band_index_max") (NInt false [8]);
   Opt (ln ["screening_metal"]%string) (T "screening_metal"); Points (ln ["begin"; "kpoints"]%string) [krow] (ln ["end"]%string)].
Example C75_sigma_example : exists o, from_sigma_inp (file_text sigma_file) = Ok o /\ assoc (T "kpts") o = Some (APoints [V (1/2) 0 0]) /\
  assoc (T "screening_metal") o = Some (AFlag true) /\ assoc (T "band_index_max") o = Some (ANum (VInt 8)) /\ assoc (T "use_xdat") o = Some (AFlag false).
Proof.
  assert (G : forall n f, n < 10 -> f < 10 -> good_real (d1 n [f])).
  { intros n f0 ? ?. apply dec_ok; [|easy]. cbn [forallb List.app]. rewrite !(proj2 (Nat.ltb_lt _ _)) by lia. reflexivity. }
  destruct (C75_sigma_inp sigma_file) as (o & E & A & B & D & _).
  - intros i Hi. destruct Hi as [<-|[<-|[<-|[<-|[]]]]]; cbn [item_ok].
    + split; [apply ln_ok; easy|]. split; [exists []; reflexivity|]. split; [reflexivity|]. split; [split; [easy|now apply digits_okb]|right; easy].
    + split; [apply ln_ok; easy|]. split; [exists []; reflexivity|]. split; [reflexivity|]. split; [split; [easy|now apply digits_okb]|right; easy].
    + split; [apply ln_ok; easy|]. split; [reflexivity|]. discriminate.
    + split; [apply ln_ok; easy|]. split; [exists []; reflexivity|]. split; [|split; [apply ln_ok; easy|exists []; reflexivity]].
      intros p [<-|[]]. unfold prow_ok, krow. cbn [r_line r_x r_y r_z r_s r_q0 fst snd].
      repeat match goal with |- _ /\ _ => split end; try (apply G; lia); [apply ln_ok; easy|exists []; reflexivity|easy].
  - intros K. apply mem_in in K. now vm_compute in K.
  - intros k [<-|[<-|[]]]; left; apply mem_in; reflexivity.
  - easy.
  - exists o. split; [exact E|]. split; [rewrite A; cbn [points sigma_file flat_map List.app map]; unfold prow_pt, krow; cbn [r_x r_y r_z]; now rewrite half_dec, zero_dec|].
    split; [apply B; apply mem_in; reflexivity|]. split; (rewrite D; [reflexivity|apply mem_in; reflexivity|discriminate|intros K; apply mem_in in K; now vm_compute in K]).
Qed.
