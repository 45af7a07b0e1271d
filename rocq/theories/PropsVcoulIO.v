(** C100: the Coulomb table written by [write_vcoul] and read by [load_vcoul], and [read_vxc]. *)
From Coq Require Import Reals Ascii String Lra.
From Verif Require Import Base LatModel LatProofs QeInpModel QeInpSpec QeInpProofs PropsQeInp PropsBgwInp SigmaHpModel VcoulIOModel VcoulIOSpec VcoulIOProofs.
Import ListNotations.
Local Open Scope nat_scope.

(** ---- characters of printed numbers ---- *)
Definition okc (c : ascii) : bool := is_digit c || existsb (Ascii.eqb c) (T "+-.ENA").
Lemma okc_facts : forall c, okc c = true -> is_ws c = false /\ c <> "#"%char /\ c <> newline.
Proof. allchars. all: intros H; try discriminate H. all: repeat split; discriminate. Qed.
Lemma digit_okc c : is_digit c = true -> okc c = true.
Proof. intros H. unfold okc. now rewrite H. Qed.
Definition tok (t : text) : Prop := t <> [] /\ forall c, In c t -> okc c = true.
Lemma digits_okc ds : digits_ok ds -> forall c, In c (digits_text ds) -> okc c = true.
Proof. intros H c Hc. apply digit_okc. now apply (digits_alls ds H). Qed.
Lemma sgn_okc s c : In c (sgn_text s) -> okc c = true.
Proof. destruct s; cbn [sgn_text]; intros [H|[]] || intros []; now subst c. Qed.
Lemma real_tok r : real_ok r -> (forall c e, r_exp r = Some (c, e) -> c = "E"%char) -> tok (real_text r).
Proof.
  intros (H1 & H2 & H3 & H4) HE. split.
  - intros E. unfold real_text in E. apply app_eq_nil in E as (_ & E). apply app_eq_nil in E as (E1 & E). apply app_eq_nil in E as (E2 & _).
    unfold frac_digits in *. destruct (r_int r); [|discriminate]. now destruct (r_frac r).
  - intros c Hc. unfold real_text in Hc. rewrite !in_app_iff in Hc. destruct Hc as [Hc|[Hc|[Hc|Hc]]].
    + now apply sgn_okc in Hc.
    + now apply (digits_okc _ H1).
    + unfold frac_digits in *. destruct (r_frac r) as [f|]; [|easy]. destruct Hc as [<-|Hc]; [reflexivity|]. now apply (digits_okc _ H2).
    + destruct (r_exp r) as [[c' [s ds]]|]; [|easy]. destruct Hc as [<-|Hc]; [now rewrite (HE c' (s, ds))|].
      unfold int_text in Hc. apply in_app_iff in Hc as [Hc|Hc]; [now apply sgn_okc in Hc|]. destruct H4 as (_ & _ & H4). now apply (digits_okc _ H4).
Qed.
Lemma f8_tok x : tok (fmt_f8 x).
Proof. destruct (fmt_f8_spec x) as (ip & fp & -> & K & _). now apply real_tok. Qed.
Lemma int_tok z : tok (fmt_int z).
Proof. destruct (fmt_int_spec z) as (s & ds & K & _ & -> & _). rewrite <- real_of_int_text. apply real_tok; [now apply real_of_int_ok|easy]. Qed.
Lemma v_tok v : tok (fmt_v v).
Proof.
  destruct v as [x|]; cbn [fmt_v].
  - destruct (fmt_E7_spec x) as (b & d & fp & es & ed & -> & K & _). apply real_tok; [exact K|]. intros c e H. cbn in H. congruence.
  - split; [easy|]. intros c Hc. cbn in Hc. destruct Hc as [<-|[<-|[<-|[]]]]; reflexivity.
Qed.
Lemma tok_nonws t : tok t -> nonws t. Proof. intros (_ & H) c Hc. now apply okc_facts, H. Qed.

(** ---- words of a line ---- *)
Lemma words_tok a w s t : spaces a -> tok w -> spaces s -> s <> [] -> words (a ++ w ++ s ++ t) = w :: words t.
Proof.
  intros Ha Hw Hs N. unfold words. rewrite words_spaces by exact Ha. rewrite words_acc_word by now apply tok_nonws. rewrite app_nil_r.
  rewrite words_end; [now rewrite rev_involutive| |exact Hs|now intros ->]. destruct Hw as (Hw & _). intros E. apply Hw. rewrite <- (rev_involutive w), E. reflexivity.
Qed.
Lemma words_last a w : spaces a -> tok w -> words (a ++ w) = [w].
Proof.
  intros Ha Hw. unfold words. rewrite words_spaces by exact Ha. rewrite <- (app_nil_r w) at 1. rewrite words_acc_word by now apply tok_nonws. rewrite app_nil_r.
  cbn [words_acc]. destruct Hw as (Hw & _). destruct (rev w) as [|c l] eqn:E; [exfalso; apply Hw; rewrite <- (rev_involutive w), E; reflexivity|]. now rewrite <- E, rev_involutive.
Qed.
Lemma spaces_repeat k : spaces (repeat " "%char k).
Proof. intros c Hc. apply repeat_spec in Hc. now subst c. Qed.
Lemma spaces_app a b : spaces a -> spaces b -> spaces (a ++ b).
Proof. intros H1 H2 c Hc. apply in_app_iff in Hc as [Hc|Hc]; auto. Qed.

Definition body (q : rvec) (g : ivec) (v : option R) : text :=
  let '(g1, g2, g3) := g in
  rjust 11 (fmt_f8 (vx q)) ++ T " " ++ rjust 11 (fmt_f8 (vy q)) ++ T " " ++ rjust 11 (fmt_f8 (vz q)) ++ T "  "
  ++ rjust 6 (fmt_int g1) ++ T " " ++ rjust 6 (fmt_int g2) ++ T " " ++ rjust 6 (fmt_int g3) ++ T "       " ++ fmt_v v.
Lemma line_body q g v : line_of q g v = body q g v ++ [newline].
Proof. destruct g as [[g1 g2] g3]. unfold line_of, body. now rewrite <- !app_assoc. Qed.
Definition toks (q : rvec) (g : ivec) (v : option R) : list text :=
  let '(g1, g2, g3) := g in
  [fmt_f8 (vx q); fmt_f8 (vy q); fmt_f8 (vz q); fmt_int g1; fmt_int g2; fmt_int g3; fmt_v v].
Lemma sp1 : spaces (T " "). Proof. intros c [<-|[]]. reflexivity. Qed.
Lemma sp2 : spaces (T "  "). Proof. intros c Hc. cbn in Hc. destruct Hc as [<-|[<-|[]]]; reflexivity. Qed.
Lemma sp7 : spaces (T "       "). Proof. exact (spaces_repeat 7). Qed.
Lemma body_words q g v : words (body q g v) = toks q g v.
Proof.
  destruct g as [[g1 g2] g3]. unfold body, toks, rjust. rewrite <- !app_assoc.
  assert (S0 : spaces []) by easy.
  rewrite words_tok; [|apply spaces_repeat|apply f8_tok|apply sp1|easy]. f_equal.
  rewrite words_tok; [|apply spaces_repeat|apply f8_tok|apply sp1|easy]. f_equal.
  rewrite words_tok; [|apply spaces_repeat|apply f8_tok|apply sp2|easy]. f_equal.
  rewrite words_tok; [|apply spaces_repeat|apply int_tok|apply sp1|easy]. f_equal.
  rewrite words_tok; [|apply spaces_repeat|apply int_tok|apply sp1|easy]. f_equal.
  rewrite words_tok; [|apply spaces_repeat|apply int_tok|apply sp7|easy]. f_equal.
  apply (words_last [] (fmt_v v)); [easy|apply v_tok].
Qed.
Definition plain (c : ascii) : Prop := c <> "#"%char /\ c <> newline.
Lemma tok_plain t : tok t -> forall c, In c t -> plain c.
Proof. intros (_ & H) c Hc. apply H, okc_facts in Hc. now split. Qed.
Lemma rjust_plain w t : tok t -> forall c, In c (rjust w t) -> plain c.
Proof.
  intros H c Hc. unfold rjust in Hc. apply in_app_iff in Hc as [Hc|Hc]; [apply repeat_spec in Hc; subst c; now split|now apply (tok_plain t)].
Qed.
Lemma blanks_plain n c : In c (repeat " "%char n) -> plain c.
Proof. intros H. apply repeat_spec in H. subst c. now split. Qed.
Lemma body_plain q g v c : In c (body q g v) -> plain c.
Proof.
  destruct g as [[g1 g2] g3]. unfold body. rewrite !in_app_iff.
  intros H. repeat (destruct H as [H|H]; [first [apply (rjust_plain _ _ (f8_tok _) c H)|apply (rjust_plain _ _ (int_tok _) c H)|apply (blanks_plain 1 c H)|apply (blanks_plain 2 c H)|apply (blanks_plain 7 c H)]|]).
  now apply (tok_plain _ (v_tok v)).
Qed.

(** ---- values ---- *)
Lemma cell_fixed x : exists y, cell (fmt_f8 x) = Some y /\ (Rabs (y - x) <= 5 / 10 ^ 9)%R.
Proof.
  destruct (fmt_f8_spec x) as (ip & fp & E & K & _ & _ & V & _). eexists. split; [|exact V].
  unfold cell. now rewrite E, py_float_text by easy.
Qed.
Lemma cell_int z : cell (fmt_int z) = Some (IZR z).
Proof.
  destruct (fmt_int_spec z) as (s & ds & K & _ & -> & V & _). unfold cell.
  rewrite <- real_of_int_text, py_float_text, real_of_int_value, V by (easy || now apply real_of_int_ok). reflexivity.
Qed.
Lemma cell_v v : match v with Some x => same_number x (cell (fmt_v v)) | None => cell (fmt_v v) = None end.
Proof.
  destruct v as [x|]; cbn [fmt_v]; [|reflexivity].
  destruct (fmt_E7_spec x) as (b & d & fp & es & ed & E & K & _ & _ & _ & V). unfold cell. rewrite E, py_float_text; [exact V|exact K|]. cbn. now right.
Qed.
Lemma toks_cells w q g v : w = (q, g, v) -> let r := map cell (toks q g v) in
  length r = 7 /\ row_matches w (firstn 3 r) (firstn 3 (skipn 3 r)) (cell (fmt_v v)) /\ nth_error r 6 = Some (cell (fmt_v v)).
Proof.
  intros ->. destruct g as [[g1 g2] g3]. cbn zeta. unfold toks. cbn [map length firstn skipn nth_error]. split; [reflexivity|]. split; [|reflexivity].
  unfold row_matches. split; [|split].
  - destruct (cell_fixed (vx q)) as (a & -> & Ha), (cell_fixed (vy q)) as (b & -> & Hb), (cell_fixed (vz q)) as (c & -> & Hc). now exists a, b, c.
  - now rewrite !cell_int.
  - apply cell_v.
Qed.

(** ---- the written file ---- *)
(** The rows a table stands for, q-points in the order of [l]. *)
Definition table_rows (A : table) (l : list nat) : list vrow :=
  flat_map (fun i => map (fun j => (match t_q0 A with Some k => if i =? k then t_q0vec A else nth i (t_cryst A) (V 0 0 0) | None => nth i (t_cryst A) (V 0 0 0) end,
                                    nth j (nth i (t_g A) []) (0, 0, 0)%Z, nth j (nth i (t_v A) []) None))
                         (seq 0 (length (nth i (t_g A) [])))) l.
(** Every listed q-point has coordinates, G-vectors and a factor for each of them. *)
Definition table_ok (A : table) (l : list nat) : Prop :=
  forall i, In i l -> i < length (t_cryst A) /\ i < length (t_g A) /\ i < length (t_v A)
                      /\ length (nth i (t_g A) []) <= length (nth i (t_v A) []).
Definition selected (A : table) (sel : option (list nat)) : list nat := match sel with Some l => l | None => seq 0 (length (t_cryst A)) end.
Definition line_row (w : vrow) : text := line_of (fst (fst w)) (snd (fst w)) (snd w).
Definition tokrow (w : vrow) : list text := toks (fst (fst w)) (snd (fst w)) (snd w).
Definition body_row (w : vrow) : text := body (fst (fst w)) (snd (fst w)) (snd w).

Lemma foldm_append {X} (f : X -> res text) (g : X -> text) l : forall a, (forall x, In x l -> f x = Ok (g x)) ->
  foldm (fun acc x => do t <- f x; Ok (acc ++ t)) a l = Ok (a ++ concat (map g l)).
Proof.
  induction l as [|x l IH]; intros a H; cbn [foldm map concat]; [now rewrite app_nil_r|].
  rewrite H by now left. cbn [bind]. rewrite IH by (intros y Hy; apply H; now right). now rewrite app_assoc.
Qed.
Lemma foldm_ext {X S} (f g : S -> X -> res S) l : forall a, (forall a x, In x l -> f a x = g a x) -> foldm f a l = foldm g a l.
Proof.
  induction l as [|x l IH]; intros a H; cbn [foldm]; [reflexivity|]. rewrite H by now left. destruct (g a x); cbn [bind]; [|reflexivity]. apply IH. intros; apply H; now right.
Qed.
Lemma item_nth {X} (l : list X) i d : i < length l -> item_ l i = Ok (nth i l d).
Proof. intros H. unfold item_. now rewrite (nth_error_nth' l d H). Qed.
Lemma combine_seq {X} (l : list X) d s : combine (seq s (length l)) l = map (fun j => (j, nth (j - s) l d)) (seq s (length l)).
Proof.
  revert s. induction l as [|x l IH]; intros s; [reflexivity|]. cbn [length seq combine map]. rewrite Nat.sub_diag. f_equal. rewrite IH.
  apply map_ext_in. intros j Hj. apply in_seq in Hj. replace (j - s) with (Datatypes.S (j - Datatypes.S s)) by lia. reflexivity.
Qed.
Lemma write_point_rows A i : table_ok A [i] -> write_point A i = Ok (concat (map line_row (table_rows A [i]))).
Proof.
  intros H. destruct (H i (or_introl eq_refl)) as (H1 & H2 & H3 & H4). unfold write_point.
  rewrite (item_nth _ _ [] H2). cbn [bind]. rewrite (combine_seq _ (0, 0, 0)%Z 0).
  set (q := match t_q0 A with Some k => if i =? k then t_q0vec A else nth i (t_cryst A) (V 0 0 0) | None => nth i (t_cryst A) (V 0 0 0) end).
  assert (Q : qvec_of A i = Ok q).
  { unfold qvec_of, q. destruct (t_q0 A) as [k|]; [destruct (i =? k); [reflexivity|]|]; now apply item_nth. }
  set (gs := nth i (t_g A) []) in *.
  rewrite (foldm_ext _ (fun acc jg => do t <- (fun jg => Ok (line_row (q, snd jg, nth (fst jg) (nth i (t_v A) []) None))) jg; Ok (acc ++ t))).
  - rewrite (foldm_append _ (fun jg => line_row (q, snd jg, nth (fst jg) (nth i (t_v A) []) None))) by reflexivity.
    cbn [app]. f_equal. f_equal. unfold table_rows. cbn [flat_map]. fold q gs. rewrite app_nil_r, !map_map. apply map_ext. intros j. cbn [fst snd]. now rewrite Nat.sub_0_r.
  - intros a x Hx. apply in_map_iff in Hx as (j & <- & Hj). apply in_seq in Hj. cbn [fst snd]. rewrite Q. cbn [bind].
    rewrite (item_nth _ _ [] H3). cbn [bind]. rewrite (item_nth _ _ None) by (eapply Nat.lt_le_trans; [exact (proj2 Hj)|exact H4]). reflexivity.
Qed.
Lemma concat_rows A l : concat (map (fun i => concat (map line_row (table_rows A [i]))) l) = concat (map line_row (table_rows A l)).
Proof.
  induction l as [|i l IH]; [reflexivity|]. cbn [map concat]. rewrite IH. rewrite <- concat_app, <- map_app. f_equal. f_equal.
  unfold table_rows. cbn [flat_map]. now rewrite app_nil_r.
Qed.
Lemma write_rows A sel : table_ok A (selected A sel) -> write_vcoul A sel = Ok (concat (map line_row (table_rows A (selected A sel)))).
Proof.
  intros H. unfold write_vcoul. fold (selected A sel). rewrite (foldm_append _ (fun i => concat (map line_row (table_rows A [i])))).
  - now rewrite concat_rows.
  - intros i Hi. apply write_point_rows. intros j [<-|[]]. now apply H.
Qed.
Lemma split_lines (ls : list text) : (forall l, In l ls -> ~ In newline l) ->
  split_on newline (concat (map (fun l => l ++ [newline]) ls)) = ls ++ [[]].
Proof.
  induction ls as [|l ls IH]; intros H; [reflexivity|]. cbn [map concat]. rewrite <- app_assoc. cbn [app].
  rewrite split_sep by (apply H; now left). rewrite IH by (intros; apply H; now right). reflexivity.
Qed.
Lemma uncomment_plain l : ~ In "#"%char l -> uncomment l = l.
Proof. intros H. unfold uncomment. now rewrite split_none. Qed.
Lemma fields_rows (rows : list vrow) : fields_of (concat (map line_row rows)) = map tokrow rows.
Proof.
  unfold fields_of. replace (map line_row rows) with (map (fun l => l ++ [newline]) (map body_row rows)).
  2:{ rewrite map_map. apply map_ext. intros w. unfold line_row, body_row. now rewrite line_body. }
  rewrite split_lines.
  2:{ intros l Hl. apply in_map_iff in Hl as (w & <- & _). intros Hc. apply body_plain in Hc as (_ & Hc). now apply Hc. }
  rewrite map_app, map_map. cbn [map]. change (words (uncomment [])) with (@nil text).
  induction rows as [|w rows IH]; [reflexivity|]. cbn [map app filter].
  replace (words (uncomment (body_row w))) with (tokrow w)
    by (unfold tokrow; rewrite uncomment_plain by (intros Hc; apply body_plain in Hc as (Hc & _); now apply Hc); unfold body_row; now rewrite body_words).
  destruct w as [[q [[g1 g2] g3]] v]. cbn [tokrow fst snd toks length]. cbn [Nat.eqb negb]. f_equal. exact IH.
Qed.

(** What is written is read back, row by row and in order: G exactly, q within 5e-9, the factors
    within 5e-8 of their size and with their signs.  A file with fewer than two rows cannot be read. *)
Theorem C100_round_trip : forall A sel, table_ok A (selected A sel) ->
  let rows := table_rows A (selected A sel) in
  exists t, write_vcoul A sel = Ok t
    /\ (2 <= length rows -> exists Q G W, load_vcoul t = Ok (Q, G, W)
         /\ length Q = length rows /\ length G = length rows /\ length W = length rows
         /\ forall n w, nth_error rows n = Some w -> row_matches w (nth n Q []) (nth n G []) (nth n W None))
    /\ (length rows < 2 -> load_vcoul t = Err IndexError).
Proof.
  intros A sel H rows. exists (concat (map line_row rows)). split; [now apply write_rows|].
  assert (F := fields_rows rows).
  assert (L7 : forall w, length (tokrow w) = 7) by (intros [[q [[g1 g2] g3]] v]; reflexivity).
  assert (GF : genfromtxt (concat (map line_row rows))
             = Ok (if 2 <=? length rows then TwoD (map (fun w : vrow => map cell (tokrow w)) rows) else Flat)).
  { unfold genfromtxt. rewrite F. rewrite !map_length.
    assert (AL : forallb (fun r => length r =? length (hd [] (map tokrow rows)))
                         (map tokrow rows) = true).
    { apply forallb_forall. intros r Hr. apply in_map_iff in Hr as (w & <- & Hw). rewrite L7. destruct rows as [|w0 rows']; [easy|]. cbn [map hd]. now rewrite L7. }
    rewrite AL. f_equal. destruct (Nat.leb_spec 2 (length rows)) as [K|K]; [|reflexivity].
    destruct rows as [|w0 rows']; [cbn in K; lia|]. cbn [hd map]. rewrite L7. cbn [Nat.leb andb]. now rewrite map_map. }
  unfold load_vcoul. rewrite GF. cbn [bind]. split.
  - intros K. destruct (Nat.leb_spec 2 (length rows)) as [_|K']; [|lia].
    assert (SQ : sequence (map (fun r => item_ r 6) (map (fun w : vrow => map cell (tokrow w)) rows)) = Ok (map (fun w : vrow => cell (fmt_v (snd w))) rows)).
    { rewrite map_map. clear. induction rows as [|[[q [[g1 g2] g3]] v] rows IH]; [reflexivity|]. cbn [map sequence]. cbn [tokrow fst snd toks map item_ nth_error bind]. now rewrite IH. }
    rewrite SQ. cbn [bind]. do 3 eexists. split; [reflexivity|]. rewrite !map_length. repeat split.
    intros n w Hn. assert (LT : n < length rows) by (apply nth_error_Some; congruence).
    destruct w as [[q g] v]. destruct (toks_cells (q, g, v) q g v eq_refl) as (_ & M & _).
    rewrite map_map. rewrite (nth_indep _ [] (firstn 3 (map cell (toks q g v)))) by (now rewrite map_length).
    rewrite map_map. rewrite (nth_indep (map (fun x => firstn 3 (skipn 3 _)) rows) [] (firstn 3 (skipn 3 (map cell (toks q g v))))) by (now rewrite map_length).
    rewrite (nth_indep _ None (cell (fmt_v v))) by (now rewrite map_length).
    rewrite (map_nth (fun w : vrow => firstn 3 (map cell (tokrow w))) rows (q, g, v)).
    rewrite (map_nth (fun w : vrow => firstn 3 (skipn 3 (map cell (tokrow w)))) rows (q, g, v)).
    rewrite (map_nth (fun w : vrow => cell (fmt_v (snd w))) rows (q, g, v)). rewrite (nth_error_nth _ _ _ Hn). exact M.
  - intros K. destruct (Nat.leb_spec 2 (length rows)) as [K'|_]; [lia|reflexivity].
Qed.
Print Assumptions C100_round_trip.

(** ---- fixed columns ---- *)
Lemma columns_mid (a b c : text) : columns (length a) (length b) (a ++ b ++ c) = b.
Proof.
  unfold columns. rewrite skipn_app, skipn_all, Nat.sub_diag. cbn [app skipn]. rewrite firstn_app, firstn_all, Nat.sub_diag. cbn [firstn]. apply app_nil_r.
Qed.
Lemma columns_nth (ps : list text) k : k < length ps ->
  columns (length (concat (firstn k ps))) (length (nth k ps [])) (concat ps) = nth k ps [].
Proof.
  intros H. rewrite <- (columns_mid (concat (firstn k ps)) (nth k ps []) (concat (skipn (Datatypes.S k) ps))) at 2. f_equal.
  rewrite <- (firstn_skipn k ps) at 1. rewrite concat_app. f_equal.
  revert k H. induction ps as [|p ps IH]; intros k H; [cbn in H; lia|]. destruct k as [|k]; [reflexivity|]. cbn [skipn nth]. apply IH. cbn in H. lia.
Qed.
Lemma rjust_len w t : length t <= w -> length (rjust w t) = w.
Proof. intros H. unfold rjust. rewrite app_length, repeat_length. lia. Qed.
Lemma blank_repeat k : blank (repeat " "%char k).
Proof. intros c Hc. apply repeat_spec in Hc. now left. Qed.
Lemma f8_fixed x : exists y, fixed8 (rjust 11 (fmt_f8 x)) y /\ (Rabs (y - x) <= 5 / 10 ^ 9)%R.
Proof.
  destruct (fmt_f8_spec x) as (ip & fp & E & K & N & L & W & _). exists (real_value (fixed_lit (neg_r x) ip fp)). split; [|exact W].
  exists (repeat " "%char (11 - length (fmt_f8 x))), (fixed_lit (neg_r x) ip fp). split; [apply blank_repeat|].
  repeat split; try assumption; [unfold rjust; now rewrite E|exact (proj1 K)|exact (proj1 (proj2 K))|exact (proj1 (proj2 (proj2 K)))|apply sgn_if_not].
Qed.
Lemma int_field z : integer_in (rjust 6 (fmt_int z)) z.
Proof.
  destruct (fmt_int_spec z) as (s & ds & K & NP & E & W & _). exists (repeat " "%char (6 - length (fmt_int z))), s, ds.
  split; [apply blank_repeat|]. split; [unfold rjust; now rewrite E|]. split; [exact NP|split; [exact K|now symmetry]].
Qed.
Lemma v_field x : exists z, sci7 (fmt_v (Some x)) z /\ same_number x (Some z).
Proof.
  cbn [fmt_v]. destruct (fmt_E7_spec x) as (b & d & fp & es & ed & E & K & L & Le & D & SN).
  exists (real_value (sci_lit b d fp es ed)). split; [|exact SN].
  exists (sci_lit b d fp es ed), d, (if es then Minus else Plus), ed.
  split; [exact E|]. split; [exact K|]. split; [apply sgn_if_not|]. split; [reflexivity|]. split; [exact L|]. split; [reflexivity|].
  split; [now destruct es|]. split; [exact Le|]. split; [|reflexivity].
  intros NZ. apply D. intros ->. destruct SN as (z & EZ & A & _). injection EZ as <-. apply NZ.
  rewrite Rabs_R0, Rmult_0_r, Rminus_0_r in A. pose proof (Rabs_pos (real_value (sci_lit b d fp es ed))). assert (Rabs (real_value (sci_lit b d fp es ed)) = 0%R) by lra.
  destruct (Req_dec (real_value (sci_lit b d fp es ed)) 0) as [Y|Y]; [exact Y|]. now apply Rabs_no_R0 in Y.
Qed.

(** The file is one line per row, and with |q_i| < 9.99999999 and |G_i| < 100000 its columns are
    fixed: q in 0-10, 12-22 and 24-34, G in 37-42, 44-49 and 51-56, the factor from column 64 on. *)
Theorem C100_columns : forall A sel, table_ok A (selected A sel) ->
  let rows := table_rows A (selected A sel) in
  exists lines, write_vcoul A sel = Ok (concat (map (fun l => l ++ [newline]) lines)) /\ length lines = length rows
    /\ forall n q g1 g2 g3 v, nth_error rows n = Some (q, (g1, g2, g3), v) ->
       let l := nth n lines [] in
       ~ In newline l
       /\ ((Rabs (vx q) < 9.99999999 /\ Rabs (vy q) < 9.99999999 /\ Rabs (vz q) < 9.99999999)%R ->
           (Z.abs g1 < 100000 /\ Z.abs g2 < 100000 /\ Z.abs g3 < 100000)%Z ->
           (exists a b c, fixed8 (columns 0 11 l) a /\ fixed8 (columns 12 11 l) b /\ fixed8 (columns 24 11 l) c
              /\ (Rabs (a - vx q) <= 5 / 10 ^ 9 /\ Rabs (b - vy q) <= 5 / 10 ^ 9 /\ Rabs (c - vz q) <= 5 / 10 ^ 9)%R)
           /\ integer_in (columns 37 6 l) g1 /\ integer_in (columns 44 6 l) g2 /\ integer_in (columns 51 6 l) g3
           /\ columns 11 1 l = T " " /\ columns 23 1 l = T " " /\ columns 35 2 l = T "  " /\ columns 43 1 l = T " " /\ columns 50 1 l = T " " /\ columns 57 7 l = T "       "
           /\ match v with Some x => exists z, sci7 (skipn 64 l) z /\ same_number x (Some z) | None => skipn 64 l = T "NAN" end).
Proof.
  intros A sel H rows. exists (map body_row rows). split; [|split].
  - rewrite (write_rows A sel H). fold rows. f_equal. f_equal. rewrite map_map. apply map_ext. intros w. unfold line_row, body_row. now rewrite line_body.
  - apply map_length.
  - intros n q g1 g2 g3 v Hn l.
    assert (El : l = body q (g1, g2, g3) v).
    { unfold l. apply (map_nth_error body_row) in Hn. rewrite (nth_error_nth _ _ _ Hn). reflexivity. }
    clearbody l. subst l. split; [intros Hc; apply body_plain in Hc as (_ & Hc); now apply Hc|].
    intros (Q1 & Q2 & Q3) (G1 & G2 & G3).
    set (ps := [rjust 11 (fmt_f8 (vx q)); T " "; rjust 11 (fmt_f8 (vy q)); T " "; rjust 11 (fmt_f8 (vz q)); T "  ";
                rjust 6 (fmt_int g1); T " "; rjust 6 (fmt_int g2); T " "; rjust 6 (fmt_int g3); T "       "; fmt_v v]).
    assert (EB : body q (g1, g2, g3) v = concat ps) by (unfold body, ps; cbn [concat]; now rewrite app_nil_r).
    assert (F8 : forall x, (Rabs x < 9.99999999)%R -> length (rjust 11 (fmt_f8 x)) = 11).
    { intros x Hx. apply rjust_len. destruct (fmt_f8_spec x) as (? & ? & _ & _ & _ & _ & _ & B). now apply B. }
    assert (FI : forall z, (Z.abs z < 100000)%Z -> length (rjust 6 (fmt_int z)) = 6).
    { intros z Hz. apply rjust_len. destruct (fmt_int_spec z) as (s & ds & _ & _ & -> & _ & B). now apply B. }
    assert (PC : forall k a n, k < 13 -> length (concat (firstn k ps)) = a -> length (nth k ps []) = n -> columns a n (concat ps) = nth k ps []).
    { intros k a m Hk <- <-. now apply columns_nth. }
    assert (L0 := F8 _ Q1). assert (L2 := F8 _ Q2). assert (L4 := F8 _ Q3). assert (L6 := FI _ G1). assert (L8 := FI _ G2). assert (L10 := FI _ G3).
    assert (LL : forall k, k < 12 -> length (concat (firstn k ps)) = nth k [0; 11; 12; 23; 24; 35; 37; 43; 44; 50; 51; 57] 0).
    { intros k Hk. do 12 (destruct k as [|k]; [unfold ps; cbn [firstn concat nth]; rewrite ?app_length, ?L0, ?L2, ?L4, ?L6, ?L8, ?L10; reflexivity|]). lia. }
    assert (LN : forall k, k < 12 -> length (nth k ps []) = nth k [11; 1; 11; 1; 11; 2; 6; 1; 6; 1; 6; 7] 0).
    { intros k Hk. do 12 (destruct k as [|k]; [unfold ps; cbn [nth]; rewrite ?L0, ?L2, ?L4, ?L6, ?L8, ?L10; reflexivity|]). lia. }
    assert (PC' : forall k, k < 12 -> columns (nth k [0; 11; 12; 23; 24; 35; 37; 43; 44; 50; 51; 57] 0) (nth k [11; 1; 11; 1; 11; 2; 6; 1; 6; 1; 6; 7] 0) (concat ps) = nth k ps []).
    { intros k Hk. apply PC; [lia|now apply LL|now apply LN]. }
    rewrite EB.
    assert (R0 := PC' 0 ltac:(lia)). assert (R1 := PC' 1 ltac:(lia)). assert (R2 := PC' 2 ltac:(lia)). assert (R3 := PC' 3 ltac:(lia)).
    assert (R4 := PC' 4 ltac:(lia)). assert (R5 := PC' 5 ltac:(lia)). assert (R6 := PC' 6 ltac:(lia)). assert (R7 := PC' 7 ltac:(lia)).
    assert (R8 := PC' 8 ltac:(lia)). assert (R9 := PC' 9 ltac:(lia)). assert (R10 := PC' 10 ltac:(lia)). assert (R11 := PC' 11 ltac:(lia)).
    cbn [nth] in R0, R1, R2, R3, R4, R5, R6, R7, R8, R9, R10, R11.
    assert (RV : skipn 64 (concat ps) = fmt_v v).
    { replace (concat ps) with (concat (firstn 12 ps) ++ fmt_v v) by (unfold ps; cbn [firstn concat]; now rewrite <- ?app_assoc, ?app_nil_r).
      assert (L12 : length (concat (firstn 12 ps)) = 64). { unfold ps. cbn [firstn concat]. rewrite ?app_length, ?L0, ?L2, ?L4, ?L6, ?L8, ?L10. reflexivity. }
      rewrite <- L12, skipn_app, skipn_all, Nat.sub_diag. reflexivity. }
    rewrite RV. rewrite R0, R1, R2, R3, R4, R5, R6, R7, R8, R9, R10, R11. unfold ps. cbn [nth].
    split.
    { destruct (f8_fixed (vx q)) as (a & A1 & A2), (f8_fixed (vy q)) as (b & B1 & B2), (f8_fixed (vz q)) as (c & C1 & C2). now exists a, b, c. }
    repeat (split; [apply int_field || reflexivity|]).
    destruct v as [x|]; [|reflexivity]. apply v_field.
Qed.
Print Assumptions C100_columns.

(** ---- reading any table ---- *)
Lemma split_lines_tail (ls : list text) t : (forall l, In l ls -> ~ In newline l) ->
  split_on newline (concat (map (fun l => l ++ [newline]) ls) ++ t) = ls ++ split_on newline t.
Proof.
  induction ls as [|l ls IH]; intros H; [reflexivity|]. cbn [map concat]. rewrite <- !app_assoc. cbn [app].
  rewrite split_sep by (apply H; now left). rewrite IH by (intros; apply H; now right). reflexivity.
Qed.
(** A table of words: blanks before the first word and after each. *)
Definition wline := (text * list (text * text))%type.
Definition wtext (l : wline) : text := row_text (fst l) (snd l).
Definition wwords (l : wline) : list text := map fst (snd l).
Definition wline_ok (l : wline) : Prop := row_ok (fst l) (snd l) /\ ~ In newline (wtext l) /\ ~ In "#"%char (wtext l).
Definition file_text (ls : list wline) : text := concat (map (fun l => wtext l ++ [newline]) ls).
Lemma file_fields ls : Forall wline_ok ls -> fields_of (file_text ls) = map wwords ls.
Proof.
  intros F. unfold fields_of, file_text.
  replace (map (fun l => wtext l ++ [newline]) ls) with (map (fun l => l ++ [newline]) (map wtext ls)) by now rewrite map_map.
  rewrite split_lines. 2:{ intros l Hl. apply in_map_iff in Hl as (w & <- & Hw). apply (proj1 (Forall_forall _ _) F w Hw). }
  rewrite map_app, map_map. cbn [map]. change (words (uncomment [])) with (@nil text).
  induction F as [|l ls (R1 & _ & R3) F IH]; [reflexivity|]. cbn [map app filter]. rewrite uncomment_plain by exact R3.
  unfold wtext at 1 2. rewrite words_row by exact R1. fold (wwords l). rewrite IH.
  destruct R1 as (_ & N & _). unfold wwords at 1. destruct (snd l); [easy|]. reflexivity.
Qed.

(** Any table of decimal numbers: rows of different lengths are refused with ValueError; with equal
    lengths, fewer than two rows or seven columns give IndexError, and otherwise columns 1-3, 4-6 and
    7 come back as they are (further columns are ignored). *)
Theorem C100_load : forall (ls : list wline) (vals : list (list real_lit)), Forall wline_ok ls ->
  Forall2 (fun l v => Forall2 (fun w r => real_ok r /\ e_exp r /\ w = real_text r) (wwords l) v) ls vals ->
  ((exists v v', In v vals /\ In v' vals /\ length v <> length v') -> load_vcoul (file_text ls) = Err ValueError)
  /\ forall c, (forall v, In v vals -> length v = c) ->
     (length ls < 2 \/ c < 7 -> load_vcoul (file_text ls) = Err IndexError)
     /\ (2 <= length ls -> 7 <= c ->
         load_vcoul (file_text ls)
         = Ok (map (fun v => map (fun r => Some (real_value r)) (firstn 3 v)) vals,
               map (fun v => map (fun r => Some (real_value r)) (firstn 3 (skipn 3 v))) vals,
               map (fun v => option_map real_value (nth_error v 6)) vals)).
Proof.
  intros ls vals F FV.
  assert (EW : map (map cell) (map wwords ls) = map (map (fun r => Some (real_value r))) vals).
  { clear F. induction FV as [|l v ls vals H FV IH]; [reflexivity|]. cbn [map]. rewrite IH. f_equal. clear - H.
    induction H as [|w r ws rs (H1 & H2 & ->) H IH]; [reflexivity|]. cbn [map]. rewrite IH. f_equal. unfold cell. now rewrite py_float_text. }
  assert (EL : map (@length text) (map wwords ls) = map (@length real_lit) vals).
  { clear F EW. induction FV as [|l v ls vals H FV IH]; [reflexivity|]. cbn [map]. rewrite IH. f_equal. clear - H. induction H; cbn; congruence. }
  assert (LV : length ls = length vals) by (clear - FV; induction FV; cbn; congruence).
  unfold load_vcoul, genfromtxt. rewrite (file_fields ls F), EW, map_length. split.
  - intros (v & v' & Hv & Hv' & D).
    destruct (forallb _ (map wwords ls)) eqn:E; [|reflexivity]. exfalso. rewrite forallb_forall in E. set (c := length (hd [] (map wwords ls))) in *.
    assert (AC : forall v, In v vals -> length v = c).
    { intros u Hu. apply (in_map (@length real_lit)) in Hu. rewrite <- EL in Hu. apply in_map_iff in Hu as (r & <- & Hr). now apply Nat.eqb_eq, E. }
    apply D. now rewrite (AC v Hv), (AC v' Hv').
  - intros c HC.
    assert (AC : forall r, In r (map wwords ls) -> length r = c).
    { intros r Hr. apply (in_map (@length text)) in Hr. rewrite EL in Hr. apply in_map_iff in Hr as (u & <- & Hu). now apply HC. }
    assert (HL : 1 <= length ls -> length (hd [] (map wwords ls)) = c).
    { intros K. apply AC. destruct ls; [cbn in K; lia|]. now left. }
    assert (AL : forallb (fun r => length r =? length (hd [] (map wwords ls))) (map wwords ls) = true).
    { apply forallb_forall. intros r Hr. apply Nat.eqb_eq. rewrite HL; [now apply AC|]. destruct ls; [easy|cbn; lia]. }
    rewrite AL. cbn [bind].
    assert (SQ : 7 <= c -> sequence (map (fun r => item_ r 6) (map (map (fun r => Some (real_value r))) vals)) = Ok (map (fun v => option_map real_value (nth_error v 6)) vals)).
    { intros K. clear - HC K. induction vals as [|v vals IH]; [reflexivity|]. cbn [map sequence]. unfold item_ at 1. rewrite nth_error_map.
      destruct (nth_error v 6) as [r|] eqn:E; [|apply nth_error_None in E; rewrite HC in E by (now left); lia]. cbn [option_map bind]. rewrite IH by (intros; apply HC; now right). reflexivity. }
    assert (SF : c < 7 -> vals <> [] -> sequence (map (fun r => item_ r 6) (map (map (fun r => Some (real_value r))) vals)) = Err IndexError).
    { intros K N. destruct vals as [|v vals]; [easy|]. cbn [map sequence]. unfold item_ at 1. rewrite nth_error_map.
      destruct (nth_error v 6) as [r|] eqn:E; [|reflexivity]. assert (6 < length v) by (apply nth_error_Some; congruence). rewrite HC in H by (now left). lia. }
    split.
    + intros D. destruct ((2 <=? length ls) && (2 <=? length (hd [] (map wwords ls)))) eqn:E; [|reflexivity].
      apply andb_true_iff in E as (E1 & _). apply Nat.leb_le in E1. destruct D as [D|D]; [lia|].
      rewrite (SF D) by (destruct vals; [cbn in LV; lia|discriminate]). reflexivity.
    + intros K1 K2. rewrite HL by lia. replace (2 <=? length ls) with true by (symmetry; apply Nat.leb_le; lia). replace (2 <=? c) with true by (symmetry; apply Nat.leb_le; lia). cbn [andb].
      rewrite SQ by exact K2. cbn [bind]. f_equal. f_equal. f_equal; rewrite map_map; apply map_ext; intros v; [apply firstn_map|now rewrite skipn_map, firstn_map].
Qed.
Print Assumptions C100_load.

(** Comments and blank lines do not matter: a line of blanks, possibly with a comment, can be
    dropped anywhere, and so can a comment after data. *)
Theorem C100_comments : forall (pre post : text) b c l,
  spaces b -> ~ In newline b -> ~ In newline c -> ~ In newline l -> ~ In "#"%char l ->
  (pre = [] \/ exists p, pre = p ++ [newline]) ->
  load_vcoul (pre ++ b ++ newline :: post) = load_vcoul (pre ++ post)
  /\ load_vcoul (pre ++ b ++ "#"%char :: c ++ newline :: post) = load_vcoul (pre ++ post)
  /\ load_vcoul (pre ++ l ++ "#"%char :: c ++ newline :: post) = load_vcoul (pre ++ l ++ newline :: post).
Proof.
  intros pre post b c l Hb Nb Nc Nl Hl HP.
  assert (SP : exists ls, forall t, split_on newline (pre ++ t) = ls ++ split_on newline t).
  { destruct HP as [->|(p & ->)]; [now exists []|]. exists (split_on newline p). intros t. rewrite <- app_assoc. cbn [app].
    induction p as [|d p IH]; [reflexivity|]. cbn [app split_on]. destruct (Ascii.eqb d newline); rewrite IH; [reflexivity|].
    destruct (split_on newline p) as [|h r] eqn:E; [now apply split_nonempty in E|reflexivity]. }
  destruct SP as (ls & SP).
  assert (FE : forall t t', fields_of t = fields_of t' -> load_vcoul t = load_vcoul t').
  { intros t t' E. unfold load_vcoul, genfromtxt. now rewrite E. }
  assert (NB : ~ In "#"%char b) by (intros Hc; apply Hb in Hc; discriminate Hc).
  assert (NC : forall u, ~ In newline u -> ~ In newline (u ++ "#"%char :: c)).
  { intros u Hu Hc. apply in_app_iff in Hc as [Hc|[Hc|Hc]]; [now apply Hu|discriminate Hc|now apply Nc]. }
  assert (UC : forall u, ~ In "#"%char u -> uncomment (u ++ "#"%char :: c) = u).
  { intros u Hu. unfold uncomment. rewrite split_sep by exact Hu. reflexivity. }
  split; [|split]; apply FE; unfold fields_of; rewrite !SP, !map_app, !filter_app; f_equal.
  - rewrite split_sep by exact Nb. cbn [map filter]. rewrite uncomment_plain, words_spaces_only by assumption. reflexivity.
  - change (b ++ "#"%char :: c ++ newline :: post) with (b ++ ("#"%char :: c) ++ newline :: post). rewrite app_assoc, split_sep by now apply NC.
    cbn [map filter]. rewrite UC, words_spaces_only by assumption. reflexivity.
  - change (l ++ "#"%char :: c ++ newline :: post) with (l ++ ("#"%char :: c) ++ newline :: post). rewrite app_assoc, split_sep by now apply NC.
    rewrite split_sep by exact Nl. cbn [map]. rewrite UC, uncomment_plain by assumption. reflexivity.
Qed.
Print Assumptions C100_comments.

(** ---- read_vxc ---- *)
(** A k-point of the file: its header line and its band lines. *)
Record kblock := MkK {
  k_hdr : wline; k_x : real_lit; k_y : real_lit; k_z : real_lit; k_n : sgn * list nat; k_more : list text;
  k_rows : list (wline * real_lit) }.
Definition vline_ok (l : wline) : Prop := row_ok (fst l) (snd l) /\ ~ In newline (wtext l).
Definition header_ok (b : kblock) : Prop :=
  vline_ok (k_hdr b) /\ good_real (k_x b) /\ good_real (k_y b) /\ good_real (k_z b) /\ int_ok (snd (k_n b))
  /\ wwords (k_hdr b) = [real_text (k_x b); real_text (k_y b); real_text (k_z b); int_text (fst (k_n b)) (snd (k_n b))] ++ k_more b.
Definition bandline_ok (p : wline * real_lit) : Prop :=
  vline_ok (fst p) /\ good_real (snd p) /\ nth_error (wwords (fst p)) 2 = Some (real_text (snd p)).
Definition k_count (b : kblock) : Z := signed (fst (k_n b)) (denotes (snd (k_n b))).
(** The header announces as many band lines as follow. *)
Definition kblock_ok (b : kblock) : Prop := header_ok b /\ Forall bandline_ok (k_rows b) /\ k_count b = Z.of_nat (length (k_rows b)).
Definition k_lines (b : kblock) : list wline := k_hdr b :: map fst (k_rows b).
Definition k_values (b : kblock) : list R := map (fun p => real_value (snd p)) (k_rows b).
Definition k_header (b : kblock) : header := ([real_value (k_x b); real_value (k_y b); real_value (k_z b)], k_count b, k_more b).
(** End of the data: nothing, or blanks, or a blank line followed by anything. *)
Definition file_end (t : text) : Prop := exists b, spaces b /\ ~ In newline b /\ (t = b \/ exists u, t = b ++ newline :: u).

Lemma vline_words l : vline_ok l -> words (strip (wtext l)) = wwords l.
Proof. intros (H & _). rewrite words_strip. unfold wtext. now rewrite words_row. Qed.
Lemma vline_nonempty l : vline_ok l -> wwords l <> [].
Proof. intros ((_ & H & _) & _) E. apply H. unfold wwords in E. now destruct (snd l). Qed.
Lemma header_read b : header_ok b -> vxc_header (wwords (k_hdr b)) = Ok (k_header b).
Proof.
  intros (_ & (X1 & X2) & (Y1 & Y2) & (Z1 & Z2) & N & E). rewrite E. unfold vxc_header. cbn [app firstn map sequence].
  rewrite !py_float_text by assumption. cbn [bind]. unfold item_. cbn [nth_error bind]. rewrite py_int_text by exact N. reflexivity.
Qed.
Lemma rows_read ps : forall rest, Forall bandline_ok ps ->
  vxc_rows (length ps) (map wtext (map fst ps) ++ rest) = Ok (map (fun p => real_value (snd p)) ps, rest).
Proof.
  induction ps as [|p ps IH]; intros rest F; [reflexivity|]. apply Forall_cons_iff in F as ((P1 & (P2 & P3) & P4) & F'). cbn [length vxc_rows map app hd tl].
  rewrite vline_words by exact P1. unfold item_. rewrite P4. cbn [bind]. rewrite py_float_text by assumption. cbn [bind]. rewrite IH by exact F'. reflexivity.
Qed.
Lemma block_step b f rest : kblock_ok b ->
  vxc_loop (Datatypes.S f) (map wtext (k_lines b) ++ rest) = (do r <- vxc_loop f rest; Ok (k_header b :: fst r, k_values b :: snd r)).
Proof.
  intros (H & F & N). cbn [vxc_loop k_lines map app hd tl]. pose proof (proj1 H) as H1. rewrite vline_words by exact H1.
  destruct (wwords (k_hdr b)) as [|w ws] eqn:E; [now apply vline_nonempty in E|]. rewrite <- E, header_read by exact H. cbn [bind k_header fst snd].
  rewrite N, Nat2Z.id, rows_read by exact F. reflexivity.
Qed.
Lemma end_lines t : file_end t -> exists b rest, spaces b /\ split_on newline t = b :: rest /\ (t = b -> rest = []).
Proof.
  intros (b & Hb & Nb & [->|(u & ->)]).
  - exists b, []. now rewrite split_none.
  - exists b, (split_on newline u). split; [exact Hb|]. split; [now apply split_sep|]. intros E. exfalso. apply Nb. rewrite <- E. apply in_app_iff. right. now left.
Qed.
Lemma blocks_read bs : forall f rest, Forall kblock_ok bs -> length bs <= f ->
  vxc_loop f (map wtext (flat_map k_lines bs) ++ rest)
  = (do r <- vxc_loop (f - length bs) rest; Ok (map k_header bs ++ fst r, map k_values bs ++ snd r)).
Proof.
  induction bs as [|b bs IH]; intros f rest F L.
  - cbn [length flat_map map app]. rewrite Nat.sub_0_r. destruct (vxc_loop f rest) as [[? ?]|]; reflexivity.
  - inversion_clear F as [|? ? F1 F2]. destruct f as [|f]; [cbn in L; lia|]. cbn [flat_map]. rewrite map_app, <- app_assoc, block_step by exact F1.
    rewrite IH by (easy || (cbn in L; lia)). cbn [length Nat.sub]. destruct (vxc_loop (f - length bs) rest) as [[? ?]|]; reflexivity.
Qed.
Lemma flat_len bs : length bs <= length (flat_map k_lines bs).
Proof. induction bs as [|b bs IH]; [easy|]. cbn [flat_map k_lines app length]. rewrite app_length. lia. Qed.
Lemma block_newlines bs l : Forall kblock_ok bs -> In l (map wtext (flat_map k_lines bs)) -> ~ In newline l.
Proof.
  intros F Hl. apply in_map_iff in Hl as (w & <- & Hw). apply in_flat_map in Hw as (b & Hb & Hw). rewrite Forall_forall in F.
  destruct (F b Hb) as ((H1 & _) & H2 & _). destruct Hw as [<-|Hw]; [apply H1|]. apply in_map_iff in Hw as (p & <- & Hp). rewrite Forall_forall in H2. apply (H2 p Hp).
Qed.
Lemma file_lines (ls : list wline) t : (forall l, In l (map wtext ls) -> ~ In newline l) -> split_on newline (file_text ls ++ t) = map wtext ls ++ split_on newline t.
Proof.
  intros H. unfold file_text. replace (map (fun l => wtext l ++ [newline]) ls) with (map (fun l => l ++ [newline]) (map wtext ls)) by now rewrite map_map.
  now apply split_lines_tail.
Qed.

(** Reading vxc.dat: the k-points in the order of the file, each with its coordinates, its count and
    what else stands in its header, and the third number of each of its band lines, in order.  The
    first blank line ends the file: what follows is ignored. *)
Theorem C100_vxc_read : forall bs tail, Forall kblock_ok bs -> file_end tail ->
  read_vxc (file_text (flat_map k_lines bs) ++ tail) = Ok (map k_header bs, map k_values bs).
Proof.
  intros bs tail F E. destruct (end_lines tail E) as (b & rest & Hb & SE & _). unfold read_vxc.
  rewrite file_lines by (intros l; now apply block_newlines). rewrite SE.
  rewrite blocks_read; [|exact F|rewrite app_length, map_length; pose proof (flat_len bs); lia].
  rewrite app_length, map_length. cbn [length]. pose proof (flat_len bs) as FL.
  replace (Datatypes.S (length (flat_map k_lines bs) + Datatypes.S (length rest)) - length bs) with (Datatypes.S (length (flat_map k_lines bs) + Datatypes.S (length rest) - length bs)) by lia.
  cbn [vxc_loop hd]. rewrite words_strip, words_spaces_only by exact Hb. cbn [bind fst snd]. now rewrite !app_nil_r.
Qed.
Print Assumptions C100_vxc_read.

Lemma py_int_real r : real_ok r -> e_exp r -> r_frac r <> None \/ r_exp r <> None -> py_int (real_text r) = Err ValueError.
Proof.
  intros H He D. unfold py_int. rewrite nonws_strip by now apply real_nonws.
  pose proof H as (H1 & H2 & H3 & H4). unfold real_text.
  set (fr := match r_frac r with Some f => "."%char :: digits_text f | None => [] end).
  set (ex := match r_exp r with Some (c, (s, ds)) => c :: int_text s ds | None => [] end).
  rewrite take_sign_text.
  2:{ destruct (r_int r) as [|d ds] eqn:E.
      - cbn [digits_text map List.app]. unfold fr, frac_digits in *. destruct (r_frac r); [cbn; now right|]. cbn in H3. congruence.
      - cbn. left. apply (digit_chars d), H1. now left. }
  assert (HD : hdnot is_digit (fr ++ ex) /\ fr ++ ex <> []).
  { unfold fr, ex. destruct (r_frac r) as [f|]; [now split|]. cbn [app]. destruct (r_exp r) as [[c [s ds]]|]; [|destruct D; congruence].
    split; [|discriminate]. destruct H4 as ([->|[->|[->| ->]]] & _); reflexivity. }
  destruct HD as (HD & NE). rewrite span_app; [|now apply digits_alls|exact HD].
  destruct (digits_text (r_int r)); [reflexivity|]. destruct (fr ++ ex); [easy|reflexivity].
Qed.
(** A file that does not fit is refused: too few band lines (the file ends, or a blank line comes
    first), a header of fewer than four words, or a header whose fourth word is a number with a
    decimal point or exponent -- as in the off-diagonal lines, which follow the band lines when the
    header's last count is not zero. *)
Theorem C100_vxc_refused : forall bs, Forall kblock_ok bs ->
  (forall b tail, header_ok b -> Forall bandline_ok (k_rows b) -> (Z.of_nat (length (k_rows b)) < k_count b)%Z -> file_end tail ->
     read_vxc (file_text (flat_map k_lines bs ++ k_lines b) ++ tail) = Err IndexError)
  /\ (forall l rs tail, vline_ok l -> length (wwords l) < 4 -> Forall2 (fun w r => good_real r /\ w = real_text r) (firstn 3 (wwords l)) rs ->
     read_vxc (file_text (flat_map k_lines bs ++ [l]) ++ tail) = Err IndexError)
  /\ (forall l x y z r tail, vline_ok l -> good_real x -> good_real y -> good_real z -> good_real r ->
     firstn 4 (wwords l) = [real_text x; real_text y; real_text z; real_text r] -> r_frac r <> None \/ r_exp r <> None ->
     read_vxc (file_text (flat_map k_lines bs ++ [l]) ++ tail) = Err ValueError).
Proof.
  intros bs F.
  assert (GO : forall ls tail e, (forall l, In l ls -> ~ In newline (wtext l)) ->
     (forall f rest, split_on newline tail = rest -> vxc_loop (Datatypes.S f) (map wtext ls ++ rest) = Err e) ->
     read_vxc (file_text (flat_map k_lines bs ++ ls) ++ tail) = Err e).
  { intros ls tail e NL H. unfold read_vxc.
    rewrite file_lines. 2:{ intros l Hl. rewrite map_app in Hl. apply in_app_iff in Hl as [Hl|Hl]; [now apply (block_newlines bs)|].
      apply in_map_iff in Hl as (w & <- & Hw). now apply NL. }
    rewrite map_app, <- app_assoc. pose proof (flat_len bs) as FL.
    rewrite blocks_read; [|exact F|rewrite !app_length, map_length; lia].
    rewrite !app_length, !map_length.
    replace (Datatypes.S (length (flat_map k_lines bs) + (length ls + length (split_on newline tail))) - length bs)
      with (Datatypes.S (length (flat_map k_lines bs) + (length ls + length (split_on newline tail)) - length bs)) by lia.
    rewrite (H _ _ eq_refl). reflexivity. }
  split; [|split].
  - intros b tail Hh Hr N E. destruct (end_lines tail E) as (bl & rest & Hbl & SE & _).
    apply GO.
    { intros l [<-|Hl]; [apply Hh|]. apply in_map_iff in Hl as (p & <- & Hp). rewrite Forall_forall in Hr. apply (Hr p Hp). }
    intros f rest' <-. rewrite SE. cbn [vxc_loop k_lines map app hd tl]. pose proof Hh as (H1 & _). rewrite vline_words by exact H1.
    destruct (wwords (k_hdr b)) as [|w ws] eqn:EW; [now apply vline_nonempty in EW|]. rewrite <- EW, header_read by exact Hh. cbn [bind k_header fst snd].
    assert (RS : forall n ps, Forall bandline_ok ps -> length ps < n -> vxc_rows n (map wtext (map fst ps) ++ bl :: rest) = Err IndexError).
    { clear - Hbl. intros n ps. revert n. induction ps as [|p ps IH]; intros n Fp L.
      - destruct n as [|n]; [cbn in L; lia|]. cbn [map app vxc_rows hd]. rewrite words_strip, words_spaces_only by exact Hbl. reflexivity.
      - destruct n as [|n]; [cbn in L; lia|]. apply Forall_cons_iff in Fp as ((P1 & (P2 & P3) & P4) & F'). cbn [length vxc_rows map app hd tl].
        rewrite vline_words by exact P1. unfold item_. rewrite P4. cbn [bind]. rewrite py_float_text by assumption. cbn [bind]. rewrite IH; [reflexivity|exact F'|cbn in L; lia]. }
    rewrite RS; [reflexivity|exact Hr|lia].
  - intros l rs tail Hl L FR. apply GO; [intros u [<-|[]]; apply Hl|]. intros f rest _. cbn [vxc_loop map app hd]. rewrite vline_words by exact Hl.
    destruct (wwords l) as [|w ws] eqn:EW; [now apply vline_nonempty in EW|]. rewrite <- EW in *.
    assert (SQ : sequence (map py_float (firstn 3 (wwords l))) = Ok (map real_value rs)).
    { clear - FR. induction FR as [|w r ws rs ((K1 & K2) & ->) FR IH]; [reflexivity|]. cbn [map sequence]. rewrite py_float_text by assumption. cbn [bind]. now rewrite IH. }
    unfold vxc_header. rewrite SQ. cbn [bind]. unfold item_. replace (nth_error (wwords l) 3) with (@None text) by (symmetry; apply nth_error_None; lia). reflexivity.
  - intros l x y z r tail Hl (X1 & X2) (Y1 & Y2) (Z1 & Z2) (R1 & R2) E D. apply GO; [intros u [<-|[]]; apply Hl|]. intros f rest _. cbn [vxc_loop map app hd]. rewrite vline_words by exact Hl.
    destruct (wwords l) as [|w1 [|w2 [|w3 [|w4 ws]]]]; try discriminate E. cbn [firstn] in E. injection E as -> -> -> ->.
    unfold vxc_header. cbn [firstn map sequence]. rewrite !py_float_text by assumption. cbn [bind]. unfold item_. cbn [nth_error bind]. rewrite py_int_real by assumption. reflexivity.
Qed.
Print Assumptions C100_vxc_refused.

(** A table of two q-points, the second being q0, satisfies the hypotheses; the texts are the ones
    Python prints. *)
Lemma rint_exact z : rint (IZR z) = z.
Proof.
  unfold rint. replace (rfloor (IZR z)) with z by (symmetry; apply rfloor_unique; lra). destruct (Rlt_dec (IZR z - IZR z) (1 / 2)); [reflexivity|]. lra.
Qed.
Example C100_instance :
  (let A := MkTable [V 0 0 0; V (1/2) 0 0] (Some 0) (V 0 0 (1/1000)) [[(0,0,0); (-1,0,12)]; [(0,1,0)]]%Z [[None; Some (-3)%R]; [Some 5%R]] in
   table_ok A (selected A None) /\ length (table_rows A (selected A None)) = 3)
  /\ fmt_int (-12) = T "-12" /\ fmt_f8 (IZR (-3)) = T "-3.00000000"
  /\ exists b, kblock_ok b /\ length (k_rows b) = 1 /\ wtext (k_hdr b) = T "0.5 0 0 1 0".
Proof.
  split; [|split; [|split]].
  - cbn zeta. split; [|reflexivity]. intros i Hi. cbn in Hi. destruct Hi as [<-|[<-|[]]]; cbn; lia.
  - reflexivity.
  - unfold fmt_f8, neg_r. destruct (Rlt_dec (IZR (-3)) 0); [|lra].
    replace (Rabs (IZR (-3)) * 10 ^ 8)%R with (IZR 300000000) by (rewrite Rabs_left by lra; lra). rewrite rint_exact. reflexivity.
  - set (zero := MkReal NoSign [0] None None). set (half := MkReal NoSign [0] (Some [5]) None).
    assert (GZ : good_real zero). { split; [|easy]. repeat split; try easy. intros d [<-|[]]. lia. }
    assert (GH : good_real half). { split; [|easy]. split; [intros d [<-|[]]; lia|]. split; [intros d [<-|[]]; lia|]. split; [discriminate|easy]. }
    exists (MkK ([], [(T "0.5", T " "); (T "0", T " "); (T "0", T " "); (T "1", T " "); (T "0", [])]) half zero zero (NoSign, [1]) [T "0"]
               [(([], [(T "1", T " "); (T "1", T " "); (T "0.5", [])]), half)]).
    assert (NN : forall t, forallb (fun c => negb (Ascii.eqb c newline)) t = true -> ~ In newline t).
    { intros t H Hc. rewrite forallb_forall in H. apply H in Hc. discriminate Hc. }
    split; [|split; reflexivity]. split; [|split; [|reflexivity]].
    + split; [|split; [exact GH|split; [exact GZ|split; [exact GZ|split; [|reflexivity]]]]].
      * split; [|apply NN; reflexivity]. split; [easy|]. split; [discriminate|]. split.
        -- intros x Hx. cbn in Hx. decompose [or] Hx; subst; try easy; (split; [discriminate|]; split; [|intros c Hc; cbn in Hc; decompose [or] Hc; subst; easy]; intros c Hc; cbn in Hc; decompose [or] Hc; subst; easy).
        -- intros x Hx. cbn in Hx. decompose [or] Hx; subst; easy.
      * split; [discriminate|]. intros d [<-|[]]. cbn. lia.
    + constructor; [|constructor]. split; [|split; [exact GH|reflexivity]]. split; [|apply NN; reflexivity]. split; [easy|]. split; [discriminate|]. split.
      * intros x Hx. cbn in Hx. decompose [or] Hx; subst; try easy; (split; [discriminate|]; split; [|intros c Hc; cbn in Hc; decompose [or] Hc; subst; easy]; intros c Hc; cbn in Hc; decompose [or] Hc; subst; easy).
      * intros x Hx. cbn in Hx. decompose [or] Hx; subst; easy.
Qed.
