(** Lemmas for C51. *)
From Coq Require Import Reals Lra Ascii String.
From Verif Require Import Base QeInpModel QeInpSpec.
Local Open Scope nat_scope.
Notation length := List.length.

Lemma teqb_eq a b : teqb a b = true <-> a = b.
Proof. unfold teqb. destruct (list_eq_dec ascii_dec a b); split; congruence. Qed.
Lemma teqb_refl a : teqb a a = true. Proof. now apply teqb_eq. Qed.
Lemma teqb_neq a b : teqb a b = false <-> a <> b.
Proof. unfold teqb. destruct (list_eq_dec ascii_dec a b); split; congruence. Qed.

(** ---- stripping ---- *)
Definition hdnot (p : ascii -> bool) (t : text) : Prop := match t with [] => True | c :: _ => p c = false end.
Definition lastnot (p : ascii -> bool) (t : text) : Prop := hdnot p (rev t).
Definition alls (p : ascii -> bool) (t : text) : Prop := forall c, In c t -> p c = true.
Lemma lstrip_app p w l : alls p w -> lstrip_p p (w ++ l) = lstrip_p p l.
Proof. induction w as [|c w IH]; intros H; [easy|]. cbn. rewrite (H c) by (now left). apply IH. intros d Hd. apply H. now right. Qed.
Lemma lstrip_id p l : hdnot p l -> lstrip_p p l = l.
Proof. destruct l; cbn; [easy|]. now intros ->. Qed.
Lemma lstrip_all p w : alls p w -> lstrip_p p w = [].
Proof. intros H. rewrite <- (app_nil_r w). now rewrite lstrip_app. Qed.
Lemma alls_rev p w : alls p w -> alls p (rev w).
Proof. intros H c Hc. apply H. now apply in_rev. Qed.
Lemma rstrip_app p l w : alls p w -> rstrip_p p (l ++ w) = rstrip_p p l.
Proof. intros H. unfold rstrip_p. rewrite rev_app_distr, lstrip_app by now apply alls_rev. easy. Qed.
Lemma rstrip_id p l : lastnot p l -> rstrip_p p l = l.
Proof. intros H. unfold rstrip_p. rewrite lstrip_id by exact H. apply rev_involutive. Qed.
Lemma hdnot_app p a b : a <> [] -> hdnot p a -> hdnot p (a ++ b).
Proof. destruct a; [easy|]. now intros _. Qed.
Lemma lastnot_app p a b : b <> [] -> lastnot p b -> lastnot p (a ++ b).
Proof. intros H1 H2. unfold lastnot. rewrite rev_app_distr. apply hdnot_app; [|exact H2]. intros E. apply H1. rewrite <- (rev_involutive b), E. easy. Qed.
Lemma strip_core p a core b : alls p a -> alls p b -> hdnot p core -> lastnot p core -> strip_p p (a ++ core ++ b) = core.
Proof.
  intros Ha Hb H1 H2. unfold strip_p. rewrite lstrip_app by exact Ha. destruct core as [|c core].
  - cbn [List.app]. rewrite lstrip_all by exact Hb. reflexivity.
  - rewrite lstrip_id by (now apply hdnot_app). rewrite rstrip_app by exact Hb. now apply rstrip_id.
Qed.
Lemma lstrip_split p l : exists a, alls p a /\ l = a ++ lstrip_p p l /\ hdnot p (lstrip_p p l).
Proof.
  induction l as [|c l (a & Ha & E & H)]; [exists []; repeat split; easy|]. cbn. destruct (p c) eqn:Ec.
  - exists (c :: a). split; [intros d [<-|Hd]; auto|]. split; [cbn; now rewrite E at 1|exact H].
  - exists []. split; [easy|]. split; [easy|]. exact Ec.
Qed.
Lemma rstrip_split p l : exists b, alls p b /\ l = rstrip_p p l ++ b /\ lastnot p (rstrip_p p l).
Proof.
  destruct (lstrip_split p (rev l)) as (a & Ha & E & H). exists (rev a). split; [now apply alls_rev|]. unfold rstrip_p, lastnot.
  split; [|now rewrite rev_involutive]. rewrite <- rev_app_distr, <- E. now rewrite rev_involutive.
Qed.
Lemma hdnot_rstrip p l : hdnot p l -> hdnot p (rstrip_p p l).
Proof. destruct (rstrip_split p l) as (b & _ & E & _). destruct (rstrip_p p l) as [|c t]; [easy|]. rewrite E at 1. easy. Qed.
Lemma strip_split p l : exists a b, alls p a /\ alls p b /\ l = a ++ strip_p p l ++ b /\ hdnot p (strip_p p l) /\ lastnot p (strip_p p l).
Proof.
  destruct (lstrip_split p l) as (a & Ha & E & H). destruct (rstrip_split p (lstrip_p p l)) as (b & Hb & E2 & H2).
  exists a, b. unfold strip_p. repeat split; auto; [now rewrite <- E2|now apply hdnot_rstrip].
Qed.
Lemma strip_ws_l a l : alls is_ws a -> strip (a ++ l) = strip l.
Proof. intros H. unfold strip, strip_p. now rewrite lstrip_app. Qed.
Lemma strip_ws_r l b : alls is_ws b -> strip (l ++ b) = strip l.
Proof.
  intros H. destruct (strip_split is_ws l) as (x & y & Hx & Hy & E & H1 & H2). rewrite E at 1. rewrite <- !app_assoc.
  apply (strip_core is_ws x (strip_p is_ws l) (y ++ b)); auto. intros c Hc. apply in_app_or in Hc as [Hc|Hc]; auto.
Qed.
(** ---- splitting ---- *)
Lemma split_nonempty c l : split_on c l <> [].
Proof. destruct l as [|d l]; cbn; [easy|]. destruct (Ascii.eqb d c); [easy|]. now destruct (split_on c l). Qed.
Lemma split_app_l c a l : ~ In c a -> exists h t, split_on c l = h :: t /\ split_on c (a ++ l) = (a ++ h) :: t.
Proof.
  intros H. induction a as [|d a IH].
  - destruct (split_on c l) as [|h t] eqn:E; [now apply split_nonempty in E|]. exists h, t. now rewrite <- E.
  - destruct IH as (h & t & E1 & E2); [intros X; apply H; now right|]. exists h, t. split; [easy|]. cbn. rewrite E2.
    replace (Ascii.eqb d c) with false; [easy|]. symmetry. apply Ascii.eqb_neq. intros ->. apply H. now left.
Qed.
Lemma split_none c a : ~ In c a -> split_on c a = [a].
Proof. intros H. destruct (split_app_l c a [] H) as (h & t & E1 & E2). injection E1 as <- <-. now rewrite !app_nil_r in E2. Qed.
Lemma split_sep c a l : ~ In c a -> split_on c (a ++ c :: l) = a :: split_on c l.
Proof.
  intros H. destruct (split_app_l c a (c :: l) H) as (h & t & E1 & E2). cbn in E1. rewrite Ascii.eqb_refl in E1. injection E1 as <- <-.
  now rewrite app_nil_r in E2.
Qed.
Lemma split_app_r c l b : ~ In c b -> exists i z, split_on c l = i ++ [z] /\ split_on c (l ++ b) = i ++ [z ++ b].
Proof.
  intros H. induction l as [|d l (i & z & E1 & E2)]; [exists [], []; split; [easy|]; now apply split_none|].
  cbn. rewrite E1, E2. destruct (Ascii.eqb d c); [exists ([] :: i), z; easy|].
  destruct i as [|h i]; [exists [], (d :: z); easy|exists ((d :: h) :: i), z; easy].
Qed.

(** ---- blanks around an assignment do not matter ---- *)
Lemma ws_not c w : alls is_ws w -> is_ws c = false -> ~ In c w.
Proof. intros H E I. apply H in I. congruence. Qed.
Lemma asg_ws_l fs data a p : alls is_ws a -> assignment fs data (a ++ p) = assignment fs data p.
Proof.
  intros H. unfold assignment. destruct (split_app_l "=" a p) as (h & t & E1 & E2); [now apply ws_not|]. rewrite E1, E2.
  destruct t as [|v [|? ?]]; [easy| |easy]. now rewrite strip_ws_l.
Qed.
Lemma asg_ws_r fs data p b : alls is_ws b -> assignment fs data (p ++ b) = assignment fs data p.
Proof.
  intros H. unfold assignment. destruct (split_app_r "=" p b) as (i & z & E1 & E2); [now apply ws_not|]. rewrite E1, E2.
  destruct i as [|h [|? i]]; [easy| |]; cbn.
  - now rewrite strip_ws_r.
  - destruct i; easy.
Qed.
Lemma foldm_app {A B} (f : A -> B -> res A) a l1 l2 : foldm f a (l1 ++ l2) = (do a' <- foldm f a l1; foldm f a' l2).
Proof. revert a; induction l1 as [|b l1 IH]; intros a; cbn; [easy|]. destruct (f a b); cbn; [apply IH|easy]. Qed.
Lemma line_ws_l fs data a l : alls is_ws a -> assign_line fs data (a ++ l) = assign_line fs data l.
Proof.
  intros H. unfold assign_line. destruct (split_app_l "," a l) as (h & t & E1 & E2); [now apply ws_not|]. rewrite E1, E2. cbn.
  now rewrite asg_ws_l.
Qed.
Lemma line_ws_r fs data l b : alls is_ws b -> assign_line fs data (l ++ b) = assign_line fs data l.
Proof.
  intros H. unfold assign_line. destruct (split_app_r "," l b) as (i & z & E1 & E2); [now apply ws_not|]. rewrite E1, E2.
  rewrite !foldm_app. destruct (foldm (assignment fs) data i); cbn; [|easy]. now rewrite asg_ws_r.
Qed.
Lemma line_strip fs data l : assign_line fs data (strip l) = assign_line fs data l.
Proof.
  destruct (strip_split is_ws l) as (a & b & Ha & Hb & E & _ & _). unfold strip. rewrite E at 2.
  now rewrite line_ws_l, line_ws_r.
Qed.

(** ---- characters ---- *)
Lemma ascii_cases (P : ascii -> Prop) : (forall n, n < 256 -> P (ascii_of_nat n)) -> forall c, P c.
Proof. intros H c. rewrite <- (ascii_nat_embedding c). apply H. apply nat_ascii_bounded. Qed.
Ltac allchars := let c := fresh in intros c; destruct c as [[] [] [] [] [] [] [] []]; try (vm_compute; (reflexivity || easy)).
Lemma lower_ws : forall c, is_ws c = true -> lower1 c = c. Proof. allchars. Qed.
Lemma lower_ws_iff : forall c, is_ws (lower1 c) = is_ws c. Proof. allchars. Qed.
Lemma lower_digit : forall c, is_digit c = true -> lower1 c = c. Proof. allchars. Qed.
Lemma lower_idem : forall c, lower1 (lower1 c) = lower1 c. Proof. allchars. Qed.
Lemma digit_ws : forall c, is_digit c = true -> is_ws c = false. Proof. allchars. Qed.
(** punctuation is neither produced nor changed by lower *)
Lemma lower_punct (d : ascii) : d = ","%char \/ d = "="%char \/ d = "'"%char \/ d = "("%char \/ d = ")"%char \/ d = "!"%char \/ d = "#"%char \/ d = "/"%char ->
  forall c, lower1 c = d -> c = d.
Proof. intros H. allchars; intros <-; repeat destruct H as [H|H]; now inversion H. Qed.
Lemma lower_app a b : lower (a ++ b) = lower a ++ lower b. Proof. apply map_app. Qed.
Lemma blank_ws w : blank w -> alls is_ws w.
Proof. intros H c Hc. destruct (H c Hc) as [-> |[-> |[-> | ->]]]; reflexivity. Qed.
Lemma lower_blank w : alls is_ws w -> lower w = w.
Proof. intros H. unfold lower. rewrite <- (map_id w) at 2. apply map_ext_in. intros c Hc. apply lower_ws. now apply H. Qed.
Lemma lower_lower t : lower (lower t) = lower t.
Proof. unfold lower. rewrite map_map. apply map_ext. apply lower_idem. Qed.

(** ---- digits ---- *)
Lemma digit_chars d : d < 10 -> is_digit (ascii_of_nat (48 + d)) = true /\ digit (ascii_of_nat (48 + d)) = Z.of_nat d.
Proof. intros H. do 10 (destruct d as [|d]; [split; reflexivity|]). lia. Qed.
Lemma digits_alls ds : digits_ok ds -> alls is_digit (digits_text ds).
Proof. intros H c Hc. apply in_map_iff in Hc as (d & <- & Hd). apply digit_chars. now apply H. Qed.
Lemma span_app t r : alls is_digit t -> hdnot is_digit r -> span_digits (t ++ r) = (t, r).
Proof.
  intros H1 H2. induction t as [|c t IH]; cbn.
  - destruct r as [|c r]; [easy|]. cbn in *. now rewrite H2.
  - rewrite (H1 c) by (now left). rewrite IH; [easy|]. intros d Hd. apply H1. now right.
Qed.
Lemma span_inv t : let '(a, b) := span_digits t in t = a ++ b /\ alls is_digit a /\ hdnot is_digit b.
Proof.
  induction t as [|c t IH]; cbn; [easy|]. destruct (is_digit c) eqn:E; [|easy].
  destruct (span_digits t) as [a b]. destruct IH as (-> & H1 & H2). repeat split; auto. intros d [<-|Hd]; auto.
Qed.
Lemma digits_val_gen ds : digits_ok ds -> forall a, fold_left (fun a c => 10 * a + digit c)%Z (digits_text ds) a = (a * 10 ^ Z.of_nat (length ds) + denotes ds)%Z.
Proof.
  induction ds as [|d ds IH]; intros H a; cbn [digits_text map fold_left denotes length]; [cbn; lia|].
  change (map (fun d => ascii_of_nat (48 + d)) ds) with (digits_text ds).
  rewrite IH by (intros x Hx; apply H; now right). rewrite (proj2 (digit_chars d (H d (or_introl eq_refl)))).
  rewrite Nat2Z.inj_succ, Z.pow_succ_r by lia. ring.
Qed.
Lemma digits_val_spec ds : digits_ok ds -> digits_val (digits_text ds) = denotes ds.
Proof. intros H. unfold digits_val. rewrite digits_val_gen by exact H. ring. Qed.
Lemma denotes_app a b : denotes (a ++ b) = (denotes a * 10 ^ Z.of_nat (length b) + denotes b)%Z.
Proof.
  induction a as [|d a IH]; cbn [List.app denotes]; [ring|]. rewrite IH, app_length, Nat2Z.inj_add, Z.pow_add_r by lia. ring.
Qed.
Lemma lower_digits ds : digits_ok ds -> lower (digits_text ds) = digits_text ds.
Proof.
  intros H. unfold lower. rewrite <- (map_id (digits_text ds)) at 2. apply map_ext_in. intros c Hc. apply lower_digit. now apply (digits_alls ds H).
Qed.
(** every digit string comes from a list of digits *)
Lemma digits_of_text : forall t, alls is_digit t -> exists ds, digits_ok ds /\ t = digits_text ds.
Proof.
  induction t as [|c t IH]; intros H; [exists []; split; [intros ? []|reflexivity]|].
  destruct IH as (ds & H1 & H2); [intros d Hd; apply H; now right|].
  assert (E : exists d, d < 10 /\ c = ascii_of_nat (48 + d)).
  { assert (D : is_digit c = true) by (apply H; now left). exists (nat_of_ascii c - 48).
    unfold is_digit in D. apply andb_true_iff in D as [D1 D2]. apply Nat.leb_le in D1, D2. split; [lia|].
    replace (48 + (nat_of_ascii c - 48)) with (nat_of_ascii c) by lia. now rewrite ascii_nat_embedding. }
  destruct E as (d & Hd & ->). exists (d :: ds). split; [intros x [<-|Hx]; auto|]. cbn. now rewrite H2.
Qed.

(** ---- int ---- *)
Lemma digits_nonnil ds : ds <> [] -> digits_text ds <> []. Proof. destruct ds; easy. Qed.
Lemma digits_len ds : length (digits_text ds) = length ds. Proof. apply map_length. Qed.
Lemma take_sign_text s t : (match t with c :: _ => is_digit c = true \/ c = "."%char | [] => True end) ->
  take_sign (sgn_text s ++ t) = (match s with Minus => true | _ => false end, t).
Proof.
  intros H. destruct s; cbn; try easy. destruct t as [|c t]; [easy|]. cbn. destruct H as [H| ->]; [|easy].
  destruct (Ascii.eqb_spec c "-"); [subst; discriminate|]. destruct (Ascii.eqb_spec c "+"); [subst; discriminate|]. easy.
Qed.
Lemma sgnz_signed s z : sgnz (match s with Minus => true | _ => false end) z = signed s z. Proof. now destruct s. Qed.
Lemma digits_hd ds r : ds <> [] -> digits_ok ds -> match digits_text ds ++ r with c :: _ => is_digit c = true \/ c = "."%char | [] => True end.
Proof. destruct ds as [|d ds]; [easy|]. intros _ H. cbn. left. apply (digit_chars d), H. now left. Qed.
Definition nonws (t : text) : Prop := forall c, In c t -> is_ws c = false.
Lemma nonws_strip t : nonws t -> strip t = t.
Proof.
  intros H. unfold strip. rewrite <- (app_nil_r t) at 1. change (t ++ []) with ([] ++ t ++ []). apply strip_core; try easy.
  - destruct t; [easy|]. apply H. now left.
  - unfold lastnot. destruct (rev t) as [|c r] eqn:E; [easy|]. apply H. apply in_rev. rewrite E. now left.
Qed.
Lemma int_nonws s ds : digits_ok ds -> nonws (int_text s ds).
Proof.
  intros H c Hc. unfold int_text in Hc. apply in_app_or in Hc as [Hc|Hc].
  - destruct s; cbn in Hc; [easy|destruct Hc as [<-|[]]; reflexivity|destruct Hc as [<-|[]]; reflexivity].
  - apply digit_ws. now apply (digits_alls ds H).
Qed.
Lemma py_int_text s ds : int_ok ds -> py_int (int_text s ds) = Ok (signed s (denotes ds)).
Proof.
  intros [H1 H2]. unfold py_int. rewrite nonws_strip by now apply int_nonws. unfold int_text.
  rewrite take_sign_text by (rewrite <- (app_nil_r (digits_text ds)); now apply digits_hd).
  rewrite <- (app_nil_r (digits_text ds)), span_app; [|now apply digits_alls|easy].
  destruct (digits_text ds) as [|c t] eqn:E; [now apply digits_nonnil in E|]. rewrite <- E, digits_val_spec by easy. now rewrite sgnz_signed.
Qed.
Lemma py_int_ws a t b : alls is_ws a -> alls is_ws b -> py_int (a ++ t ++ b) = py_int t.
Proof. intros Ha Hb. unfold py_int. now rewrite strip_ws_l, strip_ws_r. Qed.
Lemma take_sign_inv t : exists s, let '(neg, r) := take_sign t in t = sgn_text s ++ r /\ neg = (match s with Minus => true | _ => false end).
Proof.
  destruct t as [|c t]; [exists NoSign; easy|]. unfold take_sign.
  destruct (Ascii.eqb_spec c "-"); [subst; exists Minus; easy|]. destruct (Ascii.eqb_spec c "+"); [subst; exists Plus; easy|]. exists NoSign. easy.
Qed.

(** ---- float ---- *)
Definition rd (c : ascii) : ascii := if Ascii.eqb c "d" then "e"%char else c.
Lemma rd_digit : forall c, is_digit c = true -> rd c = c. Proof. allchars. Qed.
Lemma rd_digits ds : digits_ok ds -> replace_d (digits_text ds) = digits_text ds.
Proof.
  intros H. unfold replace_d. rewrite <- (map_id (digits_text ds)) at 2. apply map_ext_in. intros c Hc. apply rd_digit. now apply (digits_alls ds H).
Qed.
Lemma lower_int s ds : digits_ok ds -> lower (int_text s ds) = int_text s ds.
Proof. intros H. unfold int_text. rewrite lower_app, lower_digits by easy. now destruct s. Qed.
Lemma rd_int s ds : digits_ok ds -> replace_d (int_text s ds) = int_text s ds.
Proof. intros H. unfold int_text, replace_d. rewrite map_app. fold (replace_d (digits_text ds)). rewrite rd_digits by easy. now destruct s. Qed.
(** the exponent part after lower and replace *)
Definition exp_text (r : real_lit) : text := match r_exp r with Some (c, (s, ds)) => c :: int_text s ds | None => [] end.
Definition exp_norm (r : real_lit) : text := match r_exp r with Some (c, (s, ds)) => "e"%char :: int_text s ds | None => [] end.
Definition frac_text (r : real_lit) : text := match r_frac r with Some f => "."%char :: digits_text f | None => [] end.
Lemma real_norm r : real_ok r -> replace_d (lower (real_text r)) = sgn_text (r_sgn r) ++ digits_text (r_int r) ++ frac_text r ++ exp_norm r.
Proof.
  intros (H1 & H2 & _ & H4). unfold real_text. fold (frac_text r). fold (exp_text r). rewrite !lower_app. unfold replace_d. rewrite !map_app.
  f_equal; [now destruct (r_sgn r)|]. f_equal; [rewrite lower_digits by easy; now apply rd_digits|]. f_equal.
  - unfold frac_text, frac_digits in *. destruct (r_frac r) as [f|]; [|easy]. cbn [lower map]. f_equal.
    change (map lower1 (digits_text f)) with (lower (digits_text f)). rewrite lower_digits by easy. now apply rd_digits.
  - unfold exp_text, exp_norm. destruct (r_exp r) as [[c [s ds]]|]; [|easy]. destruct H4 as [Hc [_ Hd]]. cbn [lower map].
    change (map lower1 (int_text s ds)) with (lower (int_text s ds)). rewrite lower_int by easy.
    change (map (fun c0 : ascii => if (c0 =? "d")%char then "e"%char else c0) (int_text s ds)) with (replace_d (int_text s ds)). rewrite rd_int by easy.
    f_equal. now destruct Hc as [-> |[-> |[-> | ->]]].
Qed.
Lemma py_exponent_norm r : real_ok r -> py_exponent (exp_norm r) = Ok (real_exponent r).
Proof.
  intros (_ & _ & _ & H4). unfold exp_norm, real_exponent. destruct (r_exp r) as [[c [s ds]]|]; [|easy]. destruct H4 as [_ [Hn Hd]].
  cbn [py_exponent]. change (("e" =? "e")%char) with true. cbn [orb]. unfold int_text.
  rewrite take_sign_text by (rewrite <- (app_nil_r (digits_text ds)); now apply digits_hd).
  rewrite <- (app_nil_r (digits_text ds)), span_app; [|now apply digits_alls|easy].
  destruct (digits_text ds) as [|c' t] eqn:E; [now apply digits_nonnil in E|]. rewrite <- E, digits_val_spec by easy. now rewrite sgnz_signed.
Qed.
Lemma exp_norm_hd r : hdnot is_digit (exp_norm r).
Proof. unfold exp_norm. now destruct (r_exp r) as [[c [s ds]]|]. Qed.
Lemma norm_nonws r : real_ok r -> nonws (sgn_text (r_sgn r) ++ digits_text (r_int r) ++ frac_text r ++ exp_norm r).
Proof.
  intros (H1 & H2 & _ & H4) c Hc. rewrite !in_app_iff in Hc. destruct Hc as [Hc|[Hc|[Hc|Hc]]].
  - destruct (r_sgn r); cbn in Hc; [easy|destruct Hc as [<-|[]]; reflexivity|destruct Hc as [<-|[]]; reflexivity].
  - apply digit_ws. now apply (digits_alls _ H1).
  - unfold frac_text, frac_digits in *. destruct (r_frac r) as [f|]; [|easy]. destruct Hc as [<-|Hc]; [reflexivity|]. apply digit_ws. now apply (digits_alls _ H2).
  - unfold exp_norm in Hc. destruct (r_exp r) as [[c' [s ds]]|]; [|easy]. destruct Hc as [<-|Hc]; [reflexivity|]. destruct H4 as [_ [_ H4]]. now apply (int_nonws s ds).
Qed.
Lemma digits_app a b : digits_text (a ++ b) = digits_text a ++ digits_text b. Proof. apply map_app. Qed.
Lemma digits_ok_app a b : digits_ok a -> digits_ok b -> digits_ok (a ++ b).
Proof. intros H1 H2 d Hd. apply in_app_or in Hd as [Hd|Hd]; auto. Qed.
Lemma pow10_len (n : nat) : IZR (10 ^ Z.of_nat n) = (10 ^ n)%R.
Proof. now rewrite <- pow_IZR. Qed.
Lemma real_value_eq r : (IZR (signed (r_sgn r) (denotes (r_int r ++ frac_digits r))) * pow10 (real_exponent r - Z.of_nat (length (frac_digits r))))%R = real_value r.
Proof.
  unfold real_value, pow10. rewrite denotes_app. unfold Z.sub. rewrite powerRZ_add by lra.
  rewrite powerRZ_neg', <- pow_powerRZ by lra.
  assert (P : (10 ^ length (frac_digits r))%R <> 0%R) by (apply pow_nonzero; lra).
  assert (E : forall z, IZR (signed (r_sgn r) z) = (IZR (signed (r_sgn r) 1) * IZR z)%R).
  { intros z. destruct (r_sgn r); cbn [signed]; [lra|lra|]. rewrite !opp_IZR. lra. }
  rewrite E, plus_IZR, mult_IZR, pow10_len. field. exact P.
Qed.
Lemma py_float_norm r : real_ok r -> py_float (sgn_text (r_sgn r) ++ digits_text (r_int r) ++ frac_text r ++ exp_norm r) = Ok (real_value r).
Proof.
  intros H. pose proof H as (H1 & H2 & H3 & H4). unfold py_float. rewrite nonws_strip by now apply norm_nonws.
  assert (HD : match digits_text (r_int r) ++ frac_text r ++ exp_norm r with c :: _ => is_digit c = true \/ c = "."%char | [] => True end).
  { destruct (r_int r) as [|d ds] eqn:E.
    - cbn [digits_text map List.app]. unfold frac_text, frac_digits in *. destruct (r_frac r); [cbn; now right|]. cbn in H3. congruence.
    - cbn. left. apply (digit_chars d), H1. now left. }
  rewrite take_sign_text by exact HD.
  rewrite span_app; [|now apply digits_alls|].
  2:{ unfold frac_text. destruct (r_frac r); [easy|]. apply exp_norm_hd. }
  assert (TL : match digits_text (r_int r) ++ digits_text (frac_digits r) with
    | [] => Err ValueError
    | ds => do e <- py_exponent (exp_norm r);
            Ok (IZR (sgnz (match r_sgn r with Minus => true | _ => false end) (digits_val ds)) * pow10 (e - Z.of_nat (length (digits_text (frac_digits r)))))%R
    end = Ok (real_value r)).
  { rewrite <- digits_app.
    destruct (digits_text (r_int r ++ frac_digits r)) as [|c t] eqn:E; [now apply digits_nonnil in E|]. rewrite <- E.
    rewrite py_exponent_norm by exact H. cbn [bind]. rewrite digits_val_spec by now apply digits_ok_app.
    rewrite sgnz_signed, digits_len. now rewrite real_value_eq. }
  revert TL. unfold frac_text, frac_digits in *. destruct (r_frac r) as [f|]; intros TL.
  - cbn [List.app]. change (("." =? ".")%char) with true. cbv iota. rewrite span_app; [|now apply digits_alls|apply exp_norm_hd]. exact TL.
  - cbn [List.app]. assert (X : exp_norm r = [] \/ exists t, exp_norm r = "e"%char :: t) by (unfold exp_norm; destruct (r_exp r) as [[c [s ds]]|]; eauto).
    destruct X as [X|[t X]]; rewrite X in *; exact TL.
Qed.
(** integer literals are real literals *)
Definition real_of_int (s : sgn) (ds : list nat) : real_lit := MkReal s ds None None.
Lemma real_of_int_text s ds : real_text (real_of_int s ds) = int_text s ds.
Proof. unfold real_text, real_of_int, int_text. cbn. now rewrite !app_nil_r. Qed.
Lemma real_of_int_ok s ds : int_ok ds -> real_ok (real_of_int s ds).
Proof. intros [H1 H2]. unfold real_ok, real_of_int, frac_digits. cbn. rewrite app_nil_r. repeat split; auto. intros ? []. Qed.
Lemma real_of_int_value s ds : real_value (real_of_int s ds) = IZR (signed s (denotes ds)).
Proof. rewrite <- real_value_eq. unfold real_of_int, frac_digits, real_exponent, pow10. cbn. rewrite app_nil_r. ring. Qed.

(** ---- assignments ---- *)
Definition wordc (c : ascii) : bool :=
  let n := nat_of_ascii c in ((97 <=? n) && (n <=? 122)) || is_digit c || (n =? 95).
Definition good_name (k : text) : bool := negb (teqb k []) && forallb wordc k.
Lemma names_good : forall name fs, In (name, Namelist fs) annotations -> forall k x, assoc k fs = Some x -> good_name k = true.
Proof.
  assert (A : forall fs : fields, forallb (fun f => good_name (fst f)) fs = true -> forall k x, assoc k fs = Some x -> good_name k = true).
  { induction fs as [|[k' v] fs IH]; intros H k x E; [easy|]. cbn in *. apply andb_true_iff in H as [H1 H2].
    destruct (teqb k' k) eqn:Ek; [apply teqb_eq in Ek; now subst|]. eapply IH; eauto. }
  intros name fs Hin. apply A. unfold annotations in Hin. cbn [In] in Hin.
  repeat (destruct Hin as [Hin|Hin]; [try discriminate Hin; injection Hin as _ <-; vm_compute; reflexivity|]). easy.
Qed.
Lemma wordc_facts : forall c, wordc c = true -> is_ws c = false /\ c <> ","%char /\ c <> "="%char /\ c <> "("%char /\ c <> ")"%char /\ c <> "!"%char /\ c <> "#"%char /\ c <> "/"%char.
Proof. allchars; intros _; repeat split; (reflexivity || discriminate). Qed.
Lemma good_in k c : good_name k = true -> In c k -> wordc c = true.
Proof. intros H Hc. apply andb_true_iff in H as [_ H]. rewrite forallb_forall in H. now apply H. Qed.
Lemma good_nonnil k : good_name k = true -> k <> [].
Proof. intros H ->. cbn in H. discriminate. Qed.
Lemma nonws_hd t : nonws t -> hdnot is_ws t. Proof. intros H. destruct t; [easy|]. apply H. now left. Qed.
Lemma nonws_last t : nonws t -> lastnot is_ws t.
Proof. intros H. unfold lastnot. apply nonws_hd. intros c Hc. apply H. now apply in_rev. Qed.
Lemma mem_c_false c t : ~ In c t -> mem_c c t = false.
Proof.
  intros H. apply not_true_iff_false. unfold mem_c. rewrite existsb_exists. intros (d & Hd & E). apply Ascii.eqb_eq in E. now subst.
Qed.
Lemma mem_c_true c t : In c t -> mem_c c t = true.
Proof. intros H. unfold mem_c. apply existsb_exists. exists c. split; [easy|]. apply Ascii.eqb_refl. Qed.
Lemma int_chars s ds c : digits_ok ds -> In c (int_text s ds) -> is_digit c = true \/ c = "+"%char \/ c = "-"%char.
Proof.
  intros H Hc. unfold int_text in Hc. apply in_app_or in Hc as [Hc|Hc].
  - destruct s; cbn in Hc; [easy|destruct Hc as [<-|[]]; auto|destruct Hc as [<-|[]]; auto].
  - left. now apply (digits_alls ds H).
Qed.
Lemma real_chars r c : real_ok r -> In c (lower (real_text r)) -> is_digit c = true \/ c = "+"%char \/ c = "-"%char \/ c = "."%char \/ c = "e"%char \/ c = "d"%char.
Proof.
  intros (H1 & H2 & _ & H4) Hc. unfold real_text in Hc. rewrite !lower_app, !in_app_iff in Hc. destruct Hc as [Hc|[Hc|[Hc|Hc]]].
  - destruct (r_sgn r); cbn in Hc; [easy|destruct Hc as [<-|[]]; auto|destruct Hc as [<-|[]]; auto].
  - rewrite lower_digits in Hc by easy. left. now apply (digits_alls _ H1).
  - unfold frac_digits in H2. destruct (r_frac r) as [f|]; [|easy]. destruct Hc as [<-|Hc]; [auto|].
    change (map lower1 (digits_text f)) with (lower (digits_text f)) in Hc. rewrite lower_digits in Hc by easy. left. now apply (digits_alls _ H2).
  - destruct (r_exp r) as [[c' [s ds]]|]; [|easy]. destruct H4 as [Hl [_ H4]]. destruct Hc as [<-|Hc].
    + destruct Hl as [-> |[-> |[-> | ->]]]; cbn; auto 8.
    + change (map lower1 (int_text s ds)) with (lower (int_text s ds)) in Hc. rewrite lower_int in Hc by easy.
      apply int_chars in Hc; [|easy]. tauto.
Qed.
Lemma in_lower c t : In c (lower t) -> exists d, In d t /\ lower1 d = c.
Proof. intros H. apply in_map_iff in H as (d & E & H). now exists d. Qed.
Lemma lower_free d t : d = ","%char \/ d = "="%char \/ d = "'"%char \/ d = "("%char \/ d = ")"%char \/ d = "!"%char \/ d = "#"%char \/ d = "/"%char ->
  ~ In d t -> ~ In d (lower t).
Proof. intros Hd H I. apply in_lower in I as (c & Hc & E). apply (lower_punct d Hd) in E. now subst. Qed.
(** what the right-hand side becomes *)
Lemma lit_free (d : ascii) l : lit_ok l -> d = ","%char \/ d = "="%char -> ~ In d (lower (lit_text l)).
Proof.
  intros H Hd I. destruct l as [s ds|r|t]; cbn [lit_text] in I.
  - destruct H as [_ H]. rewrite lower_int in I by easy. apply int_chars in I; [|easy].
    destruct Hd as [-> | ->]; destruct I as [I|[I|I]]; discriminate.
  - apply real_chars in I; [|easy]. destruct Hd as [-> | ->]; destruct I as [I|[I|[I|[I|[I|I]]]]]; discriminate.
  - destruct H as (H1 & H2 & _). change (In d (lower (["'"%char] ++ t ++ ["'"%char]))) in I. rewrite !lower_app, !in_app_iff in I.
    destruct I as [I|[I|I]].
    + destruct Hd as [-> | ->]; destruct I as [I|[]]; discriminate.
    + revert I. apply lower_free; [tauto|]. destruct Hd as [-> | ->]; assumption.
    + destruct Hd as [-> | ->]; destruct I as [I|[]]; discriminate.
Qed.
Definition rhs (l : lit) : text := match l with LStr t => lower t | _ => lower (lit_text l) end.
Lemma lit_nonws l : lit_ok l -> match l with LStr _ => True | _ => nonws (lower (lit_text l)) end.
Proof.
  intros H. destruct l as [s ds|r|t]; [| |easy]; intros c Hc; cbn [lit_text] in Hc.
  - destruct H as [_ H]. rewrite lower_int in Hc by easy. now apply (int_nonws s ds).
  - apply real_chars in Hc; [|easy]. destruct Hc as [Hc|[-> |[-> |[-> |[-> | ->]]]]]; [now apply digit_ws|reflexivity ..].
Qed.
Lemma strip_id t : hdnot is_ws t -> lastnot is_ws t -> strip t = t.
Proof. intros H1 H2. change t with ([] ++ t) at 1. rewrite <- (app_nil_r t) at 1. now apply strip_core. Qed.
Lemma rhs_spec w l w' : alls is_ws w -> alls is_ws w' -> lit_ok l -> strip_p (is_c "'") (strip (w ++ lower (lit_text l) ++ w')) = rhs l.
Proof.
  intros Hw Hw' H. rewrite strip_ws_l, strip_ws_r by easy.
  assert (Q : forall t, ~ In "'"%char t -> strip_p (is_c "'") t = t).
  { intros t Ht. change t with ([] ++ t) at 1. rewrite <- (app_nil_r t) at 1. apply strip_core; try easy.
    - destruct t as [|c t]; [easy|]. apply Ascii.eqb_neq. intros ->. apply Ht. now left.
    - unfold lastnot. destruct (rev t) as [|c r] eqn:E; [easy|]. apply Ascii.eqb_neq. intros ->. apply Ht. apply in_rev. rewrite E. now left. }
  pose proof (lit_nonws l H) as N. destruct l as [s ds|r|t]; cbn [rhs].
  - rewrite nonws_strip by exact N. apply Q. cbn [lit_text]. destruct H as [_ H]. rewrite lower_int by easy. intros I. apply int_chars in I; [|easy].
    destruct I as [I|[I|I]]; discriminate.
  - rewrite nonws_strip by exact N. apply Q. cbn [lit_text]. intros I. apply real_chars in I; [|easy]. destruct I as [I|[I|[I|[I|[I|I]]]]]; discriminate.
  - change (lower (lit_text (LStr t))) with (lower (["'"%char] ++ t ++ ["'"%char])). rewrite !lower_app. change (lower ["'"%char]) with ["'"%char].
    assert (X : strip (["'"%char] ++ lower t ++ ["'"%char]) = ["'"%char] ++ lower t ++ ["'"%char]).
    { apply strip_id; [reflexivity|]. apply lastnot_app; [now destruct (lower t)|]. apply lastnot_app; easy. }
    rewrite X. destruct H as (_ & _ & H). apply strip_core; [intros c [<-|[]]; reflexivity|intros c [<-|[]]; reflexivity| |].
    + assert (F : ~ In "'"%char (lower t)) by (apply lower_free; [tauto|easy]). destruct (lower t) as [|c u]; [easy|]. apply Ascii.eqb_neq. intros ->. apply F. now left.
    + assert (F : ~ In "'"%char (lower t)) by (apply lower_free; [tauto|easy]). unfold lastnot. destruct (rev (lower t)) as [|c u] eqn:E; [easy|].
      apply Ascii.eqb_neq. intros ->. apply F. apply in_rev. rewrite E. now left.
Qed.
(** the left-hand side *)
Definition lhs (a : asg) : text := lower (a_key a) ++ idx_text (a_idx a).
Lemma idx_chars a c : asg_blank a -> In c (idx_text (a_idx a)) -> c = "("%char \/ c = ")"%char \/ is_ws c = true \/ is_digit c = true \/ c = "+"%char \/ c = "-"%char.
Proof.
  intros (_ & _ & _ & _ & H & _) Hc. destruct (a_idx a) as [[[w [s ds]] w']|]; [|easy]. destruct H as (H1 & H2 & _ & H3).
  cbn [idx_text] in Hc. destruct Hc as [<-|Hc]; [auto|]. rewrite !in_app_iff in Hc. destruct Hc as [Hc|[Hc|[Hc|Hc]]].
  - apply blank_ws in H1. auto.
  - apply int_chars in Hc; [|easy]. tauto.
  - apply blank_ws in H2. auto.
  - destruct Hc as [<-|[]]; auto.
Qed.
Lemma lower_idx a : asg_blank a -> lower (idx_text (a_idx a)) = idx_text (a_idx a).
Proof.
  intros H. unfold lower. rewrite <- (map_id (idx_text (a_idx a))) at 2. apply map_ext_in. intros c Hc. apply idx_chars in Hc; [|easy].
  destruct Hc as [-> |[-> |[Hc|[Hc|[-> | ->]]]]]; try reflexivity; [now apply lower_ws|now apply lower_digit].
Qed.
Lemma lower_asg a : asg_blank a -> lower (asg_text a) =
  (a_w1 a ++ lhs a ++ a_w2 a) ++ "="%char :: (a_w3 a ++ lower (lit_text (a_lit a)) ++ a_w4 a).
Proof.
  intros H. pose proof H as (H1 & H2 & H3 & H4 & _). unfold asg_text, lhs. rewrite !lower_app, lower_idx by exact H.
  apply blank_ws in H1, H2, H3, H4. rewrite (lower_blank (a_w1 a)), (lower_blank (a_w2 a)), (lower_blank (a_w3 a)), (lower_blank (a_w4 a)) by easy.
  change (lower ["="%char]) with ["="%char]. rewrite <- !app_assoc. reflexivity.
Qed.
Lemma lhs_free a d : asg_blank a -> good_name (lower (a_key a)) = true -> d = ","%char \/ d = "="%char ->
  ~ In d (a_w1 a ++ lhs a ++ a_w2 a).
Proof.
  intros H G Hd I. pose proof H as (H1 & H2 & _). apply blank_ws in H1, H2. unfold lhs in I. rewrite !in_app_iff in I.
  assert (W : forall w, alls is_ws w -> In d w -> False) by (intros w Hw Iw; apply Hw in Iw; destruct Hd as [-> | ->]; discriminate).
  destruct I as [I|[[I|I]|I]]; [now apply (W _ H1)| | |now apply (W _ H2)].
  - apply (good_in _ _ G), wordc_facts in I. destruct Hd as [-> | ->]; tauto.
  - apply idx_chars in I; [|easy]. destruct Hd as [-> | ->]; destruct I as [I|[I|[I|[I|[I|I]]]]]; discriminate.
Qed.
Lemma lhs_strip a : asg_blank a -> good_name (lower (a_key a)) = true -> strip (a_w1 a ++ lhs a ++ a_w2 a) = lhs a.
Proof.
  intros H G. pose proof H as (H1 & H2 & _). apply blank_ws in H1, H2. rewrite strip_ws_l, strip_ws_r by easy.
  assert (N : nonws (lower (a_key a))) by (intros c Hc; apply (good_in _ _ G), wordc_facts in Hc; tauto).
  apply strip_id; unfold lhs.
  - apply hdnot_app; [now apply good_nonnil|]. now apply nonws_hd.
  - destruct (a_idx a) as [[[w [s ds]] w']|]; cbn [idx_text]; [|rewrite app_nil_r; now apply nonws_last].
    apply lastnot_app; [easy|]. change ("("%char :: w ++ int_text s ds ++ w' ++ [")"%char]) with (["("%char] ++ w ++ int_text s ds ++ w' ++ [")"%char]).
    rewrite !app_assoc. apply lastnot_app; easy.
Qed.
Lemma lhs_index a : asg_blank a -> good_name (lower (a_key a)) = true ->
  exists i, (if mem_c "(" (lhs a) then match split_on "(" (lhs a) with [p; i] => Ok (p, Some (rstrip_p (is_c ")") i)) | _ => Err ValueError end
             else Ok (lhs a, None)) = Ok (lower (a_key a), i) /\
  match a_idx a with None => i = None | Some _ => exists t, i = Some t /\ py_int t = Ok (idx_value a) end.
Proof.
  intros H G. pose proof H as (_ & _ & _ & _ & HI & _).
  assert (K : ~ In "("%char (lower (a_key a))) by (intros I; apply (good_in _ _ G), wordc_facts in I; tauto).
  unfold lhs, idx_value. destruct (a_idx a) as [[[w [s ds]] w']|]; cbn [idx_text].
  - destruct HI as (Hw & Hw' & Hd). apply blank_ws in Hw, Hw'. rewrite mem_c_true by (apply in_or_app; right; now left).
    rewrite split_sep by exact K. rewrite split_none.
    2:{ intros I. rewrite !in_app_iff in I. destruct I as [I|[I|[I|I]]]; [apply Hw in I; discriminate| |apply Hw' in I; discriminate|destruct I as [I|[]]; discriminate].
        destruct Hd as [_ Hd]. apply int_chars in I; [|easy]. destruct I as [I|[I|I]]; discriminate. }
    eexists. split; [reflexivity|]. eexists. split; [reflexivity|].
    replace (rstrip_p (is_c ")") (w ++ int_text s ds ++ w' ++ [")"%char])) with (w ++ int_text s ds ++ w').
    + rewrite py_int_ws by easy. now apply py_int_text.
    + rewrite !app_assoc. rewrite rstrip_app by (intros c [<-|[]]; reflexivity). symmetry. apply rstrip_id. rewrite <- !app_assoc.
      apply lastnot_app.
      * destruct (int_text s ds) eqn:E; [|easy]. exfalso. unfold int_text in E. apply app_eq_nil in E as [_ E]. destruct Hd as [Hd _]. now apply digits_nonnil in E.
      * unfold lastnot. destruct (rev (int_text s ds ++ w')) as [|c u] eqn:E; [easy|]. apply Ascii.eqb_neq. intros ->.
        assert (I : In ")"%char (int_text s ds ++ w')) by (apply in_rev; rewrite E; now left). apply in_app_or in I as [I|I]; [|apply Hw' in I; discriminate].
        destruct Hd as [_ Hd]. apply int_chars in I; [|easy]. destruct I as [I|[I|I]]; discriminate.
  - rewrite app_nil_r, mem_c_false by exact K. now exists None.
Qed.

(** ---- one assignment ---- *)
Definition apply_asg (ty : typ) (a : asg) (data : list (text * value)) : list (text * value) :=
  let k := lower (a_key a) in
  match ty with
  | TDict => upd k (VDict (zupd (idx_value a) (num_value (a_lit a)) (match assoc k data with Some (VDict d) => d | _ => [] end))) data
  | _ => upd k (field_value ty (a_lit a)) data
  end.
Lemma num_rhs l : lit_ok l -> match l with LStr _ => True | _ => py_float (replace_d (rhs l)) = Ok (num_value l) end.
Proof.
  intros H. destruct l as [s ds|r|t]; [| |easy]; cbn [rhs lit_text num_value].
  - rewrite <- real_of_int_value. rewrite <- real_of_int_text. rewrite real_norm by now apply real_of_int_ok. apply py_float_norm. now apply real_of_int_ok.
  - rewrite real_norm by exact H. now apply py_float_norm.
Qed.
Lemma asg_ok fs data a ty d : asg_blank a -> (forall k x, assoc k fs = Some x -> good_name k = true) ->
  assoc (lower (a_key a)) fs = Some (ty, d) -> typed ty a ->
  assignment fs data (lower (asg_text a)) = Ok (apply_asg ty a data).
Proof.
  intros H G E Ht. pose proof (G _ _ E) as GK. pose proof H as (_ & _ & H3 & H4 & _ & HL). apply blank_ws in H3, H4.
  rewrite lower_asg by exact H. unfold assignment. rewrite split_sep by (apply lhs_free; auto).
  rewrite split_none.
  2:{ intros I. rewrite !in_app_iff in I. destruct I as [I|[I|I]]; [apply H3 in I; discriminate| |apply H4 in I; discriminate]. revert I. apply lit_free; auto. }
  cbv zeta. rewrite lhs_strip by auto. rewrite rhs_spec by auto.
  destruct (lhs_index a H GK) as (i & EI & HI). rewrite EI. cbn [bind fst snd]. rewrite E.
  pose proof (num_rhs _ HL) as NV. unfold apply_asg, typed in *.
  destruct ty; destruct (a_lit a) as [s ds|r|t] eqn:EL; try easy; cbn [parse_typ field_value rhs] in *.
  - cbn [lit_text]. destruct HL as [HL1 HL2]. rewrite lower_int by easy. rewrite py_int_text by (split; easy). reflexivity.
  - rewrite NV. reflexivity.
  - rewrite NV. reflexivity.
  - destruct (a_idx a) as [[[w [s' ds']] w']|]; [|easy]. destruct HI as (t & -> & PI). rewrite PI. cbn [bind]. rewrite NV. reflexivity.
  - destruct (a_idx a) as [[[w [s' ds']] w']|]; [|easy]. destruct HI as (t & -> & PI). rewrite PI. cbn [bind]. rewrite NV. reflexivity.
Qed.

(** ---- lines ---- *)
Definition asg_wf (fs : fields) (a : asg) : Prop := asg_blank a /\ exists ty d, assoc (lower (a_key a)) fs = Some (ty, d) /\ typed ty a.
Definition apply_all (fs : fields) (data : list (text * value)) (l : list asg) : list (text * value) :=
  fold_left (fun data a => match assoc (lower (a_key a)) fs with Some (ty, _) => apply_asg ty a data | None => data end) l data.
Definition asg_good (a : asg) : Prop := asg_blank a /\ good_name (lower (a_key a)) = true.
Lemma wf_good fs a : asg_wf fs a -> (forall k x, assoc k fs = Some x -> good_name k = true) -> asg_good a.
Proof. intros (H & ty & d & E & _) G. split; [exact H|]. eapply G; eauto. Qed.
Lemma asg_no_comma a : asg_good a -> ~ In ","%char (lower (asg_text a)).
Proof.
  intros (H & G) I. rewrite lower_asg in I by exact H. apply in_app_or in I as [I|I].
  - revert I. apply lhs_free; auto.
  - destruct I as [I|I]; [discriminate|]. pose proof H as (_ & _ & H3 & H4 & _ & HL). apply blank_ws in H3, H4. rewrite !in_app_iff in I.
    destruct I as [I|[I|I]]; [apply H3 in I; discriminate| |apply H4 in I; discriminate]. revert I. apply lit_free; auto.
Qed.
Lemma joined2 x y t : joined (x :: y :: t) = x ++ ","%char :: joined (y :: t).
Proof. reflexivity. Qed.
Lemma lower_joined l : lower (joined l) = joined (map lower l).
Proof.
  induction l as [|x l IH]; [easy|]. destruct l as [|y t]; [easy|]. rewrite joined2.
  change (map lower (x :: y :: t)) with (lower x :: lower y :: map lower t). rewrite joined2, lower_app.
  change (lower (","%char :: joined (y :: t))) with (","%char :: lower (joined (y :: t))). rewrite IH. reflexivity.
Qed.
Lemma split_joined l : l <> [] -> (forall x, In x l -> ~ In ","%char x) -> split_on "," (joined l) = l.
Proof.
  induction l as [|x [|y t] IH]; intros N H; [easy| |].
  - cbn. apply split_none. apply H. now left.
  - cbn [joined]. rewrite split_sep by (apply H; now left). f_equal. apply IH; [easy|]. intros z Hz. apply H. now right.
Qed.
Lemma assigns_split fs data l : l <> [] -> (forall a, In a l -> asg_good a) ->
  assign_line fs data (lower (joined (map asg_text l))) = foldm (assignment fs) data (map lower (map asg_text l)).
Proof.
  intros N H. unfold assign_line. rewrite lower_joined, split_joined; [easy|destruct l; easy|].
  intros x Hx. apply in_map_iff in Hx as (y & <- & Hy). apply in_map_iff in Hy as (a & <- & Ha). apply asg_no_comma; auto.
Qed.
Lemma assigns_core fs data l : (forall a, In a l -> asg_wf fs a) -> (forall k x, assoc k fs = Some x -> good_name k = true) ->
  foldm (assignment fs) data (map lower (map asg_text l)) = Ok (apply_all fs data l).
Proof.
  intros H G. revert data. induction l as [|a l IH]; intros data; [easy|]. cbn [map foldm apply_all fold_left].
  destruct (H a (or_introl eq_refl)) as (Hb & ty & d & E & Ht). rewrite (asg_ok fs data a ty d Hb G E Ht). cbn [bind]. rewrite E.
  apply IH. intros b Hb'. apply H. now right.
Qed.
(** first and last visible characters of a line of assignments *)
Lemma joined_hd l : l <> [] -> exists t, joined l = hd [] l ++ t.
Proof. destruct l as [|x [|y t]]; [easy|exists []; now rewrite app_nil_r|]. intros _. now exists (","%char :: joined (y :: t)). Qed.
Lemma joined_last l : l <> [] -> exists t, joined l = t ++ last l [].
Proof.
  induction l as [|x [|y t] IH]; [easy|exists []; easy|]. intros _. destruct IH as (u & E); [easy|]. exists (x ++ ","%char :: u).
  cbn [joined last] in *. rewrite E. now rewrite <- app_assoc.
Qed.
Lemma lit_nonnil l : lit_ok l -> lower (lit_text l) <> [] /\ lastnot is_ws (lower (lit_text l)).
Proof.
  intros H. pose proof (lit_nonws l H) as N. split.
  - destruct l as [s ds|r|t]; cbn [lit_text]; [| |easy].
    + destruct H as [H1 H2]. rewrite lower_int by easy. unfold int_text. intros E. apply app_eq_nil in E as [_ E]. now apply digits_nonnil in E.
    + intros E. assert (E2 : replace_d (lower (real_text r)) = []) by now rewrite E. rewrite real_norm in E2 by exact H.
      pose proof (py_float_norm r H) as P. rewrite E2 in P. discriminate.
  - destruct l as [s ds|r|t]; [now apply nonws_last|now apply nonws_last|].
    change (lower (lit_text (LStr t))) with (lower (["'"%char] ++ t ++ ["'"%char])). rewrite !lower_app. apply lastnot_app; [now destruct (lower t)|]. apply lastnot_app; easy.
Qed.
Lemma Z_form l : l <> [] -> (forall a, In a l -> asg_good a) ->
  let Z := strip (lower (joined (map asg_text l))) in
  exists c r, Z = c :: r /\ is_ws c = false /\ c <> "!"%char /\ c <> "#"%char /\ c <> "/"%char /\ lastnot (is_c ",") Z.
Proof.
  intros N H Z. set (Y := lower (joined (map asg_text l))) in *.
  assert (NC : forall a, In a l -> ~ In ","%char (lower (asg_text a))) by (intros a Ha; apply asg_no_comma; auto).
  (* head *)
  assert (HD : exists w c r, alls is_ws w /\ wordc c = true /\ Y = w ++ c :: r).
  { destruct l as [|a l]; [easy|]. destruct (joined_hd (map lower (map asg_text (a :: l)))) as (t & Et); [easy|].
    unfold Y. rewrite lower_joined, Et. cbn [map hd]. destruct (H a (or_introl eq_refl)) as (Hb & GK).
    rewrite lower_asg by exact Hb. unfold lhs. pose proof (good_nonnil _ GK) as NN.
    destruct (lower (a_key a)) as [|c k] eqn:EK; [easy|]. exists (a_w1 a), c. eexists. split; [apply blank_ws, Hb|]. split; [apply (good_in _ _ GK); now left|].
    rewrite <- !app_assoc. cbn [List.app]. reflexivity. }
  (* last *)
  assert (LS : exists y c w, alls is_ws w /\ is_ws c = false /\ c <> ","%char /\ Y = y ++ c :: w).
  { destruct (joined_last (map lower (map asg_text l))) as (t & Et); [destruct l; easy|]. unfold Y. rewrite lower_joined.
    assert (X : exists a, In a l /\ last (map lower (map asg_text l)) [] = lower (asg_text a)).
    { clear -N. induction l as [|a [|b l] IH]; [easy|exists a; split; [now left|easy]|]. destruct IH as (x & Hx & E); [easy|]. exists x. split; [now right|]. exact E. }
    destruct X as (a & Ha & EX). assert (EQ : joined (map lower (map asg_text l)) = t ++ lower (asg_text a)) by (etransitivity; [exact Et|f_equal; exact EX]).
    rewrite EQ. destruct (H a Ha) as (Hb & _). rewrite lower_asg by exact Hb.
    pose proof Hb as (_ & _ & _ & H4 & _ & HL). apply blank_ws in H4. destruct (lit_nonnil _ HL) as [NL LL].
    destruct (rev (lower (lit_text (a_lit a)))) as [|c u] eqn:ER; [exfalso; apply NL; rewrite <- (rev_involutive (lower _)), ER; easy|].
    unfold lastnot in LL. rewrite ER in LL. cbn in LL.
    assert (EL : lower (lit_text (a_lit a)) = rev u ++ [c]) by (rewrite <- (rev_involutive (lower _)), ER; reflexivity).
    rewrite EL. exists (t ++ (a_w1 a ++ lhs a ++ a_w2 a) ++ "="%char :: a_w3 a ++ rev u), c, (a_w4 a). split; [exact H4|]. split; [exact LL|]. split.
    - intros ->. apply (lit_free ","%char (a_lit a) HL); [now left|]. rewrite EL. apply in_or_app. right. now left.
    - rewrite <- !app_assoc. cbn [List.app]. rewrite <- !app_assoc. reflexivity. }
  destruct HD as (w & c & r & Hw & Hc & EY). destruct LS as (y & c' & w' & Hw' & Hc' & Hcc & EY').
  destruct (wordc_facts c Hc) as (C1 & _ & _ & _ & _ & C2 & C3 & C4).
  destruct (strip_split is_ws Y) as (p & q & Hp & Hq & ES & Hh & Hl). fold (strip Y) in *. fold Z in ES, Hh, Hl.
  assert (Z1 : exists r', Z = c :: r').
  { assert (L1 : lstrip_p is_ws Y = c :: r) by (rewrite EY, lstrip_app by exact Hw; now apply lstrip_id).
    destruct Z as [|z Z'] eqn:EZ.
    - exfalso. assert (L2 : lstrip_p is_ws Y = []) by (rewrite ES; cbn [List.app]; apply lstrip_all; intros x Hx; apply in_app_or in Hx as [Hx|Hx]; auto). congruence.
    - assert (L2 : lstrip_p is_ws Y = (z :: Z') ++ q) by (rewrite ES, lstrip_app by exact Hp; now apply lstrip_id).
      rewrite L1 in L2. injection L2 as -> _. now exists Z'. }
  destruct Z1 as (r' & EZ). exists c, r'. repeat split; auto.
  assert (R1 : rstrip_p is_ws Y = y ++ [c']).
  { rewrite EY'. change (c' :: w') with ([c'] ++ w'). rewrite app_assoc, rstrip_app by exact Hw'. apply rstrip_id. apply lastnot_app; [easy|]. exact Hc'. }
  assert (R2 : rstrip_p is_ws Y = p ++ Z).
  { rewrite ES. rewrite app_assoc, rstrip_app by exact Hq. apply rstrip_id. apply lastnot_app; [rewrite EZ; easy|exact Hl]. }
  rewrite R1 in R2. unfold lastnot. assert (R3 : c' :: rev y = rev Z ++ rev p) by (rewrite <- rev_app_distr, <- R2, rev_app_distr; reflexivity).
  destruct (rev Z) as [|z Z'] eqn:ERZ; [easy|]. cbn in R3. injection R3 as -> _. cbn. now apply Ascii.eqb_neq.
Qed.
Lemma rep_commas k : lower (repeat ","%char k) = repeat ","%char k.
Proof. induction k; [easy|]. cbn. now rewrite <- IHk at 2. Qed.
Lemma nline_assigns fs data l k w rest : l <> [] -> blank w -> (forall a, In a l -> asg_good a) ->
  namelist fs data (nline_text (Assigns l k w) :: rest) = (do data' <- foldm (assignment fs) data (map lower (map asg_text l)); namelist fs data' rest).
Proof.
  intros N Hw H. apply blank_ws in Hw. cbn [namelist nline_text].
  rewrite !lower_app, rep_commas, (lower_blank w) by exact Hw. set (Y := lower (joined (map asg_text l))).
  destruct (Z_form l N H) as (c & r & EZ & C0 & C1 & C2 & C3 & LC). fold Y in EZ, LC. set (Z := strip Y) in *.
  destruct (strip_split is_ws Y) as (p & q & Hp & Hq & ES & Hh & Hl). fold (strip Y) in *. fold Z in ES, Hh, Hl.
  assert (X : exists b, alls is_ws b /\ rstrip_p (is_c ",") (strip (Y ++ repeat ","%char k ++ w)) = Z ++ b).
  { destruct k as [|k].
    - exists []. split; [easy|]. cbn [repeat List.app]. rewrite strip_ws_r by exact Hw. fold Z. rewrite app_nil_r. now apply rstrip_id.
    - exists q. split; [exact Hq|]. rewrite app_assoc, strip_ws_r by exact Hw. rewrite ES, <- !app_assoc, strip_ws_l by exact Hp.
      rewrite strip_id.
      + rewrite app_assoc. rewrite rstrip_app.
        * destruct q as [|x q] using rev_ind; [rewrite app_nil_r; now apply rstrip_id|]. apply rstrip_id. rewrite app_assoc. apply lastnot_app; [easy|].
          cbn. apply Ascii.eqb_neq. intros ->. assert (is_ws ","%char = true) by (apply Hq, in_or_app; right; now left). discriminate.
        * intros x Hx. apply repeat_spec in Hx. now subst.
      + rewrite EZ. exact C0.
      + rewrite !app_assoc. apply lastnot_app; [easy|]. assert (R : forall m, rev (repeat ","%char (S m)) = repeat ","%char (S m)).
        { induction m as [|m IH]; [easy|]. change (repeat ","%char (S (S m))) with (","%char :: repeat ","%char (S m)) at 1. cbn [rev]. rewrite IH.
          clear. induction (S m) as [|j IHj]; [easy|]. cbn. f_equal. exact IHj. }
        unfold lastnot. rewrite R. reflexivity. }
  destruct X as (b & Hb & ->). unfold lstrip. rewrite EZ. cbn [List.app lstrip_p]. rewrite C0.
  destruct (Ascii.eqb_spec c "!"); [easy|]. destruct (Ascii.eqb_spec c "#"); [easy|]. cbn [orb]. destruct (Ascii.eqb_spec c "/"); [easy|].
  change (c :: r ++ b) with ((c :: r) ++ b). rewrite <- EZ. rewrite line_ws_r by exact Hb. unfold Z. rewrite line_strip.
  unfold Y. rewrite (assigns_split fs data l N H). reflexivity.
Qed.
Lemma strip_first w c t : alls is_ws w -> is_ws c = false -> exists u, strip (w ++ c :: t) = c :: u.
Proof.
  intros Hw Hc. rewrite strip_ws_l by exact Hw. unfold strip, strip_p. rewrite lstrip_id by exact Hc.
  destruct (rstrip_split is_ws (c :: t)) as (b & Hb & E & _). destruct (rstrip_p is_ws (c :: t)) as [|d u] eqn:ER.
  - exfalso. cbn in E. assert (In c b) by (rewrite <- E; now left). apply Hb in H. congruence.
  - cbn in E. injection E as <- _. now exists u.
Qed.
Lemma rstrip_first p c t : p c = false -> exists u, rstrip_p p (c :: t) = c :: u.
Proof.
  intros Hc. destruct (rstrip_split p (c :: t)) as (b & Hb & E & _). destruct (rstrip_p p (c :: t)) as [|d u] eqn:ER.
  - exfalso. cbn in E. assert (In c b) by (rewrite <- E; now left). apply Hb in H. congruence.
  - cbn in E. injection E as <- _. now exists u.
Qed.
Lemma nline_comment fs data w c t rest : blank w -> c = "!"%char \/ c = "#"%char ->
  namelist fs data (nline_text (Comment w c t) :: rest) = namelist fs data rest.
Proof.
  intros Hw Hc. apply blank_ws in Hw. cbn [namelist nline_text]. rewrite lower_app, (lower_blank w) by exact Hw. cbn [lower map].
  assert (L : lower1 c = c) by (now destruct Hc as [-> | ->]). rewrite L.
  destruct (strip_first w c (map lower1 t) Hw) as (u & ->); [now destruct Hc as [-> | ->]|].
  destruct (rstrip_first (is_c ",") c u) as (v & ->); [now destruct Hc as [-> | ->]|].
  unfold lstrip. rewrite lstrip_id by (now destruct Hc as [-> | ->]). now destruct Hc as [-> | ->].
Qed.
Lemma nline_end fs data w t rest : blank w -> namelist fs data ((w ++ "/"%char :: t) :: rest) = Ok (data, rest).
Proof.
  intros Hw. apply blank_ws in Hw. cbn [namelist]. rewrite lower_app, (lower_blank w) by exact Hw. cbn [lower map].
  change (lower1 "/") with "/"%char. destruct (strip_first w "/"%char (map lower1 t) Hw) as (u & ->); [easy|].
  destruct (rstrip_first (is_c ",") "/"%char u) as (v & ->); [easy|]. reflexivity.
Qed.
