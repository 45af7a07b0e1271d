(** C107: the printed report of an SCF iteration and of the eigenvalues. *)
From Coq Require Import Reals Ascii String Lra.
From Verif Require Import Base LatModel QeInpModel QeInpSpec PropsQeInp VcoulIOModel VcoulIOProofs QeInpProofs PropsVcoulIO ReportModel ReportSpec ReportProofs.
Import ListNotations.
Local Notation length := List.length.
Local Open Scope R_scope.

Lemma show_qty lines label unit_ x u : unit_ <> 0 ->
  grep label lines = [T label ++ rjust 17 (fmt_f 8 (x / unit_)) ++ T u] ->
  exists y, shown lines label u y /\ decimals 8 y /\ Rabs (y - x / unit_) <= 5 / 10 ^ 9.
Proof.
  intros _ G. destruct (read_fixed 17 8 (x / unit_)) as (y & E & D & C1). exists y. split; [|split; [exact D|]].
  - eexists. split; [exact G|exact E].
  - apply Rle_trans with (1 := C1). cbn. lra.
Qed.
Lemma Ry_eq x : in_Ry x = x / RYDBERG.
Proof. unfold in_Ry, one_Ry, RYDBERG. f_equal. lra. Qed.
Lemma eV_eq x : in_eV x = x / ELECTRONVOLT.
Proof. reflexivity. Qed.
Lemma eV_pos : 0 < ELECTRONVOLT.
Proof.
  unfold ELECTRONVOLT, ELECTRON_SI, HARTREE_SI.
  assert (0 < / 10 ^ 28) by (apply Rinv_0_lt_compat, pow_lt; lra). assert (0 < / 10 ^ 31) by (apply Rinv_0_lt_compat, pow_lt; lra).
  apply Rdiv_lt_0_compat; unfold Rdiv; apply Rmult_lt_0_compat; lra.
Qed.

(** All labels have eighteen characters, so a label is found exactly on its own lines. *)
Lemma starts_eq (p q r : list ascii) : length p = length q -> starts_with p (q ++ r) = if list_eq_dec Ascii.ascii_dec p q then true else false.
Proof.
  revert q. induction p as [|a p IH]; intros [|b q] H; cbn [length] in H; try discriminate H; [reflexivity|].
  cbn [app starts_with]. rewrite IH by lia. destruct (list_eq_dec Ascii.ascii_dec p q) as [E0|N]; destruct (list_eq_dec Ascii.ascii_dec (a :: p) (b :: q)) as [E|N'];
  [inversion E; now rewrite Ascii.eqb_refl| destruct (Ascii.eqb_spec a b) as [E1|]; [subst; now contradiction N'|reflexivity] |inversion E; contradiction|now rewrite andb_false_r].
Qed.
Definition here (L l : string) (t : list (list ascii)) : list (list ascii) := if String.eqb L l then t else [].
Lemma T_inj s t : T s = T t -> s = t.
Proof. intros H. rewrite <- (string_of_list_ascii_of_string s), <- (string_of_list_ascii_of_string t). now f_equal. Qed.
Lemma grep_qty L l unit_ x u : length (T L) = length (T l) -> grep L [qty (T l) unit_ x u] = here L l [qty (T l) unit_ x u].
Proof.
  intros H. unfold grep, here. cbn [filter]. unfold qty. rewrite starts_eq by exact H.
  destruct (list_eq_dec Ascii.ascii_dec (T L) (T l)) as [E|N]; destruct (String.eqb_spec L l) as [E'|N']; try reflexivity.
  - now apply T_inj in E.
  - subst. now contradiction N.
Qed.
Lemma grep_opt L l x : length (T L) = length (T l) -> grep L (opt_ry (T l) x) = here L l (opt_ry (T l) x).
Proof. intros H. destruct x as [v|]; [now apply grep_qty|unfold here; now destruct (String.eqb L l)]. Qed.
Lemma grep_app L a b : grep L (a ++ b) = grep L a ++ grep L b.
Proof. apply filter_app. Qed.
Lemma grep_cons L t b : grep L (t :: b) = grep L [t] ++ grep L b.
Proof. apply (grep_app L [t] b). Qed.
Lemma label_len L : In L labels -> length (T L) = 18%nat.
Proof. cbn [labels In]. intros H. repeat (destruct H as [<-|H]; [reflexivity|]). destruct H. Qed.
Definition opt_ev (label : text) (x : option R) : list (list ascii) := match x with Some v => [ev label v] | None => [] end.
Definition lev (en : energies) : list (list ascii) :=
  match en_fermi en with
  | Some f => [ev (T " Fermi Level:     ") f]
  | None => opt_ev (T "    HO Level:     ") (en_HO en) ++ opt_ev (T "    LU Level:     ") (en_LU en)
  end.
Lemma levels_lev en lv : levels en = Ok lv -> lv = lev en.
Proof.
  unfold levels, lev, opt_ev. destruct (en_fermi en) as [f|]; [intros H; injection H as <-; reflexivity|].
  destruct (en_HO en) as [h|]; [|discriminate]. intros H. assert (lv = ev (T "    HO Level:     ") h :: match en_LU en with Some l => [ev (T "    LU Level:     ") l] | None => [] end) by congruence. subst. reflexivity.
Qed.
Lemma grep_lev L en : In L labels -> grep L (lev en) =
  match en_fermi en with
  | Some f => here L " Fermi Level:     " [ev (T " Fermi Level:     ") f]
  | None => here L "    HO Level:     " (opt_ev (T "    HO Level:     ") (en_HO en)) ++ here L "    LU Level:     " (opt_ev (T "    LU Level:     ") (en_LU en))
  end.
Proof.
  intros H. apply label_len in H. assert (O : forall l x, length (T l) = 18%nat -> grep L (opt_ev (T l) x) = here L l (opt_ev (T l) x)).
  { intros l [v|] E; [apply grep_qty; now rewrite E|unfold here; now destruct (String.eqb L l)]. }
  unfold lev. destruct (en_fermi en) as [f|]; [now apply grep_qty|]. rewrite grep_app, !O by reflexivity. reflexivity.
Qed.
Lemma head_no L c r b : In L labels -> c <> " "%char -> c <> "T"%char -> grep L ((c :: r) :: b) = grep L b.
Proof.
  intros H N1 N2. assert (S0 : starts_with (T L) (c :: r) = false).
  { cbn [labels In] in H. repeat (destruct H as [<-|H]; [cbn [T list_ascii_of_string starts_with];
      match goal with |- (Ascii.eqb ?a ?b && _)%bool = false => destruct (Ascii.eqb_spec a b) as [E|]; [now subst|reflexivity] end|]). destruct H. }
  unfold grep. cbn [filter]. now rewrite S0.
Qed.
Lemma head_noT L c s r b : In L labels -> c <> " "%char -> c <> "T"%char -> grep L ((T (String c s) ++ r) :: b) = grep L b.
Proof. apply head_no. Qed.
Lemma grep_ry L l x b : length (T l) = 18%nat -> In L labels -> grep L (ry (T l) x :: b) = here L l [ry (T l) x] ++ grep L b.
Proof. intros E H. rewrite grep_cons. f_equal. apply grep_qty. now rewrite E, (label_len L H). Qed.
Lemma blank_no L b : In L labels -> grep L ([] :: b) = grep L b.
Proof. intros H. apply label_len in H. unfold grep. cbn [filter]. destruct (T L) as [|a t]; [discriminate|reflexivity]. Qed.
Lemma look idx rt cv er th av en lines : print_scf_status idx rt cv er th av en = Ok lines -> forall L, In L labels ->
  grep L lines = here L "Total Energy:     " [ry (T "Total Energy:     ") (en_total en)]
   ++ here L "    Internal:     " (opt_ry (T "    Internal:     ") (en_internal en))
   ++ here L "      one-el:     " [ry (T "      one-el:     ") (en_one_el en)]
   ++ here L "     Hartree:     " [ry (T "     Hartree:     ") (en_hartree en)]
   ++ here L "          XC:     " [ry (T "          XC:     ") (en_xc en)]
   ++ here L "       Ewald:     " [ry (T "       Ewald:     ") (en_ewald en)]
   ++ here L "       Smear:     " (opt_ry (T "       Smear:     ") (en_smear en))
   ++ grep L (lev en).
Proof.
  intros H L HL. pose proof (label_len L HL) as LL. unfold print_scf_status in H. destruct (levels en) as [lv|] eqn:E; [|discriminate].
  apply levels_lev in E. subst lv. cbn [bind] in H. assert (HE := f_equal (fun r => match r with Ok v => v | Err _ => [] end) H). cbv beta iota in HE.
  rewrite <- HE. clear H HE lines. rewrite !grep_app.
  rewrite (grep_cons L [] (lev en ++ _)), grep_app.
  do 5 (rewrite head_noT by (exact HL || discriminate)). rewrite !blank_no by exact HL.
  rewrite !grep_opt, !grep_ry by (exact HL || (rewrite ?LL; reflexivity)).
  change (repeat "-"%char 40) with (T "-" ++ repeat "-"%char 39). rewrite head_noT by (exact HL || discriminate). rewrite blank_no by exact HL.
  change (grep L []) with (@nil (list ascii)). now rewrite !app_nil_r, <- !app_assoc.
Qed.

Lemma read_qty lines label unit_ x u : grep label lines = [qty (T label) unit_ x (T u)] ->
  exists y, shown lines label u y /\ decimals 8 y /\ Rabs (y - x / unit_) <= 5 / 10 ^ 9.
Proof.
  intros G. destruct (read_fixed 17 8 (x / unit_)) as (y & E & D & C1). exists y. split; [|split; [exact D|]].
  - eexists. split; [exact G|exact E].
  - apply Rle_trans with (1 := C1). cbn. lra.
Qed.
Ltac inlab := cbn [labels In]; tauto.

(** Every energy is shown once, on a line of its own label, as a number with eight decimals that Python
    reads back within half a unit of the last decimal; labels of missing energies do not occur. *)
Theorem C107_energies : forall idxiter runtime conv e_error thr avg en lines,
  print_scf_status idxiter runtime conv e_error thr avg en = Ok lines ->
  (forall label v u, In (label, v, u) (contents en) ->
     exists y, shown lines label u y /\ decimals 8 y /\ Rabs (y - v) <= 5 / 10 ^ 9)
  /\ (forall label, In label labels -> ~ In label (map (fun r => fst (fst r)) (contents en)) -> grep label lines = []).
Proof.
  intros idxiter runtime conv e_error thr avg en lines H. pose proof (look _ _ _ _ _ _ _ _ H) as K. clear H.
  split.
  - intros label v u Hin. unfold contents in Hin. rewrite !in_app_iff in Hin. destruct Hin as [Hin|[Hin|[Hin|Hin]]].
    + cbn [In] in Hin.
      repeat (destruct Hin as [Hin|Hin]; [injection Hin as <- <- <-; rewrite Ry_eq; apply read_qty; rewrite K by inlab;
        rewrite grep_lev by inlab; unfold here; destruct (en_fermi en); reflexivity|]). destruct Hin.
    + destruct (en_internal en) as [x|] eqn:E; [|destruct Hin]. destruct Hin as [Hin|[]]. injection Hin as <- <- <-. rewrite Ry_eq.
      apply read_qty. rewrite K by inlab. rewrite grep_lev by inlab. unfold here. destruct (en_fermi en); reflexivity.
    + destruct (en_smear en) as [x|] eqn:E; [|destruct Hin]. destruct Hin as [Hin|[]]. injection Hin as <- <- <-. rewrite Ry_eq.
      apply read_qty. rewrite K by inlab. rewrite grep_lev by inlab. unfold here. destruct (en_fermi en); reflexivity.
    + unfold level_rows in Hin. destruct (en_fermi en) as [f|] eqn:E.
      * destruct Hin as [Hin|[]]. injection Hin as <- <- <-. apply read_qty. rewrite K by inlab. rewrite grep_lev by inlab. rewrite E. reflexivity.
      * rewrite in_app_iff in Hin. destruct Hin as [Hin|Hin].
        -- destruct (en_HO en) as [h|] eqn:EH; [|destruct Hin]. destruct Hin as [Hin|[]]. injection Hin as <- <- <-. apply read_qty.
           rewrite K by inlab. rewrite grep_lev by inlab. rewrite E, EH. reflexivity.
        -- destruct (en_LU en) as [h|] eqn:EH; [|destruct Hin]. destruct Hin as [Hin|[]]. injection Hin as <- <- <-. apply read_qty.
           rewrite K by inlab. rewrite grep_lev by inlab. rewrite E, EH. reflexivity.
  - intros label Hl Hn. rewrite K by exact Hl. rewrite grep_lev by exact Hl.
    unfold contents, level_rows, opt_row in Hn. rewrite !map_app, !in_app_iff in Hn.
    cbn [labels In] in Hl.
    do 5 (destruct Hl as [<-|Hl]; [exfalso; apply Hn; left; cbn [map fst In]; tauto|]).
    destruct Hl as [<-|Hl]; [destruct (en_internal en); [exfalso; apply Hn; right; left; now left|destruct (en_fermi en); reflexivity]|].
    destruct Hl as [<-|Hl]; [destruct (en_smear en); [exfalso; apply Hn; do 2 right; left; now left|destruct (en_fermi en); reflexivity]|].
    destruct Hl as [<-|Hl]; [destruct (en_fermi en); [exfalso; apply Hn; do 3 right; now left|reflexivity]|].
    destruct Hl as [<-|Hl]; [destruct (en_fermi en); [reflexivity|]; destruct (en_HO en); [exfalso; apply Hn; do 3 right; rewrite map_app, in_app_iff; left; now left|reflexivity]|].
    destruct Hl as [<-|[]]. destruct (en_fermi en); [reflexivity|]; destruct (en_LU en); [exfalso; apply Hn; do 3 right; rewrite map_app, in_app_iff; right; now left|reflexivity].
Qed.
Print Assumptions C107_energies.

Lemma shown_fun lines label u y z : shown lines label u y -> shown lines label u z -> y = z.
Proof.
  intros (a & A & EA) (b & B & EB). rewrite A in B. injection B as B. apply app_inv_head in B. apply app_inv_tail in B. subst b. congruence.
Qed.
Lemma close_decimals (y1 y2 : R) (n : Z) (b : R) : decimals 8 y1 -> decimals 8 y2 -> Rabs (y1 - y2) <= b -> b < (IZR n + 1) / 10 ^ 8 ->
  exists k, (Z.abs k <= n)%Z /\ y1 - y2 = IZR k * / 10 ^ 8.
Proof.
  intros (z1 & ->) (z2 & ->) H1 H2. exists (z1 - z2)%Z. split; [|rewrite minus_IZR; unfold Rdiv; ring].
  assert (P : 0 < 10 ^ 8) by (apply pow_lt; lra). set (p := 10 ^ 8) in *.
  assert (E : IZR z1 / p - IZR z2 / p = IZR (z1 - z2) / p) by (rewrite minus_IZR; unfold Rdiv; ring). rewrite E in H1.
  assert (L : IZR (Z.abs (z1 - z2)) < IZR (n + 1)).
  { rewrite abs_IZR, plus_IZR. assert (A : Rabs (IZR (z1 - z2)) = Rabs (IZR (z1 - z2) / p) * p).
    { unfold Rdiv. rewrite Rabs_mult, (Rabs_pos_eq (/ p)) by (left; now apply Rinv_0_lt_compat). field. lra. }
    rewrite A. apply Rle_lt_trans with (b * p); [apply Rmult_le_compat_r; lra|].
    replace (IZR n + 1) with ((IZR n + 1) / p * p) by (field; lra). now apply Rmult_lt_compat_r. }
  apply lt_IZR in L. lia.
Qed.
Lemma decimals_add k a b : decimals k a -> decimals k b -> decimals k (a + b).
Proof. intros (x & ->) (y & ->). exists (x + y)%Z. rewrite plus_IZR. unfold Rdiv. ring. Qed.
Lemma in_Ry_add a b : in_Ry (a + b) = in_Ry a + in_Ry b.
Proof. unfold in_Ry, Rdiv. ring. Qed.

(** The printed parts add up to the printed total, up to the rounding of the last decimal: at most two
    units of 1e-8 Ry without smearing, three with; with smearing the internal energy is the sum of the other
    four within two units, and total = internal + smearing within one. *)
Theorem C107_sum : forall idxiter runtime conv e_error thr avg one_el ewald hartree xc smear fermi ho lu lines,
  print_scf_status idxiter runtime conv e_error thr avg (assemble one_el ewald hartree xc smear fermi ho lu) = Ok lines ->
  forall t o h x e,
    shown lines "Total Energy:     " " Ry" t -> shown lines "      one-el:     " " Ry" o ->
    shown lines "     Hartree:     " " Ry" h -> shown lines "          XC:     " " Ry" x ->
    shown lines "       Ewald:     " " Ry" e ->
  match smear with
  | None => exists k, (Z.abs k <= 2)%Z /\ t - (o + h + x + e) = IZR k / 10 ^ 8
  | Some _ => forall s i, shown lines "       Smear:     " " Ry" s -> shown lines "    Internal:     " " Ry" i ->
      (exists k, (Z.abs k <= 3)%Z /\ t - (o + h + x + e + s) = IZR k / 10 ^ 8)
      /\ (exists k, (Z.abs k <= 2)%Z /\ i - (o + h + x + e) = IZR k / 10 ^ 8)
      /\ (exists k, (Z.abs k <= 1)%Z /\ t - (i + s) = IZR k / 10 ^ 8)
  end.
Proof.
  intros idxiter runtime conv e_error thr avg one_el ewald hartree xc smear fermi ho lu lines H t o h x e Ht Ho Hh Hx He.
  destruct (C107_energies _ _ _ _ _ _ _ _ H) as (K & _).
  assert (U : forall label v u y, shown lines label u y -> In (label, v, u) (contents (assemble one_el ewald hartree xc smear fermi ho lu)) -> decimals 8 y /\ Rabs (y - v) <= 5 / 10 ^ 9).
  { intros label v u y S0 I0. destruct (K _ _ _ I0) as (y' & S1 & D & C1). rewrite (shown_fun _ _ _ _ _ S0 S1). now split. }
  assert (P9 : 5 / 10 ^ 9 = 1 / 2 / 10 ^ 8) by (cbn; lra).
  assert (P8 : 0 < / 10 ^ 8) by (apply Rinv_0_lt_compat, pow_lt; lra).
  destruct smear as [sm|].
  - intros s i Hs Hi.
    destruct (U _ (in_Ry (one_el + ewald + hartree + xc + sm)) _ _ Ht) as (Dt & Ct); [cbn; tauto|].
    destruct (U _ (in_Ry one_el) _ _ Ho) as (Do & Co); [cbn; tauto|].
    destruct (U _ (in_Ry hartree) _ _ Hh) as (Dh & Ch); [cbn; tauto|].
    destruct (U _ (in_Ry xc) _ _ Hx) as (Dx & Cx); [cbn; tauto|].
    destruct (U _ (in_Ry ewald) _ _ He) as (De & Ce); [cbn; tauto|].
    destruct (U _ (in_Ry sm) _ _ Hs) as (Ds & Cs); [cbn; tauto|].
    destruct (U _ (in_Ry (one_el + ewald + hartree + xc + sm - sm)) _ _ Hi) as (Di & Ci); [cbn; tauto|].
    replace (one_el + ewald + hartree + xc + sm - sm) with (one_el + ewald + hartree + xc) in Ci by ring.
    rewrite ?in_Ry_add in *. rewrite P9 in *. unfold Rdiv in *. remember (/ 10 ^ 8) as q eqn:Eq. clear P9 K U H Ht Ho Hh Hx He Hs Hi.
    split; [|split].
    + rewrite Eq; apply (close_decimals _ _ 3 (7 / 2 * q)); [exact Dt|repeat apply decimals_add; assumption| |unfold Rdiv; rewrite <- Eq; lra].
      apply Rabs_le. repeat (match goal with H : Rabs _ <= _ |- _ => apply Rabs_le_inv in H end). lra.
    + rewrite Eq; apply (close_decimals _ _ 2 (5 / 2 * q)); [exact Di|repeat apply decimals_add; assumption| |unfold Rdiv; rewrite <- Eq; lra].
      apply Rabs_le. repeat (match goal with H : Rabs _ <= _ |- _ => apply Rabs_le_inv in H end). lra.
    + rewrite Eq; apply (close_decimals _ _ 1 (3 / 2 * q)); [exact Dt|repeat apply decimals_add; assumption| |unfold Rdiv; rewrite <- Eq; lra].
      apply Rabs_le. repeat (match goal with H : Rabs _ <= _ |- _ => apply Rabs_le_inv in H end). lra.
  - destruct (U _ (in_Ry (one_el + ewald + hartree + xc)) _ _ Ht) as (Dt & Ct); [cbn; tauto|].
    destruct (U _ (in_Ry one_el) _ _ Ho) as (Do & Co); [cbn; tauto|].
    destruct (U _ (in_Ry hartree) _ _ Hh) as (Dh & Ch); [cbn; tauto|].
    destruct (U _ (in_Ry xc) _ _ Hx) as (Dx & Cx); [cbn; tauto|].
    destruct (U _ (in_Ry ewald) _ _ He) as (De & Ce); [cbn; tauto|].
    rewrite ?in_Ry_add in *. rewrite P9 in *. unfold Rdiv in *. remember (/ 10 ^ 8) as q eqn:Eq. clear P9 K U H Ht Ho Hh Hx He.
    rewrite Eq; apply (close_decimals _ _ 2 (5 / 2 * q)); [exact Dt|repeat apply decimals_add; assumption| |unfold Rdiv; rewrite <- Eq; lra].
    apply Rabs_le. repeat (match goal with H : Rabs _ <= _ |- _ => apply Rabs_le_inv in H end). lra.
Qed.
Print Assumptions C107_sum.

(** Lines after the fifth begin with a blank, "T" or "-". *)
Definition quiet (t : list ascii) : Prop := match t with [] => True | c :: _ => c = " "%char \/ c = "T"%char \/ c = "-"%char end.
Lemma grep_quiet c s l : c <> " "%char -> c <> "T"%char -> c <> "-"%char -> Forall quiet l -> grep (String c s) l = [].
Proof.
  intros N1 N2 N3. induction l as [|t l IH]; intros F; [reflexivity|]. apply Forall_cons_iff in F as (Q & F). unfold grep. cbn [filter].
  destruct t as [|a t]; [now apply IH|]. cbn [T list_ascii_of_string starts_with]. destruct (Ascii.eqb_spec c a) as [E|_]; [|now apply IH].
  exfalso. cbn [quiet] in Q. subst a. intuition congruence.
Qed.
Lemma print_shape idx rt cv er th av en lines : print_scf_status idx rt cv er th av en = Ok lines -> exists rest, Forall quiet rest /\
  lines = [ T "Iteration # " ++ fmt_int (idx + 1) ++ T ", Run Time: " ++ rjust 5 (fmt_f 1 rt) ++ T " sec";
        T "Convergence Status   : " ++ (if negb cv then T "NOT" else []) ++ T " Converged";
        T "SCF Error           : " ++ fmt_e 4 (er / RYDBERG) ++ T " Ry";
        T "Avg Diago Iterations: " ++ rjust 3 (fmt_f 1 av);
        T "Diago Threshold     : " ++ fmt_e 2 (th / RYDBERG) ++ T " Ry" ] ++ rest.
Proof.
  intros H. unfold print_scf_status in H. destruct (levels en) as [lv|] eqn:E; [|discriminate].
  apply levels_lev in E. subst lv. cbn [bind] in H. assert (HE := f_equal (fun r => match r with Ok v => v | Err _ => [] end) H). cbv beta iota in HE.
  cbn [app] in HE. eexists. split; [|rewrite <- HE; reflexivity]. clear.
  assert (O : forall l x, quiet (T l ++ [" "%char]) -> l <> EmptyString -> Forall quiet (opt_ry (T l) x)).
  { intros l [v|] Q N; [|constructor]. repeat constructor. destruct l as [|c l]; [easy|exact Q]. }
  constructor; [exact I|]. constructor; [cbn; tauto|]. apply Forall_app. split; [apply O; [cbn; tauto|discriminate]|].
  repeat (constructor; [cbn; tauto|]). apply Forall_app. split; [apply O; [cbn; tauto|discriminate]|]. constructor; [exact I|].
  apply Forall_app. split; [|repeat constructor; cbn; tauto].
  unfold lev. destruct (en_fermi en); [|destruct (en_HO en), (en_LU en)]; repeat constructor; cbn; tauto.
Qed.

(** The report of an iteration names its one-based number, the convergence as given, the error and the
    threshold in Ry to 5 and 3 significant digits, and the times to 0.1. *)
Theorem C107_status : forall idxiter runtime conv e_error thr avg en lines,
  print_scf_status idxiter runtime conv e_error thr avg en = Ok lines ->
  (exists n r y, grep "Iteration # " lines = [T "Iteration # " ++ n ++ T ", Run Time: " ++ r ++ T " sec"]
     /\ hd_error lines = Some (T "Iteration # " ++ n ++ T ", Run Time: " ++ r ++ T " sec")
     /\ py_int n = Ok (idxiter + 1)%Z /\ py_float r = Ok y /\ Rabs (y - runtime) <= 5 / 100)
  /\ grep "Convergence Status" lines
     = [T (if conv then "Convergence Status   :  Converged" else "Convergence Status   : NOT Converged")]
  /\ (exists y, shown lines "SCF Error           : " " Ry" y /\ Rabs (y - in_Ry e_error) <= 5 / 10 ^ 5 * Rabs (in_Ry e_error))
  /\ (exists y, shown lines "Diago Threshold     : " " Ry" y /\ Rabs (y - in_Ry thr) <= 5 / 10 ^ 3 * Rabs (in_Ry thr))
  /\ (exists y, shown lines "Avg Diago Iterations: " "" y /\ Rabs (y - avg) <= 5 / 100).
Proof.
  intros idxiter runtime conv e_error thr avg en lines H. apply print_shape in H as (rest & Q & ->).
  assert (G : forall c s l, c <> " "%char -> c <> "T"%char -> c <> "-"%char -> grep (String c s) (l ++ rest) = grep (String c s) l).
  { intros c s l N1 N2 N3. rewrite grep_app, (grep_quiet c s rest) by assumption. apply app_nil_r. }
  split; [|split; [|split; [|split]]].
  - destruct (read_fixed 5 1 runtime) as (y & E & _ & C1). exists (fmt_int (idxiter + 1)), (rjust 5 (fmt_f 1 runtime)), y.
    split; [rewrite G by discriminate; reflexivity|]. split; [reflexivity|]. split; [|split; [exact E|apply Rle_trans with (1 := C1); cbn; lra]].
    destruct (fmt_int_spec (idxiter + 1)) as (s & ds & K & _ & -> & V & _). rewrite py_int_text by exact K. now rewrite V.
  - rewrite G by discriminate. destruct conv; reflexivity.
  - destruct (read_sci 4 (e_error / RYDBERG)) as (y & E & C1). exists y. split.
    + exists (fmt_e 4 (e_error / RYDBERG)). split; [rewrite G by discriminate; reflexivity|exact E].
    + rewrite Ry_eq. apply Rle_trans with (1 := C1). apply Rmult_le_compat_r; [apply Rabs_pos|cbn; lra].
  - destruct (read_sci 2 (thr / RYDBERG)) as (y & E & C1). exists y. split.
    + exists (fmt_e 2 (thr / RYDBERG)). split; [rewrite G by discriminate; reflexivity|exact E].
    + rewrite Ry_eq. apply Rle_trans with (1 := C1). apply Rmult_le_compat_r; [apply Rabs_pos|cbn; lra].
  - destruct (read_fixed 3 1 avg) as (y & E & _ & C1). exists y. split; [|apply Rle_trans with (1 := C1); cbn; lra].
    exists (rjust 3 (fmt_f 1 avg)). split; [rewrite G by discriminate; change (T "") with (@nil ascii); rewrite app_nil_r; reflexivity|exact E].
Qed.
Print Assumptions C107_status.

(** The report is refused exactly when neither a Fermi level nor a highest occupied level is known. *)
Theorem C107_refuses : forall idxiter runtime conv e_error thr avg en,
  (forall er, print_scf_status idxiter runtime conv e_error thr avg en = Err er <->
     er = TypeError /\ en_fermi en = None /\ en_HO en = None)
  /\ (en_fermi en <> None \/ en_HO en <> None -> exists lines, print_scf_status idxiter runtime conv e_error thr avg en = Ok lines).
Proof.
  intros idxiter runtime conv e_error thr avg en. unfold print_scf_status, levels. split.
  - intros er. destruct (en_fermi en); [|destruct (en_HO en)]; cbn [bind]; split; intros H; try discriminate H; try (destruct H as (? & ? & ?); discriminate).
    + injection H as <-. repeat split.
    + now destruct H as (-> & _).
  - intros [H|H]; destruct (en_fermi en), (en_HO en); try contradiction; cbn [bind]; eexists; reflexivity.
Qed.
Print Assumptions C107_refuses.

Lemma fmt_f_tok k x : tok (fmt_f k x).
Proof. destruct (fmt_f_spec k x) as (ip & fp & -> & K & _). now apply real_tok. Qed.
Lemma band_line_row i e o : band_row i e o (band_line i e o).
Proof.
  destruct (read_fixed 0 8 (e / ELECTRONVOLT)) as (ye & Ee & _ & Ce). destruct (read_fixed 0 6 o) as (yo & Eo & _ & Co).
  exists (fmt_int (Z.of_nat i + 1)), (fmt_f 8 (e / ELECTRONVOLT)), (fmt_f 6 o), ye, yo. split.
  { unfold band_line, rjust. rewrite <- !app_assoc.
    rewrite (app_assoc (T "  ") (repeat _ _)). rewrite words_tok; [|intros c Hc; apply in_app_iff in Hc as [Hc|Hc]; [now apply (sp2 c)|apply repeat_spec in Hc; now subst c]|apply int_tok|apply sp2|easy]. f_equal.
    rewrite words_tok; [|apply spaces_repeat|apply fmt_f_tok|apply sp2|easy]. f_equal.
    apply words_last; [apply spaces_repeat|apply fmt_f_tok]. }
  split; [destruct (fmt_int_spec (Z.of_nat i + 1)) as (s & ds & K & _ & -> & V & _); rewrite py_int_text by exact K; now rewrite V|].
  split; [exact Ee|]. split; [apply Rle_trans with (1 := Ce); cbn; lra|]. split; [exact Eo|]. apply Rle_trans with (1 := Co); cbn; lra.
Qed.
Lemma band_lines_spec w n : forall i,
  match band_lines i n w with
  | Ok rows => length rows = n /\ (i + n <= length (ko_evl w))%nat /\ (i + n <= length (ko_occ w))%nat
      /\ forall j e o line, nth_error (ko_evl w) (i + j) = Some e -> nth_error (ko_occ w) (i + j) = Some o -> nth_error rows j = Some line -> band_row (i + j) e o line
  | Err er => er = IndexError /\ (length (ko_evl w) < i + n \/ length (ko_occ w) < i + n)%nat
  end \/ (n = 0%nat /\ band_lines i n w = Ok []).
Proof.
  induction n as [|n IH]; intros i; [now right|]. left. cbn [band_lines].
  destruct (nth_error (ko_evl w) i) as [e|] eqn:E1; [|split; [reflexivity|left; apply nth_error_None in E1; lia]].
  destruct (nth_error (ko_occ w) i) as [o|] eqn:E2; [|split; [reflexivity|right; apply nth_error_None in E2; lia]].
  assert (L1 : (i < length (ko_evl w))%nat) by (apply nth_error_Some; congruence). assert (L2 : (i < length (ko_occ w))%nat) by (apply nth_error_Some; congruence).
  assert (A0 : forall e0 o0 line, nth_error (ko_evl w) (i + 0) = Some e0 -> nth_error (ko_occ w) (i + 0) = Some o0 -> nth_error [band_line i e o] 0 = Some line -> band_row (i + 0) e0 o0 line).
  { intros e0 o0 line H1 H2 H3. rewrite Nat.add_0_r in *. assert (e0 = e) by congruence. assert (o0 = o) by congruence. cbn in H3. injection H3 as <-. subst. apply band_line_row. }
  destruct (IH (Datatypes.S i)) as [K|(-> & K)].
  - destruct (band_lines (Datatypes.S i) n w) as [rows|er]; cbn [bind].
    + destruct K as (K1 & K2 & K3 & K4). split; [cbn [length]; lia|]. split; [lia|]. split; [lia|].
      intros [|j] e0 o0 line H1 H2 H3; [exact (A0 e0 o0 line H1 H2 H3)|].
      replace (i + Datatypes.S j)%nat with (Datatypes.S i + j)%nat in * by lia. exact (K4 j e0 o0 line H1 H2 H3).
    + destruct K as (-> & K). split; [reflexivity|]. lia.
  - rewrite K. cbn [bind]. split; [reflexivity|]. split; [lia|]. split; [lia|].
    intros [|j] e0 o0 line H1 H2 H3; [exact (A0 e0 o0 line H1 H2 H3)|]. destruct j; discriminate H3.
Qed.
Definition enough (w : kswfn_out) : Prop := (ko_numbnd w <= length (ko_evl w))%nat /\ (ko_numbnd w <= length (ko_occ w))%nat.
Lemma wfn_lines_spec w : match wfn_lines w with Ok b => block_of w b /\ enough w | Err er => er = IndexError /\ ~ enough w end.
Proof.
  unfold wfn_lines, enough. destruct (band_lines_spec w (ko_numbnd w) 0) as [K|(N & K)].
  - destruct (band_lines 0 (ko_numbnd w) w) as [rows|er]; cbn [bind].
    + destruct K as (K1 & K2 & K3 & K4). split; [|split; assumption]. exists rows. split; [reflexivity|]. split; [exact K1|exact K4].
    + destruct K as (-> & K). split; [reflexivity|]. lia.
  - rewrite K. cbn [bind]. split; [|lia]. exists []. split; [reflexivity|]. split; [now rewrite N|]. intros [|i] e o line _ _ H; discriminate H.
Qed.

(** The eigenvalue table: one block per k-point, in order; one line per band, in order, whose three
    words are the one-based index, the eigenvalue in eV within 5e-9 and the occupation within 5e-7.  Too few
    eigenvalues or occupations for the number of bands of some k-point is an IndexError. *)
Theorem C107_eigenvalues : forall l,
  (forall lines, print_eigenvalues l = Ok lines ->
     exists blocks, lines = T "Printing eigenvalues:" :: List.concat blocks /\ Forall2 block_of (List.concat l) blocks)
  /\ ((exists lines, print_eigenvalues l = Ok lines) <->
      forall g w, In g l -> In w g -> (ko_numbnd w <= length (ko_evl w))%nat /\ (ko_numbnd w <= length (ko_occ w))%nat)
  /\ (forall er, print_eigenvalues l = Err er -> er = IndexError).
Proof.
  intros l. unfold print_eigenvalues.
  assert (S0 : forall ws, match sequence (map wfn_lines ws) with
                 | Ok bs => Forall2 block_of ws bs /\ Forall enough ws
                 | Err er => er = IndexError /\ ~ Forall enough ws end).
  { induction ws as [|w ws IH]; [split; constructor|]. cbn [map sequence]. pose proof (wfn_lines_spec w) as W. destruct (wfn_lines w) as [b|er]; cbn [bind].
    - destruct (sequence (map wfn_lines ws)) as [bs|er]; cbn [bind].
      + split; constructor; tauto.
      + destruct IH as (-> & N). split; [reflexivity|]. rewrite Forall_cons_iff. tauto.
    - destruct W as (-> & N). split; [reflexivity|]. rewrite Forall_cons_iff. tauto. }
  specialize (S0 (List.concat l)).
  assert (F : Forall enough (List.concat l) <-> forall g w, In g l -> In w g -> enough w).
  { rewrite Forall_forall. split; [intros H g w Hg Hw; apply H, in_concat; eauto|]. intros H w Hw. apply in_concat in Hw as (g & Hg & Hw). eauto. }
  fold enough in *. unfold enough at 1 in F. 
  destruct (sequence (map wfn_lines (List.concat l))) as [bs|er]; cbn [bind].
  - destruct S0 as (S1 & S2). split; [|split].
    + intros lines H. exists bs. split; [congruence|exact S1].
    + split; [|eauto]. intros _. now apply F.
    + intros er H. discriminate H.
  - destruct S0 as (-> & N). split; [intros lines H; discriminate H|]. split.
    + split; [intros (lines & H); discriminate H|]. intros H. exfalso. apply N. now apply F.
    + congruence.
Qed.
Print Assumptions C107_eigenvalues.

(** Non-vacuity: a report with smearing shows all eight numbers; one without a Fermi level nor occupied level
    is refused; two k-points of two bands are printed, a third with an eigenvalue missing is not. *)
Example C107_report_example : exists lines t s i,
  print_scf_status 4 (5 / 2) true (1 / 1000) (1 / 100) 3 (assemble (-7) (-8) 2 (-3) (Some (-1 / 10)) (Some (1 / 5)) None None) = Ok lines
  /\ shown lines "Total Energy:     " " Ry" t /\ Rabs (t + 161 / 5) <= 5 / 10 ^ 9
  /\ shown lines "       Smear:     " " Ry" s /\ shown lines "    Internal:     " " Ry" i /\ Rabs (i + 32) <= 5 / 10 ^ 9
  /\ grep "    HO Level:     " lines = [].
Proof.
  destruct (proj2 (C107_refuses 4 (5 / 2) true (1 / 1000) (1 / 100) 3 (assemble (-7) (-8) 2 (-3) (Some (-1 / 10)) (Some (1 / 5)) None None))) as (lines & H); [left; discriminate|].
  destruct (C107_energies _ _ _ _ _ _ _ _ H) as (K & N).
  destruct (K "Total Energy:     "%string _ " Ry"%string (or_introl eq_refl)) as (t & St & _ & Ct).
  destruct (K "       Smear:     "%string (in_Ry (-1 / 10)) " Ry"%string) as (s & Ss & _ & Cs); [cbn; tauto|].
  destruct (K "    Internal:     "%string (in_Ry (-7 + -8 + 2 + -3 + -1 / 10 - -1 / 10)) " Ry"%string) as (i & Si & _ & Ci); [cbn; tauto|].
  exists lines, t, s, i. split; [exact H|]. split; [exact St|]. split; [|split; [exact Ss|split; [exact Si|split]]].
  - cbn [assemble en_total] in Ct. unfold in_Ry, one_Ry in Ct. replace (t + 161 / 5) with (t - (-7 + -8 + 2 + -3 + -1 / 10) / / 2) by lra. exact Ct.
  - unfold in_Ry, one_Ry in Ci. replace (i + 32) with (i - (-7 + -8 + 2 + -3 + -1 / 10 - -1 / 10) / / 2) by lra. exact Ci.
  - apply N; [cbn; tauto|]. intros F. cbn in F. repeat (destruct F as [F|F]; [discriminate F|]). exact F.
Qed.
Example C107_refuse_example : print_scf_status 0 1 false 1 1 1 (assemble 1 2 3 4 None None None None) = Err TypeError.
Proof. reflexivity. Qed.
Example C107_bands_example :
  let w := MkOut (T "(0.0, 0.0, 0.0)") (T "1.0") 100 2 [-1; 2] [1; 0] in
  (exists lines, print_eigenvalues [[w]; [w]] = Ok lines) /\ print_eigenvalues [[w]; [MkOut [] [] 100 2 [-1] [1; 0]]] = Err IndexError.
Proof. cbv zeta. split; [eexists; reflexivity|reflexivity]. Qed.
