From Verif Require Import Base LatModel KPtsModel KPtsProofs OccModel.
From Coq Require Import Reals Lra.
Open Scope R_scope.

Lemma rsum_cons x l : rsum (x :: l) = x + rsum l.
Proof. reflexivity. Qed.

Lemma rsum_le {A} (f g : A -> R) l : (forall x, In x l -> f x <= g x) -> rsum (map f l) <= rsum (map g l).
Proof.
  induction l as [|x l IH]; intros H; cbn [map]; [apply Rle_refl|]. rewrite !rsum_cons.
  apply Rplus_le_compat; [apply H; now left|]. apply IH. intros; apply H; now right.
Qed.

Lemma rsum_nonneg l : (forall x, In x l -> 0 <= x) -> 0 <= rsum l.
Proof.
  induction l as [|x l IH]; intros H; [apply Rle_refl|]. rewrite rsum_cons.
  apply Rplus_le_le_0_compat; [apply H; now left|]. apply IH. intros; apply H; now right.
Qed.

Lemma rsum_plus {A} (f g : A -> R) l : rsum (map (fun x => f x + g x) l) = rsum (map f l) + rsum (map g l).
Proof. induction l as [|x l IH]; cbn [map]; [cbn; ring|]. rewrite !rsum_cons, IH. ring. Qed.

(* maxima *)
Lemma fold_Rmax_spec t : forall x, (forall y, In y (x :: t) -> y <= fold_left Rmax t x) /\ In (fold_left Rmax t x) (x :: t).
Proof.
  induction t as [|z t IH]; intros x; cbn [fold_left].
  - split; [intros y [->|[]]; apply Rle_refl|now left].
  - destruct (IH (Rmax x z)) as (A & B). split.
    + intros y [->|[->|Hy]].
      * eapply Rle_trans; [apply (Rmax_l y z)|]. apply A. now left.
      * eapply Rle_trans; [apply (Rmax_r x y)|]. apply A. now left.
      * apply A. now right.
    + destruct B as [B|B]; [|right; now right]. rewrite <- B. unfold Rmax. destruct (Rle_dec x z); [right; now left|now left].
Qed.
Lemma fold_Rmin_spec t : forall x, (forall y, In y (x :: t) -> fold_left Rmin t x <= y) /\ In (fold_left Rmin t x) (x :: t).
Proof.
  induction t as [|z t IH]; intros x; cbn [fold_left].
  - split; [intros y [->|[]]; apply Rle_refl|now left].
  - destruct (IH (Rmin x z)) as (A & B). split.
    + intros y [->|[->|Hy]].
      * eapply Rle_trans; [|apply (Rmin_l y z)]. apply A. now left.
      * eapply Rle_trans; [|apply (Rmin_r x y)]. apply A. now left.
      * apply A. now right.
    + destruct B as [B|B]; [|right; now right]. rewrite <- B. unfold Rmin. destruct (Rle_dec x z); [now left|right; now left].
Qed.

Lemma rmaximum_ok l m : rmaximum l = Ok m -> (forall y, In y l -> y <= m) /\ In m l.
Proof. destruct l as [|x t]; cbn; [discriminate|]. intros E. injection E as <-. apply fold_Rmax_spec. Qed.
Lemma rminimum_ok l m : rminimum l = Ok m -> (forall y, In y l -> m <= y) /\ In m l.
Proof. destruct l as [|x t]; cbn; [discriminate|]. intros E. injection E as <-. apply fold_Rmin_spec. Qed.
Lemma rmaximum_ex l : l <> [] -> exists m, rmaximum l = Ok m.
Proof. destruct l; [congruence|]. cbn. eauto. Qed.
Lemma rminimum_ex l : l <> [] -> exists m, rminimum l = Ok m.
Proof. destruct l; [congruence|]. cbn. eauto. Qed.

Lemma sequence_ex {A B} (f : A -> res B) l : (forall x, In x l -> exists y, f x = Ok y) -> exists r, sequence (map f l) = Ok r.
Proof.
  induction l as [|x l IH]; intros H; [cbn; eauto|]. cbn. destruct (H x (or_introl eq_refl)) as (y & ->). cbn.
  destruct IH as (r & ->); [intros; apply H; now right|]. cbn. eauto.
Qed.
Lemma sequence_in {A B} (f : A -> res B) l r : sequence (map f l) = Ok r ->
  (forall y, In y r <-> exists x, In x l /\ f x = Ok y) /\ (forall x, In x l -> exists y, f x = Ok y /\ In y r) /\ length r = length l.
Proof.
  revert r. induction l as [|x l IH]; intros r H; cbn in H.
  - injection H as <-. split; [|split; [intros x []|reflexivity]]. intros y. split; [intros []|intros (x & [] & _)].
  - destruct (f x) as [y|] eqn:E; [|discriminate]. cbn in H. destruct (sequence (map f l)) as [r'|] eqn:E'; [|discriminate].
    cbn in H. injection H as <-. destruct (IH r' eq_refl) as (A1 & A2 & A3). split; [|split].
    + intros z. split.
      * intros [<-|Hz]; [exists x; split; [now left|exact E]|]. apply A1 in Hz as (x' & Hx' & E2). exists x'. split; [now right|exact E2].
      * intros (x' & [<-|Hx'] & E2); [left; congruence|]. right. apply A1. eauto.
    + intros x' [<-|Hx']; [exists y; split; [exact E|now left]|]. destruct (A2 x' Hx') as (z & Ez & Hz). exists z. split; [exact Ez|now right].
    + cbn. now rewrite A3.
Qed.

(** Maximum over groups of maxima over members. *)
Lemma max_nested {A} (gs : list (list A)) (f : A -> list R) :
  gs <> [] -> (forall g, In g gs -> g <> []) -> (forall g a, In g gs -> In a g -> f a <> []) ->
  exists maxs m, sequence (map (fun g => do l <- sequence (map (fun a => rmaximum (f a)) g); rmaximum l) gs) = Ok maxs
    /\ rmaximum maxs = Ok m
    /\ (forall g a e, In g gs -> In a g -> In e (f a) -> e <= m)
    /\ (exists g a, In g gs /\ In a g /\ In m (f a)).
Proof.
  intros Hne Hg Ha.
  assert (K : forall g, In g gs -> exists mg, (do l <- sequence (map (fun a => rmaximum (f a)) g); rmaximum l) = Ok mg
     /\ (forall a e, In a g -> In e (f a) -> e <= mg) /\ exists a, In a g /\ In mg (f a)).
  { intros g Hin. destruct (sequence_ex (fun a => rmaximum (f a)) g) as (l & El).
    { intros a Hag. apply rmaximum_ex. eapply Ha; eassumption. }
    rewrite El. cbn [bind]. apply sequence_in in El as (A1 & A2 & A3).
    destruct (rmaximum_ex l) as (mg & Em). { intros ->. apply (Hg g Hin). destruct g; [reflexivity|discriminate]. }
    exists mg. split; [exact Em|]. apply rmaximum_ok in Em as (B1 & B2). split.
    - intros a e Hag He. destruct (A2 a Hag) as (y & Ey & Hy). apply rmaximum_ok in Ey as (C1 & _).
      eapply Rle_trans; [apply C1, He|apply B1, Hy].
    - apply A1 in B2 as (a & Hag & Ea). apply rmaximum_ok in Ea as (_ & C2). eauto. }
  destruct (sequence_ex (fun g => do l <- sequence (map (fun a => rmaximum (f a)) g); rmaximum l) gs) as (maxs & Em).
  { intros g Hin. destruct (K g Hin) as (mg & E & _). eauto. }
  exists maxs. pose proof Em as Em'. apply sequence_in in Em' as (A1 & A2 & A3).
  destruct (rmaximum_ex maxs) as (m & Emm). { intros ->. apply Hne. destruct gs; [reflexivity|discriminate]. }
  exists m. split; [exact Em|]. split; [exact Emm|]. apply rmaximum_ok in Emm as (B1 & B2). split.
  - intros g a e Hin Hag He. destruct (K g Hin) as (mg & E & C1 & _). destruct (A2 g Hin) as (y & Ey & Hy).
    rewrite E in Ey. injection Ey as <-. eapply Rle_trans; [eapply C1; eassumption|apply B1, Hy].
  - apply A1 in B2 as (g & Hin & E). destruct (K g Hin) as (mg & E' & _ & (a & Hag & Hm)). rewrite E in E'. injection E' as <-. eauto.
Qed.
Lemma min_nested {A} (gs : list (list A)) (f : A -> list R) :
  gs <> [] -> (forall g, In g gs -> g <> []) -> (forall g a, In g gs -> In a g -> f a <> []) ->
  exists mins m, sequence (map (fun g => do l <- sequence (map (fun a => rminimum (f a)) g); rminimum l) gs) = Ok mins
    /\ rminimum mins = Ok m
    /\ (forall g a e, In g gs -> In a g -> In e (f a) -> m <= e)
    /\ (exists g a, In g gs /\ In a g /\ In m (f a)).
Proof.
  intros Hne Hg Ha.
  assert (K : forall g, In g gs -> exists mg, (do l <- sequence (map (fun a => rminimum (f a)) g); rminimum l) = Ok mg
     /\ (forall a e, In a g -> In e (f a) -> mg <= e) /\ exists a, In a g /\ In mg (f a)).
  { intros g Hin. destruct (sequence_ex (fun a => rminimum (f a)) g) as (l & El).
    { intros a Hag. apply rminimum_ex. eapply Ha; eassumption. }
    rewrite El. cbn [bind]. apply sequence_in in El as (A1 & A2 & A3).
    destruct (rminimum_ex l) as (mg & Em). { intros ->. apply (Hg g Hin). destruct g; [reflexivity|discriminate]. }
    exists mg. split; [exact Em|]. apply rminimum_ok in Em as (B1 & B2). split.
    - intros a e Hag He. destruct (A2 a Hag) as (y & Ey & Hy). apply rminimum_ok in Ey as (C1 & _).
      eapply Rle_trans; [apply B1, Hy|apply C1, He].
    - apply A1 in B2 as (a & Hag & Ea). apply rminimum_ok in Ea as (_ & C2). eauto. }
  destruct (sequence_ex (fun g => do l <- sequence (map (fun a => rminimum (f a)) g); rminimum l) gs) as (mins & Em).
  { intros g Hin. destruct (K g Hin) as (mg & E & _). eauto. }
  exists mins. pose proof Em as Em'. apply sequence_in in Em' as (A1 & A2 & A3).
  destruct (rminimum_ex mins) as (m & Emm). { intros ->. apply Hne. destruct gs; [reflexivity|discriminate]. }
  exists m. split; [exact Em|]. split; [exact Emm|]. apply rminimum_ok in Emm as (B1 & B2). split.
  - intros g a e Hin Hag He. destruct (K g Hin) as (mg & E & C1 & _). destruct (A2 g Hin) as (y & Ey & Hy).
    rewrite E in Ey. injection Ey as <-. eapply Rle_trans; [apply B1, Hy|eapply C1; eassumption].
  - apply A1 in B2 as (g & Hin & E). destruct (K g Hin) as (mg & E' & _ & (a & Hag & Hm)). rewrite E in E'. injection E' as <-. eauto.
Qed.

(* ---- Fermi-Dirac ---- *)
Lemma fd_bounds f : 0 < fd_occ f < 1.
Proof.
  unfold fd_occ. pose proof (exp_pos f). split.
  - apply Rdiv_lt_0_compat; lra.
  - apply Rmult_lt_reg_r with (1 + exp f); [lra|]. unfold Rdiv. rewrite Rmult_assoc, Rinv_l by lra. lra.
Qed.
Lemma fd_decr a b : a <= b -> fd_occ b <= fd_occ a.
Proof.
  intros H. unfold fd_occ, Rdiv. rewrite !Rmult_1_l. pose proof (exp_pos a).
  apply Rinv_le_contravar; [lra|]. destruct H as [H| ->]; [|lra]. pose proof (exp_increasing a b H). lra.
Qed.
Lemma fd_symm f : fd_occ f + fd_occ (- f) = 1.
Proof.
  unfold fd_occ. rewrite exp_Ropp. pose proof (exp_pos f). field. lra.
Qed.
Lemma fd_zero : fd_occ 0 = / 2.
Proof. unfold fd_occ. rewrite exp_0. lra. Qed.
Lemma fd_lip a b : a <= b -> fd_occ a - fd_occ b <= b - a.
Proof.
  intros H. pose proof (exp_pos a). pose proof (exp_pos b).
  assert (E : fd_occ a - fd_occ b = (1 - exp (a - b)) * (exp b / (1 + exp b)) * (1 / (1 + exp a))).
  { unfold fd_occ. unfold Rminus at 3. rewrite exp_plus, exp_Ropp. field. lra. }
  rewrite E.
  assert (X : 0 <= 1 - exp (a - b) <= b - a).
  { split.
    - assert (exp (a - b) <= exp 0).
      { destruct (Req_dec a b) as [->|N]; [rewrite Rminus_diag_eq by reflexivity; lra|]. left. apply exp_increasing. lra. }
      rewrite exp_0 in H2. lra.
    - pose proof (exp_ineq1_le (a - b)). lra. }
  assert (Y1 : 0 <= exp b / (1 + exp b) <= 1).
  { split; [left; apply Rdiv_lt_0_compat; lra|]. apply Rmult_le_reg_r with (1 + exp b); [lra|].
    unfold Rdiv. rewrite Rmult_assoc, Rinv_l by lra. lra. }
  assert (Y2 : 0 <= 1 / (1 + exp a) <= 1) by (pose proof (fd_bounds a); unfold fd_occ in *; lra).
  apply Rle_trans with ((b - a) * 1 * 1); [|lra].
  apply Rmult_le_compat; try lra.
  - apply Rmult_le_pos; lra.
  - apply Rmult_le_compat; lra.
Qed.
Lemma fd_small f : SMEAR_THRESHOLD <= f -> fd_occ f <= exp (- SMEAR_THRESHOLD).
Proof.
  intros H. apply Rle_trans with (fd_occ SMEAR_THRESHOLD); [now apply fd_decr|].
  unfold fd_occ. rewrite exp_Ropp. pose proof (exp_pos SMEAR_THRESHOLD). unfold Rdiv. rewrite Rmult_1_l.
  apply Rinv_le_contravar; lra.
Qed.

Section Gen.
  Variables (occf : R -> R) (degauss : R).
  Hypothesis Hd : 0 < degauss.
  Hypothesis Hb : forall f, 0 <= occf f <= 1.
  Hypothesis Hm : forall a b, a <= b -> occf b <= occf a.

  Lemma occ_one_bounds mu e : 0 <= occ_one occf degauss mu e <= 1.
  Proof.
    unfold occ_one. destruct (Rle_dec _ _); [apply Hb|]. destruct (Rlt_dec _ _); lra.
  Qed.

  (** The clamped occupation as a function of f. *)
  Lemma clamp_decr a b : a <= b ->
    (if Rle_dec (Rabs b) SMEAR_THRESHOLD then occf b else if Rlt_dec b (- SMEAR_THRESHOLD) then 1 else 0)
    <= (if Rle_dec (Rabs a) SMEAR_THRESHOLD then occf a else if Rlt_dec a (- SMEAR_THRESHOLD) then 1 else 0).
  Proof.
    intros H. pose proof (Hb a). pose proof (Hb b).
    destruct (Rle_dec (Rabs b) SMEAR_THRESHOLD) as [B|B]; destruct (Rle_dec (Rabs a) SMEAR_THRESHOLD) as [A|A].
    - now apply Hm.
    - destruct (Rlt_dec a (- SMEAR_THRESHOLD)); [lra|]. exfalso. apply A. apply Rabs_le.
      assert (b <= SMEAR_THRESHOLD) by (pose proof (Rle_abs b); lra). lra.
    - destruct (Rlt_dec b (- SMEAR_THRESHOLD)) as [L|L]; [|lra]. exfalso.
      assert (- SMEAR_THRESHOLD <= a). { pose proof (Rle_abs (- a)) as X. rewrite Rabs_Ropp in X. lra. } lra.
    - destruct (Rlt_dec b (- SMEAR_THRESHOLD)) as [L|L]; destruct (Rlt_dec a (- SMEAR_THRESHOLD)); lra.
  Qed.

  Lemma occ_one_decr mu a b : a <= b -> occ_one occf degauss mu b <= occ_one occf degauss mu a.
  Proof.
    intros H. unfold occ_one. apply clamp_decr. apply Rmult_le_compat_r; [left; now apply Rinv_0_lt_compat|lra].
  Qed.
  Lemma occ_one_incr_mu mu mu' e : mu <= mu' -> occ_one occf degauss mu e <= occ_one occf degauss mu' e.
  Proof.
    intros H. unfold occ_one. apply clamp_decr. apply Rmult_le_compat_r; [left; now apply Rinv_0_lt_compat|lra].
  Qed.

  Lemma compute_numel_incr world mu mu' :
    (forall g wk w, In g world -> In wk g -> In w wk -> 0 <= k_weight w) -> mu <= mu' ->
    compute_numel occf degauss world mu <= compute_numel occf degauss world mu'.
  Proof.
    intros Hw H. unfold compute_numel. apply rsum_le. intros g Hg. unfold group_numel. apply rsum_le. intros w Hin.
    apply in_concat in Hin as (wk & Hwk & Hin). apply rsum_le. intros e _.
    apply Rmult_le_compat_r; [eapply Hw; eassumption|]. now apply occ_one_incr_mu.
  Qed.
End Gen.

(* ---- bisection ---- *)
Lemma bisect_some fuel N numel : forall lo hi mu, bisect fuel N numel lo hi = Some mu -> Rabs (numel - N mu) <= EPS.
Proof.
  induction fuel as [|f IH]; intros lo hi mu; cbn [bisect].
  - destruct (Rlt_dec EPS _) as [|L]; [discriminate|]. intros E. injection E as <-. lra.
  - destruct (Rlt_dec EPS _) as [|L].
    + destruct (Rlt_dec 0 _); apply IH.
    + intros E. injection E as <-. lra.
Qed.

Lemma bisect_range fuel N numel : forall lo hi mu, lo <= hi -> bisect fuel N numel lo hi = Some mu -> lo <= mu <= hi.
Proof.
  induction fuel as [|f IH]; intros lo hi mu H; cbn [bisect].
  - destruct (Rlt_dec EPS _); [discriminate|]. intros E. injection E as <-. lra.
  - destruct (Rlt_dec EPS _).
    + destruct (Rlt_dec 0 _); intros E; apply IH in E; lra.
    + intros E. injection E as <-. lra.
Qed.

Lemma bisect_none_high N numel fuel : forall lo hi, lo <= hi -> (forall a b, a <= b -> N a <= N b) ->
  numel > N hi + EPS -> bisect fuel N numel lo hi = None.
Proof.
  assert (P : 0 < EPS) by (unfold EPS; apply Rinv_0_lt_compat, pow_lt; lra).
  induction fuel as [|f IH]; intros lo hi H Hm Hn; cbn [bisect];
    pose proof (Hm ((lo + hi) / 2) hi ltac:(lra));
    (destruct (Rlt_dec EPS _) as [|L]; [|exfalso; apply L; rewrite Rabs_pos_eq; lra]); [reflexivity|].
  destruct (Rlt_dec 0 _) as [|L]; [|lra]. apply IH; try assumption. lra.
Qed.
Lemma bisect_none_low N numel fuel : forall lo hi, lo <= hi -> (forall a b, a <= b -> N a <= N b) ->
  numel < N lo - EPS -> bisect fuel N numel lo hi = None.
Proof.
  assert (P : 0 < EPS) by (unfold EPS; apply Rinv_0_lt_compat, pow_lt; lra).
  induction fuel as [|f IH]; intros lo hi H Hm Hn; cbn [bisect];
    pose proof (Hm lo ((lo + hi) / 2) ltac:(lra));
    (destruct (Rlt_dec EPS _) as [|L]; [|exfalso; apply L; rewrite Rabs_left1; lra]); [reflexivity|].
  destruct (Rlt_dec 0 _) as [|L]; [lra|]. apply IH; try assumption. lra.
Qed.

(** The bracket after n passes that did not stop. *)
Fixpoint bracket_after (n : nat) (N : R -> R) (numel lo hi : R) : R * R :=
  match n with
  | O => (lo, hi)
  | S n' => let '(a, b) := bracket_after n' N numel lo hi in
            if Rlt_dec 0 (numel - N ((a + b) / 2)) then ((a + b) / 2, b) else (a, (a + b) / 2)
  end.

Lemma bracket_step n N numel lo hi : bracket_after (S n) N numel lo hi =
  (if Rlt_dec 0 (numel - N ((lo + hi) / 2)) then bracket_after n N numel ((lo + hi) / 2) hi
   else bracket_after n N numel lo ((lo + hi) / 2)).
Proof.
  induction n as [|n IH].
  - cbn. destruct (Rlt_dec _ _); reflexivity.
  - cbn [bracket_after] in *. destruct (bracket_after n N numel lo hi) as [a b] eqn:E.
    rewrite IH. destruct (Rlt_dec 0 (numel - N ((lo + hi) / 2))); reflexivity.
Qed.

Lemma bracket_inv n N numel lo hi : lo <= hi -> N lo <= numel <= N hi ->
  let '(a, b) := bracket_after n N numel lo hi in
  lo <= a /\ a <= b /\ b <= hi /\ N a <= numel <= N b /\ b - a = (hi - lo) / 2 ^ n.
Proof.
  intros H HN. induction n as [|n IH]; cbn [bracket_after]; [cbn; repeat split; lra|].
  destruct (bracket_after n N numel lo hi) as [a b]. destruct IH as (A1 & A2 & A3 & A4 & A5).
  assert (E : (hi - lo) / 2 ^ S n = (b - a) / 2).
  { rewrite A5. cbn [pow]. field. apply pow_nonzero. lra. }
  destruct (Rlt_dec 0 _); repeat split; lra.
Qed.

(** If the loop has not returned after n passes, its answer is that of the loop started
    from the bracket reached. *)
Lemma bisect_from n fuel N numel : forall lo hi, (forall i, (i < n)%nat ->
    let '(a, b) := bracket_after i N numel lo hi in EPS < Rabs (numel - N ((a + b) / 2))) ->
  bisect (n + fuel) N numel lo hi = bisect fuel N numel (fst (bracket_after n N numel lo hi)) (snd (bracket_after n N numel lo hi)).
Proof.
  induction n as [|n IH]; intros lo hi H; [reflexivity|].
  cbn [Nat.add bisect]. pose proof (H 0%nat ltac:(lia)) as H0. cbn in H0.
  destruct (Rlt_dec EPS _) as [_|L]; [|contradiction].
  rewrite bracket_step. 
  assert (K : forall i, (i < n)%nat -> let '(a, b) := (if Rlt_dec 0 (numel - N ((lo + hi) / 2)) then bracket_after i N numel ((lo + hi) / 2) hi
      else bracket_after i N numel lo ((lo + hi) / 2)) in EPS < Rabs (numel - N ((a + b) / 2))).
  { intros i Hi. specialize (H (S i) ltac:(lia)). rewrite bracket_step in H. exact H. }
  destruct (Rlt_dec 0 _); apply IH; exact K.
Qed.

(** Termination: a bracketed solution and a bound on the variation of N over short
    intervals. *)
Lemma bisect_terminates N numel lo hi K c : lo <= hi -> N lo <= numel <= N hi -> 0 <= K -> c < EPS ->
  (forall a b, a <= b -> Rabs (N b - N a) <= K * (b - a) + c) ->
  exists fuel mu, bisect fuel N numel lo hi = Some mu.
Proof.
  intros H HN HK Hc Hvar.
  assert (EX : exists n, K * ((hi - lo) / 2 ^ n) + c <= EPS).
  { destruct (archimed_cor1 ((EPS - c) / (K * (hi - lo) + 1))) as (n & Hn & Hpos).
    - apply Rdiv_lt_0_compat; [lra|]. assert (0 <= K * (hi - lo)) by (apply Rmult_le_pos; lra). lra.
    - exists n. assert (P : 0 < 2 ^ n) by (apply pow_lt; lra).
      assert (Q : INR n <= 2 ^ n).
      { clear. induction n as [|n IH]; [cbn; lra|]. rewrite S_INR. cbn [pow].
        assert (1 <= 2 ^ n) by (apply pow_R1_Rle; lra). lra. }
      assert (I : / 2 ^ n <= / INR n) by (apply Rinv_le_contravar; [now apply lt_0_INR|exact Q]).
      assert (M : 0 <= K * (hi - lo)) by (apply Rmult_le_pos; lra).
      assert (D : K * (hi - lo) * / 2 ^ n <= (K * (hi - lo) + 1) * ((EPS - c) / (K * (hi - lo) + 1))).
      { apply Rmult_le_compat; try lra. left. now apply Rinv_0_lt_compat. }
      replace ((K * (hi - lo) + 1) * ((EPS - c) / (K * (hi - lo) + 1))) with (EPS - c) in D by (field; lra).
      replace (K * ((hi - lo) / 2 ^ n)) with (K * (hi - lo) * / 2 ^ n) by (unfold Rdiv; ring). lra. }
  destruct EX as (n & Hn).
  (* either some earlier pass stops, or pass n stops *)
  assert (DEC : forall m, (forall i, (i < m)%nat -> let '(a, b) := bracket_after i N numel lo hi in EPS < Rabs (numel - N ((a + b) / 2)))
     \/ exists i, (i < m)%nat /\ (forall j, (j < i)%nat -> let '(a, b) := bracket_after j N numel lo hi in EPS < Rabs (numel - N ((a + b) / 2)))
         /\ let '(a, b) := bracket_after i N numel lo hi in ~ EPS < Rabs (numel - N ((a + b) / 2))).
  { induction m as [|m IHm]; [left; intros; lia|]. destruct IHm as [IHm|(i & Hi & A & B)].
    - destruct (bracket_after m N numel lo hi) as [a b] eqn:E.
      destruct (Rlt_dec EPS (Rabs (numel - N ((a + b) / 2)))) as [L|L].
      + left. intros i Hi. destruct (Nat.eq_dec i m) as [->|]; [rewrite E; exact L|apply IHm; lia].
      + right. exists m. split; [lia|]. split; [exact IHm|]. rewrite E. exact L.
    - right. exists i. split; [lia|]. now split. }
  destruct (DEC n) as [A|(i & Hi & A & B)].
  - exists n. exists ((fst (bracket_after n N numel lo hi) + snd (bracket_after n N numel lo hi)) / 2).
    rewrite <- (Nat.add_0_r n) at 1. rewrite (bisect_from n 0 N numel lo hi A).
    pose proof (bracket_inv n N numel lo hi H HN) as I. destruct (bracket_after n N numel lo hi) as [a b].
    cbn [fst snd bisect]. destruct I as (I1 & I2 & I3 & I4 & I5).
    destruct (Rlt_dec EPS _) as [L|]; [|reflexivity]. exfalso.
    rewrite <- I5 in Hn. pose proof (Hvar a ((a + b) / 2) ltac:(lra)) as V1. pose proof (Hvar ((a + b) / 2) b ltac:(lra)) as V2.
    assert (M1 : K * ((a + b) / 2 - a) <= K * (b - a)) by (apply Rmult_le_compat_l; lra).
    assert (M2 : K * (b - (a + b) / 2) <= K * (b - a)) by (apply Rmult_le_compat_l; lra).
    assert (Rabs (numel - N ((a + b) / 2)) <= K * (b - a) + c).
    { apply Rabs_le. unfold Rabs in V1, V2. destruct (Rcase_abs _) in V1; destruct (Rcase_abs _) in V2; lra. }
    lra.
  - exists i. exists ((fst (bracket_after i N numel lo hi) + snd (bracket_after i N numel lo hi)) / 2).
    rewrite <- (Nat.add_0_r i) at 1. rewrite (bisect_from i 0 N numel lo hi A).
    destruct (bracket_after i N numel lo hi) as [a b]. cbn [fst snd bisect].
    destruct (Rlt_dec EPS _) as [L|]; [contradiction|reflexivity].
Qed.

(** Variation of a clamped occupation function with small tails. *)
Lemma clamp_close occf delta degauss mu e : 0 <= delta ->
  (forall x, 50 <= x -> Rabs (occf x) <= delta) -> (forall x, x <= -50 -> Rabs (1 - occf x) <= delta) ->
  Rabs (occ_one occf degauss mu e - occf ((e - mu) / degauss)) <= delta.
Proof.
  intros Hd Hr Hl. unfold occ_one. set (f := (e - mu) / degauss). unfold SMEAR_THRESHOLD.
  destruct (Rle_dec (Rabs f) 50) as [|L].
  - rewrite Rminus_diag_eq, Rabs_R0 by reflexivity. lra.
  - apply Rnot_le_lt in L. destruct (Rlt_dec f (- (50))) as [L'|L'].
    + apply Hl. lra.
    + rewrite Rminus_0_l, Rabs_Ropp. apply Hr. apply Rnot_lt_le in L'. unfold Rabs in L. destruct (Rcase_abs f); lra.
Qed.
Lemma clamp_var occf L delta degauss mu mu' e : 0 < degauss -> 0 <= delta ->
  (forall x y, Rabs (occf x - occf y) <= L * Rabs (x - y)) ->
  (forall x, 50 <= x -> Rabs (occf x) <= delta) -> (forall x, x <= -50 -> Rabs (1 - occf x) <= delta) -> mu <= mu' ->
  Rabs (occ_one occf degauss mu' e - occ_one occf degauss mu e) <= L * ((mu' - mu) / degauss) + 2 * delta.
Proof.
  intros Hg Hd HL Hr Hl H. pose proof (clamp_close occf delta degauss mu e Hd Hr Hl) as A.
  pose proof (clamp_close occf delta degauss mu' e Hd Hr Hl) as B.
  pose proof (HL ((e - mu') / degauss) ((e - mu) / degauss)) as V.
  replace ((e - mu') / degauss - (e - mu) / degauss) with (- ((mu' - mu) / degauss)) in V by (field; lra).
  rewrite Rabs_Ropp, (Rabs_pos_eq ((mu' - mu) / degauss)) in V
    by (apply Rmult_le_pos; [lra|left; now apply Rinv_0_lt_compat]).
  revert A B V. generalize (occ_one occf degauss mu e) (occ_one occf degauss mu' e) (occf ((e - mu) / degauss)) (occf ((e - mu') / degauss)).
  intros a b p q A B V. apply Rabs_le. unfold Rabs in A, B, V.
  destruct (Rcase_abs _) in A; destruct (Rcase_abs _) in B; destruct (Rcase_abs _) in V; lra.
Qed.
