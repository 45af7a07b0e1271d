(** C89: loading BerkeleyGW wavefunction files. *)
From Coq Require Import Reals Lra.
From Verif Require Import Base LatModel KPtsModel KPtsProofs CheckModel PropsCheck SortModel SortProofs WfnIOModel WfnIOProofs WfnPyModel CBase.
Open Scope R_scope.

(* ------------------------------------------------------------------ *)
(** Vocabulary. *)
(** Where the data of k-point [ik] starts, and the data of that k-point. *)
Definition start (ngk : list nat) (ik : nat) : nat := list_sum (firstn ik ngk).
Definition block {A} (ngk : list nat) (ik : nat) (l : list A) : list A :=
  firstn (nth ik ngk 0%nat) (skipn (start ngk ik) l).
(** A file whose arrays have the announced shapes, for one spin channel. *)
Definition shapes (f : wfn_file) : Prop :=
  (0 < f_nrk f)%nat /\ length (f_rk f) = f_nrk f /\ length (f_w f) = f_nrk f /\ length (f_ngk f) = f_nrk f
  /\ list_sum (f_ngk f) = length (f_gvecs f)
  /\ (forall ik s, (ik < f_nrk f)%nat -> In s (f_el f ++ f_occ f) -> length (nth ik s []) = f_mnband f)
  /\ (forall band sp, In band (f_coeffs f) -> In sp band -> length sp = length (f_gvecs f)).
Definition one_spin (f : wfn_file) : Prop :=
  length (f_el f) = 1%nat /\ length (f_occ f) = 1%nat /\ (forall band, In band (f_coeffs f) -> length band = 1%nat).
(** The value stored for band [b] and plane wave number [n] of the file. *)
Definition stored (f : wfn_file) (b n : nat) : R * R := nth n (nth 0 (nth b (f_coeffs f) []) []) (0, 0).
Definition small (g : z3) : Prop := let '(a, b, c) := g in (Z.abs a < 100000 /\ Z.abs b < 100000 /\ Z.abs c < 100000)%Z.
Definition no_junk (junk : nat -> list nat) : Prop := forall n, length (junk n) = n.

(* ------------------------------------------------------------------ *)
(** The order and the comparison. *)
Lemma z3leb_total x y : z3leb x y = true \/ z3leb y x = true.
Proof. destruct x as [[a b] c], y as [[a' b'] c']. unfold z3leb. lia. Qed.
Lemma z3leb_trans x y z : z3leb x y = true -> z3leb y z = true -> z3leb x z = true.
Proof. destruct x as [[a b] c], y as [[a' b'] c'], z as [[a'' b''] c'']. unfold z3leb. lia. Qed.
Lemma z3leb_anti x y : z3leb x y = true -> z3leb y x = true -> x = y.
Proof.
  destruct x as [[a b] c], y as [[a' b'] c']. unfold z3leb. intros H1 H2.
  assert (a = a' /\ b = b' /\ c = c') as (-> & -> & ->) by lia. reflexivity.
Qed.
Lemma zclose_refl a : zclose a a = true.
Proof. unfold zclose. rewrite Z.sub_diag. lia. Qed.
Lemma z3close_refl a : z3close a a = true.
Proof. destruct a as [[a b] c]. unfold z3close. now rewrite !zclose_refl. Qed.
Lemma zclose_small a b : (Z.abs b < 100000)%Z -> zclose a b = true -> a = b.
Proof. unfold zclose. intros H1 H2. apply Z.leb_le in H2. lia. Qed.
Lemma z3close_small a b : small b -> z3close a b = true -> a = b.
Proof.
  destruct a as [[a1 a2] a3], b as [[b1 b2] b3]. unfold small, z3close. intros (S1 & S2 & S3) H.
  apply andb_prop in H. destruct H as [H H3]. apply andb_prop in H. destruct H as [H1 H2].
  apply zclose_small in H1, H2, H3; try assumption. now subst.
Qed.
Lemma rows_close_refl l : rows_close l l = Ok true.
Proof.
  unfold rows_close. rewrite Nat.eqb_refl. f_equal. apply forallb_forall. intros [a b] Hin. cbn [fst snd].
  assert (a = b) as ->; [|apply z3close_refl].
  induction l as [|x l IH]; [destruct Hin|]. destruct Hin as [E|Hin]; [injection E as <- <-; reflexivity|auto].
Qed.
Lemma forall_close a b : length a = length b -> Forall small b ->
  forallb (fun p => z3close (fst p) (snd p)) (combine a b) = true -> a = b.
Proof.
  revert b. induction a as [|x a IH]; intros [|y b]; cbn [length combine forallb fst snd]; try discriminate; [reflexivity|].
  intros HL HS H. inversion_clear HS as [|? ? Hy Hb]. apply andb_prop in H. destruct H as [H1 H2].
  f_equal; [now apply z3close_small|]. apply IH; [lia|exact Hb|exact H2].
Qed.

(* ------------------------------------------------------------------ *)
(** Filling the table. *)
Lemma set_nth_len {A} k (x : A) l : (k < length l)%nat -> length (set_nth k x l) = length l.
Proof. intros H. unfold set_nth. rewrite app_length, firstn_length. cbn [length]. rewrite skipn_length. lia. Qed.
Lemma set_nth_at {A} k (x d : A) l i : (k < length l)%nat ->
  nth i (set_nth k x l) d = if (i =? k)%nat then x else nth i l d.
Proof.
  intros H. unfold set_nth. destruct (Nat.eqb_spec i k) as [->|Hn].
  - rewrite app_nth2; rewrite firstn_length_le by lia; [|lia]. now rewrite Nat.sub_diag.
  - destruct (Nat.lt_ge_cases i k) as [L|L].
    + rewrite app_nth1 by (rewrite firstn_length_le by lia; lia).
      rewrite <- (firstn_skipn k l) at 2. rewrite app_nth1 by (rewrite firstn_length_le by lia; lia). reflexivity.
    + rewrite app_nth2; rewrite firstn_length_le by lia; [|lia].
      replace (i - k)%nat with (S (i - S k)) by lia. cbn [nth].
      rewrite <- (firstn_skipn (S k) l) at 2. rewrite app_nth2; rewrite firstn_length_le by lia; [|lia]. reflexivity.
Qed.
Lemma put_fold ps : forall vs junk, length ps = length vs -> NoDup ps -> (forall p, In p ps -> (p < length junk)%nat) ->
  let out := fold_left (fun a pv => set_nth (fst pv) (snd pv) a) (combine ps vs) junk in
  length out = length junk
  /\ (forall i, ~ In i ps -> nth i out 0%nat = nth i junk 0%nat)
  /\ forall j, (j < length ps)%nat -> nth (nth j ps 0%nat) out 0%nat = nth j vs 0%nat.
Proof.
  induction ps as [|p ps IH]; intros [|v vs] junk HL HN HB; try discriminate; cbn [combine fold_left fst snd].
  - repeat split; intros; cbn in *; lia.
  - inversion_clear HN as [|? ? Hnin HN'].
    assert (Lp : (p < length junk)%nat) by (apply HB; now left).
    destruct (IH vs (set_nth p v junk)) as (A & B & D); [cbn in HL; lia|exact HN'| |].
    { intros q Hq. rewrite set_nth_len by exact Lp. apply HB. now right. }
    rewrite set_nth_len in A by exact Lp.
    split; [exact A|]. split.
    + intros i Hi. rewrite B by (intros H; apply Hi; now right). rewrite set_nth_at by exact Lp.
      destruct (Nat.eqb_spec i p) as [->|]; [exfalso; apply Hi; now left|reflexivity].
    + intros [|j] Hj.
      * cbn [nth]. rewrite B by exact Hnin. rewrite set_nth_at by exact Lp. now rewrite Nat.eqb_refl.
      * cbn [nth]. apply D. cbn in Hj. lia.
Qed.

Lemma arange_ok n idx : (forall i, In i idx -> (i < n)%nat) -> arange_at n idx = Ok idx.
Proof.
  intros H. unfold arange_at.
  replace (forallb _ idx) with true; [reflexivity|]. symmetry. apply forallb_forall. intros i Hi. apply Nat.ltb_lt, H, Hi.
Qed.

(** The table of a list that is a rearrangement of the basis. *)
Lemma table_ok junk (G H : list z3) : no_junk junk -> NoDup G -> Permutation H G ->
  let v := lexsort H in let ps := lexsort G in
  take z0 H v = take z0 G ps
  /\ arange_at (length G) v = Ok v
  /\ exists idx, put (junk (length G)) ps v = Ok idx
     /\ length idx = length G /\ (forall i, In i idx -> (i < length H)%nat) /\ take z0 H idx = G.
Proof.
  intros HJ HN HP v ps.
  assert (LH : length H = length G) by now apply Permutation_length.
  assert (Lv : length v = length G) by (unfold v, lexsort; now rewrite argsort_length).
  assert (Lp : length ps = length G) by (unfold ps, lexsort; now rewrite argsort_length).
  assert (E : take z0 H v = take z0 G ps).
  { apply (sorted_unique (fun a b => z3leb a b = true)).
    - apply z3leb_anti.
    - apply take_argsort_sorted; [apply z3leb_total|apply z3leb_trans].
    - apply take_argsort_sorted; [apply z3leb_total|apply z3leb_trans].
    - unfold v, ps, lexsort. rewrite (take_perm _ H) by apply argsort_perm. rewrite (take_perm _ G) by apply argsort_perm. exact HP. }
  split; [exact E|]. split.
  { apply arange_ok. intros i Hi. apply argsort_bound in Hi. lia. }
  unfold put. replace (length ps =? length v)%nat with true by (symmetry; apply Nat.eqb_eq; lia).
  eexists. split; [reflexivity|].
  destruct (put_fold ps v (junk (length G))) as (A & B & D).
  - lia.
  - apply argsort_NoDup.
  - intros p Hp. apply argsort_bound in Hp. rewrite HJ. exact Hp.
  - set (out := fold_left _ _ _) in *. rewrite HJ in A.
    assert (Cov : forall i, (i < length G)%nat -> exists j, (j < length G)%nat /\ nth j ps 0%nat = i).
    { intros i Hi. assert (In i ps) as Hin.
      { eapply Permutation_in; [symmetry; apply argsort_perm|]. apply in_seq. lia. }
      apply (In_nth _ _ 0%nat) in Hin. destruct Hin as (j & Hj & Ej). exists j. split; [lia|exact Ej]. }
    split; [exact A|]. split.
    + intros i Hi. apply (In_nth _ _ 0%nat) in Hi. destruct Hi as (p & Hp & <-).
      destruct (Cov p) as (j & Hj & <-); [rewrite A in Hp; exact Hp|]. rewrite D by lia.
      apply (argsort_bound z3leb H). apply nth_In. fold (lexsort H). fold v. lia.
    + apply (nth_ext _ _ z0 z0).
      * rewrite take_length. exact A.
      * rewrite take_length. intros p Hp. rewrite take_nth by exact Hp.
        destruct (Cov p) as (j & Hj & <-); [rewrite A in Hp; exact Hp|]. rewrite D by lia.
        assert (E' := f_equal (fun l => nth j l z0) E). cbn beta in E'.
        rewrite !take_nth in E' by lia. exact E'.
Qed.
Lemma map_gk_ok junk G H : no_junk junk -> NoDup G -> Permutation H G ->
  exists idx, map_gk junk G H = Ok idx
  /\ length idx = length G /\ (forall i, In i idx -> (i < length H)%nat) /\ take z0 H idx = G.
Proof.
  intros HJ HN HP. destruct (table_ok junk G H HJ HN HP) as (E & A & idx & P & L & B & T).
  exists idx. split; [|auto]. unfold map_gk. cbv zeta. rewrite A. cbn [bind]. rewrite P. cbn [bind].
  rewrite E, rows_close_refl. cbn [bind assert_]. rewrite T, rows_close_refl. reflexivity.
Qed.
Lemma map_grho_ok junk G H : no_junk junk -> NoDup G -> Permutation H G ->
  exists idx, map_grho junk G H = Ok idx
  /\ length idx = length G /\ (forall i, In i idx -> (i < length H)%nat) /\ take z0 H idx = G.
Proof.
  intros HJ HN HP. destruct (table_ok junk G H HJ HN HP) as (E & A & idx & P & L & B & T).
  exists idx. split; [|auto]. unfold map_grho. cbv zeta.
  rewrite E, rows_close_refl. cbn [bind assert_]. rewrite A. cbn [bind]. rewrite P. cbn [bind].
  rewrite T, rows_close_refl. reflexivity.
Qed.

(** Conversely, a list that passes the checks is a rearrangement of the basis. *)
Lemma all_equal_short (l : list z3) x : NoDup l -> (forall y, In y l -> x = y) -> (length l <= 1)%nat.
Proof.
  intros HN H. destruct l as [|a [|b l]]; cbn [length]; try lia. exfalso.
  assert (x = a) by (apply H; now left). assert (x = b) by (apply H; right; now left).
  inversion_clear HN as [|? ? Hn]. apply Hn. left. congruence.
Qed.
Lemma rows_close_perm (G H : list z3) b : NoDup G -> Forall small G ->
  rows_close (take z0 H (lexsort H)) (take z0 G (lexsort G)) = Ok b -> b = true ->
  Permutation H G \/ (length G = 0%nat /\ length H = 1%nat) \/ (length G = 1%nat /\ length H <> 1%nat /\ forall h, In h H -> [h] = G).
Proof.
  intros HN HS HR ->.
  assert (PH : Permutation (take z0 H (lexsort H)) H) by apply take_perm, argsort_perm.
  assert (PG : Permutation (take z0 G (lexsort G)) G) by apply take_perm, argsort_perm.
  set (h := take z0 H (lexsort H)) in *. set (g := take z0 G (lexsort G)) in *.
  assert (Sg : Forall small g) by (rewrite Forall_forall in *; intros y Hy; apply HS; eapply Permutation_in; [exact PG|exact Hy]).
  assert (Ng : NoDup g) by (eapply Permutation_NoDup; [symmetry; exact PG|exact HN]).
  assert (Lh := Permutation_length PH). assert (Lg := Permutation_length PG).
  unfold rows_close in HR. destruct (Nat.eqb_spec (length h) (length g)) as [El|El].
  - injection HR as HR. left. apply forall_close in HR; [|exact El|exact Sg]. rewrite <- PH, <- PG, HR. reflexivity.
  - right. destruct h as [|x [|x' h']].
    + destruct g as [|y [|y' g']]; [cbn in El; lia| |discriminate].
      right. cbn [length] in Lh, Lg. split; [lia|]. split; [lia|]. destruct H; [|cbn in Lh; lia]. intros ? [].
    + left. assert (HR' : forallb (fun y => z3close x y) g = true) by (injection HR as HR; exact HR).
      assert (length g <= 1)%nat.
      { apply (all_equal_short g x Ng). intros y Hy. rewrite forallb_forall in HR'.
        apply z3close_small; [rewrite Forall_forall in Sg; auto|auto]. }
      cbn [length] in El, Lh. split; lia.
    + destruct g as [|y [|y' g']]; try discriminate. right.
      assert (HR' : forallb (fun x => z3close x y) (x :: x' :: h') = true) by (injection HR as HR; exact HR).
      cbn [length] in El, Lh, Lg. split; [lia|]. split; [lia|].
      assert (HG : [y] = G) by (apply Permutation_length_1_inv in PG; congruence).
      intros k Hk. rewrite <- HG. f_equal. inversion_clear Sg as [|? ? Sy Sn]. apply z3close_small; [exact Sy|].
      rewrite forallb_forall in HR'. apply HR'. eapply Permutation_in; [symmetry; exact PH|exact Hk].
Qed.
Lemma arange_inv n H v : arange_at n (lexsort H) = Ok v -> (length H <= n)%nat /\ v = lexsort H.
Proof.
  unfold arange_at. destruct (forallb _ _) eqn:E; [|discriminate]. intros Hv. injection Hv as <-. split; [|reflexivity].
  destruct (Nat.le_gt_cases (length H) n) as [L|L]; [exact L|]. exfalso.
  rewrite forallb_forall in E. assert (In n (lexsort H)) as Hin.
  { eapply Permutation_in; [symmetry; apply argsort_perm|]. apply in_seq. lia. }
  apply E, Nat.ltb_lt in Hin. lia.
Qed.
Lemma put_inv junk ps vs idx : put junk ps vs = Ok idx -> length vs = length ps \/ length vs = 1%nat.
Proof.
  unfold put. destruct (Nat.eqb_spec (length ps) (length vs)) as [E|E]; [left; lia|].
  destruct vs as [|v [|]]; try discriminate. now right.
Qed.
Lemma map_gk_inv junk G H idx : NoDup G -> Forall small G -> map_gk junk G H = Ok idx -> Permutation H G.
Proof.
  intros HN HS HM. unfold map_gk in HM. cbv zeta in HM.
  destruct (arange_at _ _) as [v|] eqn:EA; [|discriminate]. cbn [bind] in HM.
  apply arange_inv in EA. destruct EA as [Lv ->].
  destruct (put _ _ _) as [i|] eqn:EP; [|discriminate]. cbn [bind] in HM. apply put_inv in EP.
  assert (Lp : length (lexsort G) = length G) by apply argsort_length.
  assert (LH : length (lexsort H) = length H) by apply argsort_length.
  destruct (rows_close _ _) as [b|] eqn:ER; [|discriminate]. cbn [bind] in HM.
  destruct b; [|discriminate].
  destruct (rows_close_perm G H true HN HS ER eq_refl) as [P|[[A B]|(A & B & _)]]; [exact P|lia|].
  rewrite Lp, LH in EP. destruct EP; [lia|]. lia.
Qed.
Lemma map_grho_inv junk G H idx : NoDup G -> Forall small G -> map_grho junk G H = Ok idx -> Permutation H G.
Proof.
  intros HN HS HM. unfold map_grho in HM. cbv zeta in HM.
  destruct (rows_close _ _) as [b|] eqn:ER; [|discriminate]. cbn [bind] in HM.
  destruct b; [|discriminate]. cbn [bind assert_] in HM.
  destruct (arange_at _ _) as [v|] eqn:EA; [|discriminate]. cbn [bind] in HM.
  apply arange_inv in EA. destruct EA as [Lv ->].
  destruct (put _ _ _) as [i|] eqn:EP; [|discriminate]. cbn [bind] in HM. apply put_inv in EP.
  assert (Lp : length (lexsort G) = length G) by apply argsort_length.
  assert (LH : length (lexsort H) = length H) by apply argsort_length.
  destruct (rows_close_perm G H true HN HS ER eq_refl) as [P|[[A B]|(A & B & _)]]; [exact P|lia|].
  rewrite Lp, LH in EP. destruct EP; [lia|]. lia.
Qed.

(* ------------------------------------------------------------------ *)
(** Splitting at the running counts. *)
Lemma np_split_block {A} (ngk : list nat) : forall (l : list A) ik, list_sum ngk = length l -> (ik < length ngk)%nat ->
  nth ik (np_split ngk l) [] = block ngk ik l.
Proof.
  unfold np_split. induction ngk as [|n t IH]; intros l ik HS Hik; [cbn in Hik; lia|].
  destruct t as [|m t].
  - destruct ik; [|cbn in Hik; lia]. cbn [removelast split_at nth]. unfold block, start. cbn [firstn list_sum fold_right nth skipn].
    cbn in HS. rewrite firstn_all2 by lia. reflexivity.
  - change (removelast (n :: m :: t)) with (n :: removelast (m :: t)). cbn [split_at].
    change (list_sum (n :: m :: t)) with (n + list_sum (m :: t))%nat in HS.
    destruct ik as [|ik].
    + reflexivity.
    + cbn [nth]. rewrite IH.
      * unfold block, start. cbn [nth firstn].
        change (list_sum (n :: firstn ik (m :: t))) with (n + list_sum (firstn ik (m :: t)))%nat.
        f_equal. generalize (list_sum (firstn ik (m :: t))). intros k.
        clear. revert l. induction n as [|n IHn]; intros l; [reflexivity|]. destruct l; [now destruct k|]. cbn [skipn Nat.add]. apply IHn.
      * rewrite skipn_length. lia.
      * cbn [length] in *. lia.
Qed.
Lemma block_fits (ngk : list nat) ik : (ik < length ngk)%nat -> (start ngk ik + nth ik ngk 0 <= list_sum ngk)%nat.
Proof.
  unfold start. revert ik. induction ngk as [|n t IH]; intros [|ik] H; cbn [length] in H; try lia.
  - cbn. lia.
  - cbn [firstn nth]. change (list_sum (n :: firstn ik t)) with (n + list_sum (firstn ik t))%nat.
    change (list_sum (n :: t)) with (n + list_sum t)%nat. specialize (IH ik). lia.
Qed.
Lemma block_length {A} ngk ik (l : list A) : (ik < length ngk)%nat -> list_sum ngk = length l -> length (block ngk ik l) = nth ik ngk 0%nat.
Proof.
  intros H HS. unfold block. rewrite firstn_length, skipn_length. assert (P := block_fits ngk ik H). lia.
Qed.
Lemma nth_firstn {A} n (l : list A) i d : (i < n)%nat -> nth i (firstn n l) d = nth i l d.
Proof.
  revert l i. induction n as [|n IH]; intros l i H; [lia|]. destruct l; [now destruct i|]. destruct i; [reflexivity|]. cbn. apply IH. lia.
Qed.
Lemma nth_skipn {A} n (l : list A) i d : nth i (skipn n l) d = nth (n + i) l d.
Proof. revert l. induction n as [|n IH]; intros l; [reflexivity|]. destruct l; [now destruct i|]. cbn. apply IH. Qed.
Lemma block_nth {A} ngk ik (l : list A) q d : (q < nth ik ngk 0)%nat -> nth q (block ngk ik l) d = nth (start ngk ik + q) l d.
Proof. intros H. unfold block. now rewrite nth_firstn, nth_skipn by exact H. Qed.

Lemma one_j_conj_swap p : one_j_conj p = (snd p, fst p).
Proof. unfold one_j_conj, to_c, Cmult, Cconj, Ci. cbn [fst snd]. f_equal; ring. Qed.

Lemma sequence_exists {B} (f : nat -> res B) (P : nat -> B -> Prop) (d : B) n : forall s,
  (forall i, (s <= i < s + n)%nat -> exists v, f i = Ok v /\ P i v) ->
  exists vs, sequence (map f (seq s n)) = Ok vs /\ length vs = n /\ forall i, (i < n)%nat -> P (s + i)%nat (nth i vs d).
Proof.
  induction n as [|n IH]; intros s H.
  - exists []. repeat split. intros i Hi. lia.
  - destruct (H s) as (v & Hv & Pv); [lia|]. destruct (IH (S s)) as (vs & Hs & Hl & Hp).
    { intros i Hi. apply H. lia. }
    exists (v :: vs). cbn [seq map sequence]. rewrite Hv. cbn [bind]. rewrite Hs. cbn [bind length].
    split; [reflexivity|]. split; [lia|]. intros [|i] Hi.
    + rewrite Nat.add_0_r. exact Pv.
    + cbn [nth]. replace (s + S i)%nat with (S s + i)%nat by lia. apply Hp. lia.
Qed.
Lemma sequence_inv {B} (f : nat -> res B) n : forall s vs,
  sequence (map f (seq s n)) = Ok vs -> forall i, (s <= i < s + n)%nat -> exists v, f i = Ok v.
Proof.
  induction n as [|n IH]; intros s vs H i Hi; [lia|]. cbn [seq map sequence] in H.
  destruct (f s) as [v|] eqn:E; [|discriminate]. cbn [bind] in H.
  destruct (sequence _) as [r|] eqn:E2; [|discriminate].
  destruct (Nat.eq_dec i s) as [->|]; [eauto|]. apply (IH (S s) r E2). lia.
Qed.

Lemma one_elt {A} (l : list A) d : length l = 1%nat -> l = [nth 0 l d].
Proof. destruct l as [|a [|]]; cbn; intros; try lia; reflexivity. Qed.

Lemma close_self l : allcloseb l l = true.
Proof.
  apply allcloseb_iff. unfold close. induction l as [|x l IH]; constructor; [|exact IH].
  rewrite Rminus_diag_eq by reflexivity. rewrite Rabs_R0.
  assert (0 <= Rabs x) by apply Rabs_pos. assert (0 < / 10 ^ 8) by (apply Rinv_0_lt_compat; lra).
  assert (0 < / 10 ^ 5) by (apply Rinv_0_lt_compat; lra). nra.
Qed.

(** The weights of the file are accepted unchanged when they are non-negative with sum one. *)
Lemma load_kpts_ok f : shapes f -> (forall x, In x (f_w f) -> 0 <= x) -> KPtsModel.rsum (f_w f) = 1 ->
  load_kpts f = Ok (combine (f_rk f) (f_w f)).
Proof.
  intros (Hp & H1 & H2 & _) Hw HS. unfold load_kpts, sanitize_weights.
  replace (existsb _ (f_w f)) with false.
  2:{ symmetry. apply not_true_is_false. intros H. apply existsb_exists in H. destruct H as (x & Hx & Hl).
      apply Hw in Hx. destruct (Rlt_dec x 0); [lra|discriminate]. }
  cbn [bind].
  replace (map (fun x => x / KPtsModel.rsum (f_w f)) (f_w f)) with (f_w f).
  2:{ rewrite HS. rewrite <- (map_id (f_w f)) at 1. apply map_ext. intros x. field. }
  destruct (Nat.eqb_spec (length (f_rk f)) 0); [lia|].
  rewrite H1, Nat.eqb_refl. cbn [bind assert_].
  destruct (Req_EM_T _ _); [lra|]. rewrite close_self. reflexivity.
Qed.

(** C89, loading.  For a file with the announced shapes and one spin channel, whose
    plane-wave lists hold the vectors of the bases in any order, loading succeeds; every
    k-point keeps its coordinates, weight, half the stored Rydberg energies and the
    occupations; and the coefficient of every band at every plane wave is the pair stored for
    that band with that same plane wave, exchanged: imaginary part = first number. *)
Theorem C89_load : forall junk G_rho basis f,
  no_junk junk -> shapes f -> one_spin f ->
  (forall x, In x (f_w f) -> 0 <= x) -> KPtsModel.rsum (f_w f) = 1 ->
  f_ng f = length G_rho -> NoDup G_rho -> Permutation (f_components f) G_rho ->
  (forall ik, (ik < f_nrk f)%nat ->
     NoDup (basis (nth ik (f_rk f) (V 0 0 0)))
     /\ Permutation (block (f_ngk f) ik (f_gvecs f)) (basis (nth ik (f_rk f) (V 0 0 0)))) ->
  exists idx l, wfn2py junk G_rho basis f = Ok (idx, l) /\ length l = f_nrk f
  /\ (forall p, (p < length G_rho)%nat -> (nth p idx 0 < length (f_components f))%nat
        /\ nth (nth p idx 0%nat) (f_components f) z0 = nth p G_rho z0)
  /\ forall ik d, (ik < f_nrk f)%nat ->
     let r := nth ik l d in let k := nth ik (f_rk f) (V 0 0 0) in
     kw_k r = k /\ kw_weight r = nth ik (f_w f) 0
     /\ kw_evl r = map (fun e => e / 2) (nth ik (nth 0 (f_el f) []) [])
     /\ kw_occ r = nth ik (nth 0 (f_occ f) []) []
     /\ length (kw_evc r) = length (f_coeffs f)
     /\ forall b, (b < length (f_coeffs f))%nat ->
        length (nth b (kw_evc r) []) = length (basis k)
        /\ forall p q, (p < length (basis k))%nat -> (q < nth ik (f_ngk f) 0)%nat ->
           nth (start (f_ngk f) ik + q) (f_gvecs f) z0 = nth p (basis k) z0 ->
           nth p (nth b (kw_evc r) []) (RtoC 0)
           = (snd (stored f b (start (f_ngk f) ik + q)), fst (stored f b (start (f_ngk f) ik + q))).
Proof.
  intros junk G_rho basis f HJ HSh HOne Hw HS Hng HNr HPr HB.
  assert (HK := load_kpts_ok f HSh Hw HS).
  destruct HSh as (Hp & H1 & H2 & H3 & H4 & H5 & H6). destruct HOne as (O1 & O2 & O3).
  destruct (map_grho_ok junk G_rho (f_components f) HJ HNr HPr) as (idx & EG & LI & BI & TI).
  set (kpts := combine (f_rk f) (f_w f)) in *.
  assert (Lk : length kpts = f_nrk f) by (unfold kpts; rewrite combine_length; lia).
  assert (Nk : forall ik, (ik < f_nrk f)%nat -> nth ik kpts (V 0 0 0, 0) = (nth ik (f_rk f) (V 0 0 0), nth ik (f_w f) 0)).
  { intros ik Hik. unfold kpts. rewrite combine_nth by lia. reflexivity. }
  set (l_gk := map (fun kw => basis (fst kw)) kpts).
  assert (Ng : forall ik, (ik < f_nrk f)%nat -> nth ik l_gk [] = basis (nth ik (f_rk f) (V 0 0 0))).
  { intros ik Hik. unfold l_gk. rewrite (nth_indep _ [] (basis (fst (V 0 0 0, 0)))) by (rewrite map_length; lia).
    rewrite (map_nth (fun kw : rvec * R => basis (fst kw))). rewrite Nk by exact Hik. reflexivity. }
  assert (Lb : forall ik, (ik < f_nrk f)%nat -> length (basis (nth ik (f_rk f) (V 0 0 0))) = nth ik (f_ngk f) 0%nat).
  { intros ik Hik. destruct (HB ik Hik) as [_ P]. rewrite <- (Permutation_length P). apply block_length; [lia|exact H4]. }
  assert (EN : check_ngk (map (@length z3) l_gk) (f_ngk f) = Ok tt).
  { assert (E : map (@length z3) l_gk = f_ngk f).
    { apply (nth_ext _ _ 0%nat 0%nat).
      - unfold l_gk. rewrite !map_length. lia.
      - intros n Hn. assert (n < f_nrk f)%nat by (unfold l_gk in Hn; rewrite !map_length in Hn; lia).
        rewrite (nth_indep _ 0%nat (length (@nil z3))) by exact Hn. rewrite map_nth, Ng by assumption. now apply Lb. }
    rewrite E. unfold check_ngk. rewrite Nat.eqb_refl.
    replace (forallb _ _) with true; [reflexivity|]. symmetry. apply forallb_forall. intros [a b] Hin. cbn [fst snd].
    assert (a = b) as ->; [|apply zclose_refl].
    clear - Hin. induction (f_ngk f) as [|x t IH]; [destruct Hin|]. destruct Hin as [E|Hin]; [injection E as <- <-; reflexivity|auto]. }
  assert (NB : forall ik, (ik < f_nrk f)%nat -> nth ik (np_split (f_ngk f) (f_gvecs f)) [] = block (f_ngk f) ik (f_gvecs f)).
  { intros ik Hik. apply np_split_block; [exact H4|lia]. }
  destruct (sequence_exists (fun ik => map_gk junk (nth ik l_gk []) (nth ik (np_split (f_ngk f) (f_gvecs f)) []))
              (fun _ _ => True) ([] : list nat) (f_nrk f) 0) as (ms & EM & _).
  { intros ik Hik. rewrite Ng, NB by lia. destruct (HB ik) as [N P]; [lia|].
    destruct (map_gk_ok junk _ _ HJ N P) as (i & Ei & _). eauto. }
  set (P := fun ik r => let k := nth ik (f_rk f) (V 0 0 0) in
     kw_k r = k /\ kw_weight r = nth ik (f_w f) 0
     /\ kw_evl r = map (fun e => e / 2) (nth ik (nth 0 (f_el f) []) [])
     /\ kw_occ r = nth ik (nth 0 (f_occ f) []) []
     /\ length (kw_evc r) = length (f_coeffs f)
     /\ forall b, (b < length (f_coeffs f))%nat ->
        length (nth b (kw_evc r) []) = length (basis k)
        /\ forall p q, (p < length (basis k))%nat -> (q < nth ik (f_ngk f) 0)%nat ->
           nth (start (f_ngk f) ik + q) (f_gvecs f) z0 = nth p (basis k) z0 ->
           nth p (nth b (kw_evc r) []) (RtoC 0)
           = (snd (stored f b (start (f_ngk f) ik + q)), fst (stored f b (start (f_ngk f) ik + q)))).
  assert (HLK : forall ik, (0 <= ik < 0 + f_nrk f)%nat -> exists v,
     load_k junk f ik (nth ik kpts (V 0 0 0, 0)) (nth ik l_gk []) (nth ik (np_split (f_ngk f) (f_gvecs f)) []) = Ok v /\ P ik v).
  { intros ik Hik. assert (Hik' : (ik < f_nrk f)%nat) by lia. rewrite Nk, Ng, NB by exact Hik'.
    destruct (HB ik Hik') as [N Pm]. destruct (map_gk_ok junk _ _ HJ N Pm) as (ix & Ei & Li & Bi & Ti).
    unfold load_k.
    rewrite (one_elt (f_el f) [] O1). cbn [map assign_1d]. rewrite map_length.
    rewrite (H5 ik (nth 0 (f_el f) [])) by (try exact Hik'; apply in_or_app; left; apply nth_In; lia).
    rewrite Nat.eqb_refl. cbn [bind].
    rewrite (one_elt (f_occ f) [] O2). cbn [map assign_1d].
    rewrite (H5 ik (nth 0 (f_occ f) [])) by (try exact Hik'; apply in_or_app; right; apply nth_In; lia).
    rewrite Nat.eqb_refl. cbn [bind]. rewrite Ei. cbn [bind].
    unfold load_evc.
    rewrite (sequence_map_ok _ (fun band => take (RtoC 0) (nth ik (np_split (f_ngk f) (map one_j_conj (nth 0 band []))) []) ix)).
    2:{ intros band Hb. rewrite (one_elt band [] (O3 band Hb)). reflexivity. }
    cbn [bind]. eexists. split; [reflexivity|]. unfold P. cbn [kw_k kw_weight kw_evl kw_occ kw_evc nth].
    split; [reflexivity|]. split; [reflexivity|]. split; [reflexivity|]. split; [reflexivity|].
    split; [apply map_length|]. intros b Hb.
    rewrite (nth_indep _ [] (take (RtoC 0) (nth ik (np_split (f_ngk f) (map one_j_conj (nth 0 [] []))) []) ix))
      by (rewrite map_length; exact Hb).
    rewrite (map_nth (fun band => take (RtoC 0) (nth ik (np_split (f_ngk f) (map one_j_conj (nth 0 band []))) []) ix)).
    set (band := nth b (f_coeffs f) []). assert (HIn : In band (f_coeffs f)) by now apply nth_In.
    assert (Lsp : length (nth 0 band []) = length (f_gvecs f)).
    { apply (H6 band _ HIn). apply nth_In. rewrite (O3 band HIn). lia. }
    split; [now rewrite take_length|]. intros p q Hpp Hq Eq.
    rewrite take_nth by (rewrite Li; exact Hpp).
    rewrite np_split_block by (try (rewrite map_length, Lsp; exact H4); lia).
    assert (Hx : (nth p ix 0 < nth ik (f_ngk f) 0)%nat).
    { rewrite <- (block_length (f_ngk f) ik (f_gvecs f)) by (try exact H4; lia). apply Bi, nth_In. rewrite Li. exact Hpp. }
    assert (Hxq : nth p ix 0%nat = q).
    { assert (ND : NoDup (block (f_ngk f) ik (f_gvecs f))) by (eapply Permutation_NoDup; [symmetry; exact Pm|exact N]).
      rewrite (NoDup_nth _ z0) in ND. apply ND.
      - rewrite block_length by (try exact H4; lia). exact Hx.
      - rewrite block_length by (try exact H4; lia). exact Hq.
      - rewrite (block_nth _ _ _ q) by exact Hq. rewrite Eq.
        assert (T' := f_equal (fun l => nth p l z0) Ti). cbn beta in T'. rewrite take_nth in T' by (rewrite Li; exact Hpp). exact T'. }
    rewrite Hxq. rewrite block_nth by exact Hq.
    rewrite (nth_indep _ (RtoC 0) (one_j_conj (0, 0))).
    2:{ rewrite map_length, Lsp. assert (F := block_fits (f_ngk f) ik). lia. }
    rewrite map_nth, one_j_conj_swap. reflexivity. }
  destruct (sequence_exists _ P (MkKwfn (V 0 0 0) 0 [] [] []) (f_nrk f) 0 HLK) as (l & EL & LL & PL).
  exists idx, l. split.
  { unfold wfn2py. rewrite Hng, Nat.eqb_refl. cbn [bind assert_]. rewrite EG. cbn [bind]. rewrite HK. cbn [bind]. cbv zeta.
    fold l_gk. rewrite EN. cbn [bind]. rewrite Lk. rewrite EM. cbn [bind]. rewrite EL. reflexivity. }
  split; [exact LL|]. split.
  { intros q Hq. split; [apply BI, nth_In; lia|].
    assert (T' := f_equal (fun l => nth q l z0) TI). cbn beta in T'. rewrite take_nth in T' by lia. exact T'. }
  intros ik d Hik. cbv zeta. rewrite (nth_indep l d (MkKwfn (V 0 0 0) 0 [] [] [])) by lia.
  exact (PL ik Hik).
Qed.
Print Assumptions C89_load.

(** C89, rejection.  Whatever the file holds, if loading succeeds then the plane waves of
    every k-point (and of the density) are exactly those of the basis, there is one spin
    channel, the density has the announced number of plane waves, and the loaded weights are
    the stored ones divided by their (positive) sum. *)
Theorem C89_reject : forall junk G_rho basis f idx l,
  shapes f -> NoDup G_rho -> Forall small G_rho ->
  (forall k, In k (f_rk f) -> NoDup (basis k) /\ Forall small (basis k)) ->
  wfn2py junk G_rho basis f = Ok (idx, l) ->
  Permutation (f_components f) G_rho /\ f_ng f = length G_rho
  /\ length (f_el f) = 1%nat /\ length (f_occ f) = 1%nat
  /\ (forall band, In band (f_coeffs f) -> length band = 1%nat)
  /\ (forall ik, (ik < f_nrk f)%nat -> Permutation (block (f_ngk f) ik (f_gvecs f)) (basis (nth ik (f_rk f) (V 0 0 0))))
  /\ 0 < KPtsModel.rsum (f_w f)
  /\ (forall x, In x (f_w f) -> Rabs (x / KPtsModel.rsum (f_w f) - x) <= / 10 ^ 8 + / 10 ^ 5 * Rabs x).
Proof.
  intros junk G_rho basis f idx l (Hp & H1 & H2 & H3 & H4 & H5 & H6) HN HS HB H. unfold wfn2py in H.
  destruct (Nat.eqb_spec (length G_rho) (f_ng f)) as [En|]; [|discriminate]. cbn [bind assert_] in H.
  destruct (map_grho _ _ _) as [ir|] eqn:EG; [|discriminate]. cbn [bind] in H. apply map_grho_inv in EG; [|exact HN|exact HS].
  destruct (load_kpts f) as [kpts|] eqn:EK; [|discriminate]. cbn [bind] in H. cbv zeta in H.
  unfold load_kpts in EK.
  destruct (sanitize_weights (f_w f)) as [w|] eqn:EW; [|discriminate]. cbn [bind] in EK.
  destruct (Nat.eqb_spec (length (f_rk f)) 0); [discriminate|].
  destruct (Nat.eqb_spec (length (f_rk f)) (f_nrk f)); [|discriminate]. cbn [bind assert_] in EK.
  destruct (Req_EM_T _ _) as [|Hs0]; [discriminate|].
  destruct (allcloseb w (f_w f)) eqn:EC; [|discriminate]. cbn [bind assert_] in EK. injection EK as <-.
  unfold sanitize_weights in EW. destruct (existsb _ (f_w f)) eqn:EX; [discriminate|]. injection EW as <-.
  assert (Hw : forall x, In x (f_w f) -> 0 <= x).
  { intros x Hx. destruct (Rlt_le_dec x 0) as [L|L]; [|exact L]. exfalso. apply not_true_iff_false in EX. apply EX.
    apply existsb_exists. exists x. split; [exact Hx|]. destruct (Rlt_dec x 0); [reflexivity|lra]. }
  assert (HSp : 0 < KPtsModel.rsum (f_w f)).
  { assert (0 <= KPtsModel.rsum (f_w f)); [|lra]. clear - Hw. unfold KPtsModel.rsum. induction (f_w f) as [|x t IH]; cbn [fold_right]; [lra|].
    assert (0 <= x) by (apply Hw; now left). assert (0 <= fold_right Rplus 0 t) by (apply IH; intros; apply Hw; now right). lra. }
  set (kpts := combine _ _) in *.
  assert (Lk : length kpts = f_nrk f) by (unfold kpts; rewrite combine_length, map_length; lia).
  set (l_gk := map (fun kw => basis (fst kw)) kpts) in *.
  assert (Ng : forall ik, (ik < f_nrk f)%nat -> nth ik l_gk [] = basis (nth ik (f_rk f) (V 0 0 0))).
  { intros ik Hik. unfold l_gk. rewrite (nth_indep _ [] (basis (fst (V 0 0 0, 0)))) by (rewrite map_length; lia).
    rewrite (map_nth (fun kw : rvec * R => basis (fst kw))). unfold kpts. rewrite combine_nth by (rewrite map_length; lia). reflexivity. }
  destruct (check_ngk _ _) as [u|]; [|discriminate]. cbn [bind] in H.
  destruct (sequence (map (fun ik => map_gk _ _ _) _)) as [ms|] eqn:EM; [|discriminate]. cbn [bind] in H.
  destruct (sequence (map (fun ik => load_k _ _ _ _ _ _) _)) as [ls|] eqn:EL; [|discriminate]. cbn [bind] in H. clear H.
  rewrite Lk in EM, EL.
  assert (HP : forall ik, (ik < f_nrk f)%nat -> Permutation (block (f_ngk f) ik (f_gvecs f)) (basis (nth ik (f_rk f) (V 0 0 0)))).
  { intros ik Hik. assert (Hik' : (0 <= ik < 0 + f_nrk f)%nat) by lia. destruct (sequence_inv _ _ _ _ EM ik Hik') as (v & Ev).
    rewrite Ng in Ev by exact Hik. rewrite np_split_block in Ev by (try exact H4; lia).
    destruct (HB (nth ik (f_rk f) (V 0 0 0))) as [N S]; [apply nth_In; lia|]. now apply (map_gk_inv junk _ _ v). }
  assert (H0' : (0 <= 0 < 0 + f_nrk f)%nat) by lia. destruct (sequence_inv _ _ _ _ EL 0%nat H0') as (v & Ev).
  unfold load_k in Ev.
  destruct (assign_1d _ (map _ (f_el f))) as [ev1|] eqn:E1; [|discriminate]. cbn [bind] in Ev.
  destruct (assign_1d _ (map _ (f_occ f))) as [oc1|] eqn:E2; [|discriminate]. cbn [bind] in Ev.
  destruct (map_gk _ _ _) as [ix|]; [|discriminate]. cbn [bind] in Ev.
  destruct (load_evc f 0 ix) as [cf|] eqn:E3; [|discriminate]. clear Ev.
  split; [exact EG|]. split; [lia|].
  split. { unfold assign_1d in E1. destruct (f_el f) as [|a [|]]; try discriminate. reflexivity. }
  split. { unfold assign_1d in E2. destruct (f_occ f) as [|a [|]]; try discriminate. reflexivity. }
  split.
  { unfold load_evc in E3. intros band Hb. apply sequence_ok in E3.
    assert (Hin := in_map (fun band : list (list (R * R)) => match band with
       | [sp] => Ok (take (RtoC 0) (nth 0 (np_split (f_ngk f) (map one_j_conj sp)) []) ix)
       | _ => Err ValueError end) _ _ Hb). rewrite E3 in Hin. apply in_map_iff in Hin. destruct Hin as (x & Hx & _).
    destruct band as [|a [|]]; try discriminate. reflexivity. }
  split; [exact HP|]. split; [exact HSp|].
  intros x Hx. apply allcloseb_iff in EC. unfold close in EC.
  revert EC. generalize (KPtsModel.rsum (f_w f)). intros S0 EC. clear - EC Hx.
  induction (f_w f) as [|y t IH]; [destruct Hx|]. cbn [map] in EC. inversion_clear EC as [|? ? ? ? Hy Ht].
  destruct Hx as [->|Hx]; [exact Hy|]. now apply IH.
Qed.
Print Assumptions C89_reject.

(** C89, spin.  A file with two spin channels is never loaded. *)
Theorem C89_two_spins : forall junk G_rho basis f,
  shapes f -> NoDup G_rho -> Forall small G_rho ->
  (forall k, In k (f_rk f) -> NoDup (basis k) /\ Forall small (basis k)) ->
  length (f_el f) = 2%nat -> exists e, wfn2py junk G_rho basis f = Err e.
Proof.
  intros junk G_rho basis f H1 H2 H3 H4 H5. destruct (wfn2py junk G_rho basis f) as [[idx l]|e] eqn:E; [|eauto].
  destruct (C89_reject _ _ _ _ _ _ H1 H2 H3 H4 E) as (_ & _ & L & _). lia.
Qed.
Print Assumptions C89_two_spins.

(** C89, inner products.  With one half of every stored pair exchanged, inner products of
    loaded coefficient lists are the conjugates of those of the stored complex numbers. *)
Definition cdot (a b : list C) : C := fold_right Cplus (RtoC 0) (map (fun p => Cmult (Cconj (fst p)) (snd p)) (combine a b)).
Definition as_complex (l : list (R * R)) : list C := map (fun p => (fst p, snd p) : C) l.
Theorem C89_inner_products : forall a b : list (R * R),
  cdot (map one_j_conj a) (map one_j_conj b) = Cconj (cdot (as_complex a) (as_complex b)).
Proof.
  unfold cdot, as_complex. induction a as [|[x y] a IH]; intros b.
  - cbn [map combine fold_right]. unfold RtoC, Cconj. cbn [fst snd]. f_equal; ring.
  - destruct b as [|[u v] b].
    + cbn [map combine fold_right]. unfold RtoC, Cconj. cbn [fst snd]. f_equal; ring.
    + cbn [map combine fold_right]. rewrite IH. cbn [fst snd].
      rewrite !one_j_conj_swap. set (s := fold_right _ _ _). unfold Cplus, Cmult, Cconj. cbn [fst snd]. f_equal; ring.
Qed.
Print Assumptions C89_inner_products.

(** C89, atoms.  The species are the distinct atomic numbers in increasing order, each with
    exactly the positions of its atoms (their order within a species is not specified). *)
Lemma sorted_pieces (types : list nat) : forall (l : list (nat * rvec)),
  StronglySorted (fun a b => a < b)%nat types ->
  StronglySorted (fun a b => fst a <= fst b)%nat l ->
  (forall p, In p l -> In (fst p) types) ->
  pieces (map (fun t => count_occ Nat.eq_dec (map fst l) t) types) (map snd l)
  = map (fun t => map snd (filter (fun p => fst p =? t)%nat l)) types.
Proof.
  induction types as [|t types IH]; intros l HT HL HI; [reflexivity|].
  inversion_clear HT as [|? ? HT' HF]. rewrite Forall_forall in HF.
  (* l = (those equal to t) ++ (those above) *)
  assert (E : exists l1 l2, l = l1 ++ l2 /\ (forall p, In p l1 -> fst p = t) /\ (forall p, In p l2 -> In (fst p) types)
              /\ StronglySorted (fun a b => fst a <= fst b)%nat l2).
  { clear IH. induction l as [|p l IHl].
    - exists [], []. split; [reflexivity|]. split; [intros ? []|]. split; [intros ? []|constructor].
    - inversion_clear HL as [|? ? HL' HFl]. rewrite Forall_forall in HFl.
      destruct (HI p (or_introl eq_refl)) as [Hpt|Hpt].
      + destruct IHl as (l1 & l2 & -> & A & B & D); [exact HL'|intros q Hq; apply HI; now right|].
        exists (p :: l1), l2. split; [reflexivity|]. split; [|split; assumption]. intros q [<-|Hq]; [now symmetry|auto].
      + exists [], (p :: l). split; [reflexivity|]. split; [intros ? []|]. split.
        * intros q [<-|Hq]; [exact Hpt|]. destruct (HI q (or_intror Hq)) as [Eq|Hq']; [|exact Hq'].
          assert (fst p <= fst q)%nat by auto. assert (t < fst p)%nat by auto. lia.
        * constructor; [exact HL'|]. rewrite Forall_forall. exact HFl. }
  destruct E as (l1 & l2 & -> & A & B & D).
  assert (C1 : count_occ Nat.eq_dec (map fst (l1 ++ l2)) t = length l1).
  { rewrite map_app, count_occ_app.
    assert (count_occ Nat.eq_dec (map fst l1) t = length l1) as ->.
    { clear - A. induction l1 as [|p l1 IH]; [reflexivity|]. cbn [map count_occ]. destruct (Nat.eq_dec (fst p) t) as [_|N].
      - cbn [length]. f_equal. apply IH. intros q Hq. apply A. now right.
      - exfalso. apply N, A. now left. }
    assert (count_occ Nat.eq_dec (map fst l2) t = 0%nat) as ->; [|lia].
    apply count_occ_not_In. intros Hin. apply in_map_iff in Hin. destruct Hin as (q & <- & Hq). apply B, HF in Hq. lia. }
  cbn [map pieces]. rewrite C1, map_app.
  rewrite firstn_app, skipn_app, !map_length, Nat.sub_diag. cbn [firstn skipn]. rewrite app_nil_r.
  rewrite firstn_all2 by (rewrite map_length; lia). rewrite skipn_all2 by (rewrite map_length; lia). cbn [app].
  f_equal.
  - rewrite filter_app, map_app.
    assert (filter (fun p => (fst p =? t)%nat) l1 = l1) as ->.
    { clear - A. induction l1 as [|p l1 IH]; [reflexivity|]. cbn [filter]. rewrite (A p) by now left. rewrite Nat.eqb_refl. f_equal.
      apply IH. intros q Hq. apply A. now right. }
    assert (filter (fun p => (fst p =? t)%nat) l2 = []) as ->; [|now rewrite app_nil_r].
    clear - B HF. induction l2 as [|p l2 IH]; [reflexivity|]. cbn [filter].
    assert (t < fst p)%nat by (apply HF, B; now left). destruct (Nat.eqb_spec (fst p) t); [lia|]. apply IH. intros q Hq. apply B. now right.
  -
    replace (map (fun t0 => count_occ Nat.eq_dec (map fst (l1 ++ l2)) t0) types)
      with (map (fun t0 => count_occ Nat.eq_dec (map fst l2) t0) types).
    + rewrite (IH l2 HT' D B). apply map_ext_in. intros t0 Ht0. f_equal. rewrite filter_app.
      assert (filter (fun p => (fst p =? t0)%nat) l1 = []) as ->; [|reflexivity].
      clear - A HF Ht0. apply HF in Ht0. induction l1 as [|p l1 IH]; [reflexivity|]. cbn [filter]. rewrite (A p) by now left.
      destruct (Nat.eqb_spec t t0); [lia|]. apply IH. intros q Hq. apply A. now right.
    + apply map_ext_in. intros t0 Ht0. rewrite map_app, count_occ_app.
      assert (count_occ Nat.eq_dec (map fst l1) t0 = 0%nat) as ->; [|reflexivity].
      apply count_occ_not_In. intros Hin. apply in_map_iff in Hin. destruct Hin as (q & Eq & Hq). apply A in Hq. apply HF in Ht0. lia.
Qed.
Theorem C89_species : forall isort f,
  length (f_apos f) = length (f_atyp f) ->
  Permutation isort (seq 0 (length (f_atyp f))) ->
  StronglySorted (fun a b => a <= b)%nat (take 0%nat (f_atyp f) isort) ->
  StronglySorted (fun a b => a < b)%nat (map fst (species isort f))
  /\ (forall t, In t (map fst (species isort f)) <-> In t (f_atyp f))
  /\ forall t ps, In (t, ps) (species isort f) ->
     Permutation ps (map snd (filter (fun p => fst p =? t)%nat (combine (f_atyp f) (f_apos f)))).
Proof.
  intros isort f HL HP HS.
  set (at_ := combine (f_atyp f) (f_apos f)).
  assert (La : length at_ = length (f_atyp f)) by (unfold at_; rewrite combine_length; lia).
  set (srt := take (0%nat, V 0 0 0) at_ isort).
  assert (PS : Permutation srt at_) by (apply take_perm; rewrite La; exact HP).
  assert (HB : forall i, In i isort -> (i < length (f_atyp f))%nat).
  { intros i Hi. apply (Permutation_in _ HP), in_seq in Hi. lia. }
  assert (F1 : map fst srt = take 0%nat (f_atyp f) isort).
  { unfold srt, take. rewrite map_map. apply map_ext_in. intros i Hi. unfold at_. rewrite combine_nth by lia. reflexivity. }
  assert (F2 : map snd srt = take (V 0 0 0) (f_apos f) isort).
  { unfold srt, take. rewrite map_map. apply map_ext_in. intros i Hi. unfold at_. rewrite combine_nth by lia. reflexivity. }
  assert (PT : Permutation (map fst srt) (f_atyp f)).
  { rewrite F1. apply take_perm. exact HP. }
  assert (SS : StronglySorted (fun a b : nat * rvec => fst a <= fst b)%nat srt).
  { rewrite <- F1 in HS. clear - HS. induction srt as [|p l IH]; [constructor|]. cbn [map] in HS. inversion_clear HS as [|? ? A B].
    constructor; [now apply IH|]. rewrite Forall_forall in *. intros q Hq. apply B. now apply in_map. }
  set (types := SortModel.np_unique (f_atyp f)).
  assert (Sp : species isort f = combine types (map (fun t => map snd (filter (fun p => fst p =? t)%nat srt)) types)).
  { unfold species. fold types. rewrite <- F2. f_equal.
    rewrite <- (sorted_pieces types srt).
    - f_equal. apply map_ext. intros t. now rewrite (proj1 (Permutation_count_occ Nat.eq_dec _ _) PT t).
    - apply np_unique_sorted.
    - exact SS.
    - intros p Hp. apply np_unique_in. eapply Permutation_in; [exact PT|]. now apply in_map. }
  assert (Fs : map fst (species isort f) = types) by (rewrite Sp; apply combine_map_fst; now rewrite map_length).
  rewrite Fs. split; [apply np_unique_sorted|]. split; [intros t; apply np_unique_in|].
  intros t ps Hin. rewrite Sp in Hin.
  assert (Eps : ps = map snd (filter (fun p => fst p =? t)%nat srt)).
  { clear - Hin. induction types as [|a l IH]; [destruct Hin|]. cbn [map combine] in Hin.
    destruct Hin as [E|Hin]; [injection E as <- <-; reflexivity|auto]. }
  subst ps. apply Permutation_map.
  clear - PS. induction PS; cbn [filter]; try destruct (_ =? _)%nat; try destruct (_ =? _)%nat; eauto using Permutation.
Qed.
Print Assumptions C89_species.

(** Non-vacuity: two atoms types out of order; one k-point with two plane waves stored in
    the opposite order. *)
Example C89_nonvacuous :
  let f := MkWfnFile [8; 1]%nat [V 0 0 0; V 1 0 0] 2 [(1,0,0); (0,0,0)]%Z 1 [V 0 0 0] [1] [2%nat] 1 [[[4]]] [[[1]]]
             [(1,0,0); (0,0,0)]%Z [[[(1, 2); (3, 4)]]] in
  let G := [(0,0,0); (1,0,0)]%Z in
  shapes f /\ one_spin f /\ KPtsModel.rsum (f_w f) = 1 /\ NoDup G /\ Forall small G
  /\ Permutation (f_components f) G /\ Permutation (block (f_ngk f) 0 (f_gvecs f)) G
  /\ species [1; 0]%nat f = [(1%nat, [V 1 0 0]); (8%nat, [V 0 0 0])].
Proof.
  cbv zeta.
  split.
  { split; [cbn; lia|]. split; [reflexivity|]. split; [reflexivity|]. split; [reflexivity|]. split; [reflexivity|]. split.
    - intros ik s Hik Hs. cbn in Hik. destruct ik; [|lia]. cbn in Hs. destruct Hs as [<-|[<-|[]]]; reflexivity.
    - intros band sp Hb Hs. cbn in Hb. destruct Hb as [<-|[]]. cbn in Hs. destruct Hs as [<-|[]]. reflexivity. }
  split. { split; [reflexivity|]. split; [reflexivity|]. intros band Hb. cbn in Hb. destruct Hb as [<-|[]]. reflexivity. }
  split. { cbn. ring. }
  split. { constructor; [intros [E|[]]; discriminate|]. constructor; [intros []|constructor]. }
  split. { constructor; [cbn; lia|]. constructor; [cbn; lia|constructor]. }
  split. { constructor. }
  split. { constructor. }
  reflexivity.
Qed.

(** C89.  How plane-wave counts and Miller indices are compared: np.allclose, i.e. within
    1e-8 + 1e-5 of the stored number, entry by entry; so from 100000 on, numbers that differ
    by one are taken as equal. *)
Definition np_close (a b : R) : Prop := Rabs (a - b) <= / 10 ^ 8 + / 10 ^ 5 * Rabs b.
Lemma zclose_np a b : zclose a b = true <-> np_close (IZR a) (IZR b).
Proof.
  unfold zclose, np_close. rewrite Z.leb_le. rewrite <- minus_IZR, <- !abs_IZR. split.
  - intros H. apply IZR_le in H. rewrite plus_IZR, !mult_IZR in H.
    change (IZR (10 ^ 8)) with 100000000 in H. change (IZR (10 ^ 3)) with 1000 in H.
    set (x := IZR (Z.abs (a - b))) in *. set (y := IZR (Z.abs b)) in *. lra.
  - intros H. apply le_IZR. rewrite plus_IZR, !mult_IZR.
    change (IZR (10 ^ 8)) with 100000000. change (IZR (10 ^ 3)) with 1000.
    set (x := IZR (Z.abs (a - b))) in *. set (y := IZR (Z.abs b)) in *. lra.
Qed.
Lemma forallb_combine {A B} (f : A -> B -> bool) l1 l2 : length l1 = length l2 ->
  (forallb (fun p => f (fst p) (snd p)) (combine l1 l2) = true <-> Forall2 (fun a b => f a b = true) l1 l2).
Proof.
  revert l2. induction l1 as [|a l1 IH]; intros [|b l2] H; try discriminate H; cbn [combine forallb fst snd].
  - split; constructor.
  - injection H as H. rewrite andb_true_iff, (IH l2 H). split.
    + intros [A1 A2]. now constructor.
    + intros A1. inversion_clear A1. now split.
Qed.
Definition z3_np_close (a b : z3) : Prop :=
  let '(a1, a2, a3) := a in let '(b1, b2, b3) := b in
  np_close (IZR a1) (IZR b1) /\ np_close (IZR a2) (IZR b2) /\ np_close (IZR a3) (IZR b3).
Theorem C89_tolerance :
  (forall sizes ngk, length sizes = length ngk ->
     (check_ngk sizes ngk = Ok tt <-> Forall2 (fun a b => np_close (INR a) (INR b)) sizes ngk))
  /\ (forall a b, length a = length b ->
     (rows_close a b = Ok true <-> Forall2 z3_np_close a b))
  /\ (forall n, (100000 <= n)%nat -> check_ngk [S n] [n] = Ok tt)
  /\ (forall n m, (n < 100000)%nat -> check_ngk [m] [n] = Ok tt -> m = n).
Proof.
  assert (F2 : forall (A B : Type) (P Q : A -> B -> Prop) l1 l2, (forall a b, P a b <-> Q a b) -> (Forall2 P l1 l2 <-> Forall2 Q l1 l2)).
  { intros A B P Q l1 l2 H. split; intros H2; induction H2; constructor; try assumption; now apply H. }
  assert (CK : forall sizes ngk, length sizes = length ngk ->
     (check_ngk sizes ngk = Ok tt <-> Forall2 (fun a b => np_close (INR a) (INR b)) sizes ngk)).
  { intros sizes ngk H. unfold check_ngk. rewrite H, Nat.eqb_refl.
    rewrite (F2 _ _ _ (fun a b => zclose (Z.of_nat a) (Z.of_nat b) = true)).
    - rewrite <- (forallb_combine (fun a b => zclose (Z.of_nat a) (Z.of_nat b)) sizes ngk H).
      unfold assert_. destruct (forallb _ _); split; congruence.
    - intros a b. rewrite zclose_np, <- !INR_IZR_INZ. reflexivity. }
  split; [exact CK|]. split; [|split].
  - intros a b H. unfold rows_close. rewrite H, Nat.eqb_refl.
    rewrite (F2 _ _ _ (fun a b => z3close a b = true)).
    + rewrite <- (forallb_combine z3close a b H). split; congruence.
    + intros [[a1 a2] a3] [[b1 b2] b3]. unfold z3close, z3_np_close. rewrite !andb_true_iff, !zclose_np. tauto.
  - intros n Hn. unfold check_ngk. cbn [length Nat.eqb combine forallb fst snd].
    replace (zclose (Z.of_nat (S n)) (Z.of_nat n)) with true; [reflexivity|]. symmetry. unfold zclose. apply Z.leb_le. apply Nat2Z.inj_le in Hn. change (Z.of_nat 100000) with 100000%Z in Hn. rewrite Nat2Z.inj_succ. lia.
  - intros n m Hn H. unfold check_ngk in H. cbn [length Nat.eqb combine forallb fst snd] in H.
    unfold assert_ in H. destruct (zclose (Z.of_nat m) (Z.of_nat n)) eqn:E; [|discriminate H].
    apply zclose_small in E; [lia|]. apply Nat2Z.inj_lt in Hn. change (Z.of_nat 100000) with 100000%Z in Hn. lia.
Qed.
Print Assumptions C89_tolerance.
(** A file whose list of plane waves has another length than the one built here is refused with ValueError (a single row on either side
    is compared with every row of the other). *)
Theorem C89_row_count : forall junk G comps, length comps <> length G -> length comps <> 1%nat -> length G <> 1%nat ->
  map_grho junk G comps = Err ValueError.
Proof.
  intros junk G comps N N1 N2. unfold map_grho. cbv zeta.
  assert (L1 : length (take z0 comps (lexsort comps)) = length comps) by (rewrite take_length; unfold lexsort; apply argsort_length).
  assert (L2 : length (take z0 G (lexsort G)) = length G) by (rewrite take_length; unfold lexsort; apply argsort_length).
  set (a := take z0 comps (lexsort comps)) in *. set (b := take z0 G (lexsort G)) in *. clearbody a b. unfold rows_close at 1.
  replace (length a =? length b)%nat with false by (symmetry; apply Nat.eqb_neq; congruence).
  destruct a as [|x [|? ?]], b as [|y [|? ?]]; cbn in L1, L2; try lia; reflexivity.
Qed.
Print Assumptions C89_row_count.
Example C89_row_count_case : map_grho (fun n => repeat O n) [(0, 0, 0)%Z; (1, 0, 0)%Z] [(0, 0, 0)%Z; (1, 0, 0)%Z; (2, 0, 0)%Z] = Err ValueError.
Proof. apply C89_row_count; cbn; lia. Qed.
