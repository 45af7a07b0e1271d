(** Lemmas for the GW properties. *)
From Coq Require Import Reals Lra.
From Coquelicot Require Import Coquelicot.
From Verif Require Import Base SortModel SortProofs LatModel LatProofs GIndexModel GIndexProofs FFTModel FFTProofs FFTProofs2 GwModel GwSpec NlocSpec NlocProofs WfnIOProofs CBase.
Open Scope R_scope.

(** ---- ordering ---- *)
Lemma rltb_iff x y : rltb x y = true <-> x < y.
Proof. unfold rltb. destruct (Rlt_dec x y); split; intros; try easy; lra. Qed.
Lemma rleb_iff x y : rleb x y = true <-> x <= y.
Proof. unfold rleb. destruct (Rle_dec x y); split; intros; try easy; lra. Qed.
Lemma reqb_iff x y : reqb x y = true <-> x = y.
Proof. unfold reqb. destruct (Req_EM_T x y); split; intros; try easy. Qed.

Lemma lex4_iff a b : lex4_leb a b = true <-> dict_lt a b \/ a = b.
Proof.
  destruct a as [ka [xa ya za]], b as [kb [xb yb zb]]. unfold lex4_leb, dict_lt. cbn [fst snd vx vy vz].
  rewrite !orb_true_iff, !andb_true_iff, !orb_true_iff, !andb_true_iff, !orb_true_iff, !andb_true_iff,
    !rltb_iff, !reqb_iff, rleb_iff.
  split.
  - intros [H | [H1 [H | [H2 [H | [H3 H]]]]]]; [left; lra | left | left | ].
    + right. split; [easy|]. left. easy.
    + right. split; [easy|]. right. split; [easy|]. left. easy.
    + destruct (Req_dec za zb) as [->|N].
      * right. subst. reflexivity.
      * left. right. split; [easy|]. right. split; [easy|]. right. split; [easy|]. lra.
  - intros [H | H].
    + destruct H as [H | [H1 [H | [H2 [H | [H3 H]]]]]]; [left; easy | right; split; [easy|] ..].
      * left; easy.
      * right; split; [easy|]. left; easy.
      * right; split; [easy|]. right; split; [easy|]. lra.
    + injection H as -> -> -> ->. right; split; [easy|]. right; split; [easy|]. right; split; [easy|]. lra.
Qed.
Lemma dict_lt_trans a b c : dict_lt a b -> dict_lt b c -> dict_lt a c.
Proof. unfold dict_lt. intros H1 H2.
  destruct H1 as [H1 | [E1 [H1 | [E2 [H1 | [E3 H1]]]]]];
  destruct H2 as [H2 | [F1 [H2 | [F2 [H2 | [F3 H2]]]]]]; try (left; lra);
  right; (split; [lra|]); try (left; lra); right; (split; [lra|]); try (left; lra); right; split; lra.
Qed.
Lemma dict_lt_irr a : ~ dict_lt a a.
Proof. unfold dict_lt. intros [H | [_ [H | [_ [H | [_ H]]]]]]; lra. Qed.
Lemma dict_lt_total a b : dict_lt a b \/ a = b \/ dict_lt b a.
Proof.
  destruct a as [ka [xa ya za]], b as [kb [xb yb zb]]. unfold dict_lt. cbn [fst snd vx vy vz].
  destruct (Rtotal_order ka kb) as [?|[->|?]]; [left; left; easy| |right; right; left; lra].
  destruct (Rtotal_order xa xb) as [?|[->|?]]; [left; right; split; [easy|left; easy]| |right; right; right; split; [easy|left; lra]].
  destruct (Rtotal_order ya yb) as [?|[->|?]]; [left; right; split; [easy|right; split; [easy|left; easy]]| |right; right; right; split; [easy|right; split; [easy|left; lra]]].
  destruct (Rtotal_order za zb) as [?|[->|?]]; [left; right; split; [easy|right; split; [easy|right; split; [easy|easy]]]| |right; right; right; split; [easy|right; split; [easy|right; split; [easy|lra]]]].
  right; left. reflexivity.
Qed.
Lemma lex4_total a b : lex4_leb a b = true \/ lex4_leb b a = true.
Proof. rewrite !lex4_iff. destruct (dict_lt_total a b) as [H|[H|H]]; auto. Qed.
Lemma lex4_trans a b c : lex4_leb a b = true -> lex4_leb b c = true -> lex4_leb a c = true.
Proof. rewrite !lex4_iff. intros [H|E] [G|F]; subst; auto. left. eapply dict_lt_trans; eauto. Qed.

(** Stability of the sort: positions increase among equal keys. *)
Section Stable.
  Context {K : Type} (leb : K -> K -> bool).
  Hypothesis total : forall a b, leb a b = true \/ leb b a = true.
  Hypothesis trans : forall a b c, leb a b = true -> leb b c = true -> leb a c = true.
  Definition st (p q : K * nat) : Prop :=
    leb (fst p) (fst q) = true /\ (leb (fst q) (fst p) = true -> (snd p < snd q)%nat).
  Lemma insert_in x y l : In y (insert (fun p q : K * nat => leb (fst p) (fst q)) x l) -> y = x \/ In y l.
  Proof. induction l as [|z t IH]; cbn; [intuition congruence|]. destruct (leb _ _); cbn; intuition congruence. Qed.
  Lemma insert_stable k s l : (forall p, In p l -> (s < snd p)%nat) -> StronglySorted st l ->
    StronglySorted st (insert (fun p q => leb (fst p) (fst q)) (k, s) l).
  Proof.
    induction l as [|[k' i] t IH]; intros Hi HS; [constructor; constructor|].
    cbn [insert fst]. apply StronglySorted_inv in HS as [HS HF]. destruct (leb k k') eqn:E.
    - constructor; [constructor; assumption|]. rewrite Forall_forall in *. intros p [<-|Hp].
      + split; cbn; [easy|]. intros _. apply (Hi (k', i)). now left.
      + split; cbn [fst snd]; [eapply trans; [exact E|]; apply (HF p Hp)|]. intros _. apply Hi. now right.
    - constructor; [apply IH; [intros; apply Hi; now right|easy]|].
      rewrite Forall_forall in *. intros p Hp. apply insert_in in Hp as [->|Hp]; [|now apply HF].
      split; cbn [fst snd]; [destruct (total k k'); congruence|]. congruence.
  Qed.
  Lemma argsort_stable_gen keys : forall s,
    StronglySorted st (isort (fun p q => leb (fst p) (fst q)) (combine keys (seq s (length keys))))
    /\ forall p, In p (isort (fun p q => leb (fst p) (fst q)) (combine keys (seq s (length keys)))) -> (s <= snd p)%nat.
  Proof.
    induction keys as [|k t IH]; intros s; [split; [constructor|easy]|].
    cbn [length seq combine isort fold_right]. destruct (IH (S s)) as [H1 H2]. split.
    - apply insert_stable; [intros p Hp; apply H2 in Hp; lia|exact H1].
    - intros p Hp. apply insert_in in Hp as [->|Hp]; [cbn; lia|]. apply H2 in Hp. lia.
  Qed.
End Stable.

Lemma SSorted_nth {A} (P : A -> A -> Prop) (d : A) l : StronglySorted P l ->
  forall i j, (i < j < length l)%nat -> P (nth i l d) (nth j l d).
Proof.
  induction 1 as [|a l HS IH HF]; intros i j Hij; [cbn in Hij; lia|].
  destruct j as [|j]; [lia|]. destruct i as [|i]; cbn [nth].
  - rewrite Forall_forall in HF. apply HF, nth_In. cbn in Hij. lia.
  - apply IH. cbn in Hij. lia.
Qed.

Lemma argsort_stable {K} (leb : K -> K -> bool) (keys : list K) (d : K) :
  (forall a b, leb a b = true \/ leb b a = true) ->
  (forall a b c, leb a b = true -> leb b c = true -> leb a c = true) ->
  forall i j, (i < j < length keys)%nat ->
  let p := nth (nth i (argsort leb keys) O) keys d in
  let q := nth (nth j (argsort leb keys) O) keys d in
  leb p q = true /\ (leb q p = true -> (nth i (argsort leb keys) O < nth j (argsort leb keys) O)%nat).
Proof.
  intros T Tr i j Hij. cbv zeta. unfold argsort.
  set (l := isort _ _).
  assert (PL : Permutation l (combine keys (seq 0 (length keys)))) by apply isort_perm.
  assert (LL : length l = length keys).
  { rewrite (Permutation_length PL), combine_length, seq_length. lia. }
  assert (HS : StronglySorted (st leb) l) by apply (argsort_stable_gen leb T Tr keys 0).
  assert (HK : forall i, (i < length keys)%nat -> fst (nth i l (d, O)) = nth (snd (nth i l (d, O))) keys d).
  { intros m Hm. assert (HI : In (nth m l (d, O)) l) by (apply nth_In; lia).
    apply (Permutation_in _ PL) in HI. destruct (nth m l (d, O)) as [a b].
    pose proof (in_combine_seq keys 0 a b d HI) as HC. cbn. destruct HC as (HC & HC'). rewrite HC', Nat.sub_0_r. reflexivity. }
  change O with (snd (d, O)). rewrite !map_nth. rewrite <- !HK by lia.
  destruct (SSorted_nth _ (d, O) l HS i j ltac:(lia)) as [H1 H2]. split; [exact H1|exact H2].
Qed.

(** ---- rounding ---- *)
Lemma around_spec d x : (exists n : Z, np_around d x = IZR n / 10 ^ d) /\ Rabs (x - np_around d x) <= / 10 ^ d / 2.
Proof.
  split; [eexists; reflexivity|]. unfold np_around.
  assert (P : 0 < 10 ^ d) by (apply pow_lt; lra).
  pose proof (rint_close (x * 10 ^ d)) as H.
  replace (x - IZR (rint (x * 10 ^ d)) / 10 ^ d) with ((x * 10 ^ d - IZR (rint (x * 10 ^ d))) * / 10 ^ d) by (field; lra).
  rewrite Rabs_mult, (Rabs_pos_eq (/ 10 ^ d)) by (left; now apply Rinv_0_lt_compat).
  apply Rle_trans with (1 / 2 * / 10 ^ d); [|lra].
  apply Rmult_le_compat_r; [left; now apply Rinv_0_lt_compat|exact H].
Qed.

Lemma nth_map_lt {A B} (f : A -> B) l i d d' : (i < length l)%nat -> nth i (map f l) d' = f (nth i l d).
Proof. intros H. rewrite (nth_indep _ d' (f d)) by (rewrite map_length; exact H). apply map_nth. Qed.
(** ---- matrices as lists of rows ---- *)
Definition ent {A} (d : A) (m : list (list A)) (i j : nat) : A := nth j (nth i m []) d.
Definition square {A} (n : nat) (m : list (list A)) : Prop :=
  length m = n /\ forall r, In r m -> length r = n.
Lemma item_ok {A} (d : A) l i : (i < length l)%nat -> item l i = Ok (nth i l d).
Proof. intros H. unfold item. rewrite (nth_error_nth' l d H). reflexivity. Qed.

Lemma combine_const {A B} (m : list A) (idx : list B) (c : list B) : length m = length idx ->
  combine m (map (fun _ => c) idx) = map (fun a => (a, c)) m.
Proof. revert idx; induction m as [|a m IH]; intros [|b idx]; cbn; try easy. intros [= H]. now rewrite IH. Qed.

Lemma reorder_ok {A} (d : A) m idx n : square n m -> length idx = n -> (forall i, In i idx -> (i < n)%nat) ->
  reorder_2d m idx = Ok (map (fun i => map (fun j => ent d m i j) idx) idx).
Proof.
  intros [Hm Hr] Hl Hb. unfold reorder_2d, take_along_1, tile.
  rewrite map_length, Hm, Hl, Nat.eqb_refl.
  rewrite combine_const by congruence. rewrite map_map. cbn [fst snd].
  rewrite (sequence_map_ok _ (fun r => map (fun j => nth j r d) idx)).
  2:{ intros r Hin. apply sequence_map_ok. intros j Hj. apply item_ok. rewrite (Hr r Hin). auto. }
  cbn [bind]. unfold take_along_0, tile_T. rewrite map_map.
  apply sequence_map_ok. intros i Hi.
  rewrite map_length.
  rewrite (sequence_map_ok _ (fun p : nat * nat => ent d m i (nth (fst p) idx O))).
  - f_equal. rewrite <- (map_map fst (fun k => ent d m i (nth k idx O))).
    rewrite combine_map_fst by (rewrite seq_length, map_length; reflexivity).
    rewrite <- (map_map (fun k => nth k idx O) (fun j => ent d m i j)).
    f_equal. apply map_nth_seq.
  - intros [k i'] Hk. cbn [fst snd].
    assert (i' = i) as -> by (apply in_combine_r in Hk; apply in_map_iff in Hk as (? & <- & _); reflexivity).
    apply in_combine_l, in_seq in Hk.
    rewrite (item_ok []) by (rewrite map_length, Hm; auto). cbn [bind].
    rewrite (item_ok d).
    + f_equal. rewrite (nth_map_lt (fun r => map (fun j => nth j r d) idx) m i []) by (rewrite Hm; auto).
      rewrite (nth_map_lt (fun j => nth j (nth i m []) d) idx k O) by lia. reflexivity.
    + rewrite (nth_map_lt (fun r => map (fun j => nth j r d) idx) m i []) by (rewrite Hm; auto).
      rewrite map_length. lia.
Qed.
Lemma ent_map {A} (d : A) (f : nat -> nat -> A) idx n i j : length idx = n -> (i < n)%nat -> (j < n)%nat ->
  ent d (map (fun i => map (fun j => f i j) idx) idx) i j = f (nth i idx O) (nth j idx O).
Proof.
  intros Hl Hi Hj. unfold ent.
  rewrite (nth_map_lt (fun i => map (fun j => f i j) idx) idx i O) by lia.
  rewrite (nth_map_lt (fun j => f (nth i idx O) j) idx j O) by lia. reflexivity.
Qed.
Lemma square_map {A} (f : nat -> nat -> A) idx n : length idx = n ->
  square n (map (fun i => map (fun j => f i j) idx) idx).
Proof. intros H. split; [now rewrite map_length|]. intros r Hr. apply in_map_iff in Hr as (i & <- & _). now rewrite map_length. Qed.

Lemma first_true_spec l k : first_true l = Ok k <->
  (k < length l)%nat /\ nth k l false = true /\ forall i, (i < k)%nat -> nth i l false = false.
Proof.
  revert k; induction l as [|b t IH]; intros k; cbn [first_true length]; [split; [easy|intros [H _]; lia]|].
  destruct b.
  - split; [intros [= <-]; repeat split; [lia|intros; lia]|]. intros (H1 & H2 & H3).
    destruct k; [easy|]. specialize (H3 O ltac:(lia)). discriminate.
  - destruct (first_true t) as [m|e] eqn:E; cbn [rmap]; split.
    + intros [= <-]. destruct (proj1 (IH m) eq_refl) as (H1 & H2 & H3). repeat split; [lia|easy|].
      intros [|i] Hi; [easy|]. apply H3. lia.
    + intros (H1 & H2 & H3). destruct k as [|k]; [easy|]. f_equal. f_equal.
      assert (HH : Ok m = Ok k); [|now injection HH].
      apply IH. repeat split; [lia|easy|]. intros i Hi. apply (H3 (S i)). lia.
    + easy.
    + intros (H1 & H2 & H3). destruct k as [|k]; [easy|].
      assert (HH : Err e = Ok k); [|discriminate]. apply IH.
      repeat split; [lia|easy|]. intros i Hi. apply (H3 (S i)). lia.
Qed.
Lemma argmin_spec l k : argmin l = Ok k <->
  (k < length l)%nat /\ (forall i, (i < length l)%nat -> nth k l 0 <= nth i l 0) /\
  (forall i, (i < k)%nat -> nth k l 0 < nth i l 0).
Proof.
  assert (S1 : forall l k, argmin l = Ok k ->
    (k < length l)%nat /\ (forall i, (i < length l)%nat -> nth k l 0 <= nth i l 0) /\
    (forall i, (i < k)%nat -> nth k l 0 < nth i l 0)).
  { clear. induction l as [|x t IH]; intros k; cbn [argmin length]; [easy|].
    destruct (argmin t) as [m|e] eqn:E.
    - destruct (IH m eq_refl) as (H1 & H2 & H3). destruct (rltb (nth m t 0) x) eqn:L.
      + apply rltb_iff in L. intros [= <-]. repeat split; [lia| |].
        * intros [|i] Hi; cbn [nth]; [lra|]. apply H2. lia.
        * intros [|i] Hi; cbn [nth]; [lra|]. apply H3. lia.
      + intros [= <-]. assert (x <= nth m t 0) by (destruct (Rle_dec x (nth m t 0)); [easy|]; exfalso; apply not_true_iff_false in L; apply L, rltb_iff; lra).
        repeat split; [lia| |intros; lia].
        intros [|i] Hi; cbn [nth]; [lra|]. specialize (H2 i ltac:(lia)). lra.
    - intros [= <-]. repeat split; [lia| |intros; lia].
      assert (t = []) as -> by (destruct t as [|y t]; [easy|]; exfalso; cbn in E; destruct (argmin t); [destruct (rltb _ _)|]; discriminate).
      intros [|i] Hi; cbn [nth] in *; [lra|]. cbn in Hi. lia. }
  split; [apply S1|]. intros (H1 & H2 & H3).
  destruct (argmin l) as [m|e] eqn:E.
  - destruct (S1 _ _ E) as (G1 & G2 & G3). f_equal.
    destruct (Nat.lt_trichotomy m k) as [L|[L|L]]; [|easy|].
    + specialize (H3 m L). specialize (G2 k H1). lra.
    + specialize (G3 k L). specialize (H2 m G1). lra.
  - exfalso. destruct l as [|y t]; [cbn in H1; lia|]. cbn in E. destruct (argmin t); [destruct (rltb _ _)|]; discriminate.
Qed.

(** ---- polarizability ---- *)
Lemma all_some_map {A} (l : list A) : all_some (map Some l) = Some l.
Proof. induction l; cbn; [easy|]. now rewrite IHl. Qed.
Lemma all_some_inv {A} (l : list (option A)) r : all_some l = Some r -> l = map Some r.
Proof.
  revert r; induction l as [|[a|] t IH]; intros r; cbn; [intros [= <-]; easy| |discriminate].
  destruct (all_some t) as [r'|]; [|discriminate]. cbn. intros [= <-]. cbn. f_equal. now apply IH.
Qed.
Lemma fold_outer rows l m : forall acc,
  fold_left (fun acc r => (acc + - outer r l m)%C) rows acc = (acc - lsum rows (fun r => outer r l m))%C.
Proof.
  induction rows as [|r t IH]; intros acc; cbn [fold_left].
  - rewrite lsum_nil. apply C_ext; cbn; ring.
  - rewrite IH, lsum_cons. apply C_ext; cbn; ring.
Qed.
Lemma Cdiv_R (a : C) (b : R) : b <> 0 -> (a / RtoC b)%C = (RtoC (/ b) * a)%C.
Proof. intros H. unfold Cdiv. rewrite RtoC_inv by easy. apply Cmult_comm. Qed.
Definition chi_of (c : R) (rows : list (list C)) : nat -> nat -> C :=
  fun l m => (RtoC (- c) * lsum rows (fun r => outer r l m))%C.
Lemma polarizability_chi vol nk nc nv M chi : polarizability vol nk nc nv M = Some chi ->
  vol * INR nk <> 0 ->
  exists rows, all_some (map (fun i => let '(a, b, c) := i in M a b c) (axes3 nk nc nv)) = Some rows /\
  forall l m, chi l m = chi_of (4 / (vol * INR nk)) rows l m.
Proof.
  unfold polarizability. intros H N. destruct (all_some _) as [rows|]; [|discriminate]. exists rows. split; [easy|].
  injection H as <-. intros l m. unfold chi_of, lsum. set (S_ := fold_right _ _ _).
  rewrite Cdiv_R by easy. unfold Rdiv. set (w := / (vol * INR nk)). apply C_ext; cbn; ring.
Qed.
Lemma active_chi vol nk Ms chi : polarizability_active vol nk Ms = Some chi -> vol * INR nk <> 0 ->
  exists rows, all_some Ms = Some rows /\ forall l m, chi l m = chi_of (4 / (vol * INR nk)) rows l m.
Proof.
  unfold polarizability_active. intros H N. destruct (all_some _) as [rows|]; [|discriminate]. exists rows. split; [easy|].
  injection H as <-. intros l m. rewrite fold_outer. unfold chi_of. set (S_ := lsum _ _).
  rewrite Cdiv_R by easy. unfold Rdiv. set (w := / (vol * INR nk)). apply C_ext; cbn; ring.
Qed.
Lemma lsum_conj {A} (l : list A) f : Cconj (lsum l f) = lsum l (fun a => Cconj (f a)).
Proof. induction l; [apply C_ext; cbn; ring|]. rewrite !lsum_cons, <- IHl. apply C_ext; cbn; ring. Qed.
Lemma chi_hermitian n c rows : hermitian n (chi_of c rows).
Proof.
  intros i j _ _. unfold chi_of. rewrite conj_mul, conj_RtoC, lsum_conj. f_equal. apply lsum_ext. intros r _.
  unfold outer. rewrite conj_mul. apply C_ext; cbn; ring.
Qed.
Lemma lsum_fst {A} (l : list A) f : fst (lsum l f) = fold_right (fun a s => fst (f a) + s) 0 l.
Proof. induction l; [easy|]. rewrite lsum_cons. cbn. now rewrite <- IHl. Qed.
Lemma csum_lsum {A} n (l : list A) (f : nat -> A -> C) :
  csum n (fun i => lsum l (f i)) = lsum l (fun a => csum n (fun i => f i a)).
Proof.
  induction l as [|a t IH]; [now rewrite lsum_nil, csum_zero by (intros; apply lsum_nil)|].
  rewrite lsum_cons, <- IH, <- csum_plus. apply csum_ext. intros i _. apply lsum_cons.
Qed.
Lemma outer_quad n r x : quad n (outer r) x =
  (Cconj (csum n (fun m => nth m r (RtoC 0) * x m)%C) * csum n (fun m => nth m r (RtoC 0) * x m)%C)%C.
Proof.
  rewrite csum_conj, csum_mult. unfold quad. apply csum_ext. intros i _. apply csum_ext. intros j _.
  unfold outer. apply C_ext; cbn; ring.
Qed.
Lemma chi_quad n c rows x : quad n (chi_of c rows) x =
  (RtoC (- c) * lsum rows (fun r => quad n (outer r) x))%C.
Proof.
  unfold quad at 1. rewrite <- lsum_scal.
  transitivity (csum n (fun i => lsum rows (fun r => csum n (fun j => RtoC (- c) * (Cconj (x i) * outer r i j * x j))%C))).
  - apply csum_ext. intros i _. rewrite <- csum_lsum. apply csum_ext. intros j _.
    unfold chi_of. rewrite lsum_scal. set (a := RtoC (- c)).
    rewrite (lsum_scal_r rows (x j) (fun r => (Cconj (x i) * outer r i j)%C)), lsum_scal.
    set (b := lsum _ _). apply C_ext; cbn; ring.
  - rewrite csum_lsum. apply lsum_ext. intros r _. unfold quad. rewrite <- csum_scal. apply csum_ext. intros i _.
    now rewrite csum_scal.
Qed.
Lemma norm_conj (z : C) : (Cconj z * z)%C = RtoC (fst z * fst z + snd z * snd z).
Proof. apply C_ext; cbn; ring. Qed.
Lemma chi_quad_real n c rows x : 0 <= c ->
  exists t, t <= 0 /\ quad n (chi_of c rows) x = RtoC t.
Proof.
  intros Hc. rewrite chi_quad.
  assert (H : exists s, 0 <= s /\ lsum rows (fun r => quad n (outer r) x) = RtoC s).
  { induction rows as [|r t IH]; [exists 0; split; [lra|apply lsum_nil]|]. destruct IH as (s & Hs & E).
    rewrite lsum_cons, E, outer_quad, norm_conj. set (z := csum _ _).
    exists (fst z * fst z + snd z * snd z + s). split; [nra|]. apply C_ext; cbn; ring. }
  destruct H as (s & Hs & ->). exists (- c * s). split; [nra|]. apply C_ext; cbn; ring.
Qed.

(** ---- epsilon ---- *)
Section EpsPos.
  Variables (n : nat) (P : nat -> nat -> C).
  Hypothesis PH : hermitian n P.
  Hypothesis PP : forall x, exists t, 0 <= t /\ quad n P x = RtoC t.
  Definition app (A : nat -> nat -> C) (x : nat -> C) : nat -> C := fun i => csum n (fun j => A i j * x j)%C.
  Definition ip (x y : nat -> C) : C := csum n (fun i => Cconj (x i) * y i)%C.
  Lemma ip_self x : ip x x = RtoC (sqnorm n x).
  Proof. unfold ip, sqnorm. rewrite <- csum_RtoC. apply csum_ext. intros i _. apply norm_conj. Qed.
  Lemma quad_ip A x : quad n A x = ip x (app A x).
  Proof. unfold quad, ip, app. apply csum_ext. intros i _. rewrite <- csum_scal. apply csum_ext. intros j _. apply C_ext; cbn; ring. Qed.
  Lemma ip_ext x y x' y' : (forall i, (i < n)%nat -> x i = x' i) -> (forall i, (i < n)%nat -> y i = y' i) -> ip x y = ip x' y'.
  Proof. intros H1 H2. apply csum_ext. intros i Hi. now rewrite H1, H2. Qed.
  Lemma ip_conj x y : Cconj (ip x y) = ip y x.
  Proof. unfold ip. rewrite csum_conj. apply csum_ext. intros i _. apply C_ext; cbn; ring. Qed.
  Lemma ip_plus_r x y z : ip x (fun i => (y i + z i)%C) = (ip x y + ip x z)%C.
  Proof. unfold ip. rewrite <- csum_plus. apply csum_ext. intros i _. apply C_ext; cbn; ring. Qed.
  Lemma ip_plus_l x y z : ip (fun i => (y i + z i)%C) x = (ip y x + ip z x)%C.
  Proof. unfold ip. rewrite <- csum_plus. apply csum_ext. intros i _. apply C_ext; cbn; ring. Qed.
  Lemma sqnorm_nonneg x : 0 <= sqnorm n x.
  Proof. apply rsum_nonneg. intros i _. nra. Qed.
  Lemma sqnorm_zero x : sqnorm n x = 0 -> forall i, (i < n)%nat -> x i = RtoC 0.
  Proof.
    unfold sqnorm. intros H i Hi.
    assert (E : fst (x i) * fst (x i) + snd (x i) * snd (x i) = 0).
    { revert H. clear -Hi. induction n as [|m IH]; [lia|]. cbn [rsum]. intros H.
      assert (0 <= rsum m (fun i => fst (x i) * fst (x i) + snd (x i) * snd (x i))) by (apply rsum_nonneg; intros; nra).
      destruct (Nat.eq_dec i m) as [->|N]; [nra|]. apply IH; [lia|]. nra. }
    apply C_ext; cbn; nra.
  Qed.
  Lemma app_ident x i : (i < n)%nat -> app ident x i = x i.
  Proof.
    intros Hi. unfold app, ident. rewrite (csum_delta n i).
    - rewrite Nat.eqb_refl. apply C_ext; cbn; ring.
    - exact Hi.
    - intros j _ Hj. replace (i =? j)%nat with false by (symmetry; apply Nat.eqb_neq; lia). apply C_ext; cbn; ring.
  Qed.
  Lemma app_prod A B x i : (i < n)%nat -> app (mprod n A B) x i = app A (app B x) i.
  Proof.
    intros Hi. unfold app, mprod.
    transitivity (csum n (fun j => csum n (fun k => A i k * B k j * x j)%C)).
    { apply csum_ext. intros j _. now rewrite <- csum_scal_r. }
    rewrite csum_swap. apply csum_ext. intros k _. rewrite <- csum_scal. apply csum_ext. intros j _. apply C_ext; cbn; ring.
  Qed.
  Lemma app_ext A B x y i : (i < n)%nat -> (forall j, (j < n)%nat -> A i j = B i j) -> (forall j, (j < n)%nat -> x j = y j) -> app A x i = app B y i.
  Proof. intros Hi H1 H2. apply csum_ext. intros j Hj. now rewrite H1, H2. Qed.
  (** A = 1 + P *)
  Definition onep : nat -> nat -> C := fun i j => (ident i j + P i j)%C.
  Lemma app_onep x i : (i < n)%nat -> app onep x i = (x i + app P x i)%C.
  Proof.
    intros Hi. rewrite <- (app_ident x i Hi) at 1. unfold app, onep. rewrite <- csum_plus. apply csum_ext. intros j _. apply C_ext; cbn; ring.
  Qed.
  Lemma onep_energy x : exists t, 0 <= t /\ ip x (app onep x) = RtoC (sqnorm n x + t) /\
     exists u, 0 <= u /\ sqnorm n (app onep x) = sqnorm n x + 2 * t + u.
  Proof.
    destruct (PP x) as (t & Ht & E). exists t. split; [easy|].
    assert (E1 : ip x (app onep x) = (ip x x + ip x (app P x))%C).
    { rewrite <- ip_plus_r. apply ip_ext; [easy|]. intros. now apply app_onep. }
    rewrite quad_ip in E. split.
    - rewrite E1, E, ip_self. apply C_ext; cbn; ring.
    - exists (sqnorm n (app P x)). split; [apply sqnorm_nonneg|].
      assert (E2 : RtoC (sqnorm n (app onep x)) = RtoC (sqnorm n x + 2 * t + sqnorm n (app P x))).
      { rewrite <- ip_self. rewrite (ip_ext _ _ (fun i => (x i + app P x i)%C) (fun i => (x i + app P x i)%C)) by (intros; now apply app_onep).
        rewrite ip_plus_l, !ip_plus_r, !ip_self, E. rewrite <- (ip_conj x (app P x)), E. apply C_ext; cbn; ring. }
      now apply (f_equal fst) in E2.
  Qed.
  Lemma onep_injective x : (forall i, (i < n)%nat -> app onep x i = RtoC 0) -> forall i, (i < n)%nat -> x i = RtoC 0.
  Proof.
    intros H. apply sqnorm_zero. destruct (onep_energy x) as (t & Ht & E & _).
    rewrite (ip_ext x _ x (fun _ => RtoC 0)) in E; [|easy|exact H].
    assert (Z : ip x (fun _ => RtoC 0) = RtoC 0).
    { unfold ip. apply csum_zero. intros. apply C_ext; cbn; ring. }
    rewrite Z in E. apply (f_equal fst) in E. cbn in E. pose proof (sqnorm_nonneg x). lra.
  Qed.
  (** the inverse of 1 + P lies between 0 and 1 *)
  Lemma onep_inverse_bounds B x : inverse_of n onep B ->
    exists t, 0 <= t <= sqnorm n x /\ (0 < sqnorm n x -> 0 < t) /\ quad n B x = RtoC t.
  Proof.
    intros [HI _]. set (y := app B x).
    assert (HA : forall i, (i < n)%nat -> app onep y i = x i).
    { intros i Hi. unfold y. rewrite <- app_prod by easy. rewrite (app_ext _ ident x x) by (auto; intros; now apply HI). now apply app_ident. }
    destruct (onep_energy y) as (t & Ht & E & u & Hu & E2).
    exists (sqnorm n y + t). pose proof (sqnorm_nonneg y).
    assert (sqnorm n x = sqnorm n (app onep y)).
    { unfold sqnorm. apply rsum_ext. intros i Hi. now rewrite HA. }
    split; [lra|]. split.
    { intros Hx. assert (Y0 : sqnorm n y <> 0); [|lra]. intros Y0. pose proof (sqnorm_zero y Y0) as Yz.
      assert (X0 : sqnorm n x = 0); [|lra].
      unfold sqnorm. transitivity (rsum n (fun _ => 0)).
      - apply rsum_ext. intros i Hi. rewrite <- HA by easy. replace (app onep y i) with (RtoC 0); [cbn; ring|].
        symmetry. unfold app. apply csum_zero. intros j Hj. rewrite Yz by easy. apply C_ext; cbn; ring.
      - clear. induction n as [|m IH]; cbn; [easy|]. rewrite IH. ring. }
    rewrite quad_ip. fold y.
    rewrite <- (ip_conj y x). rewrite (ip_ext y x y (app onep y)) by (auto; intros; symmetry; now apply HA).
    rewrite E. apply conj_RtoC.
  Qed.
End EpsPos.
