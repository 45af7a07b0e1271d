From Coq Require Import Reals Lra Sorting.Permutation Sorting.Sorted.
From Verif Require Import Base SortModel SortProofs LatModel LatProofs GIndexModel CBase FFTModel FFTProofs FFTProofs2 KSHamProofs GwModel GwProofs GwProofs2 PropsGw SigmaPrepModel SigmaPrepSpec.
Local Open Scope nat_scope.

Lemma nth_enum {A B} (F : nat * A -> B) (l : list A) a (d : A) (d' : B) : a < length l ->
  nth a (map F (combine (seq 0 (length l)) l)) d' = F (a, nth a l d).
Proof.
  intros H. rewrite (nth_indep _ d' (F (0, d))) by (rewrite map_length, combine_length, seq_length; lia).
  rewrite (map_nth F). rewrite combine_nth by apply seq_length. now rewrite seq_nth by exact H.
Qed.
Lemma enum_length {A B} (F : nat * A -> B) (l : list A) : length (map F (combine (seq 0 (length l)) l)) = length l.
Proof. rewrite map_length, combine_length, seq_length. lia. Qed.
Lemma in_enum {A B} (F : nat * A -> B) (l : list A) x (d : A) : In x (map F (combine (seq 0 (length l)) l)) ->
  exists a, a < length l /\ x = F (a, nth a l d).
Proof.
  intros H. destruct (In_nth _ x (F (0, d)) H) as (a & Ha & E). rewrite enum_length in Ha. exists a. split; [exact Ha|].
  rewrite <- E. now apply nth_enum.
Qed.
Local Notation z := (RtoC 0).
Lemma set_elt_sq n i0 x m : square n m -> square n (set_elt i0 x m).
Proof.
  intros (H1 & H2). unfold set_elt. split; [now rewrite enum_length|]. intros r Hr. apply (in_enum _ m r []) in Hr. destruct Hr as (a & Ha & ->).
  cbn [fst snd]. assert (L : length (nth a m []) = n) by (apply H2, nth_In; exact Ha). destruct (a =? i0); [now rewrite enum_length|exact L].
Qed.
Lemma set_elt_ent n i0 x m a b : square n m -> a < n -> b < n ->
  ent z (set_elt i0 x m) a b = if (a =? i0) && (b =? i0) then x else ent z m a b.
Proof.
  intros (H1 & H2) Ha Hb. unfold ent, set_elt. rewrite (nth_enum _ m a [] []) by lia. cbn [fst snd].
  assert (L : length (nth a m []) = n) by (apply H2, nth_In; lia).
  destruct (a =? i0); cbn [andb]; [|reflexivity]. rewrite (nth_enum _ (nth a m []) b z z) by lia. reflexivity.
Qed.
Lemma set_row_sq n i0 f m : square n m -> square n (set_row i0 f m).
Proof.
  intros (H1 & H2). unfold set_row. split; [now rewrite enum_length|]. intros r Hr. apply (in_enum _ m r []) in Hr. destruct Hr as (a & Ha & ->).
  cbn [fst snd]. assert (L : length (nth a m []) = n) by (apply H2, nth_In; exact Ha). destruct (a =? i0); [now rewrite map_length|exact L].
Qed.
Lemma set_row_ent n i0 f m a b : square n m -> a < n -> b < n ->
  ent z (set_row i0 f m) a b = if a =? i0 then f (ent z m a b) else ent z m a b.
Proof.
  intros (H1 & H2) Ha Hb. unfold ent, set_row. rewrite (nth_enum _ m a [] []) by lia. cbn [fst snd].
  assert (L : length (nth a m []) = n) by (apply H2, nth_In; lia).
  destruct (a =? i0); [|reflexivity]. rewrite (nth_map_lt f _ _ z) by lia. reflexivity.
Qed.
Lemma set_col_sq n i0 f m : square n m -> square n (set_col i0 f m).
Proof.
  intros (H1 & H2). unfold set_col. split; [now rewrite map_length|]. intros r Hr. apply in_map_iff in Hr. destruct Hr as (q & <- & Hq).
  rewrite enum_length. now apply H2.
Qed.
Lemma set_col_ent n i0 f m a b : square n m -> a < n -> b < n ->
  ent z (set_col i0 f m) a b = if b =? i0 then f (ent z m a b) else ent z m a b.
Proof.
  intros (H1 & H2) Ha Hb. unfold ent, set_col. 
  assert (L : length (nth a m []) = n) by (apply H2, nth_In; lia).
  rewrite (nth_map_lt (fun row => map (fun p : nat * C => if fst p =? i0 then f (snd p) else snd p) (combine (seq 0 (length row)) row)) _ _ []) by lia.
  rewrite (nth_enum _ (nth a m []) b z z) by lia. reflexivity.
Qed.
Lemma minus_identity_sq n m : square n m -> square n (minus_identity m).
Proof.
  intros (H1 & H2). unfold minus_identity. split; [now rewrite enum_length|]. intros r Hr. apply (in_enum _ m r []) in Hr. destruct Hr as (a & Ha & ->).
  cbn [fst snd]. rewrite enum_length. apply H2, nth_In. exact Ha.
Qed.
Lemma minus_identity_ent n m a b : square n m -> a < n -> b < n ->
  ent z (minus_identity m) a b = (ent z m a b - kron a b)%C.
Proof.
  intros (H1 & H2) Ha Hb. unfold ent, minus_identity. rewrite (nth_enum _ m a [] []) by lia. cbn [fst snd].
  assert (L : length (nth a m []) = n) by (apply H2, nth_In; lia).
  rewrite (nth_enum _ (nth a m []) b z z) by lia. cbn [fst snd]. unfold kron. destruct (a =? b); ring.
Qed.

Lemma fix_matrix_ok n q0 ooq v qlen w0 i0 eps : square n eps -> i0 < n ->
  exists m, fix_matrix q0 ooq v qlen w0 i0 eps = Ok m /\ square n m
  /\ forall a b, a < n -> b < n ->
     ent z m a b = if (a =? i0) && (b =? i0) then fix_head q0 v w0 (ent z eps a b)
                   else if a =? i0 then fix_wing q0 ooq v qlen (ent z eps a b)
                   else if b =? i0 then fix_wingprime q0 ooq qlen (ent z eps a b)
                   else ent z eps a b.
Proof.
  intros Hs Hi. pose proof Hs as (H1 & H2). unfold fix_matrix.
  rewrite (item_ok [] eps i0) by lia. cbn [bind].
  assert (L : length (nth i0 eps []) = n) by (apply H2, nth_In; lia).
  rewrite (item_ok z _ i0) by lia. cbn [bind]. eexists. split; [reflexivity|].
  change (nth i0 (nth i0 eps []) z) with (ent z eps i0 i0).
  split; [now apply set_elt_sq, set_row_sq, set_col_sq, set_elt_sq|].
  intros a b Ha Hb.
  rewrite (set_elt_ent n) by (try assumption; now apply set_row_sq, set_col_sq, set_elt_sq).
  rewrite (set_row_ent n) by (try assumption; now apply set_col_sq, set_elt_sq).
  rewrite (set_col_ent n) by (try assumption; now apply set_elt_sq).
  rewrite (set_elt_ent n) by assumption.
  destruct (Nat.eqb_spec a i0) as [Ea|Ea], (Nat.eqb_spec b i0) as [Eb|Eb]; cbn [andb]; subst; reflexivity.
Qed.

Lemma is_zero_spec g : is_zero g = true <-> g = (0, 0, 0)%Z.
Proof.
  destruct g as ((a, b), c). unfold is_zero. rewrite !andb_true_iff, !Z.eqb_eq. split; [intros ((-> & ->) & ->); reflexivity|now intros [= -> -> ->]].
Qed.
Lemma g_norm2_zero g : (0 <= g_norm2 g)%R /\ (g_norm2 g = 0%R <-> g = (0, 0, 0)%Z).
Proof.
  destruct g as ((a, b), c). unfold g_norm2. split; [apply IZR_le; nia|]. split.
  - intros H. apply eq_IZR in H. f_equal; [f_equal|]; nia.
  - now intros [= -> -> ->].
Qed.

(** index_G0 when the sorted list holds G=0 exactly once. *)
Lemma index_G0_at gs gk n2 order i0 : sort_cryst_like_BGW gk n2 = Ok order -> i0 < length order ->
  nth (nth i0 order O) gs (0, 0, 0)%Z = (0, 0, 0)%Z ->
  (forall i, i < i0 -> nth (nth i order O) gs (0, 0, 0)%Z <> (0, 0, 0)%Z) ->
  index_G0 gs gk n2 = Ok i0.
Proof.
  intros Hs Hi Hz Hn. unfold index_G0. rewrite Hs. cbn [bind]. apply argmin_spec.
  set (l := map g_norm2 (take (0, 0, 0)%Z gs order)).
  assert (Ll : length l = length order) by (unfold l; now rewrite map_length, take_length).
  assert (N : forall i, i < length order -> nth i l 0%R = g_norm2 (nth (nth i order O) gs (0, 0, 0)%Z)).
  { intros i H. unfold l. rewrite (nth_map_lt g_norm2 _ _ (0, 0, 0)%Z) by now rewrite take_length. now rewrite take_nth by exact H. }
  rewrite Ll. split; [exact Hi|]. assert (Z0 : nth i0 l 0%R = 0%R) by (rewrite N by exact Hi; now apply g_norm2_zero). rewrite Z0. split.
  - intros i H. rewrite N by exact H. apply g_norm2_zero.
  - intros i H. rewrite N by lia. destruct (g_norm2_zero (nth (nth i order O) gs (0, 0, 0)%Z)) as (P & Q).
    destruct (Rle_lt_or_eq_dec _ _ P) as [X|X]; [exact X|]. exfalso. apply (Hn i H), Q. now symmetry.
Qed.

Lemma sort_perm gk n2 order : sort_cryst_like_BGW gk n2 = Ok order ->
  length n2 = length gk /\ length order = length gk /\ Permutation order (seq 0 (length gk)).
Proof.
  unfold sort_cryst_like_BGW. destruct (length gk =? length n2) eqn:E; [|discriminate]. apply Nat.eqb_eq in E. intros [= <-].
  assert (L : length (combine (map (np_around 10) n2) gk) = length gk) by (rewrite combine_length, map_length; lia).
  rewrite argsort_length, L. repeat split; [lia|]. pose proof (argsort_perm lex4_leb (combine (map (np_around 10) n2) gk)) as P. rewrite L in P. exact P.
Qed.
Lemma order_nodup {A} (d : A) l order i j : Permutation order (seq 0 (length l)) -> NoDup l -> i < length l -> j < length l ->
  nth (nth i order O) l d = nth (nth j order O) l d -> i = j.
Proof.
  intros HP HN Hi Hj E. assert (L : length order = length l) by (rewrite (Permutation_length HP); apply seq_length).
  assert (B : forall k, k < length l -> nth k order O < length l).
  { intros k Hk. assert (X : In (nth k order O) order) by (apply nth_In; lia). apply (Permutation_in _ HP), in_seq in X. lia. }
  apply (proj1 (NoDup_nth l d) HN) in E; [|now apply B|now apply B].
  assert (NO : NoDup order) by (eapply Permutation_NoDup; [symmetry; exact HP|apply seq_NoDup]).
  apply (proj1 (NoDup_nth order O) NO); [lia|lia|exact E].
Qed.

(** Both spheres list G=0 at place [i0] of their sorted order. *)
Definition zero_at (sp : sphere) (i0 : nat) : Prop :=
  exists order, sort_cryst_like_BGW (sp_gk sp) (sp_norm2 sp) = Ok order /\ length (sp_g sp) = length (sp_gk sp) /\ NoDup (sp_g sp)
    /\ i0 < length (sp_g sp) /\ nth (nth i0 order O) (sp_g sp) (0, 0, 0)%Z = (0, 0, 0)%Z.

Lemma zero_at_index sp i0 order : zero_at sp i0 -> sort_cryst_like_BGW (sp_gk sp) (sp_norm2 sp) = Ok order ->
  index_G0 (sp_g sp) (sp_gk sp) (sp_norm2 sp) = Ok i0.
Proof.
  intros (o & Ho & L & HN & Hi & Hz) Ho'. rewrite Ho in Ho'. injection Ho' as ->.
  destruct (sort_perm _ _ _ Ho) as (_ & L2 & HP). rewrite <- L in HP, L2.
  apply (index_G0_at _ _ _ order); [exact Ho|lia|exact Hz|].
  intros i H E. apply (Nat.lt_irrefl i0). rewrite <- (order_nodup (0, 0, 0)%Z (sp_g sp) order i i0 HP HN) at 1; [exact H| |exact Hi|exact (eq_trans E (eq_sym Hz))].
  exact (Nat.lt_trans _ _ _ H Hi).
Qed.

Lemma fixed_ok n isq ooq qlen bare vcoul eps i0 order : zero_at bare i0 ->
  sort_cryst_like_BGW (sp_gk bare) (sp_norm2 bare) = Ok order -> length vcoul = length (sp_g bare) ->
  square n eps -> i0 < n ->
  let v := nth (nth 0 order O) vcoul 0%R in
  exists m, fixed_eps isq ooq qlen bare vcoul eps = Ok m /\ square n m
  /\ forall a b, a < n -> b < n ->
     ent z m a b = if (a =? i0) && (b =? i0) then fix_head isq v (ent z eps 0 0 * RtoC v)%C (ent z eps a b)
                   else if a =? i0 then fix_wing isq ooq v qlen (ent z eps a b)
                   else if b =? i0 then fix_wingprime isq ooq qlen (ent z eps a b)
                   else ent z eps a b.
Proof.
  intros Hz Ho Lv Hs Hi v. pose proof Hs as (H1 & H2). pose proof Hz as (o & Ho' & L & HN & Hb & _).
  rewrite Ho in Ho'. injection Ho' as <-. destruct (sort_perm _ _ _ Ho) as (_ & L2 & HP).
  unfold fixed_eps. rewrite Ho. cbn [bind]. rewrite (item_ok O order 0) by lia. cbn [bind].
  rewrite (item_ok 0%R vcoul).
  2:{ assert (X : In (nth 0 order O) order) by (apply nth_In; lia). apply (Permutation_in _ HP), in_seq in X. lia. }
  cbn [bind]. rewrite (item_ok [] eps 0) by lia. cbn [bind].
  rewrite (item_ok z (nth 0 eps []) 0) by (rewrite H2 by (apply nth_In; lia); lia). cbn [bind].
  rewrite (zero_at_index bare i0 order Hz Ho). cbn [bind].
  exact (fix_matrix_ok n isq ooq v qlen (ent z eps 0 0 * RtoC v)%C i0 eps Hs Hi).
Qed.

Lemma stored_ok isq ooq qlen bare vcoul own eps i0 order oE : zero_at bare i0 -> zero_at own i0 ->
  sort_cryst_like_BGW (sp_gk bare) (sp_norm2 bare) = Ok order -> length vcoul = length (sp_g bare) ->
  sort_cryst_like_BGW (sp_gk own) (sp_norm2 own) = Ok oE ->
  let n := length (sp_g own) in square n eps ->
  let v := nth (nth 0 order O) vcoul 0%R in
  exists m inv, stored_eps isq ooq qlen bare vcoul own eps = Ok m /\ square n m
  /\ (forall i, i < n -> inv i < n /\ nth (inv i) oE O = i)
  /\ forall i j, i < n -> j < n -> let a := inv i in let b := inv j in
     ent z m i j = ((if (a =? i0) && (b =? i0) then fix_head isq v (ent z eps 0 0 * RtoC v)%C (ent z eps a b)
                   else if a =? i0 then fix_wing isq ooq v qlen (ent z eps a b)
                   else if b =? i0 then fix_wingprime isq ooq qlen (ent z eps a b)
                   else ent z eps a b) - kron a b)%C.
Proof.
  intros Hb Ho HsB Lv HsE n Hs v. pose proof Ho as (o & HsE' & L & HN & Hi & Hz). rewrite HsE in HsE'. injection HsE' as <-.
  destruct (sort_perm _ _ _ HsE) as (_ & L2 & HP). rewrite <- L in HP, L2. fold n in HP, L2, Hi.
  destruct (fixed_ok n isq ooq qlen bare vcoul eps i0 order Hb HsB Lv Hs Hi) as (f & Ef & Hf & Hent).
  set (inv := argsort Nat.leb oE).
  assert (Linv : length inv = n) by (unfold inv; rewrite argsort_length; lia).
  assert (Binv : forall i, In i inv -> i < n) by (intros i H; apply argsort_bound in H; lia).
  assert (TI : take O oE inv = seq 0 n) by (now apply argsort_inverse).
  pose proof (minus_identity_sq n f Hf) as Hm.
  exists (map (fun i => map (fun j => ent z (minus_identity f) i j) inv) inv), (fun i => nth i inv O).
  split; [|split; [|split]].
  - unfold stored_eps. rewrite Ef, HsE. cbn [bind]. now apply (reorder_ok z (minus_identity f) inv n).
  - apply (square_map (fun i j => ent z (minus_identity f) i j) inv n Linv).
  - intros i H. split; [apply Binv, nth_In; lia|]. rewrite <- (take_nth O oE inv i) by lia. rewrite TI. now rewrite seq_nth.
  - intros i j Ii Jj a b. rewrite (ent_map z (fun i j => ent z (minus_identity f) i j) inv n i j Linv Ii Jj).
    fold a b. assert (Ha : a < n) by (apply Binv, nth_In; lia). assert (Hb' : b < n) by (apply Binv, nth_In; lia).
    rewrite (minus_identity_ent n f a b Hf Ha Hb'). f_equal. now apply Hent.
Qed.
