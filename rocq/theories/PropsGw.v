(** C48 (BerkeleyGW ordering), C47 (polarizability), C52 (umklapp). *)
From Coq Require Import Reals Lra.
From Coquelicot Require Import Coquelicot.
From Verif Require Import Base SortModel SortProofs LatModel LatProofs GIndexModel GIndexProofs FFTModel FFTSpec FFTProofs FFTProofs2 GwModel GwSpec GwProofs GwProofs2 NlocSpec NlocProofs WfnIOProofs MixProofs CBase.
Open Scope R_scope.

Definition kv0 : R * rvec := (0, V 0 0 0).
(** The (key, vector) pair of input position i. *)
Definition pair_at (keys : list R) (cryst : list rvec) (i : nat) : R * rvec :=
  (nth i keys 0, nth i cryst (V 0 0 0)).

(** The indices returned are a permutation of all positions; along them the pairs
    (key rounded to ten decimals, x, y, z) increase in dictionary order, and equal pairs
    keep their input order. *)
Theorem C48_sorted_permutation : forall cryst keys idx,
  sort_cryst_like_BGW cryst keys = Ok idx ->
  Permutation idx (seq 0 (length cryst)) /\
  exists rkeys, length rkeys = length keys /\
    (forall i, (i < length keys)%nat -> rounded_10 (nth i keys 0) (nth i rkeys 0)) /\
    (forall i i', (i < length keys)%nat -> (i' < length keys)%nat -> nth i keys 0 = nth i' keys 0 -> nth i rkeys 0 = nth i' rkeys 0) /\
    forall i j, (i < j < length cryst)%nat ->
      dict_lt (pair_at rkeys cryst (nth i idx O)) (pair_at rkeys cryst (nth j idx O)) \/
      (pair_at rkeys cryst (nth i idx O) = pair_at rkeys cryst (nth j idx O) /\ (nth i idx O < nth j idx O)%nat).
Proof.
  intros cryst keys idx H. unfold sort_cryst_like_BGW in H.
  destruct (length cryst =? length keys)%nat eqn:E; [|discriminate]. apply Nat.eqb_eq in E.
  injection H as <-. set (rk := map (np_around 10) keys). set (L := combine rk cryst).
  assert (Lr : length rk = length keys) by apply map_length.
  assert (LL : length L = length cryst) by (unfold L; rewrite (combine_length rk cryst); lia).
  assert (RK : forall i, (i < length keys)%nat -> nth i rk 0 = np_around 10 (nth i keys 0)).
  { intros i Hi. unfold rk. rewrite (nth_indep _ 0 (np_around 10 0)) by (rewrite map_length; lia). apply map_nth. }
  split; [rewrite <- LL; apply argsort_perm|]. exists rk. split; [exact Lr|]. split; [|split].
  - intros i Hi. rewrite RK by easy. apply around_spec.
  - intros i i' Hi Hi' Heq. rewrite !RK by easy. now rewrite Heq.
  - intros i j Hij.
    destruct (argsort_stable lex4_leb L kv0 lex4_total lex4_trans i j ltac:(lia)) as [H1 H2].
    assert (P : forall m, nth m L kv0 = pair_at rk cryst m).
    { intros m. unfold L, kv0, pair_at. apply combine_nth. lia. }
    rewrite !P in H1, H2. apply lex4_iff in H1 as [H1|H1]; [now left|]. right. split; [exact H1|].
    apply H2. apply lex4_iff. right. now symmetry.
Qed.
Print Assumptions C48_sorted_permutation.
(** Two lists of different length are refused. *)
Theorem C48_lengths : forall cryst keys,
  (exists idx, sort_cryst_like_BGW cryst keys = Ok idx) <-> length cryst = length keys.
Proof.
  intros. unfold sort_cryst_like_BGW. destruct (length cryst =? length keys)%nat eqn:E.
  - apply Nat.eqb_eq in E. split; eauto.
  - apply Nat.eqb_neq in E. split; [intros [? [=]]|easy].
Qed.
Print Assumptions C48_lengths.

(** Vectors whose keys differ by more than 1e-10 are ordered by key alone. *)
Theorem C48_separated_keys : forall cryst keys idx i j,
  sort_cryst_like_BGW cryst keys = Ok idx -> (i < j < length cryst)%nat ->
  nth (nth i idx O) keys 0 <= nth (nth j idx O) keys 0 + / 10 ^ 10.
Proof.
  intros cryst keys idx i j H Hij.
  assert (E : length cryst = length keys) by (apply C48_lengths; eauto).
  destruct (C48_sorted_permutation _ _ _ H) as (HP & rk & L & HR & _ & HS).
  assert (HB : forall m, (m < length cryst)%nat -> (nth m idx O < length keys)%nat).
  { intros m Hm. assert (In (nth m idx O) idx) by (apply nth_In; rewrite (Permutation_length HP), seq_length; lia).
    apply (Permutation_in _ HP), in_seq in H0. lia. }
  pose proof (HR _ (HB i ltac:(lia))) as [_ R1]. pose proof (HR _ (HB j ltac:(lia))) as [_ R2].
  assert (nth (nth i idx O) rk 0 <= nth (nth j idx O) rk 0).
  { destruct (HS i j Hij) as [D | [D _]].
    - unfold dict_lt, pair_at in D. cbn [fst] in D. lra.
    - unfold pair_at in D. apply pair_equal_spec in D. lra. }
  apply Rabs_le_between in R1. apply Rabs_le_between in R2. lra.
Qed.
Print Assumptions C48_separated_keys.

(** The sorted list of vectors does not depend on the order in which distinct vectors
    (with their keys) are supplied. *)
Theorem C48_order_independent : forall cryst keys cryst' keys' idx idx',
  sort_cryst_like_BGW cryst keys = Ok idx -> sort_cryst_like_BGW cryst' keys' = Ok idx' ->
  Permutation (combine keys cryst) (combine keys' cryst') ->
  take (V 0 0 0) cryst idx = take (V 0 0 0) cryst' idx'.
Proof.
  intros cryst keys cryst' keys' idx idx' H H' HP. unfold sort_cryst_like_BGW in *.
  destruct (length cryst =? length keys)%nat eqn:E; [|discriminate]. apply Nat.eqb_eq in E.
  destruct (length cryst' =? length keys')%nat eqn:E'; [|discriminate]. apply Nat.eqb_eq in E'.
  injection H as <-. injection H' as <-.
  set (L := combine (map (np_around 10) keys) cryst). set (L' := combine (map (np_around 10) keys') cryst').
  assert (PL : Permutation L L').
  { assert (M : forall k c, combine (map (np_around 10) k) c = map (fun p : R * rvec => (np_around 10 (fst p), snd p)) (combine k c)).
    { induction k as [|a k IH]; intros [|b c]; cbn; try easy. now rewrite IH. }
    unfold L, L'. rewrite !M. apply Permutation_map, HP. }
  assert (T : forall k c, length k = length c -> take (V 0 0 0) c (argsort lex4_leb (combine k c)) = map snd (take kv0 (combine k c) (argsort lex4_leb (combine k c)))).
  { intros k c Hkc. unfold take. rewrite map_map. apply map_ext. intros i. unfold kv0. rewrite combine_nth by easy. reflexivity. }
  unfold L, L' in *. rewrite !T by (rewrite map_length; congruence). f_equal.
  apply sorted_unique with (R := fun a b => lex4_leb a b = true).
  - intros a b. rewrite !lex4_iff. intros [D|D] [D'|D']; try congruence. exfalso. apply (dict_lt_irr a). eapply dict_lt_trans; eauto.
  - apply take_argsort_sorted; [apply lex4_total|apply lex4_trans].
  - apply take_argsort_sorted; [apply lex4_total|apply lex4_trans].
  - etransitivity; [apply take_perm, argsort_perm|]. rewrite PL. symmetry. apply take_perm, argsort_perm.
Qed.
Print Assumptions C48_order_independent.

(** Keys that agree within the rounding unit are NOT always treated as equal: the rounding
    boundary separates them, and the order is then by key instead of by x, y, z. *)
Theorem C48_close_keys_are_ties_refuted : exists cryst keys idx,
  sort_cryst_like_BGW cryst keys = Ok idx /\
  Rabs (nth 0 keys 0 - nth 1 keys 0) < / 10 ^ 10 / 4 /\
  vx (nth 1 cryst (V 0 0 0)) < vx (nth 0 cryst (V 0 0 0)) /\ idx = [0%nat; 1%nat].
Proof.
  exists [V 1 0 0; V 0 0 0], [4 / 10 ^ 11; 6 / 10 ^ 11]. eexists. split; [reflexivity|].
  cbn [nth vx]. split; [rewrite Rabs_left; lra|]. split; [lra|].
  assert (R0 : np_around 10 (4 / 10 ^ 11) = 0).
  { unfold np_around. replace (rint (4 / 10 ^ 11 * 10 ^ 10)) with 0%Z; [lra|].
    unfold rint. replace (rfloor (4 / 10 ^ 11 * 10 ^ 10)) with 0%Z by (symmetry; apply rfloor_unique; lra).
    destruct (Rlt_dec _ _); [reflexivity|lra]. }
  assert (R1 : np_around 10 (6 / 10 ^ 11) = 1 / 10 ^ 10).
  { unfold np_around. replace (rint (6 / 10 ^ 11 * 10 ^ 10)) with 1%Z; [lra|].
    unfold rint. replace (rfloor (6 / 10 ^ 11 * 10 ^ 10)) with 0%Z by (symmetry; apply rfloor_unique; lra).
    destruct (Rlt_dec _ _); [lra|]. destruct (Rlt_dec _ _); [reflexivity|lra]. }
  cbn [length map combine]. rewrite R0, R1. unfold argsort, isort. cbn [length seq combine fold_right insert fst].
  assert (L : lex4_leb (0, V 1 0 0) (1 / 10 ^ 10, V 0 0 0) = true) by (apply lex4_iff; left; left; cbn [fst]; lra).
  rewrite L. reflexivity.
Qed.
Print Assumptions C48_close_keys_are_ties_refuted.

(** Reordering a square matrix takes entry (i, j) from position (indices[i], indices[j]). *)
Theorem C48_reorder_entries : forall (m : list (list C)) idx n,
  length m = n -> (forall r, In r m -> length r = n) ->
  length idx = n -> (forall i, In i idx -> (i < n)%nat) ->
  exists m', reorder_2d m idx = Ok m' /\ length m' = n /\ (forall r, In r m' -> length r = n) /\
  forall i j, (i < n)%nat -> (j < n)%nat ->
    nth j (nth i m' []) (RtoC 0) = nth (nth j idx O) (nth (nth i idx O) m []) (RtoC 0).
Proof.
  intros m idx n Hm Hr Hl Hb. eexists. split; [apply (reorder_ok (RtoC 0) m idx n); try easy; now split|].
  destruct (square_map (fun i j => ent (RtoC 0) m i j) idx n Hl) as [S1 S2]. split; [exact S1|]. split; [exact S2|].
  intros i j Hi Hj. apply (ent_map (RtoC 0) (fun i j => ent (RtoC 0) m i j) idx n i j Hl Hi Hj).
Qed.
Print Assumptions C48_reorder_entries.

(** Reordering by p and then by q is reordering by the composed index list; reordering by a
    permutation and then by its argsort restores the matrix. *)
Theorem C48_reorder_composes : forall (m : list (list C)) p q n,
  length m = n -> (forall r, In r m -> length r = n) ->
  length p = n -> (forall i, In i p -> (i < n)%nat) ->
  length q = n -> (forall i, In i q -> (i < n)%nat) ->
  exists m1, reorder_2d m p = Ok m1 /\ reorder_2d m1 q = reorder_2d m (take O p q).
Proof.
  intros m p q n Hm Hr Hp Hbp Hq Hbq. eexists. split; [apply (reorder_ok (RtoC 0) m p n); try easy; now split|].
  rewrite (reorder_ok (RtoC 0) _ q n) by (try easy; now apply square_map).
  rewrite (reorder_ok (RtoC 0) m (take O p q) n).
  - f_equal. unfold take. rewrite map_map. apply map_ext_in. intros i Hi. rewrite map_map. apply map_ext_in. intros j Hj.
    apply (ent_map (RtoC 0) (fun i j => ent (RtoC 0) m i j) p n i j Hp); auto.
  - now split.
  - now rewrite take_length.
  - intros i Hi. unfold take in Hi. apply in_map_iff in Hi as (k & <- & Hk). apply Hbp, nth_In. rewrite Hp. auto.
Qed.
Print Assumptions C48_reorder_composes.
Theorem C48_reorder_inverse : forall (m : list (list C)) p n,
  length m = n -> (forall r, In r m -> length r = n) -> Permutation p (seq 0 n) ->
  exists m1, reorder_2d m p = Ok m1 /\ reorder_2d m1 (argsort Nat.leb p) = Ok m.
Proof.
  intros m p n Hm Hr HP.
  assert (Lp : length p = n) by (rewrite (Permutation_length HP); apply seq_length).
  assert (Bp : forall i, In i p -> (i < n)%nat) by (intros i Hi; apply (Permutation_in _ HP), in_seq in Hi; lia).
  destruct (C48_reorder_composes m p (argsort Nat.leb p) n Hm Hr Lp Bp) as (m1 & E1 & E2).
  - now rewrite argsort_length.
  - intros i Hi. apply argsort_bound in Hi. lia.
  - exists m1. split; [exact E1|]. rewrite E2, (argsort_inverse p n HP).
    rewrite (reorder_ok (RtoC 0) m (seq 0 n) n); [|now split|apply seq_length|intros i Hi; apply in_seq in Hi; lia].
    f_equal. transitivity (map (fun k => nth k m []) (seq 0 (length m))); [|apply map_nth_seq]. rewrite Hm. apply map_ext_in. intros i Hi. apply in_seq in Hi.
    assert (Li : length (nth i m []) = n) by (apply Hr, nth_In; lia).
    unfold ent. rewrite <- Li. apply map_nth_seq.
Qed.
Print Assumptions C48_reorder_inverse.
(** It respects matrix products, hence inverses: reordering epsilon and inverting, or inverting
    and reordering, is the same thing. *)
Theorem C48_reorder_product : forall (a b c : list (list C)) p n,
  length a = n -> (forall r, In r a -> length r = n) ->
  length b = n -> (forall r, In r b -> length r = n) ->
  length c = n -> (forall r, In r c -> length r = n) -> Permutation p (seq 0 n) ->
  let e m i j := nth j (nth i m []) (RtoC 0) in
  mat_eq n (e c) (mprod n (e a) (e b)) ->
  exists a' b' c', reorder_2d a p = Ok a' /\ reorder_2d b p = Ok b' /\ reorder_2d c p = Ok c' /\
    mat_eq n (e c') (mprod n (e a') (e b')).
Proof.
  intros a b c p n Ha Ra Hb Rb Hc Rc HP e H.
  assert (Lp : length p = n) by (rewrite (Permutation_length HP); apply seq_length).
  assert (Bp : forall i, In i p -> (i < n)%nat) by (intros i Hi; apply (Permutation_in _ HP), in_seq in Hi; lia).
  assert (Bn : forall i, (i < n)%nat -> (nth i p O < n)%nat) by (intros i Hi; apply Bp, nth_In; lia).
  assert (Np : NoDup p) by (eapply Permutation_NoDup; [symmetry; exact HP|apply seq_NoDup]).
  destruct (C48_reorder_entries a p n Ha Ra Lp Bp) as (a' & Ea & _ & _ & Xa).
  destruct (C48_reorder_entries b p n Hb Rb Lp Bp) as (b' & Eb & _ & _ & Xb).
  destruct (C48_reorder_entries c p n Hc Rc Lp Bp) as (c' & Ec & _ & _ & Xc).
  exists a', b', c'. repeat split; try easy. intros i j Hi Hj. unfold e at 1. rewrite Xc by easy.
  specialize (H (nth i p O) (nth j p O) (Bn i Hi) (Bn j Hj)). unfold e at 1 in H. rewrite H.
  unfold mprod. symmetry. unfold e.
  erewrite csum_ext; [|intros k Hk; rewrite Xa, Xb by easy; reflexivity].
  apply (csum_perm n (fun k => nth k (nth (nth i p O) a []) (RtoC 0) * nth (nth j p O) (nth k b []) (RtoC 0))%C (fun k => nth k p O)).
  - exact Bn.
  - intros x y Hx Hy E. apply (proj1 (NoDup_nth p O) Np); [lia|lia|exact E].
Qed.
Print Assumptions C48_reorder_product.

Lemma seq_err_first {A} (f : nat -> res A) idx i e :
  (forall j x, In j idx -> f j = Err x -> x = e) -> In i idx -> f i = Err e -> sequence (map f idx) = Err e.
Proof.
  induction idx as [|j t IH]; intros U Hi He; [destruct Hi|]. cbn.
  destruct (f j) as [a|x] eqn:E; cbn [bind].
  - destruct Hi as [->|Hi]; [congruence|]. rewrite IH; [reflexivity| |exact Hi|exact He]. intros k x Hk. apply U. now right.
  - f_equal. apply (U j x); [now left|exact E].
Qed.
(** A matrix of another size (NumPy repeats sizes equal to one) is refused with IndexError, and
    so is a position that the square matrix does not have. *)
Theorem C48_reorder_refuses : forall (m : list (list C)) idx,
  (length m <> length idx -> length m <> 1%nat -> length idx <> 1%nat -> reorder_2d m idx = Err IndexError) /\
  (forall i, length m = length idx -> (forall r, In r m -> length r = length m) ->
     In i idx -> (length m <= i)%nat -> reorder_2d m idx = Err IndexError).
Proof.
  intros m idx. split.
  - intros H _ _. unfold reorder_2d, take_along_1, tile. rewrite map_length.
    destruct (Nat.eqb_spec (length m) (length idx)); [contradiction|reflexivity].
  - intros i Hl Hr Hi Hb. unfold reorder_2d, take_along_1, tile. rewrite map_length, Hl, Nat.eqb_refl.
    rewrite combine_const by exact Hl. rewrite map_map. cbn [fst snd].
    destruct m as [|r m']; [cbn in Hl; destruct idx; [destruct Hi|discriminate]|]. cbn [map sequence].
    rewrite (seq_err_first (item r) idx i IndexError); [reflexivity| |exact Hi|].
    + intros j x _. unfold item. destruct (nth_error r j); [discriminate|congruence].
    + unfold item. destruct (nth_error r i) eqn:E; [|reflexivity].
      assert (nth_error r i <> None) as Hx by congruence. apply nth_error_Some in Hx.
      rewrite (Hr r (or_introl eq_refl)) in Hx. lia.
Qed.
Print Assumptions C48_reorder_refuses.
(** Non-vacuity: four vectors in two shells, given out of order, with a tie broken by x. *)
Example C48_instance : sort_cryst_like_BGW [V 1 0 0; V 0 0 0; V (-1) 0 0; V 0 0 1] [1; 0; 1; 2] = Ok [1; 2; 0; 3]%nat.
Proof.
  unfold sort_cryst_like_BGW. cbn [length Nat.eqb map combine].
  assert (A : forall z : Z, np_around 10 (IZR z) = IZR z).
  { intros z. unfold np_around. replace (rint (IZR z * 10 ^ 10)) with (z * 10 ^ 10)%Z.
    - rewrite mult_IZR. replace (IZR (10 ^ 10)) with (10 ^ 10) by (rewrite pow_IZR; reflexivity). field; apply pow_nonzero; lra.
    - replace (IZR z * 10 ^ 10) with (IZR (z * 10 ^ 10)).
      + unfold rint. rewrite (rfloor_unique _ (z * 10 ^ 10)) by lra. destruct (Rlt_dec _ _); [reflexivity|lra].
      + rewrite mult_IZR. f_equal. rewrite pow_IZR. reflexivity. }
  rewrite (A 1%Z), (A 0%Z), (A 2%Z). f_equal. unfold argsort, isort. cbn [length seq combine fold_right insert fst].
  assert (T : forall a b, dict_lt a b -> lex4_leb a b = true) by (intros; apply lex4_iff; now left).
  assert (F : forall a b, dict_lt b a -> lex4_leb a b = false).
  { intros a b H. apply not_true_iff_false. rewrite lex4_iff. intros [G|G]; [apply (dict_lt_irr a); eapply dict_lt_trans; eauto|subst; now apply (dict_lt_irr b)]. }
  rewrite (T (1, V (-1) 0 0) (2, V 0 0 1)) by (left; cbn [fst]; lra). cbn [insert fst].
  rewrite (T (0, V 0 0 0) (1, V (-1) 0 0)) by (left; cbn [fst]; lra). cbn [insert fst].
  rewrite (F (1, V 1 0 0) (0, V 0 0 0)) by (left; cbn [fst]; lra). cbn [insert fst].
  rewrite (F (1, V 1 0 0) (1, V (-1) 0 0)) by (right; cbn [fst snd vx]; split; [lra|left; lra]). cbn [insert fst].
  rewrite (T (1, V 1 0 0) (2, V 0 0 1)) by (left; cbn [fst]; lra). reflexivity.
Qed.

(** ================= C52: umklapp ================= *)
(** The shift is an integer and brings every real number into [-5e-6, 1 - 5e-6]. *)
Theorem C52_folded_range : forall x : R, exists u : Z,
  umklapp1 x = u /\ - (5 / 10 ^ 6) <= x + IZR u <= 1 - 5 / 10 ^ 6.
Proof. intros x. exists (umklapp1 x). split; [easy|]. pose proof (fold_range x). lra. Qed.
Print Assumptions C52_folded_range.
(** When an integer shift brings x into [0, 1 - 5e-6), that shift is used. *)
Theorem C52_folded_exact : forall (x : R) (z : Z),
  0 <= x + IZR z < 1 - 5 / 10 ^ 6 -> umklapp1 x = z.
Proof. intros x z H. apply fold_unique. lra. Qed.
Print Assumptions C52_folded_exact.
(** The half-open cell [0, 1) itself is not guaranteed: a value just below zero stays negative. *)
Theorem C52_unit_cell_refuted : exists x : R, ~ (0 <= x + IZR (umklapp1 x) < 1).
Proof.
  exists (- / 10 ^ 6). unfold umklapp1, np_around.
  replace (rint (- / 10 ^ 6 * 10 ^ 5)) with 0%Z.
  - replace (0 / 10 ^ 5) with 0 by lra. rewrite (rfloor_unique 0 0) by lra. cbn. lra.
  - unfold rint. rewrite (rfloor_unique _ (-1)) by lra.
    destruct (Rlt_dec _ _); [lra|]. destruct (Rlt_dec _ _); [reflexivity|lra].
Qed.
Print Assumptions C52_unit_cell_refuted.

(** The vector k+q used by the transition search differs from k + q by the integer umklapp vector. *)
Theorem C52_shift_is_a_lattice_vector : forall E k,
  l_kplusq E k = vadd (vadd k (if e_isq0 E then V 0 0 0 else e_q E)) (zvec (umklapp E k)).
Proof.
  intros E [kx ky kz]. unfold l_kplusq, umklapp, kplusq_raw, vadd, zvec.
  destruct (e_q E) as [qx qy qz]. destruct (e_isq0 E); cbn [vx vy vz]; f_equal; ring.
Qed.
Print Assumptions C52_shift_is_a_lattice_vector.

(** A regular mesh in the unit cell: the point (a, b, c) of an n1 x n2 x n3 mesh shifted by s. *)
Definition mesh_pt (n1 n2 n3 : Z) (s : rvec) (a b c : Z) : rvec :=
  V ((IZR a + vx s) / IZR n1) ((IZR b + vy s) / IZR n2) ((IZR c + vz s) / IZR n3).
Lemma fold_mesh n p s : (0 < n <= 40000)%Z -> 0 <= s <= 1 / 2 ->
  umklapp1 ((IZR p + s) / IZR n) = (- (p / n))%Z /\
  (IZR p + s) / IZR n + IZR (- (p / n)) = (IZR (p mod n) + s) / IZR n /\
  0 <= (IZR (p mod n) + s) / IZR n < 1 - 5 / 10 ^ 6.
Proof.
  intros Hn Hs. pose proof (Z.div_mod p n ltac:(lia)) as D. pose proof (Z.mod_pos_bound p n ltac:(lia)) as B.
  set (q := (p / n)%Z) in *. set (r := (p mod n)%Z) in *.
  assert (Pn : 0 < IZR n) by (apply IZR_lt; lia). assert (Pn2 : IZR n <= 40000) by (apply IZR_le; lia).
  assert (E : (IZR p + s) / IZR n + IZR (- q) = (IZR r + s) / IZR n).
  { rewrite D, plus_IZR, mult_IZR, opp_IZR. field. lra. }
  assert (R0 : 0 <= IZR r) by (apply IZR_le; lia). assert (R1 : IZR r <= IZR n - 1) by (rewrite <- minus_IZR; apply IZR_le; lia).
  assert (L : 0 <= (IZR r + s) / IZR n) by (apply Rdiv_le_0_compat; lra).
  assert (U : (IZR r + s) / IZR n < 1 - 5 / 10 ^ 6).
  { apply Rmult_lt_reg_r with (IZR n); [easy|]. unfold Rdiv. rewrite Rmult_assoc, Rinv_l, Rmult_1_r by lra. nra. }
  split; [|split; [exact E|split; [exact L|exact U]]].
  apply C52_folded_exact. rewrite E. split; [exact L|exact U].
Qed.
Lemma close_mesh n a b s : (0 < n <= 40000)%Z -> (0 <= a < n)%Z -> (0 <= b < n)%Z -> 0 <= s <= 1 / 2 ->
  isclose ((IZR a + s) / IZR n) ((IZR b + s) / IZR n) = true -> a = b.
Proof.
  intros Hn Ha Hb Hs H. apply isclose_iff in H.
  assert (Pn : 0 < IZR n) by (apply IZR_lt; lia). assert (Pn2 : IZR n <= 40000) by (apply IZR_le; lia).
  destruct (fold_mesh n b s Hn Hs) as (_ & _ & Hbb). rewrite Z.mod_small in Hbb by lia.
  rewrite (Rabs_pos_eq ((IZR b + s) / IZR n)) in H by lra.
  replace ((IZR a + s) / IZR n - (IZR b + s) / IZR n) with ((IZR a - IZR b) * / IZR n) in H by (field; lra).
  rewrite Rabs_mult, (Rabs_pos_eq (/ IZR n)) in H by (left; now apply Rinv_0_lt_compat).
  assert (X : Rabs (IZR a - IZR b) < 1).
  { apply Rmult_lt_reg_r with (/ IZR n); [now apply Rinv_0_lt_compat|]. eapply Rle_lt_trans; [exact H|].
    assert (/ 40000 <= / IZR n) by (apply Rinv_le_contravar; lra). lra. }
  rewrite <- minus_IZR, <- abs_IZR in X. apply (lt_IZR _ 1) in X. lia.
Qed.
(** On a full mesh in the unit cell (up to 40000 points per axis, shift at most half a step)
    and a q on that mesh, every k has exactly one partner in the list, and it is k + q modulo
    integers. *)
Theorem C52_unique_partner : forall E n1 n2 n3 s p1 p2 p3,
  (0 < n1 <= 40000)%Z -> (0 < n2 <= 40000)%Z -> (0 < n3 <= 40000)%Z ->
  0 <= vx s <= 1 / 2 -> 0 <= vy s <= 1 / 2 -> 0 <= vz s <= 1 / 2 ->
  let rng a b c := (0 <= a < n1)%Z /\ (0 <= b < n2)%Z /\ (0 <= c < n3)%Z in
  (forall i, (i < length (e_kpts E))%nat -> exists a b c, rng a b c /\ kp_cryst (kp E i) = mesh_pt n1 n2 n3 s a b c) ->
  (forall a b c, rng a b c -> exists i, (i < length (e_kpts E))%nat /\ kp_cryst (kp E i) = mesh_pt n1 n2 n3 s a b c /\
     forall j, (j < length (e_kpts E))%nat -> kp_cryst (kp E j) = mesh_pt n1 n2 n3 s a b c -> j = i) ->
  e_isq0 E = false -> e_q E = V (IZR p1 / IZR n1) (IZR p2 / IZR n2) (IZR p3 / IZR n3) ->
  forall kc, (kc < length (e_kpts E))%nat ->
  exists kv, (kv < length (e_kpts E))%nat /\
    (exists t1 t2 t3 : Z, kp_cryst (kp E kv) = vadd (vadd (kp_cryst (kp E kc)) (e_q E)) (V (IZR t1) (IZR t2) (IZR t3))) /\
    forall st, In st (matches E kc) <-> In st (l_i_v E) /\ fst st = kv.
Proof.
  intros E n1 n2 n3 s p1 p2 p3 N1 N2 N3 S1 S2 S3 rng Hall Hex Hq0 Hq kc Hkc.
  destruct (Hall kc Hkc) as (a & b & c & (Ra & Rb & Rc) & Ek).
  assert (EK : l_kplusq E (kp_cryst (kp E kc)) = mesh_pt n1 n2 n3 s ((a + p1) mod n1) ((b + p2) mod n2) ((c + p3) mod n3)
     /\ umklapp E (kp_cryst (kp E kc)) = (- ((a + p1) / n1), - ((b + p2) / n2), - ((c + p3) / n3))%Z).
  { unfold l_kplusq, umklapp, kplusq_raw. rewrite Hq0, Hq, Ek. cbn [vx vy vz vadd mesh_pt].
    assert (X : forall n a p t, (0 < n)%Z -> (IZR a + t) / IZR n + IZR p / IZR n = (IZR (a + p) + t) / IZR n).
    { intros n x p t Hn. rewrite plus_IZR. field. apply not_0_IZR. lia. }
    rewrite !X by lia.
    destruct (fold_mesh n1 (a + p1) (vx s) N1 S1) as (U1 & F1 & _).
    destruct (fold_mesh n2 (b + p2) (vy s) N2 S2) as (U2 & F2 & _).
    destruct (fold_mesh n3 (c + p3) (vz s) N3 S3) as (U3 & F3 & _).
    rewrite U1, U2, U3, F1, F2, F3. split; reflexivity. }
  destruct EK as [EK EU].
  destruct (Hex ((a + p1) mod n1)%Z ((b + p2) mod n2)%Z ((c + p3) mod n3)%Z) as (kv & Hkv & Ekv & Hu).
  { repeat split; apply Z.mod_pos_bound; lia. }
  exists kv. split; [exact Hkv|]. split.
  - exists (- ((a + p1) / n1))%Z, (- ((b + p2) / n2))%Z, (- ((c + p3) / n3))%Z.
    rewrite Ekv, <- EK, C52_shift_is_a_lattice_vector, Hq0, EU. reflexivity.
  - intros [k' b']. unfold matches. rewrite filter_In. cbn [fst]. split; intros [H1 H2]; (split; [exact H1|]).
    + apply in_states in H1 as (Hk' & _). destruct (Hall k' Hk') as (a' & b'' & c' & (R1 & R2 & R3) & Ek').
      apply Hu; [exact Hk'|]. rewrite Ek'. unfold isclose3 in H2. rewrite EK, Ek' in H2.
      apply andb_true_iff in H2 as [H2 I3]. apply andb_true_iff in H2 as [I1 I2]. cbn [mesh_pt vx vy vz] in I1, I2, I3.
      apply close_mesh in I1; [|easy|easy|apply Z.mod_pos_bound; lia|easy].
      apply close_mesh in I2; [|easy|easy|apply Z.mod_pos_bound; lia|easy].
      apply close_mesh in I3; [|easy|easy|apply Z.mod_pos_bound; lia|easy]. now subst.
    + subst k'. rewrite EK, Ekv. unfold isclose3. now rewrite !isclose_refl.
Qed.
Print Assumptions C52_unique_partner.

(** Lists whose points are not in [0, 1): transitions are dropped without any error.  Here the
    list represents every point of a 4-point mesh modulo integers, all its bands are present,
    and yet k = 1/2 has no partner for q = 1/4. *)
Definition occ2 : wfn := MkWfn [1; 0] [0; 1] (MkGSpace (1, 1, 1)%Z [(0, 0, 0)%Z] [0%Z] [0%nat] true) [[RtoC 1]; [RtoC 1]].
Definition wrapped : epsilon := MkEps 1 1 1
  (map (fun x => MkKpt (V x 0 0) occ2 occ2) [0; 1 / 4; 1 / 2; - (1 / 4)]) 2 (V (1 / 4) 0 0) false [(0, 0, 0)%Z] 1.
Theorem C52_wrapped_list_refuted : exists E kc,
  (kc < length (e_kpts E))%nat /\ e_isq0 E = false /\
  (exists kv t, (kv < length (e_kpts E))%nat /\ In (kv, 0%nat) (l_i_v E) /\
     kp_cryst (kp E kv) = vadd (vadd (kp_cryst (kp E kc)) (e_q E)) (V (IZR t) 0 0)) /\
  matches E kc = [].
Proof.
  exists wrapped, 2%nat. split; [cbn; lia|]. split; [easy|]. split.
  - exists 3%nat, (-1)%Z. split; [cbn; lia|]. split.
    + apply in_states. unfold occ_of. cbn. repeat split; try lia.
    + change (V (- (1 / 4)) 0 0 = vadd (vadd (V (1 / 2) 0 0) (V (1 / 4) 0 0)) (V (-1) 0 0)).
      unfold vadd. cbn [vx vy vz]. f_equal; lra.
  - unfold matches. set (L := l_i_v wrapped).
    assert (HL : forall st, In st L -> (fst st < 4)%nat) by (intros [k b] H; apply in_states in H as (H & _); exact H).
    assert (EK : l_kplusq wrapped (kp_cryst (kp wrapped 2)) = V (3 / 4) 0 0).
    { change (l_kplusq wrapped (V (1 / 2) 0 0) = V (3 / 4) 0 0).
      unfold l_kplusq, umklapp, kplusq_raw, wrapped, vadd. cbn [e_isq0 e_q vx vy vz].
      rewrite (C52_folded_exact (1 / 2 + 1 / 4) 0) by lra. rewrite (C52_folded_exact (0 + 0) 0) by lra. f_equal; lra. }
    rewrite EK. induction L as [|[k b] L IH]; [easy|]. cbn [filter fst].
    assert (Hk : (k < 4)%nat) by apply (HL (k, b) (or_introl eq_refl)).
    replace (isclose3 (kp_cryst (kp wrapped k)) (V (3 / 4) 0 0)) with false; [apply IH; intros; apply HL; now right|].
    symmetry. apply not_true_iff_false. unfold isclose3. rewrite !andb_true_iff. intros [[H _] _].
    apply isclose_iff in H. cbn [vx] in H. rewrite (Rabs_pos_eq (3 / 4)) in H by lra. apply Rabs_le_between in H.
    destruct k as [|[|[|[|k]]]]; [cbn in H; lra ..|lia].
Qed.
Print Assumptions C52_wrapped_list_refuted.

Lemma ok_inj {A} (a b : A) : Ok a = Ok b -> a = b. Proof. now intros [=]. Qed.
Lemma some_inj {A} (a b : A) : Some a = Some b -> a = b. Proof. now intros [=]. Qed.
(** Momentum conservation.  The element of a transition is, up to the energy denominator, the sum of
    conj(c(G1)) v(G2) over exactly those pairs of plane waves for which (k' + G2) - (k + G1) is the
    transfer q + G, modulo vectors the FFT grid cannot resolve; k' = k + q + umklapp is the
    folded vector to which the occupied k-point was matched.  So the shift of the
    G-vectors undoes the folding. *)
Theorem C52_momentum_conserved : forall E kc bc kv bv M gsc gsv,
  let wc := kp_wfn (kp E kc) in let wv := if e_isq0 E then kp_wfnq (kp E kv) else kp_wfn (kp E kv) in
  let cc := nth bc (w_evc wc) [] in let cv := nth bv (w_evc wv) [] in
  gspace_base (e_shape E) gsc = Ok (w_gk wc) -> gspace_base (e_shape E) gsv = Ok (w_gk wv) ->
  length cc = length (gs_cryst (w_gk wc)) -> length cv = length (gs_cryst (w_gk wv)) ->
  element E ((kc, bc), (kv, bv)) = Ok (Some M) ->
  let gap := nth bc (w_evl wc) 0 - nth bv (w_evl wv) 0 in
  let k := kp_cryst (kp E kc) in
  let G1 i := nth i (gs_cryst (w_gk wc)) (0, 0, 0)%Z in
  let G2 j := nth j (gs_cryst (w_gk wv)) (0, 0, 0)%Z in
  let G g := nth g (e_gq E) (0, 0, 0)%Z in
  0 < gap /\ length M = length (e_gq E) /\
  forall g, (g < length (e_gq E))%nat ->
  exists sel : nat -> nat -> bool,
    (forall i j, sel i j = true <-> exists t1 t2 t3 : Z,
        vsub (vadd (l_kplusq E k) (zvec (G2 j))) (vadd k (zvec (G1 i)))
        = vadd (vadd (if e_isq0 E then V 0 0 0 else e_q E) (zvec (G g)))
               (V (IZR t1 * INR (e_nx E)) (IZR t2 * INR (e_ny E)) (IZR t3 * INR (e_nz E)))) /\
    (RtoC (sqrt gap) * nth g M (RtoC 0)
     = csum (length cc) (fun i => csum (length cv) (fun j =>
         if sel i j then Cconj (nth i cc (RtoC 0)) * nth j cv (RtoC 0) else RtoC 0)))%C.
Proof.
  intros E kc bc kv bv M gsc gsv wc wv cc cv Hc Hv Lc Lv HE gap k G1 G2 G.
  unfold element in HE. destruct (driver_idx E kc) as [idx|e] eqn:HD; [|discriminate]. cbn [bind] in HE.
  apply ok_inj in HE. change (wfn_v E kv) with wv in HE. fold wc in HE. fold gap in HE. destruct (rleb gap 0) eqn:Hg; [discriminate|]. apply some_inj in HE. subst M.
  assert (Pg : 0 < gap) by (apply not_true_iff_false in Hg; rewrite rleb_iff in Hg; lra).
  split; [exact Pg|].
  unfold driver_idx in HD. fold k in HD. set (u := umklapp E k) in *. set (gs := map (fun g => zsub3 g u) (e_gq E)) in *.
  destruct (cryst2idxgrid (e_shape E) gs) as [idx0|] eqn:HI; [|discriminate]. cbn [bind] in HD.
  destruct (check_g_idxgrid (e_shape E) idx0); [|discriminate]. cbn [bind] in HD. injection HD as <-.
  change (e_shape E) with (zshape (e_nx E) (e_ny E) (e_nz E)) in *.
  destruct (driver_inv _ _ _ _ _ HI) as (P1 & P2 & P3 & -> & HG).
  assert (FF : forall idx c, snd (full_call (fft E idx) c) = full_fun (e_nx E) (e_ny E) (e_nz E) idx false c).
  { intros idx c. unfold fft. apply (full_stateless (e_nx E) (e_ny E) (e_nz E) idx false _ []). }
  assert (Fg : forall idx v, snd (full_g2r (fft E idx) v) = full_fun (e_nx E) (e_ny E) (e_nz E) idx false (G2R v)) by (intros; apply (FF idx (G2R v))).
  assert (Fr : forall idx v, snd (full_r2g (fft E idx) v) = full_fun (e_nx E) (e_ny E) (e_nz E) idx false (R2G v)) by (intros; apply (FF idx (R2G v))).
  unfold phi. rewrite Fr, !Fg. fold cc cv.
  split.
  { rewrite map_length. cbn [full_fun]. unfold taken. rewrite !map_length. unfold gs. apply map_length. }
  intros g Hgl. assert (Lg : length gs = length (e_gq E)) by apply map_length.
  set (N := (e_nx E * e_ny E * e_nz E)%nat). assert (PN : (0 < N)%nat) by (unfold N; nia).
  assert (PNR : INR N <> 0) by (apply not_0_INR; lia).
  exists (fun i j => zero3b (e_nx E) (e_ny E) (e_nz E) (zadd3 (zadd3 (G2 j) (zneg3 (G1 i))) (zneg3 (nth g gs (0, 0, 0)%Z)))).
  split.
  - intros i j. rewrite zero3b_iff by assumption.
    replace (nth g gs (0, 0, 0)%Z) with (zsub3 (G g) u).
    2:{ unfold gs. symmetry. rewrite (nth_map_lt (fun g => zsub3 g u) (e_gq E) g (0, 0, 0)%Z) by exact Hgl. reflexivity. }
    rewrite C52_shift_is_a_lattice_vector. fold u.
    destruct (G2 j) as [[x1 x2] x3], (G1 i) as [[y1 y2] y3], (G g) as [[z1 z2] z3], u as [[u1 u2] u3].
    cbn [zadd3 zneg3 zsub3 zvec]. set (tr := if e_isq0 E then V 0 0 0 else e_q E).
    unfold vsub, vadd. cbn [vx vy vz]. rewrite !INR_IZR_INZ.
    split; intros (t1 & t2 & t3 & H); exists t1, t2, t3.
    + injection H as H1 H2 H3. apply (f_equal IZR) in H1, H2, H3.
      rewrite ?mult_IZR, ?plus_IZR, ?opp_IZR, ?minus_IZR in *. f_equal; lra.
    + injection H as H1 H2 H3. rewrite <- ?mult_IZR in *.
      assert (Q : forall a b : Z, IZR a = IZR b -> a = b) by (intros; now apply eq_IZR).
      f_equal; [f_equal|]; apply Q; rewrite ?plus_IZR, ?opp_IZR, ?minus_IZR in *; lra.
  - rewrite (nth_map_lt _ _ g (RtoC 0)).
    + rewrite (overlap_sum _ _ _ gsc gsv (w_gk wc) (w_gk wv) cc cv gs g)
        by (assumption || exact (eq_ind_r (fun m => (g < m)%nat) Hgl Lg)).
      fold N. set (S_ := csum (length cc) _).
      rewrite RtoC_inv, RtoC_mult by (apply Rmult_integral_contrapositive; split; [apply Rgt_not_eq, sqrt_lt_R0; lra|exact PNR]).
      change (csum (length cc) (fun i => csum (length cv) (fun j => if zero3b (e_nx E) (e_ny E) (e_nz E) (zadd3 (zadd3 (G2 j) (zneg3 (G1 i))) (zneg3 (nth g gs (0, 0, 0)%Z))) then Cconj (nth i cc (RtoC 0)) * nth j cv (RtoC 0) else RtoC 0)))%C with S_.
      field. split; [|].
      * intros HH. apply PNR. now apply (f_equal fst) in HH.
      * intros HH. apply (f_equal fst) in HH. cbn in HH. assert (0 < sqrt gap) by (apply sqrt_lt_R0; lra). lra.
    + cbn [full_fun]. unfold taken. rewrite !map_length. exact (eq_ind_r (fun m => (g < m)%nat) Hgl Lg).
Qed.
Print Assumptions C52_momentum_conserved.

(** ================= C47: polarizability and dielectric matrix ================= *)
Lemma nv_kpts E nv : n_v_max E = Ok nv -> (0 < length (e_kpts E))%nat.
Proof.
  unfold n_v_max, l_i_v, states_with. destruct (e_kpts E); cbn; [discriminate|lia].
Qed.
Lemma chi_rows E chi : 0 < e_cellvol E -> (chi_full E = Ok (Some chi) \/ chi_active E = Ok (Some chi)) ->
  exists c rows, 0 < c /\ forall l m, chi l m = chi_of c rows l m.
Proof.
  intros Hv H. exists (4 / (e_cellvol E * INR (length (e_kpts E)))).
  assert (A : (0 < length (e_kpts E))%nat -> 0 < e_cellvol E * INR (length (e_kpts E))).
  { intros X. apply Rmult_lt_0_compat; [easy|]. now apply lt_0_INR. }
  destruct H as [H|H].
  - unfold chi_full in H. destruct (n_v_max E) as [nv|] eqn:Hn; [|discriminate]. apply nv_kpts in Hn. apply A in Hn. cbn [bind] in H.
    destruct (n_c_beg E) as [cb|]; [|discriminate]. cbn [bind] in H.
    destruct (elements_array E) as [M|]; [|discriminate]. cbn [bind] in H. apply ok_inj in H.
    apply polarizability_chi in H as (rows & _ & H); [|lra]. exists rows. split; [apply Rdiv_lt_0_compat; lra|exact H].
  - unfold chi_active in H. destruct (elements_yielding E) as [Ms|] eqn:HM; [|discriminate]. cbn [bind] in H. apply ok_inj in H.
    unfold elements_yielding in HM. destruct (n_v_max E) as [nv|] eqn:Hn; [|discriminate]. apply nv_kpts in Hn. apply A in Hn.
    apply active_chi in H as (rows & _ & H); [|lra]. exists rows. split; [apply Rdiv_lt_0_compat; lra|exact H].
Qed.
(** Whatever the wavefunctions, k-points and G-vectors, a computed polarizability is Hermitian ... *)
Theorem C47_hermitian : forall E chi n, 0 < e_cellvol E ->
  (chi_full E = Ok (Some chi) \/ chi_active E = Ok (Some chi)) -> hermitian n chi.
Proof.
  intros E chi n Hv H. destruct (chi_rows E chi Hv H) as (c & rows & _ & X). intros i j Hi Hj. rewrite !X. now apply (chi_hermitian n).
Qed.
Print Assumptions C47_hermitian.
(** ... and negative semi-definite. *)
Theorem C47_negative_semidefinite : forall E chi n, 0 < e_cellvol E ->
  (chi_full E = Ok (Some chi) \/ chi_active E = Ok (Some chi)) ->
  forall x, exists t, t <= 0 /\ quad n chi x = RtoC t.
Proof.
  intros E chi n Hv H x. destruct (chi_rows E chi Hv H) as (c & rows & Hc & X).
  destruct (chi_quad_real n c rows x) as (t & Ht & Et); [lra|]. exists t. split; [easy|]. rewrite <- Et.
  unfold quad. apply csum_ext. intros i _. apply csum_ext. intros j _. now rewrite X.
Qed.
Print Assumptions C47_negative_semidefinite.

(** The two routes: the array of matrix elements filled by assignment, and the running sum. *)
Definition same_outcome (a b : res (option cmat)) : Prop :=
  match a, b with
  | Ok (Some x), Ok (Some y) => forall l m, x l m = y l m
  | Ok None, Ok None => True
  | Err e, Err e' => e = e'
  | _, _ => False
  end.
Definition separated (E : epsilon) : Prop := forall i j, (i < length (e_kpts E))%nat -> (j < length (e_kpts E))%nat -> i <> j ->
  let a := kp_cryst (kp E i) in let b := kp_cryst (kp E j) in
  4 / 10 ^ 5 < Rabs (vx a - vx b) \/ 4 / 10 ^ 5 < Rabs (vy a - vy b) \/ 4 / 10 ^ 5 < Rabs (vz a - vz b).
Lemma close_both a b t : isclose a t = true -> isclose b t = true -> - (5 / 10 ^ 6) <= t <= 1 - 5 / 10 ^ 6 -> Rabs (a - b) <= 4 / 10 ^ 5.
Proof.
  intros H1 H2 Ht. apply isclose_iff in H1, H2. assert (Rabs t <= 1) by (apply Rabs_le_between; lra).
  apply Rabs_le_between in H1, H2. apply Rabs_le_between. lra.
Qed.
Lemma one_match E kc v1 v2 : separated E -> In v1 (matches E kc) -> In v2 (matches E kc) -> fst v1 = fst v2.
Proof.
  intros HS H1 H2. unfold matches in *. apply filter_In in H1 as [I1 C1], H2 as [I2 C2].
  destruct v1 as [k1 b1], v2 as [k2 b2]. cbn [fst] in *. apply in_states in I1 as (I1 & _), I2 as (I2 & _).
  destruct (Nat.eq_dec k1 k2) as [|N]; [easy|]. exfalso. specialize (HS k1 k2 I1 I2 N).
  unfold isclose3 in *. rewrite !andb_true_iff in C1, C2. destruct C1 as [[C1 C1'] C1''], C2 as [[C2 C2'] C2''].
  set (t := l_kplusq E (kp_cryst (kp E kc))) in *.
  assert (T : (- (5 / 10 ^ 6) <= vx t <= 1 - 5 / 10 ^ 6) /\ (- (5 / 10 ^ 6) <= vy t <= 1 - 5 / 10 ^ 6) /\ (- (5 / 10 ^ 6) <= vz t <= 1 - 5 / 10 ^ 6)).
  { unfold t, l_kplusq, umklapp. cbn [vx vy vz].
    destruct (C52_folded_range (vx (kplusq_raw E (kp_cryst (kp E kc))))) as (u1 & <- & R1).
    destruct (C52_folded_range (vy (kplusq_raw E (kp_cryst (kp E kc))))) as (u2 & <- & R2).
    destruct (C52_folded_range (vz (kplusq_raw E (kp_cryst (kp E kc))))) as (u3 & <- & R3). auto. }
  destruct T as (T1 & T2 & T3).
  pose proof (close_both _ _ _ C1 C2 T1). pose proof (close_both _ _ _ C1' C2' T2). pose proof (close_both _ _ _ C1'' C2'' T3). lra.
Qed.
Lemma fold_left_map_in {A B D} (f : A -> D -> A) (g : B -> D) l a : fold_left f (map g l) a = fold_left (fun a b => f a (g b)) l a.
Proof. revert a; induction l; intros; cbn; auto. Qed.
(** When distinct k-points differ by more than 4e-5 in some coordinate, both routes give the same
    matrix, both give nan, or both raise the same error. *)
Theorem C47_routes_agree : forall E, 0 < e_cellvol E -> separated E -> same_outcome (chi_full E) (chi_active E).
Proof.
  intros E Hv HS. unfold chi_full, chi_active, elements_array, elements_yielding.
  destruct (n_v_max E) as [nv|e] eqn:Hnv; [|cbn; easy]. destruct (n_c_beg E) as [cb|e] eqn:Hcb; [|cbn; easy]. cbn [bind].
  destruct (sequence (map (fun c => driver_idx E (fst c)) (l_i_c E))) as [dr|e]; [|cbn; easy]. cbn [bind].
  destruct (sequence (map (element E) (transitions E))) as [vals|e] eqn:Hvals; [|cbn; easy]. cbn [bind].
  assert (PV : 0 < e_cellvol E * INR (length (e_kpts E))) by (apply Rmult_lt_0_compat; [easy|]; apply lt_0_INR; now apply nv_kpts in Hnv).
  apply sequence_length in Hvals. rewrite map_length in Hvals.
  set (key := fun t : (nat * nat) * (nat * nat) => (fst (fst t), snd (fst t) - cb, snd (snd t))%nat).
  set (L := map (fun p : ((nat * nat) * (nat * nat)) * option (list C) => (key (fst p), snd p)) (combine (transitions E) vals)).
  set (M0 := (fun _ _ _ => Some (map (fun _ => RtoC 0) (e_gq E))) : marray).
  assert (EM : fold_left (fun M p => let '((kc, bc), (kv, bv)) := fst p in massign M kc (bc - cb) bv (snd p)) (combine (transitions E) vals) M0 = fold_left assign3 L M0).
  { unfold L. rewrite fold_left_map_in. clear. generalize (combine (transitions E) vals) as l. generalize M0 as M. intros M l. revert M.
    induction l as [|[[[a b] [c d]] o] l IH]; intros M; [reflexivity|]. cbn [fold_left]. rewrite IH. reflexivity. }
  change (same_outcome (Ok (polarizability (e_cellvol E) (length (e_kpts E)) (e_nbands E - cb) nv
     (fold_left (fun M p => let '((kc, bc), (kv, bv)) := fst p in massign M kc (bc - cb) bv (snd p)) (combine (transitions E) vals) M0)))
     (Ok (polarizability_active (e_cellvol E) (length (e_kpts E)) vals))).
  rewrite EM. set (M := fold_left assign3 L M0). set (ax := axes3 (length (e_kpts E)) (e_nbands E - cb) nv).
  assert (FL : map fst L = map key (transitions E)).
  { unfold L. rewrite map_map. cbn [fst]. rewrite <- (map_map fst key). f_equal.
    clear -Hvals. revert vals Hvals. induction (transitions E) as [|t l IH]; intros [|v vals] H; cbn in *; try easy. injection H as H. now rewrite IH. }
  assert (SL : map snd L = vals).
  { unfold L. rewrite map_map. cbn [snd]. 
    clear -Hvals. revert vals Hvals. induction (transitions E) as [|t l IH]; intros [|v vals] H; cbn in *; try easy. injection H as H. now rewrite IH. }
  assert (Hb : forall t, In t (transitions E) -> In (key t) ax /\ (cb <= snd (fst t))%nat).
  { intros [[kc bc] [kv bv]] Ht. apply in_transitions in Ht as [Hc Hm]. cbn [fst] in Hm.
    assert (Hl : In (kv, bv) (l_i_v E)) by (unfold matches in Hm; apply filter_In in Hm; tauto).
    assert (X1 : (cb <= bc)%nat) by (apply (list_min_le _ _ Hcb); apply (in_map snd) in Hc; exact Hc).
    assert (X2 : (bv < nv)%nat).
    { unfold n_v_max in Hnv. destruct (list_max_res (map snd (l_i_v E))) as [mx|] eqn:Hmx; [|discriminate]. injection Hnv as <-.
      apply (in_map snd) in Hl. apply (list_max_ge _ _ Hmx) in Hl. cbn in Hl. lia. }
    apply in_states in Hc as (C1 & C2 & _ & _). cbn [fst snd]. split; [|exact X1]. unfold key, ax. cbn [fst snd]. rewrite in_axes3. lia. }
  assert (NL : NoDup (map fst L)).
  { rewrite FL. pose proof (transitions_NoDup E) as ND.
    assert (HI : forall t, In t (transitions E) -> forall t', In t' (transitions E) -> key t = key t' -> t = t').
    { intros [[kc bc] [kv bv]] Ht [[kc' bc'] [kv' bv']] Ht' K. unfold key in K. cbn [fst snd] in K. injection K as <- K2 <-.
      destruct (Hb _ Ht) as [_ B1], (Hb _ Ht') as [_ B2]. cbn [fst snd] in B1, B2.
      assert (bc = bc') by lia. subst bc'.
      apply in_transitions in Ht as [_ M1], Ht' as [_ M2]. cbn [fst] in M1, M2.
      pose proof (one_match E kc _ _ HS M1 M2) as X. cbn [fst] in X. now rewrite X. }
    clear -ND HI. generalize dependent (transitions E). intros l ND HI. induction l as [|t l IH]; [constructor|]. inversion_clear ND as [|? ? N1 N2]. cbn [map]. constructor.
    - intros H. apply in_map_iff in H as (t' & K & Ht'). apply N1. rewrite (HI t (or_introl eq_refl) t' (or_intror Ht')); [easy|now symmetry].
    - apply IH; [easy|]. intros; apply HI; [now right|now right|easy]. }
  assert (HL : forall p, In p L -> In (fst p) ax).
  { intros p Hp. apply (in_map fst) in Hp. rewrite FL in Hp. apply in_map_iff in Hp as (t & <- & Ht). now apply Hb. }
  assert (Hnone : In None (map (get3 M) ax) <-> In None vals).
  { rewrite <- SL. apply assign_none; [exact NL|exact HL|]. intros [[a b] c]. discriminate. }
  change (map (fun i => let '(a, b, c) := i in M a b c)) with (map (get3 M)) in *.
  unfold same_outcome.
  destruct (polarizability (e_cellvol E) (length (e_kpts E)) (e_nbands E - cb) nv M) as [x|] eqn:Hx;
  destruct (polarizability_active (e_cellvol E) (length (e_kpts E)) vals) as [y|] eqn:Hy; [| | |exact I].
  - apply polarizability_chi in Hx as (r1 & A1 & E1); [|lra]. apply active_chi in Hy as (r2 & A2 & E2); [|lra].
    intros l m. rewrite E1, E2. unfold chi_of. f_equal.
    rewrite (all_some_gval _ _ l m A1), (all_some_gval _ _ l m A2). rewrite lsum_map.
    rewrite <- SL, lsum_map. apply (assign_sum L M0 ax (gval l m)); [apply axes3_NoDup|exact NL|exact HL|].
    intros [[a b] c]. cbn [get3 M0 gval]. unfold outer.
    assert (Z : forall j, nth j (map (fun _ : vec3 => RtoC 0) (e_gq E)) (RtoC 0) = RtoC 0).
    { intros j. change (RtoC 0) with ((fun _ : vec3 => RtoC 0) (0, 0, 0)%Z) at 2. now rewrite map_nth. }
    rewrite !Z. apply C_ext; cbn; ring.
  - exfalso. unfold polarizability in Hx. unfold polarizability_active in Hy.
    destruct (all_some vals) eqn:Hvs; [discriminate|]. apply all_some_none in Hvs. apply Hnone in Hvs. apply all_some_none in Hvs.
    destruct (all_some (map _ _)) as [rows|] eqn:Hr in Hx; [|discriminate].
    assert (Hr' : all_some (map (get3 M) ax) = Some rows) by exact Hr. rewrite Hvs in Hr'. discriminate.
  - exfalso. unfold polarizability in Hx. unfold polarizability_active in Hy.
    destruct (all_some (map _ _)) eqn:Hvs in Hx; [discriminate|]. apply all_some_none in Hvs. apply Hnone in Hvs. apply all_some_none in Hvs.
    rewrite Hvs in Hy. discriminate.
Qed.
Print Assumptions C47_routes_agree.
(** The instances: N copies of one k-point at Gamma with one occupied and one empty band on a
    one-point grid, gap 1; q -> 0. *)
Definition copies (N : nat) : epsilon := MkEps 1 1 1 (repeat (MkKpt (V 0 0 0) occ2 occ2) N) 2 (V 0 0 0) true [(0, 0, 0)%Z] 1.
Lemma reqb_t x y : x = y -> reqb x y = true. Proof. intros. now apply reqb_iff. Qed.
Lemma reqb_f x y : x <> y -> reqb x y = false. Proof. intros H. apply not_true_iff_false. now rewrite reqb_iff. Qed.
Lemma nth_repeat_in {A} (a d : A) N i : (i < N)%nat -> nth i (repeat a N) d = a.
Proof. revert i; induction N; intros [|i] H; cbn; try lia; [easy|]. apply IHN. lia. Qed.
Lemma copies_kp N i : (i < N)%nat -> kp (copies N) i = MkKpt (V 0 0 0) occ2 occ2.
Proof. intros H. unfold kp, copies. cbn [e_kpts]. now apply nth_repeat_in. Qed.
Lemma copies_states N x b : (x = 1 /\ b = 0%nat \/ x = 0 /\ b = 1%nat) ->
  states_with (copies N) x = map (fun k => (k, b)) (seq 0 N).
Proof.
  intros H. unfold states_with. replace (length (e_kpts (copies N))) with N by (cbn; now rewrite repeat_length).
  assert (G : forall l, (forall k, In k l -> (k < N)%nat) ->
    flat_map (fun k => map (fun b0 => (k, b0)) (filter (fun b0 => reqb (occ_of (copies N) k b0) x)
      (seq 0 (Nat.min (e_nbands (copies N)) (length (w_occ (kp_wfn (kp (copies N) k)))))))) l = map (fun k => (k, b)) l).
  { induction l as [|k l IH]; intros Hl; [easy|]. cbn [flat_map]. rewrite IH by (intros; apply Hl; now right).
    assert (Hk : (k < N)%nat) by (apply Hl; now left).
    unfold occ_of. rewrite (copies_kp N k Hk). change (e_nbands (copies N)) with 2%nat.
    cbn [kp_wfn occ2 w_occ length Nat.min seq filter nth].
    destruct H as [[-> ->]|[-> ->]].
    - rewrite (reqb_t 1 1), (reqb_f 0 1) by lra. reflexivity.
    - rewrite (reqb_f 1 0), (reqb_t 0 0) by lra. reflexivity. }
  apply G. intros k Hk. apply in_seq in Hk. lia.
Qed.
Lemma umk0 : umklapp1 0 = 0%Z. Proof. apply C52_folded_exact. lra. Qed.
Lemma copies_kq N : l_kplusq (copies N) (V 0 0 0) = V 0 0 0 /\ umklapp (copies N) (V 0 0 0) = (0, 0, 0)%Z.
Proof.
  unfold l_kplusq, umklapp, kplusq_raw. change (e_isq0 (copies N)) with true. cbn [vx vy vz]. rewrite !umk0. split; [f_equal; lra|reflexivity].
Qed.
Lemma copies_matches N k : (k < N)%nat -> matches (copies N) k = map (fun k => (k, 0%nat)) (seq 0 N).
Proof.
  intros Hk. unfold matches, l_i_v. rewrite (copies_states N 1 0) by auto. rewrite (copies_kp N k Hk). cbn [kp_cryst].
  rewrite (proj1 (copies_kq N)).
  assert (G : forall l, (forall k, In k l -> (k < N)%nat) ->
    filter (fun v => isclose3 (kp_cryst (kp (copies N) (fst v))) (V 0 0 0)) (map (fun k => (k, 0%nat)) l) = map (fun k => (k, 0%nat)) l).
  { induction l as [|j l IH]; intros Hl; [easy|]. cbn [map filter fst]. rewrite (copies_kp N j) by (apply Hl; now left).
    cbn [kp_cryst]. replace (isclose3 (V 0 0 0) (V 0 0 0)) with true by (unfold isclose3; now rewrite !isclose_refl). rewrite IH by (intros; apply Hl; now right). easy. }
  apply G. intros j Hj. apply in_seq in Hj. lia.
Qed.
Lemma copies_driver N k : (k < N)%nat -> driver_idx (copies N) k = Ok [0%nat].
Proof.
  intros H. unfold driver_idx. rewrite (copies_kp N k H). cbn [kp_cryst]. rewrite (proj2 (copies_kq N)). reflexivity.
Qed.
Lemma copies_element N k k' : (k < N)%nat -> (k' < N)%nat -> element (copies N) ((k, 1%nat), (k', 0%nat)) = Ok (Some [RtoC 1]).
Proof.
  intros Hk Hk'.
  assert (EX : exists M, element (copies N) ((k, 1%nat), (k', 0%nat)) = Ok (Some M)).
  { unfold element. rewrite copies_driver by exact Hk. cbn [bind]. unfold wfn_v. change (e_isq0 (copies N)) with true.
    rewrite (copies_kp N k Hk), (copies_kp N k' Hk'). cbn [kp_wfn kp_wfnq].
    replace (rleb _ 0) with false; [eexists; reflexivity|]. symmetry. apply not_true_iff_false. rewrite rleb_iff. cbn. lra. }
  destruct EX as [M EM]. rewrite EM.
  pose proof (C52_momentum_conserved (copies N) k 1 k' 0 M [(0, 0, 0)%Z] [(0, 0, 0)%Z]) as T. cbv zeta in T.
  change (e_isq0 (copies N)) with true in T. rewrite (copies_kp N k Hk), (copies_kp N k' Hk') in T.
  cbn [kp_wfn kp_wfnq kp_cryst] in T.
  destruct T as (_ & LM & T); [reflexivity|reflexivity|reflexivity|reflexivity|exact EM|].
  change (length (e_gq (copies N))) with 1%nat in LM, T.
  destruct (T 0%nat ltac:(lia)) as (sel & Hs & V_).
  assert (S0 : sel 0%nat 0%nat = true).
  { apply Hs. exists 0%Z, 0%Z, 0%Z. rewrite (proj1 (copies_kq N)). cbn [occ2 w_gk gs_cryst nth e_gq copies zvec].
    unfold vsub, vadd. cbn [vx vy vz]. f_equal; ring. }
  cbn [occ2 w_evc w_evl nth length] in V_. cbn [csum] in V_. rewrite S0 in V_.
  destruct M as [|m [|? ?]]; [discriminate| |discriminate]. cbn [nth] in V_.
  replace (1 - 0) with 1 in V_ by ring. rewrite sqrt_1 in V_.
  assert (E1 : m = RtoC 1); [|now rewrite E1].
  transitivity (RtoC 1 * m)%C; [apply C_ext; cbn; ring|]. rewrite V_. apply C_ext; cbn; ring.
Qed.
Lemma copies_trans N : transitions (copies N) = flat_map (fun k => map (fun k' => ((k, 1%nat), (k', 0%nat))) (seq 0 N)) (seq 0 N).
Proof.
  unfold transitions, l_i_c. rewrite (copies_states N 0 1) by auto.
  assert (G : forall l, (forall k, In k l -> (k < N)%nat) ->
    flat_map (fun c => map (fun v => (c, v)) (matches (copies N) (fst c))) (map (fun k => (k, 1%nat)) l)
    = flat_map (fun k => map (fun k' => ((k, 1%nat), (k', 0%nat))) (seq 0 N)) l).
  { induction l as [|j l IH]; intros Hl; [easy|]. cbn [map flat_map fst]. rewrite copies_matches by (apply Hl; now left).
    rewrite map_map. f_equal. apply IH. intros; apply Hl; now right. }
  apply G. intros j Hj. apply in_seq in Hj. lia.
Qed.
Lemma copies_active : exists chi, chi_active (copies 1) = Ok (Some chi) /\ chi 0%nat 0%nat = RtoC (-4).
Proof.
  unfold chi_active, elements_yielding, n_v_max, n_c_beg, l_i_v, l_i_c.
  rewrite (copies_states 1 1 0), (copies_states 1 0 1) by auto. rewrite copies_trans. cbn [seq map flat_map List.app snd fst list_max_res list_min_res rmap bind fold_right].
  rewrite copies_driver by lia. rewrite copies_element by lia. cbn [sequence bind rmap]. eexists. split; [reflexivity|].
  cbn [all_some option_map fold_left]. unfold outer. cbn [nth e_kpts copies repeat length INR e_cellvol].
  rewrite Cdiv_R by lra. apply C_ext; cbn; field.
Qed.
Example C47_instance : separated (copies 1) /\
  exists x y, chi_full (copies 1) = Ok (Some x) /\ chi_active (copies 1) = Ok (Some y) /\ x 0%nat 0%nat = RtoC (-4) /\ y 0%nat 0%nat = RtoC (-4).
Proof.
  assert (HS : separated (copies 1)) by (intros i j Hi Hj; cbn in Hi, Hj; lia).
  split; [exact HS|]. destruct copies_active as (y & Hy & Vy).
  pose proof (C47_routes_agree (copies 1) ltac:(cbn; lra) HS) as A. rewrite Hy in A.
  destruct (chi_full (copies 1)) as [[x|]|]; [|easy|easy]. exists x, y. repeat split; auto. cbn in A. now rewrite A.
Qed.
(** With a repeated k-point they differ: the array keeps one element per (k, c, v), the running sum
    counts every match. *)
Theorem C47_routes_agree_refuted : exists E x y, 0 < e_cellvol E /\
  chi_full E = Ok (Some x) /\ chi_active E = Ok (Some y) /\ x 0%nat 0%nat <> y 0%nat 0%nat.
Proof.
  exists (copies 2). 
  unfold chi_full, chi_active, elements_array, elements_yielding, n_v_max, n_c_beg, l_i_v, l_i_c.
  rewrite (copies_states 2 1 0), (copies_states 2 0 1) by auto. rewrite copies_trans. cbn [seq map flat_map List.app snd fst list_max_res list_min_res rmap bind fold_right].
  rewrite !copies_driver by lia. rewrite !copies_element by lia. cbn [sequence bind rmap].
  eexists. eexists. split; [cbn; lra|]. split; [reflexivity|]. split; [reflexivity|].
  cbn [all_some option_map fold_left fold_right combine axes3 flat_map seq map List.app]. unfold outer.
  cbn [nth e_kpts copies repeat length e_cellvol].
  rewrite !Cdiv_R by (cbn; lra). intros H. apply (f_equal fst) in H. cbn in H. lra.
Qed.
Print Assumptions C47_routes_agree_refuted.

(** Non-trivial instances of C52: two k-points 0 and 1/2, q = 1/2.  From k = 1/2 the sum is 1, which is folded
    back to 0 by an umklapp of -1. *)
Definition occ3 : wfn := MkWfn [1; 0] [0; 1] (MkGSpace (3, 1, 1)%Z [(0, 0, 0)%Z] [0%Z] [0%nat] true) [[RtoC 1]; [RtoC 1]].
Definition two : epsilon := MkEps 3 1 1 [MkKpt (V 0 0 0) occ3 occ3; MkKpt (V (1 / 2) 0 0) occ3 occ3] 2 (V (1 / 2) 0 0) false [(0, 0, 0)%Z] 1.
Example C52_instance :
  umklapp two (V (1 / 2) 0 0) = (-1, 0, 0)%Z /\ l_kplusq two (V (1 / 2) 0 0) = V 0 0 0 /\
  (exists M, element two ((1%nat, 1%nat), (0%nat, 0%nat)) = Ok (Some M)) /\
  gspace_base (e_shape two) [(0, 0, 0)%Z] = Ok (w_gk occ3) /\
  (forall i, (i < length (e_kpts two))%nat -> exists a b c, ((0 <= a < 2)%Z /\ (0 <= b < 1)%Z /\ (0 <= c < 1)%Z) /\ kp_cryst (kp two i) = mesh_pt 2 1 1 (V 0 0 0) a b c) /\
  (forall a b c, (0 <= a < 2)%Z /\ (0 <= b < 1)%Z /\ (0 <= c < 1)%Z ->
     exists i, (i < length (e_kpts two))%nat /\ kp_cryst (kp two i) = mesh_pt 2 1 1 (V 0 0 0) a b c /\
     forall j, (j < length (e_kpts two))%nat -> kp_cryst (kp two j) = mesh_pt 2 1 1 (V 0 0 0) a b c -> j = i) /\
  e_q two = V (IZR 1 / IZR 2) (IZR 0 / IZR 1) (IZR 0 / IZR 1).
Proof.
  assert (U : umklapp two (V (1 / 2) 0 0) = (-1, 0, 0)%Z).
  { unfold umklapp, kplusq_raw, two, vadd. cbn [e_isq0 e_q vx vy vz].
    rewrite (C52_folded_exact (1 / 2 + 1 / 2) (-1)) by lra. rewrite (C52_folded_exact (0 + 0) 0) by lra. reflexivity. }
  assert (M0 : forall a : Z, (0 <= a < 2)%Z -> mesh_pt 2 1 1 (V 0 0 0) a 0 0 = V (IZR a / 2) 0 0).
  { intros a _. unfold mesh_pt. cbn [vx vy vz]. f_equal; field. }
  split; [exact U|]. split.
  { rewrite C52_shift_is_a_lattice_vector, U. unfold two, vadd, zvec. cbn [e_isq0 e_q vx vy vz]. f_equal; lra. }
  split.
  { unfold element, driver_idx. change (kp_cryst (kp two 1)) with (V (1 / 2) 0 0). rewrite U.
    change (do idx <- cryst2idxgrid (e_shape two) (map (fun g => zsub3 g (-1, 0, 0)%Z) (e_gq two)); do _ <- check_g_idxgrid (e_shape two) idx; Ok (map Z.to_nat idx)) with (Ok [1%nat]).
    cbn [bind]. replace (rleb _ 0) with false; [eexists; reflexivity|]. symmetry. apply not_true_iff_false. rewrite rleb_iff. cbn. lra. }
  split; [reflexivity|]. split; [|split].
  - intros i Hi. exists (Z.of_nat i), 0%Z, 0%Z. destruct i as [|[|i]]; [| |cbn in Hi; lia]; (split; [lia|]); rewrite M0 by lia; cbn [kp two e_kpts nth kp_cryst Z.of_nat]; f_equal; cbn; lra.
  - intros a b c (Ha & Hb & Hc). assert (b = 0)%Z by lia. assert (c = 0)%Z by lia. subst b c. rewrite M0 by lia.
    assert (a = 0 \/ a = 1)%Z as [-> | ->] by lia.
    + exists 0%nat. split; [cbn; lia|]. split; [cbn; f_equal; lra|]. intros [|[|j]] Hj E; [easy| |cbn in Hj; lia].
      apply (f_equal vx) in E. cbn in E. lra.
    + exists 1%nat. split; [cbn; lia|]. split; [cbn; f_equal; lra|]. intros [|[|j]] Hj E; [|easy|cbn in Hj; lia].
      apply (f_equal vx) in E. cbn in E. lra.
  - cbn. f_equal; lra.
Qed.

(** ---- the dielectric matrix: epsilon(G, G') = delta - v(G') chi(G, G') / 2 ---- *)
(** It is undefined (nan) exactly when some q+G vanishes. *)
Theorem C47_epsilon_defined : forall gk chi,
  (exists eps, epsilon_matrix gk chi = Some eps) <-> forall v, In v gk -> vdot v v <> 0.
Proof.
  intros gk chi. unfold epsilon_matrix, v_bare. split.
  - intros (eps & H) v Hv Z. destruct (all_some _) as [r|] eqn:E; [|discriminate].
    apply all_some_inv in E. apply (in_map (fun v => v_bare1 (vdot v v))) in Hv. rewrite E in Hv.
    apply in_map_iff in Hv as (x & Hx & _). unfold v_bare1 in Hx. rewrite reqb_t in Hx by exact Z. discriminate.
  - intros H. destruct (all_some _) as [r|] eqn:E; [eexists; reflexivity|]. exfalso. apply all_some_none in E.
    apply in_map_iff in E as (v & Hv & Iv). unfold v_bare1 in Hv. rewrite reqb_f in Hv by (now apply H). discriminate.
Qed.
Print Assumptions C47_epsilon_defined.
Definition qg (gk : list rvec) (i : nat) : R := sqrt (vdot (nth i gk (V 0 0 0)) (nth i gk (V 0 0 0))).
(** The matrix in the symmetric gauge: entry (i, j) times |q+G_j| / |q+G_i|. *)
Definition symmetrised (gk : list rvec) (A : cmat) : cmat := fun i j => (A i j * RtoC (qg gk j / qg gk i))%C.
Lemma eps_shape gk chi eps i j : epsilon_matrix gk chi = Some eps -> (i < length gk)%nat -> (j < length gk)%nat ->
  0 < qg gk i /\ 0 < qg gk j /\ eps i j = (ident i j - RtoC (4 * PI / (qg gk j * qg gk j)) * chi i j)%C.
Proof.
  intros H Hi Hj. assert (HD : forall v, In v gk -> vdot v v <> 0) by (apply (C47_epsilon_defined gk chi); now exists eps).
  assert (VD : forall v, 0 <= vdot v v) by (intros [x y z]; unfold vdot; cbn; nra).
  assert (P : forall k, (k < length gk)%nat -> 0 < vdot (nth k gk (V 0 0 0)) (nth k gk (V 0 0 0))).
  { intros k Hk. specialize (HD _ (nth_In gk (V 0 0 0) Hk)). specialize (VD (nth k gk (V 0 0 0))). lra. }
  split; [apply sqrt_lt_R0, P, Hi|]. split; [apply sqrt_lt_R0, P, Hj|].
  unfold epsilon_matrix in H. destruct (all_some (v_bare gk)) as [r|] eqn:E; [|discriminate]. cbn in H. apply some_inj in H. subst eps.
  unfold eps_matrix, ident. unfold qg. rewrite sqrt_sqrt by (left; now apply P).
  apply all_some_inv in E. assert (N : nth j r 0 = 8 * PI * / vdot (nth j gk (V 0 0 0)) (nth j gk (V 0 0 0))).
  { assert (L : length r = length gk) by (apply (f_equal (@length _)) in E; unfold v_bare in E; rewrite !map_length in E; easy).
    assert (X : nth j (map Some r) None = Some (nth j r 0)) by (rewrite (nth_map_lt Some r j 0) by lia; easy).
    rewrite <- E in X. unfold v_bare in X. rewrite (nth_map_lt _ gk j (V 0 0 0)) in X by exact Hj.
    unfold v_bare1 in X. rewrite reqb_f in X by (specialize (P j Hj); lra). now injection X as <-. }
  rewrite N. specialize (P j Hj). set (w := vdot (nth j gk (V 0 0 0)) (nth j gk (V 0 0 0))) in *.
  replace (8 * PI * / w / 2) with (4 * PI / w) by (field; lra). reflexivity.
Qed.
(** For a polarizability from either route and q+G vectors that do not vanish: the symmetrised
    matrix is Hermitian and at least the identity; epsilon is one-to-one; and whatever inverse
    [np.linalg.inv] returns, its symmetrised form lies between 0 (strictly) and 1 and its diagonal
    is real, in (0, 1]: screening never amplifies. *)
Theorem C47_epsilon_positive : forall E chi gk eps, 0 < e_cellvol E ->
  (chi_full E = Ok (Some chi) \/ chi_active E = Ok (Some chi)) ->
  epsilon_matrix gk chi = Some eps ->
  let n := length gk in
  hermitian n (symmetrised gk eps) /\
  (forall x, exists t, sqnorm n x <= t /\ quad n (symmetrised gk eps) x = RtoC t) /\
  (forall x, (forall i, (i < n)%nat -> csum n (fun j => eps i j * x j)%C = RtoC 0) -> forall i, (i < n)%nat -> x i = RtoC 0) /\
  (forall B, inverse_of n eps B ->
     (forall x, exists t, 0 <= t <= sqnorm n x /\ (0 < sqnorm n x -> 0 < t) /\ quad n (symmetrised gk B) x = RtoC t) /\
     (forall i, (i < n)%nat -> exists t, 0 < t <= 1 /\ B i i = RtoC t)).
Proof.
  intros E chi gk eps Hv Hchi He n.
  pose proof (C47_hermitian E chi n Hv Hchi) as CH. pose proof (C47_negative_semidefinite E chi n Hv Hchi) as CN.
  set (s := fun i => sqrt (4 * PI) / qg gk i). pose proof PI_RGT_0 as PP.
  set (P := (fun i j => RtoC (- (s i * s j)) * chi i j)%C : cmat).
  assert (Q : forall i, (i < n)%nat -> 0 < qg gk i) by (intros i Hi; now destruct (eps_shape gk chi eps i i He Hi Hi)).
  assert (SY : mat_eq n (symmetrised gk eps) (onep P)).
  { intros i j Hi Hj. destruct (eps_shape gk chi eps i j He Hi Hj) as (Pi & Pj & EE).
    unfold symmetrised, onep, P, s. rewrite EE.
    assert (I1 : (ident i j * RtoC (qg gk j / qg gk i))%C = ident i j).
    { unfold ident. destruct (i =? j)%nat eqn:Eij; [apply Nat.eqb_eq in Eij; subst; apply C_ext; cbn; field; lra|apply C_ext; cbn; ring]. }
    transitivity (ident i j * RtoC (qg gk j / qg gk i) - RtoC (4 * PI / (qg gk j * qg gk j) * (qg gk j / qg gk i)) * chi i j)%C.
    { generalize (ident i j), (chi i j). intros a b. apply C_ext; cbn; ring. }
    rewrite I1. assert (SS : sqrt (4 * PI) * sqrt (4 * PI) = 4 * PI) by (apply sqrt_sqrt; lra).
    replace (- (sqrt (4 * PI) / qg gk i * (sqrt (4 * PI) / qg gk j))) with (- (4 * PI / (qg gk j * qg gk j) * (qg gk j / qg gk i))).
    - generalize (ident i j), (chi i j). intros a b. apply C_ext; cbn; ring.
    - set (r := sqrt (4 * PI)) in *. rewrite <- SS. field. lra. }
  assert (PQ : forall x, exists t, 0 <= t /\ quad n P x = RtoC t).
  { intros x. destruct (CN (fun i => RtoC (s i) * x i)%C) as (t & Ht & Et). exists (- t). split; [lra|].
    transitivity (- RtoC t)%C; [|apply C_ext; cbn; ring]. rewrite <- Et. unfold quad.
    transitivity (RtoC (-1) * csum n (fun i => csum n (fun j => Cconj (RtoC (s i) * x i) * chi i j * (RtoC (s j) * x j))))%C; [|set (S_ := csum n _); apply C_ext; cbn; ring].
    rewrite <- csum_scal. apply csum_ext. intros i Hi. rewrite <- csum_scal. apply csum_ext. intros j Hj. unfold P.
    generalize (chi i j), (x i), (x j), (s i), (s j). intros. apply C_ext; cbn; ring. }
  assert (QE : forall A B x, mat_eq n A B -> quad n A x = quad n B x).
  { intros A B x H. unfold quad. apply csum_ext. intros i Hi. apply csum_ext. intros j Hj. now rewrite H. }
  split; [|split; [|split]].
  - intros i j Hi Hj. rewrite (SY i j), (SY j i) by easy. unfold onep, P. rewrite (CH i j Hi Hj).
    replace (ident i j) with (ident j i) by (unfold ident; now rewrite Nat.eqb_sym).
    replace (Cconj (ident j i + RtoC (- (s j * s i)) * chi j i))%C with (ident j i + RtoC (- (s j * s i)) * Cconj (chi j i))%C.
    + f_equal. f_equal. f_equal. ring.
    + unfold ident. generalize (chi j i) as c. intros c. destruct (j =? i)%nat; apply C_ext; cbn; ring.
  - intros x. destruct (onep_energy n P PQ x) as (t & Ht & Et & _). exists (sqnorm n x + t). split; [lra|].
    rewrite (QE _ _ x SY), quad_ip. exact Et.
  - intros x H i Hi.
    assert (Y : forall i, (i < n)%nat -> (RtoC (/ qg gk i) * x i)%C = RtoC 0).
    { apply (onep_injective n P PQ (fun i => RtoC (/ qg gk i) * x i)%C). intros k Hk.
      unfold app. transitivity (csum n (fun j => RtoC (/ qg gk k) * (eps k j * x j))%C).
      - apply csum_ext. intros j Hj. rewrite <- (SY k j Hk Hj). unfold symmetrised.
        generalize (eps k j), (x j). intros a b. specialize (Q j Hj). pose proof (Q0 := Q). specialize (Q0).
        assert (qg gk k <> 0) by (pose proof (eps_shape gk chi eps k k He Hk Hk); lra). apply C_ext; cbn; field; lra.
      - rewrite csum_scal, H by easy. apply C_ext; cbn; ring. }
    specialize (Y i Hi). specialize (Q i Hi).
    transitivity (RtoC (qg gk i) * (RtoC (/ qg gk i) * x i))%C; [apply C_ext; cbn; field; lra|]. rewrite Y. apply C_ext; cbn; ring.
  - intros B [HB1 HB2].
    assert (IB : inverse_of n (onep P) (symmetrised gk B)).
    { assert (T : forall A A', mat_eq n (mprod n A A') ident -> mat_eq n (mprod n (symmetrised gk A) (symmetrised gk A')) ident).
      { intros A A' HA i j Hi Hj. unfold mprod, symmetrised.
        transitivity (RtoC (qg gk j / qg gk i) * mprod n A A' i j)%C.
        - unfold mprod. rewrite <- csum_scal. apply csum_ext. intros k Hk. generalize (A i k), (A' k j). intros a b.
          pose proof (Q i Hi). pose proof (Q k Hk). apply C_ext; cbn; field; lra.
        - rewrite HA by easy. unfold ident. pose proof (Q i Hi). destruct (i =? j)%nat eqn:Eij; [apply Nat.eqb_eq in Eij; subst; apply C_ext; cbn; field; lra|apply C_ext; cbn; ring]. }
      split; intros i j Hi Hj.
      - rewrite <- (T eps B HB1 i j Hi Hj). unfold mprod. apply csum_ext. intros k Hk. now rewrite SY.
      - rewrite <- (T B eps HB2 i j Hi Hj). unfold mprod. apply csum_ext. intros k Hk. now rewrite SY. }
    assert (BD : forall x, exists t, 0 <= t <= sqnorm n x /\ (0 < sqnorm n x -> 0 < t) /\ quad n (symmetrised gk B) x = RtoC t)
      by (intros x; apply (onep_inverse_bounds n P PQ); exact IB).
    split; [exact BD|]. intros i Hi. set (e := fun k => if (k =? i)%nat then RtoC 1 else RtoC 0).
    assert (Ne : sqnorm n e = 1).
    { unfold sqnorm, e. clear -Hi. induction n as [|m IH]; [lia|]. cbn [rsum]. destruct (Nat.eq_dec i m) as [->|N].
      - rewrite Nat.eqb_refl. replace (rsum m _) with 0; [cbn; ring|]. symmetry.
        transitivity (rsum m (fun _ => 0)); [apply rsum_ext; intros k Hk; replace (k =? m)%nat with false by (symmetry; apply Nat.eqb_neq; lia); cbn; ring|].
        clear. induction m; cbn; [easy|]. rewrite IHm. ring.
      - rewrite IH by lia. replace (m =? i)%nat with false by (symmetry; apply Nat.eqb_neq; lia). cbn. ring. }
    destruct (BD e) as (t & Ht & Ht' & Et). rewrite Ne in *. exists t. split; [split; [apply Ht'; lra|lra]|].
    rewrite <- Et. unfold quad.
    rewrite (csum_delta n i _ Hi).
    + rewrite (csum_delta n i _ Hi).
      * unfold e, symmetrised. rewrite Nat.eqb_refl. pose proof (Q i Hi). generalize (B i i). intros b. apply C_ext; cbn; field; lra.
      * intros j Hj Nj. unfold e. replace (j =? i)%nat with false by (symmetry; apply Nat.eqb_neq; lia). generalize (symmetrised gk B i j). intros b. apply C_ext; cbn; ring.
    + intros k Hk Nk. apply csum_zero. intros j Hj. unfold e at 1. replace (k =? i)%nat with false by (symmetry; apply Nat.eqb_neq; lia).
      generalize (symmetrised gk B k j), (e j). intros a b. apply C_ext; cbn; ring.
Qed.
Print Assumptions C47_epsilon_positive.
(** Instance: one q+G vector of length 2, the polarizability -4 from above: epsilon = 1 + 4 pi *)
Example C47_epsilon_instance : exists chi eps, chi_active (copies 1) = Ok (Some chi) /\
  epsilon_matrix [V 2 0 0] chi = Some eps /\ eps 0%nat 0%nat = RtoC (1 + 4 * PI) /\
  inverse_of 1 eps (fun _ _ => RtoC (/ (1 + 4 * PI))).
Proof.
  destruct copies_active as (chi & H & V0).
  destruct (proj2 (C47_epsilon_defined [V 2 0 0] chi)) as (eps & He).
  { intros v [<-|[]]. unfold vdot. cbn. lra. }
  exists chi, eps. split; [exact H|]. split; [exact He|].
  destruct (eps_shape [V 2 0 0] chi eps 0 0 He) as (P1 & _ & X); [cbn; lia|cbn; lia|].
  assert (E0 : eps 0%nat 0%nat = RtoC (1 + 4 * PI)).
  { rewrite X, V0. unfold qg. cbn [nth]. rewrite sqrt_sqrt by (unfold vdot; cbn; lra). unfold vdot. cbn [vx vy vz].
    unfold ident. cbn [Nat.eqb]. apply C_ext; cbn; field. }
  split; [exact E0|]. pose proof PI_RGT_0.
  split; intros [|i] [|j] Hi Hj; try lia; unfold mprod; cbn [csum]; rewrite E0; unfold ident; cbn [Nat.eqb]; apply C_ext; cbn; field; lra.
Qed.
