(** Lemmas about the Ewald model. *)
From Verif Require Import Base GIndexModel GIndexProofs LatModel LatProofs GSphereModel FFTProofs PotModel PotSpec PotProofs EwaldModel EwaldSpec CBase.
Open Scope R_scope.

Lemma charges_atoms l : l_charges l = map fst (atoms l).
Proof.
  unfold l_charges, atoms. induction l as [|sp l IH]; [reflexivity|]. cbn [flat_map]. rewrite map_app, <- IH. f_equal.
  rewrite map_map. cbn [fst]. induction (r_cryst sp) as [|v r IHr]; [reflexivity|]. cbn. now rewrite IHr.
Qed.
Lemma positions_atoms l : r_cryst_all l = map snd (atoms l).
Proof.
  unfold r_cryst_all, atoms. induction l as [|sp l IH]; [reflexivity|]. cbn [flat_map]. rewrite map_app, <- IH. f_equal.
  rewrite map_map. cbn [snd]. now rewrite map_id.
Qed.

Lemma nth_fst (l : list atom) i : nth i (map fst l) 0 = fst (nth i l no_atom).
Proof. exact (map_nth fst l no_atom i). Qed.
Lemma nth_snd (l : list atom) i : nth i (map snd l) (V 0 0 0) = snd (nth i l no_atom).
Proof. exact (map_nth snd l no_atom i). Qed.

Lemma rltb_spec x y : rltb x y = true <-> x < y.
Proof. unfold rltb. destruct (Rlt_dec x y); split; intros; try assumption; try reflexivity; try discriminate; contradiction. Qed.

Lemma find_alpha_spec erfc ecut q k a : find_alpha erfc ecut q k = Ok a ->
  exists m, (1 <= m <= k)%nat /\ a = INR m / 10 /\ err_bounds erfc ecut q a <= EWALD_ERR_THR
  /\ forall j, (m < j <= k)%nat -> EWALD_ERR_THR < err_bounds erfc ecut q (INR j / 10).
Proof.
  induction k as [|k IH]; [discriminate|]. cbn [find_alpha].
  destruct (rltb EWALD_ERR_THR (err_bounds erfc ecut q (alpha_of (S k)))) eqn:E.
  - intros H. destruct (IH H) as (m & Hm & Ha & He & Hj). exists m. split; [lia|]. split; [exact Ha|]. split; [exact He|].
    intros j Hj'. destruct (Nat.eq_dec j (S k)) as [->|]; [now apply rltb_spec in E|apply Hj; lia].
  - intros [= <-]. exists (S k). split; [lia|]. split; [reflexivity|]. split.
    + apply Rnot_lt_le. intros H. apply rltb_spec in H. congruence.
    + intros j Hj. lia.
Qed.
Lemma find_alpha_err erfc ecut q k e : find_alpha erfc ecut q k = Err e ->
  e = ValueError /\ forall j, (1 <= j <= k)%nat -> EWALD_ERR_THR < err_bounds erfc ecut q (INR j / 10).
Proof.
  induction k as [|k IH]; cbn [find_alpha].
  - intros [= <-]. split; [reflexivity|]. intros. lia.
  - destruct (rltb EWALD_ERR_THR (err_bounds erfc ecut q (alpha_of (S k)))) eqn:E; [|discriminate].
    intros H. destruct (IH H) as [He Hj]. split; [exact He|]. intros j Hj'.
    destruct (Nat.eq_dec j (S k)) as [->|]; [now apply rltb_spec in E|apply Hj; lia].
Qed.
Lemma find_alpha_ext erfc ecut q q' k : np_sum q = np_sum q' -> find_alpha erfc ecut q k = find_alpha erfc ecut q' k.
Proof. intros H. induction k as [|k IH]; [reflexivity|]. cbn [find_alpha]. unfold err_bounds. rewrite H, IH. reflexivity. Qed.

(** *** The box of cells *)
Lemma arange_length n : length (arange n) = Z.to_nat (2 * n + 1).
Proof. unfold arange. now rewrite map_length, seq_length. Qed.
Lemma arange_nth n i d : (i < Z.to_nat (2 * n + 1))%nat -> nth i (arange n) d = (Z.of_nat i - n)%Z.
Proof.
  intros H. unfold arange. rewrite (nth_indep _ _ (Z.of_nat 0 - n)%Z) by (rewrite map_length, seq_length; exact H).
  rewrite (map_nth (fun i => Z.of_nat i - n)%Z), seq_nth by exact H. reflexivity.
Qed.
Lemma arange_in n a : (0 <= n)%Z -> In a (arange n) <-> (Z.abs a <= n)%Z.
Proof.
  intros Hn. unfold arange. rewrite in_map_iff. split.
  - intros (i & <- & Hi). apply in_seq in Hi. lia.
  - intros H. exists (Z.to_nat (a + n)). split; [lia|]. apply in_seq. lia.
Qed.
Lemma arange_nodup n : NoDup (arange n).
Proof.
  unfold arange. apply FinFun.Injective_map_NoDup; [|apply seq_NoDup]. intros i j H. lia.
Qed.

Lemma flat_map_length_const {A B} (f : A -> list B) m l : (forall a, In a l -> length (f a) = m) ->
  length (flat_map f l) = (length l * m)%nat.
Proof.
  induction l as [|a l IH]; intros H; [reflexivity|]. cbn [flat_map length]. rewrite app_length, IH, H; [lia|now left|].
  intros b Hb. apply H. now right.
Qed.
Lemma flat_map_nth_const {A B} (f : A -> list B) m da d l : (forall a, In a l -> length (f a) = m) ->
  forall i j, (i < length l)%nat -> (j < m)%nat -> nth (i * m + j) (flat_map f l) d = nth j (f (nth i l da)) d.
Proof.
  induction l as [|a l IH]; intros H i j Hi Hj; [cbn in Hi; lia|]. cbn [flat_map].
  assert (La : length (f a) = m) by (apply H; now left).
  destruct i as [|i].
  - cbn [Nat.mul Nat.add nth]. now rewrite app_nth1 by lia.
  - rewrite app_nth2 by (cbn; lia). rewrite La. replace (S i * m + j - m)%nat with (i * m + j)%nat by (cbn; lia).
    cbn [nth]. apply IH; [intros b Hb; apply H; now right|cbn in Hi; lia|exact Hj].
Qed.

Lemma cells_in n1 n2 n3 N : (0 <= n1)%Z -> (0 <= n2)%Z -> (0 <= n3)%Z ->
  In N (cells n1 n2 n3) <-> in_box n1 n2 n3 N.
Proof.
  intros H1 H2 H3. destruct N as [[a b] c]. unfold cells, in_box. rewrite in_flat_map. split.
  - intros (a' & Ha & H). apply in_flat_map in H as (b' & Hb & H). apply in_map_iff in H as (c' & [= <- <- <-] & Hc).
    apply arange_in in Ha, Hb, Hc; lia.
  - intros (Ha & Hb & Hc). exists a. split; [now apply arange_in|]. apply in_flat_map. exists b.
    split; [now apply arange_in|]. apply in_map_iff. exists c. split; [reflexivity|now apply arange_in].
Qed.

Lemma NoDup_flat_map_tag {A B} (f : A -> list B) (tag : B -> A) l : NoDup l ->
  (forall a, In a l -> NoDup (f a)) -> (forall a b, In a l -> In b (f a) -> tag b = a) -> NoDup (flat_map f l).
Proof.
  induction 1 as [|a l Hn ND IH]; intros H1 H2; [constructor|]. cbn [flat_map].
  assert (Hd : forall x, In x (f a) -> ~ In x (flat_map f l)).
  { intros x Hx Hx'. apply in_flat_map in Hx' as (a' & Ha' & Hx').
    apply Hn. rewrite <- (H2 a x) by (try assumption; now left). rewrite (H2 a' x) by (try assumption; now right). exact Ha'. }
  assert (Na : NoDup (f a)) by (apply H1; now left).
  assert (Nl : NoDup (flat_map f l)) by (apply IH; intros; [apply H1|apply H2]; try assumption; now right).
  clear - Hd Na Nl. induction Na as [|x r Hx Na IH]; [exact Nl|]. cbn. constructor.
  - rewrite in_app_iff. intros [H|H]; [contradiction|]. apply (Hd x); [now left|exact H].
  - apply IH. intros y Hy. apply Hd. now right.
Qed.
Lemma cells_nodup n1 n2 n3 : NoDup (cells n1 n2 n3).
Proof.
  unfold cells. apply (NoDup_flat_map_tag _ (fun N : vec3 => fst (fst N))); [apply arange_nodup| |].
  - intros a _. apply (NoDup_flat_map_tag _ (fun N : vec3 => snd (fst N))); [apply arange_nodup| |].
    + intros b _. apply FinFun.Injective_map_NoDup; [intros x y [= H]; exact H|apply arange_nodup].
    + intros b N _ H. apply in_map_iff in H as (c & <- & _). reflexivity.
  - intros a N _ H. apply in_flat_map in H as (b & _ & H). apply in_map_iff in H as (c & <- & _). reflexivity.
Qed.
Lemma cells_length n1 n2 n3 : length (cells n1 n2 n3) =
  (Z.to_nat (2 * n1 + 1) * (Z.to_nat (2 * n2 + 1) * Z.to_nat (2 * n3 + 1)))%nat.
Proof.
  unfold cells. rewrite (flat_map_length_const _ (Z.to_nat (2 * n2 + 1) * Z.to_nat (2 * n3 + 1))).
  - now rewrite arange_length.
  - intros a _. rewrite (flat_map_length_const _ (Z.to_nat (2 * n3 + 1))); [now rewrite arange_length|].
    intros b _. now rewrite map_length, arange_length.
Qed.

(** Line 87 is the position of N = 0, and of no other cell. *)
Lemma i_N0_position n1 n2 n3 i : (0 <= n1)%Z -> (0 <= n2)%Z -> (0 <= n3)%Z ->
  (i < length (cells n1 n2 n3))%nat ->
  (Z.of_nat i =? i_N0 n1 n2 n3)%Z = is_zero (nth i (cells n1 n2 n3) (0, 0, 0)%Z).
Proof.
  intros H1 H2 H3 Hi.
  set (m2 := Z.to_nat (2 * n2 + 1)). set (m3 := Z.to_nat (2 * n3 + 1)).
  set (p := (Z.to_nat n1 * (m2 * m3) + (Z.to_nat n2 * m3 + Z.to_nat n3))%nat).
  assert (Ep : Z.of_nat p = i_N0 n1 n2 n3).
  { unfold p, i_N0, m2, m3. rewrite !Nat2Z.inj_add, !Nat2Z.inj_mul, !Z2Nat.id by lia. ring. }
  assert (B3 : (Z.to_nat n3 < m3)%nat) by (unfold m3; lia).
  assert (B2 : (Z.to_nat n2 < m2)%nat) by (unfold m2; lia).
  assert (B23 : (Z.to_nat n2 * m3 + Z.to_nat n3 < m2 * m3)%nat) by nia.
  assert (B1 : (Z.to_nat n1 < Z.to_nat (2 * n1 + 1))%nat) by lia.
  assert (Lp : (p < length (cells n1 n2 n3))%nat) by (rewrite cells_length; fold m2 m3; unfold p; nia).
  assert (Np : nth p (cells n1 n2 n3) (0, 0, 0)%Z = (0, 0, 0)%Z).
  { unfold p, cells. rewrite (flat_map_nth_const _ (m2 * m3) 0%Z).
    - rewrite arange_nth by exact B1. rewrite (flat_map_nth_const _ m3 0%Z).
      + rewrite arange_nth by exact B2.
        rewrite (nth_indep _ _ ((Z.of_nat (Z.to_nat n1) - n1)%Z, (Z.of_nat (Z.to_nat n2) - n2)%Z, 0%Z)) by (rewrite map_length, arange_length; exact B3).
        rewrite (map_nth (fun c => (_, _, c))), arange_nth by exact B3. rewrite !Z2Nat.id by lia. rewrite !Z.sub_diag. reflexivity.
      + intros b _. now rewrite map_length, arange_length.
      + rewrite arange_length. exact B2.
      + exact B3.
    - intros a _. rewrite (flat_map_length_const _ m3); [now rewrite arange_length|]. intros b _. now rewrite map_length, arange_length.
    - rewrite arange_length. exact B1.
    - exact B23. }
  destruct (is_zero (nth i (cells n1 n2 n3) (0, 0, 0)%Z)) eqn:EZ.
  - apply is_zero_spec in EZ. apply Z.eqb_eq. rewrite <- Ep. f_equal.
    apply (proj1 (NoDup_nth _ (0, 0, 0)%Z) (cells_nodup n1 n2 n3)); [exact Hi|exact Lp|]. etransitivity; [exact EZ|]. symmetry. exact Np.
  - apply Z.eqb_neq. intros E. rewrite <- Ep in E. apply Nat2Z.inj in E. subst i.
    rewrite (proj2 (is_zero_spec _) Np) in EZ. discriminate.
Qed.

(** *** Sums *)
Lemma rsum_head n f : rsum (S n) f = f 0%nat + rsum n (fun i => f (S i)).
Proof. induction n as [|n IH]; [cbn; ring|]. change (rsum (S (S n)) f) with (rsum (S n) f + f (S n)). rewrite IH. cbn [rsum]. ring. Qed.
Lemma rsum_lsum {A} (l : list A) d f : rsum (length l) (fun i => f (nth i l d)) = lsum l f.
Proof. induction l as [|x l IH]; [reflexivity|]. cbn [length]. rewrite rsum_head. cbn [nth lsum fold_right]. now rewrite IH. Qed.
Lemma lsum_cons {A} (x : A) l f : lsum (x :: l) f = f x + lsum l f.
Proof. reflexivity. Qed.
Lemma lsum_ext {A} (l : list A) f g : (forall x, In x l -> f x = g x) -> lsum l f = lsum l g.
Proof. induction l as [|x l IH]; intros H; [reflexivity|]. rewrite !lsum_cons, (H x), IH; [reflexivity| |now left]. intros y Hy. apply H. now right. Qed.
Lemma lsum_perm {A} (l l' : list A) f : Permutation l l' -> lsum l f = lsum l' f.
Proof. induction 1; rewrite ?lsum_cons; try lra; congruence. Qed.
Lemma np_sum_lsum l : np_sum l = lsum l (fun x => x).
Proof. reflexivity. Qed.
Lemma lsum_map {A B} (g : A -> B) l f : lsum (map g l) f = lsum l (fun x => f (g x)).
Proof. induction l as [|x l IH]; [reflexivity|]. cbn [map]. now rewrite !lsum_cons, IH. Qed.
Lemma rsum_square n f : rsum n (fun i => rsum n (fun j => f i * f j)) = rsum n f * rsum n f.
Proof.
  rewrite (rsum_ext n _ (fun i => rsum n f * f i)) by (intros i _; rewrite rsum_scal; ring). apply rsum_scal.
Qed.
Lemma rsum_perm n (f : nat -> R) s : (forall i, (i < n)%nat -> (s i < n)%nat) ->
  (forall i j, (i < n)%nat -> (j < n)%nat -> s i = s j -> i = j) -> rsum n (fun i => f (s i)) = rsum n f.
Proof.
  intros H1 H2. apply RtoC_inj. rewrite <- !csum_RtoC.
  exact (MixProofs.csum_perm n (fun i => RtoC (f i)) s H1 H2).
Qed.

Lemma pair_sum_perm self (l l' : list atom) f : Permutation l l' -> pair_sum self l f = pair_sum self l' f.
Proof.
  intros H. pose proof (proj1 (Permutation_nth l l' no_atom) H) as (HL & s & B & I & E).
  unfold pair_sum. rewrite HL. set (n := length l) in *.
  rewrite <- (rsum_perm n _ s) by assumption. apply rsum_ext. intros i Hi.
  rewrite <- (rsum_perm n _ s) by assumption. apply rsum_ext. intros j Hj.
  rewrite (E i Hi), (E j Hj). destruct (negb self); cbn [andb]; [|reflexivity].
  destruct (Nat.eqb_spec (s i) (s j)) as [Es|Es], (Nat.eqb_spec i j) as [Ei|Ei]; try reflexivity.
  - exfalso. apply Ei. now apply I.
  - subst. contradiction.
Qed.

Lemma structure_factor_perm l l' g : Permutation l l' -> structure_factor l g = structure_factor l' g.
Proof.
  unfold structure_factor. induction 1; cbn [fold_right]; [reflexivity| | |].
  - now rewrite IHPermutation.
  - ring.
  - now rewrite IHPermutation1.
Qed.

Lemma fold_left_csum n (f : nat -> C) : fold_left (fun acc i => acc + f i)%C (seq 0 n) (RtoC 0) = csum n f.
Proof.
  induction n as [|n IH]; [reflexivity|]. rewrite seq_S, fold_left_app, IH. reflexivity.
Qed.
Lemma fold_right_csum {A} (l : list A) d (f : A -> C) :
  fold_right (fun a acc => f a + acc)%C (RtoC 0) l = csum (length l) (fun i => f (nth i l d)).
Proof. induction l as [|x l IH]; [reflexivity|]. cbn [fold_right length]. rewrite csum_head, IH. reflexivity. Qed.

Lemma struct_fac_spec (l : list atom) g : struct_fac (map fst l) (map snd l) (gvec g) = structure_factor l g.
Proof.
  unfold struct_fac, structure_factor.
  etransitivity; [|symmetry; exact (fold_right_csum l no_atom (fun a : atom => RtoC (fst a) * cis (- (2 * PI * vdot (gvec g) (snd a))))%C)].
  rewrite (fold_left_csum _ (fun i => RtoC (nth i (map fst l) 0%R) * cis (-2 * PI * vdot (nth i (map snd l) (V 0 0 0)) (gvec g)))%C).
  rewrite map_length. apply csum_ext. intros i _. rewrite nth_fst, nth_snd. f_equal. f_equal. unfold vdot. ring.
Qed.

Lemma rfloor_nonneg x : 0 <= x -> (0 <= rfloor x)%Z.
Proof.
  intros H. unfold rfloor. destruct (base_Int_part x) as [A B].
  assert (-1 < IZR (Int_part x)) by lra. apply lt_IZR in H0. lia.
Qed.
Lemma n_range_pos beta len : 0 < beta -> 0 < len -> (1 <= n_range beta len)%Z.
Proof.
  intros Hb Hl. unfold n_range. assert (0 <= 4 / beta / len) by (apply Rlt_le, Rdiv_lt_0_compat; [apply Rdiv_lt_0_compat|]; lra).
  apply rfloor_nonneg in H. lia.
Qed.
Lemma row_norms_pos P : mdet P <> 0 -> let '(a, b, c) := row_norms P in 0 < a /\ 0 < b /\ 0 < c.
Proof.
  intros H. cbn [row_norms]. rewrite <- mdet_mtrans in H. set (T := mtrans P) in *. clearbody T.
  assert (HP : forall v, v <> V 0 0 0 -> 0 < vnorm v).
  { intros v Hv. unfold vnorm. apply sqrt_lt_R0. destruct (vdot_nonneg v) as [|E]; [assumption|]. symmetry in E. now apply vdot_zero in E. }
  destruct T as [[a1 a2 a3] [b1 b2 b3] [d1 d2 d3]]. cbn [LatModel.c1 c2 c3] in *.
  repeat split; apply HP; intros [= -> -> ->]; apply H; unfold mdet, vdot, vcross; cbn; ring.
Qed.

(** The code computes the textbook sum. *)
Lemma ewald_formula erfc P L G ecut l : mk_lattice P = Ok L -> constructed G -> In (0, 0, 0)%Z (gs_cryst (gp_gs G)) ->
  ewald erfc L G ecut l =
  do alpha <- find_alpha erfc ecut (l_charges l) 28;
  let '(l1, l2, l3) := row_norms P in
  Ok (ewald_sum erfc alpha L G (cells (n_range (sqrt alpha) l1) (n_range (sqrt alpha) l2) (n_range (sqrt alpha) l3)) (atoms l)).
Proof.
  intros HL HC H0. unfold ewald.
  destruct (find_alpha erfc ecut (l_charges l) 28) as [alpha|e] eqn:EA; [|reflexivity]. cbn [bind].
  apply find_alpha_spec in EA as (m & Hm & Ha & _ & _).
  assert (Pa : 0 < alpha) by (rewrite Ha; apply Rdiv_lt_0_compat; [apply lt_0_INR; lia|lra]).
  assert (Pb : 0 < sqrt alpha) by now apply sqrt_lt_R0.
  destruct (mk_lattice_ok P L HL) as (HD & HP & _). rewrite HP.
  pose proof (row_norms_pos P HD) as RN. destruct (row_norms P) as [[l1 l2] l3]. destruct RN as (P1 & P2 & P3).
  pose proof (n_range_pos _ _ Pb P1) as N1. pose proof (n_range_pos _ _ Pb P2) as N2. pose proof (n_range_pos _ _ Pb P3) as N3.
  set (n1 := n_range (sqrt alpha) l1) in *. set (n2 := n_range (sqrt alpha) l2) in *. set (n3 := n_range (sqrt alpha) l3) in *.
  rewrite charges_atoms, positions_atoms, map_length. set (la := atoms l). set (B := cells n1 n2 n3) in *.
  unfold ewald_sum. f_equal. f_equal; [f_equal|].
  - f_equal. rewrite <- (rsum_lsum B (0, 0, 0)%Z). apply rsum_ext. intros iN HN. unfold pair_sum.
    apply rsum_ext. intros i Hi. apply rsum_ext. intros j Hj. unfold s_entry.
    rewrite (i_N0_position n1 n2 n3 iN) by (try lia; exact HN). fold B. rewrite Bool.negb_involutive.
    match goal with |- (if ?b then _ else _) = _ => destruct b end; [reflexivity|].
    rewrite !nth_fst, !nth_snd. unfold screened, distance, Rdiv. ring.
  - f_equal. f_equal.
    + assert (SZ : gp_size G = S (gp_size G - 1)).
      { unfold gp_size. destruct (gs_cryst (gp_gs G)); [contradiction|]. cbn; lia. }
      rewrite SZ at 2. rewrite rsum_head.
      assert (HG : gs_has_g0 (gp_gs G) = true).
      { destruct HC as (_ & gs & Hg). apply gspace_base_spec in Hg as (Pm & _ & _ & _ & _ & _ & Hh & _). apply Hh.
        eapply Permutation_in; [exact Pm|exact H0]. }
      rewrite <- (g0_index G 0 HC) by lia. rewrite HG. cbn [andb Nat.eqb]. rewrite Rplus_0_l.
      apply rsum_ext. intros k Hk. rewrite <- (g0_index G (S k) HC) by lia. rewrite HG. cbn [andb Nat.eqb].
      rewrite gp_norm2_sq by apply HC. f_equal. fold (gv G (S k)). rewrite struct_fac_spec.
      unfold Cmod. rewrite sqrt_sqrt by nra. ring.
    + f_equal. rewrite rsum_square. unfold total_charge. rewrite <- (rsum_lsum la no_atom fst).
      f_equal; apply rsum_ext; intros i _; apply nth_fst.
  - rewrite sqrt_div_alt by exact PI_RGT_0. f_equal. rewrite np_sum_lsum, map_map, lsum_map. reflexivity.
Qed.
