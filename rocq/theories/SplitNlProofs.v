(** Series of complex numbers and the matrix exponential. *)
From Coq Require Import Reals Lra.
From Coquelicot Require Import Hierarchy Series PSeries ElemFct.
From Verif Require Import Base GIndexModel LatModel GSphereModel CBase FFTModel FFTProofs KSHamModel KSHamSpec KSHamProofs TddftModel TddftSpec SplitNlModel SplitNlSpec.
Local Open Scope nat_scope.

Lemma st_ext f g l : (forall k, f k = g k) -> sums_to f l -> sums_to g l.
Proof. intros E (A & B). split; (eapply is_series_ext; [|eassumption]); intros k; cbn; now rewrite E. Qed.
Lemma st_plus f g a b : sums_to f a -> sums_to g b -> sums_to (fun k => f k + g k)%C (a + b)%C.
Proof. intros (A & B) (A' & B'). split; cbn [fst snd Cplus]; [exact (is_series_plus _ _ _ _ A A')|exact (is_series_plus _ _ _ _ B B')]. Qed.
Lemma st_scal c f a : sums_to f a -> sums_to (fun k => c * f k)%C (c * a)%C.
Proof.
  intros (A & B). destruct c as (x, y). split; cbn [fst snd Cmult].
  - apply (is_series_minus (V := R_NormedModule) (fun k => x * fst (f k))%R (fun k => y * snd (f k))%R);
      [exact (is_series_scal (V := R_NormedModule) x _ _ A)|exact (is_series_scal (V := R_NormedModule) y _ _ B)].
  - apply (is_series_plus (V := R_NormedModule) (fun k => x * snd (f k))%R (fun k => y * fst (f k))%R);
      [exact (is_series_scal (V := R_NormedModule) x _ _ B)|exact (is_series_scal (V := R_NormedModule) y _ _ A)].
Qed.
Lemma series_zero : @is_series R_AbsRing R_NormedModule (fun _ => 0%R) 0%R.
Proof.
  apply (is_series_ext (V := R_NormedModule) (fun _ => scal 0%R 0%R)); [intros; cbn; unfold scal; cbn; unfold mult; cbn; ring|].
  unfold is_series. apply filterlim_ext with (f := fun _ => 0%R); [|apply filterlim_const].
  intros k. symmetry. rewrite sum_n_Reals. induction k as [|k IH]; cbn [sum_f_R0]; [|rewrite IH]; unfold scal; cbn; unfold mult; cbn; ring.
Qed.
Lemma st_zero : sums_to (fun _ => RtoC 0) (RtoC 0).
Proof. split; exact series_zero. Qed.
Lemma st_single a : sums_to (fun k => if Nat.eqb k 0 then a else RtoC 0) a.
Proof.
  split; (apply is_series_decr_1; cbn [Nat.eqb];
    match goal with |- is_series _ ?l => replace l with 0%R by (unfold plus, opp; cbn; ring) end; exact series_zero).
Qed.
Lemma st_csum n (f : nat -> nat -> C) (a : nat -> C) : (forall i, i < n -> sums_to (fun k => f k i) (a i)) ->
  sums_to (fun k => csum n (f k)) (csum n a).
Proof.
  induction n as [|n IH]; intros H; cbn [csum]; [exact st_zero|]. apply st_plus; [apply IH; intros i Hi; apply H; lia|apply H; lia].
Qed.
Lemma st_unique f a b : sums_to f a -> sums_to f b -> a = b.
Proof.
  intros (A & B) (A' & B'). destruct a, b. cbn in *. f_equal.
  - rewrite <- (is_series_unique _ _ A). exact (is_series_unique _ _ A').
  - rewrite <- (is_series_unique _ _ B). exact (is_series_unique _ _ B').
Qed.
Lemma st_conj f a : sums_to f a -> sums_to (fun k => Cconj (f k)) (Cconj a).
Proof.
  intros (A & B). split; cbn [fst snd Cconj]; [exact A|]. exact (is_series_opp (V := R_NormedModule) _ _ B).
Qed.

(** Series dominated by an exponential series. *)
Definition dominated (f : nat -> C) : Prop := exists K M, (0 <= M)%R /\ forall k, (Cmod (f k) <= K * (M ^ k / INR (fact k)))%R.
Lemma exp_series M : ex_series (fun k => M ^ k / INR (fact k))%R.
Proof.
  exists (exp M). apply (is_series_ext (V := R_NormedModule) (fun k => scal (pow_n M k) (/ INR (fact k))%R)); [|exact (is_exp_Reals M)].
  intros k. rewrite pow_n_pow. reflexivity.
Qed.
Lemma Rabs_le_Cmod z : (Rabs (fst z) <= Cmod z)%R /\ (Rabs (snd z) <= Cmod z)%R.
Proof. pose proof (Rmax_Cmod z) as H. split; (eapply Rle_trans; [|exact H]); [apply Rmax_l|apply Rmax_r]. Qed.
Lemma dominated_abs f : dominated f -> ex_series (fun k => Rabs (fst (f k))) /\ ex_series (fun k => Rabs (snd (f k))).
Proof.
  intros (K & M & H0 & H).
  assert (X : ex_series (fun k => K * (M ^ k / INR (fact k)))%R) by (apply (ex_series_scal (V := R_NormedModule) K); apply exp_series).
  split; (apply (ex_series_le (V := R_CompleteNormedModule) _ _) with (2 := X); intros k; cbn;
    unfold norm; cbn; unfold abs; cbn; rewrite Rabs_Rabsolu; eapply Rle_trans; [|apply H]; apply Rabs_le_Cmod).
Qed.
Lemma dominated_sums f : dominated f -> sums_to f (Series (fun k => fst (f k)), Series (fun k => snd (f k))).
Proof.
  intros D. destruct (dominated_abs f D) as (A & B).
  split; apply Series_correct; [apply ex_series_Rabs; exact A|apply ex_series_Rabs; exact B].
Qed.

Definition rel_bound (n : nat) (A : nat -> nat -> C) : R := rsum n (fun i => rsum n (fun j => Cmod (A i j))).
Lemma rsum_term n (f : nat -> R) i : (forall j, j < n -> (0 <= f j)%R) -> i < n -> (f i <= rsum n f)%R.
Proof.
  induction n as [|n IH]; intros H Hi; [lia|]. cbn [rsum]. pose proof (H n ltac:(lia)) as Hn.
  destruct (Nat.eq_dec i n) as [->|].
  - pose proof (rsum_nonneg n f (fun j Hj => H j ltac:(lia))). lra.
  - pose proof (IH (fun j Hj => H j ltac:(lia)) ltac:(lia)). lra.
Qed.
Lemma Cmod_csum n (f : nat -> C) : (Cmod (csum n f) <= rsum n (fun i => Cmod (f i)))%R.
Proof.
  induction n as [|n IH]; cbn [csum rsum]; [rewrite Cmod_0; lra|]. eapply Rle_trans; [apply Cmod_triangle|]. lra.
Qed.
Lemma rel_bound_pos n A : (0 <= rel_bound n A)%R.
Proof. apply rsum_nonneg. intros i _. apply rsum_nonneg. intros j _. apply Cmod_ge_0. Qed.
Lemma mpow_bound n A k : forall i j, i < n -> j < n -> (Cmod (mpow n A k i j) <= rel_bound n A ^ k)%R.
Proof.
  induction k as [|k IH]; intros i j Hi Hj; cbn [mpow pow].
  - unfold identity. destruct (Nat.eqb i j); [rewrite Cmod_1|rewrite Cmod_0]; lra.
  - unfold mmul. eapply Rle_trans; [apply Cmod_csum|].
    apply Rle_trans with (rsum n (fun l => rel_bound n A ^ k * Cmod (A i l)))%R.
    + apply rsum_le. intros l Hl. rewrite Cmod_mult, Rmult_comm. apply Rmult_le_compat_r; [apply Cmod_ge_0|now apply IH].
    + rewrite rsum_scal, Rmult_comm. apply Rmult_le_compat_r; [apply pow_le, rel_bound_pos|].
      unfold rel_bound. apply (rsum_term n (fun i => rsum n (fun j => Cmod (A i j)))); [|exact Hi].
      intros q _. apply rsum_nonneg. intros; apply Cmod_ge_0.
Qed.
Lemma fact_pos k : (0 < INR (fact k))%R.
Proof. apply lt_0_INR, lt_O_fact. Qed.
Lemma Cmod_div_fact (z : C) k : Cmod (z / RtoC (INR (fact k)))%C = (Cmod z / INR (fact k))%R.
Proof.
  pose proof (fact_pos k). rewrite Cmod_div; [|intros E; apply RtoC_inj in E; lra]. rewrite Cmod_R, Rabs_pos_eq by lra. reflexivity.
Qed.
Lemma expm_sums m A i j : i < m -> j < m -> sums_to (fun k => mpow m A k i j / RtoC (INR (fact k)))%C (expm m A i j).
Proof.
  intros Hi Hj. apply (dominated_sums (fun k => mpow m A k i j / RtoC (INR (fact k)))%C).
  exists 1%R, (rel_bound m A). split; [apply rel_bound_pos|]. intros k. rewrite Cmod_div_fact, Rmult_1_l.
  unfold Rdiv. apply Rmult_le_compat_r; [left; apply Rinv_0_lt_compat, fact_pos|now apply mpow_bound].
Qed.

(** Algebra of square matrices as functions. *)
Lemma mmul_ext m A A' B B' i j : i < m -> j < m -> (forall a b, a < m -> b < m -> A a b = A' a b) ->
  (forall a b, a < m -> b < m -> B a b = B' a b) -> mmul m A B i j = mmul m A' B' i j.
Proof. intros Hi Hj HA HB. unfold mmul. apply csum_ext. intros l Hl. now rewrite HA, HB. Qed.
Lemma mmul_assoc m A B D i j : mmul m (mmul m A B) D i j = mmul m A (mmul m B D) i j.
Proof.
  unfold mmul. transitivity (csum m (fun l => csum m (fun q => A i q * B q l * D l j)))%C.
  - apply csum_ext. intros l _. now rewrite <- csum_scal_r.
  - rewrite csum_swap. apply csum_ext. intros q _. rewrite <- csum_scal. apply csum_ext. intros; ring.
Qed.
Lemma mmul_id_l m A i j : i < m -> mmul m identity A i j = A i j.
Proof.
  intros Hi. unfold mmul. rewrite (csum_delta m i); [|exact Hi|intros l _ Hl; unfold identity; destruct (Nat.eqb_spec i l); [congruence|ring]].
  unfold identity. rewrite Nat.eqb_refl. ring.
Qed.
Lemma mmul_id_r m A i j : j < m -> mmul m A identity i j = A i j.
Proof.
  intros Hj. unfold mmul. rewrite (csum_delta m j); [|exact Hj|intros l _ Hl; unfold identity; destruct (Nat.eqb_spec l j); [congruence|ring]].
  unfold identity. rewrite Nat.eqb_refl. ring.
Qed.
Lemma mpow_scal m c A k i j : i < m -> j < m ->
  mpow m (fun a b => c * A a b)%C k i j = (cpow c k * mpow m A k i j)%C.
Proof.
  revert i j. induction k as [|k IH]; intros i j Hi Hj; cbn [mpow cpow]; [ring|].
  unfold mmul. rewrite <- csum_scal. apply csum_ext. intros l Hl. rewrite IH by assumption. ring.
Qed.

(** Powers of the separable operator: V^(k+1) = sum_pq |b_p> (D (S D)^k)_pq <b_q|. *)
Section Sep.
Variables (n : nat) (vkb : list (list C)) (D : nat -> nat -> C).
Hypothesis Hlen : forall v, In v vkb -> length v = n.
Let m := length vkb.
Let b (p g : nat) : C := nth g (nth p vkb []) (RtoC 0).
Lemma vdot1_csum_n u v : length u = n -> length v = n -> vdot1 u v = csum n (fun g => Cconj (nth g u (RtoC 0)) * nth g v (RtoC 0))%C.
Proof.
  intros H <-. now apply vdot1_csum.
Qed.
Lemma row_length p : p < m -> length (nth p vkb []) = n.
Proof. intros H. apply Hlen. now apply nth_In. Qed.
Lemma mat_vec_nth V v g : g < n -> nth g (mat_vec n V v) (RtoC 0) = csum n (fun j => V g j * nth j v (RtoC 0))%C.
Proof.
  intros Hg. unfold mat_vec. rewrite (nth_indep _ _ ((fun i => csum n (fun j => V i j * nth j v (RtoC 0))%C) 0)) by (rewrite map_length, seq_length; exact Hg).
  rewrite (map_nth (fun i => csum n (fun j => V i j * nth j v (RtoC 0))%C)). now rewrite seq_nth.
Qed.
Lemma mat_vec_length V v : length (mat_vec n V v) = n.
Proof. unfold mat_vec. now rewrite map_length, seq_length. Qed.
Lemma mat_pow_length V k v : length v = n -> length (mat_pow n V k v) = n.
Proof. intros H. destruct k; [exact H|]. cbn. apply mat_vec_length. Qed.
Lemma proj_csum p v : p < m -> length v = n -> vdot1 (nth p vkb []) v = csum n (fun g => Cconj (b p g) * nth g v (RtoC 0))%C.
Proof. intros Hp Hv. apply vdot1_csum_n; [now apply row_length|exact Hv]. Qed.
Lemma sep_apply v g : g < n -> length v = n ->
  csum n (fun j => separable (vkb, D) g j * nth j v (RtoC 0))%C
  = csum m (fun p => b p g * csum m (fun q => D p q * vdot1 (nth q vkb []) v))%C.
Proof.
  intros Hg Hv. unfold separable. cbn [fst snd]. fold m.
  transitivity (csum n (fun j => csum m (fun p => csum m (fun q => b p g * D p q * (Cconj (b q j) * nth j v (RtoC 0))))))%C.
  - apply csum_ext. intros j Hj. rewrite <- csum_scal_r. apply csum_ext. intros p _. rewrite <- csum_scal_r. apply csum_ext. intros q _. unfold b. ring.
  - rewrite csum_swap. apply csum_ext. intros p Hp. rewrite csum_swap, <- csum_scal. apply csum_ext. intros q Hq.
    rewrite proj_csum by assumption. rewrite <- !csum_scal. apply csum_ext. intros; ring.
Qed.
Fixpoint ypow (k : nat) : nat -> nat -> C :=
  match k with O => D | S q => mmul m D (mmul m (ovl vkb) (ypow q)) end.
Lemma ovl_ypow k i j : i < m -> j < m -> mmul m (ovl vkb) (ypow k) i j = mpow m (mmul m (ovl vkb) D) (S k) i j.
Proof.
  revert i j. induction k as [|k IH]; intros i j Hi Hj.
  - cbn [ypow mpow]. now rewrite mmul_id_r.
  - cbn [ypow]. rewrite <- mmul_assoc. change (mpow m (mmul m (ovl vkb) D) (S (S k)) i j) with (mmul m (mmul m (ovl vkb) D) (mpow m (mmul m (ovl vkb) D) (S k)) i j).
    apply mmul_ext; auto.
Qed.
Lemma csum3_ovl (Y : nat -> nat -> C) q v : q < m -> length v = n ->
  vdot1 (nth q vkb []) (map (fun g => csum m (fun p => b p g * csum m (fun s => Y p s * vdot1 (nth s vkb []) v))%C) (seq 0 n))
  = csum m (fun s => mmul m (ovl vkb) Y q s * vdot1 (nth s vkb []) v)%C.
Proof.
  intros Hq Hv. rewrite proj_csum by (try exact Hq; now rewrite map_length, seq_length).
  transitivity (csum n (fun g => csum m (fun p => Cconj (b q g) * b p g * csum m (fun s => Y p s * vdot1 (nth s vkb []) v))))%C.
  - apply csum_ext. intros g Hg.
    rewrite (nth_indep _ _ ((fun g => csum m (fun p => b p g * csum m (fun s => Y p s * vdot1 (nth s vkb []) v))%C) 0)) by (rewrite map_length, seq_length; exact Hg).
    rewrite (map_nth (fun g => csum m (fun p => b p g * csum m (fun s => Y p s * vdot1 (nth s vkb []) v))%C)), seq_nth by exact Hg.
    rewrite <- csum_scal. apply csum_ext. intros; cbn; ring.
  - rewrite csum_swap. transitivity (csum m (fun p => ovl vkb q p * csum m (fun s => Y p s * vdot1 (nth s vkb []) v)))%C.
    + apply csum_ext. intros p Hp. rewrite csum_scal_r. f_equal. unfold ovl. rewrite proj_csum; [|exact Hq|now apply row_length]. reflexivity.
    + unfold mmul. transitivity (csum m (fun p => csum m (fun s => ovl vkb q p * Y p s * vdot1 (nth s vkb []) v)))%C.
      * apply csum_ext. intros p _. rewrite <- csum_scal. apply csum_ext. intros; ring.
      * rewrite csum_swap. apply csum_ext. intros s _. now rewrite csum_scal_r.
Qed.
Lemma mat_pow_sep k v g : g < n -> length v = n ->
  nth g (mat_pow n (separable (vkb, D)) (S k) v) (RtoC 0)
  = csum m (fun p => b p g * csum m (fun s => ypow k p s * vdot1 (nth s vkb []) v))%C.
Proof.
  revert g. induction k as [|k IH]; intros g Hg Hv.
  - cbn [mat_pow ypow]. rewrite mat_vec_nth by exact Hg. now apply sep_apply.
  - change (mat_pow n (separable (vkb, D)) (S (S k)) v) with (mat_vec n (separable (vkb, D)) (mat_pow n (separable (vkb, D)) (S k) v)).
    rewrite mat_vec_nth by exact Hg. rewrite sep_apply by (try exact Hg; now apply mat_pow_length).
    apply csum_ext. intros p Hp. f_equal. cbn [ypow].
    transitivity (csum m (fun q => D p q * csum m (fun s => mmul m (ovl vkb) (ypow k) q s * vdot1 (nth s vkb []) v)))%C.
    + apply csum_ext. intros q Hq. f_equal. rewrite <- csum3_ovl by assumption. f_equal.
      apply (nth_ext _ _ (RtoC 0) (RtoC 0)); [rewrite map_length, seq_length; now apply mat_pow_length|].
      rewrite mat_pow_length by exact Hv. intros g' Hg'. rewrite IH by assumption.
      rewrite (nth_indep _ _ ((fun g => csum m (fun p => b p g * csum m (fun s => ypow k p s * vdot1 (nth s vkb []) v))%C) 0)) by (rewrite map_length, seq_length; exact Hg').
      rewrite (map_nth (fun g => csum m (fun p => b p g * csum m (fun s => ypow k p s * vdot1 (nth s vkb []) v))%C)), seq_nth by exact Hg'. reflexivity.
    + unfold mmul at 2. transitivity (csum m (fun q => csum m (fun s => D p q * mmul m (ovl vkb) (ypow k) q s * vdot1 (nth s vkb []) v)))%C.
      * apply csum_ext. intros q _. rewrite <- csum_scal. apply csum_ext. intros; ring.
      * rewrite csum_swap. apply csum_ext. intros s _. now rewrite csum_scal_r.
Qed.

(** The matrix kept for a species, as a series. *)
Variables (dt : R) (inv : nat -> nat -> C).
Hypothesis Hinv : forall i j, i < m -> j < m -> mmul m inv (ovl vkb) i j = identity i j.
Let a : C := (- RtoC (/ 2) * Ci * RtoC dt)%C.
Lemma half_sums i j : i < m -> j < m ->
  sums_to (fun k => match k with O => RtoC 0 | S q => exp_term a (S q) * ypow q i j end)%C (exp_dij_halfstep dt vkb D inv i j).
Proof.
  intros Hi Hj. unfold exp_dij_halfstep. fold m a. set (A := fun x y => (a * mmul m (ovl vkb) D x y)%C).
  unfold mmul at 1.
  apply st_ext with (fun k => csum m (fun l => inv i l * (mpow m A k l j / RtoC (INR (fact k)) + (- RtoC 1) * (if Nat.eqb k 0 then identity l j else RtoC 0))))%C.
  - intros [|k].
    + apply csum_zero. intros l Hl. cbn [mpow Nat.eqb fact]. change (INR 1) with 1%R. unfold Cdiv.
      assert (E : (/ RtoC 1 = RtoC 1)%C) by (rewrite <- RtoC_inv by lra; now rewrite Rinv_1). rewrite E. ring.
    + cbn [Nat.eqb]. transitivity (csum m (fun l => inv i l * (exp_term a (S k) * mmul m (ovl vkb) (ypow k) l j)))%C.
      * apply csum_ext. intros l Hl. rewrite ovl_ypow by assumption. unfold A. rewrite mpow_scal by assumption. unfold exp_term, Cdiv. ring.
      * transitivity (exp_term a (S k) * mmul m inv (mmul m (ovl vkb) (ypow k)) i j)%C.
        { unfold mmul at 2. rewrite <- csum_scal. apply csum_ext. intros; ring. }
        f_equal. rewrite <- mmul_assoc. rewrite (mmul_ext m _ identity _ (ypow k)) by auto. now apply mmul_id_l.
  - apply st_csum. intros l Hl. apply st_scal. 
    replace (expm m A l j - identity l j)%C with (expm m A l j + (- RtoC 1) * identity l j)%C by ring.
    apply st_plus; [now apply expm_sums|]. apply st_scal, st_single.
Qed.
Lemma nl_band_length x v : length (nl_band (vkb, x) v) = length v.
Proof. unfold nl_band. now rewrite map_length, seq_length. Qed.
Lemma nl_band_nth x v g : g < length v -> nth g (nl_band (vkb, x) v) (RtoC 0)
  = (nth g v (RtoC 0) + csum m (fun i => csum m (fun j => x i j * vdot1 (nth j vkb []) v) * b i g))%C.
Proof.
  intros Hg. unfold nl_band. fold m.
  match goal with |- nth g (map ?f _) _ = _ => rewrite (nth_indep _ _ (f 0)) by (rewrite map_length, seq_length; exact Hg); rewrite (map_nth f) end.
  rewrite seq_nth by exact Hg. reflexivity.
Qed.
Lemma nl_band_exp v : length v = n ->
  is_exp_of n a (separable (vkb, D)) v (nl_band (vkb, exp_dij_halfstep dt vkb D inv) v).
Proof.
  intros Hv. split; [apply nl_band_length|]. intros g Hg. rewrite nl_band_nth by lia.
  apply st_ext with (fun k => (if Nat.eqb k 0 then nth g v (RtoC 0) else RtoC 0)
     + csum m (fun i => b i g * csum m (fun j => vdot1 (nth j vkb []) v * match k with O => RtoC 0 | S q => exp_term a (S q) * ypow q i j end)))%C.
  - intros [|k].
    + cbn [Nat.eqb]. rewrite csum_zero; [|intros i _; rewrite csum_zero; [ring|intros; ring]].
      unfold exp_term. cbn [cpow mat_pow fact]. change (INR 1) with 1%R. unfold Cdiv.
      assert (E : (/ RtoC 1 = RtoC 1)%C) by (rewrite <- RtoC_inv by lra; now rewrite Rinv_1). rewrite E. ring.
    + cbn [Nat.eqb]. rewrite mat_pow_sep by assumption. rewrite Cplus_0_l, <- csum_scal. apply csum_ext. intros i _.
      transitivity (b i g * (exp_term a (S k) * csum m (fun s => ypow k i s * vdot1 (nth s vkb []) v)))%C; [|ring].
      f_equal. rewrite <- csum_scal. apply csum_ext. intros; ring.
  - apply st_plus; [apply st_single|].
    match goal with |- sums_to _ (csum m ?f) => replace (csum m f) with
      (csum m (fun i => b i g * csum m (fun j => vdot1 (nth j vkb []) v * exp_dij_halfstep dt vkb D inv i j)))%C end.
    + apply st_csum. intros i Hi. apply st_scal, st_csum. intros j Hj. apply st_scal. now apply half_sums.
    + apply csum_ext. intros i _. rewrite Cmult_comm. f_equal. apply csum_ext. intros; ring.
Qed.
End Sep.

(** Products of series, unitarity. *)
Lemma sum_rsum f N : sum_f_R0 f N = rsum (S N) f.
Proof. induction N as [|N IH]; cbn [sum_f_R0]; [cbn; ring|]. rewrite IH. reflexivity. Qed.
Lemma st_mult f h a c : dominated f -> dominated h -> sums_to f a -> sums_to h c ->
  sums_to (fun N => csum (S N) (fun k => f k * h (N - k)%nat)%C) (a * c)%C.
Proof.
  intros Df Dh (A & B) (A' & B'). destruct (dominated_abs f Df) as (XA & XB). destruct (dominated_abs h Dh) as (YA & YB).
  pose proof (is_series_mult _ _ _ _ A A' XA YA) as P1. pose proof (is_series_mult _ _ _ _ B B' XB YB) as P2.
  pose proof (is_series_mult _ _ _ _ A B' XA YB) as P3. pose proof (is_series_mult _ _ _ _ B A' XB YA) as P4.
  split; cbn [fst snd Cmult].
  - pose proof (is_series_minus (V := R_NormedModule) _ _ _ _ P1 P2) as Q.
    eapply is_series_ext; [|exact Q]. intros N. rewrite csum_re, !sum_rsum. unfold minus, plus, opp. cbn -[rsum].
    replace (rsum (S N) (fun i => (fst (f i) * fst (h (N - i)%nat) - snd (f i) * snd (h (N - i)%nat))%R))
      with (rsum (S N) (fun i => (fst (f i) * fst (h (N - i)%nat) + (-1) * (snd (f i) * snd (h (N - i)%nat)))%R)) by (apply rsum_ext; intros; ring).
    rewrite rsum_plus, rsum_scal. ring.
  - pose proof (is_series_plus (V := R_NormedModule) _ _ _ _ P3 P4) as Q.
    eapply is_series_ext; [|exact Q]. intros N. rewrite csum_im, !sum_rsum. unfold plus. cbn -[rsum].
    rewrite <- rsum_plus. apply rsum_ext. intros; ring.
Qed.

Section Exp.
Variables (n : nat) (V : nat -> nat -> C).
Lemma mat_pow_mpow k v g : g < n -> length v = n ->
  nth g (mat_pow n V k v) (RtoC 0) = csum n (fun j => mpow n V k g j * nth j v (RtoC 0))%C.
Proof.
  intros Hg Hv. revert g Hg. induction k as [|k IH]; intros g Hg.
  - cbn [mat_pow mpow]. rewrite (csum_delta n g); [|exact Hg|intros j _ Hj; unfold identity; destruct (Nat.eqb_spec g j); [congruence|ring]].
    unfold identity. rewrite Nat.eqb_refl. ring.
  - cbn [mat_pow mpow]. rewrite mat_vec_nth by exact Hg. unfold mmul.
    transitivity (csum n (fun l => csum n (fun j => V g l * mpow n V k l j * nth j v (RtoC 0))))%C.
    + apply csum_ext. intros l Hl. rewrite IH by exact Hl. rewrite <- csum_scal. apply csum_ext. intros; ring.
    + rewrite csum_swap. apply csum_ext. intros j _. now rewrite csum_scal_r.
Qed.
Lemma Cmod_cpow a k : Cmod (cpow a k) = (Cmod a ^ k)%R.
Proof. induction k as [|k IH]; cbn [cpow pow]; [apply Cmod_1|]. now rewrite Cmod_mult, IH. Qed.
Lemma exp_dominated a v g : g < n -> length v = n ->
  dominated (fun k => exp_term a k * nth g (mat_pow n V k v) (RtoC 0))%C.
Proof.
  intros Hg Hv. exists (rsum n (fun j => Cmod (nth j v (RtoC 0)))), (Cmod a * rel_bound n V)%R.
  split; [apply Rmult_le_pos; [apply Cmod_ge_0|apply rel_bound_pos]|]. intros k.
  rewrite Cmod_mult. unfold exp_term. rewrite Cmod_div_fact, Cmod_cpow, Rpow_mult_distr.
  assert (X : (Cmod (nth g (mat_pow n V k v) (RtoC 0)) <= rel_bound n V ^ k * rsum n (fun j => Cmod (nth j v (RtoC 0))))%R).
  { rewrite mat_pow_mpow by assumption. eapply Rle_trans; [apply Cmod_csum|]. rewrite <- rsum_scal. apply rsum_le. intros j Hj.
    rewrite Cmod_mult. apply Rmult_le_compat_r; [apply Cmod_ge_0|now apply mpow_bound]. }
  pose proof (fact_pos k) as F. pose proof (pow_le (Cmod a) k (Cmod_ge_0 a)) as PA.
  replace (rsum n (fun j => Cmod (nth j v (RtoC 0))) * (Cmod a ^ k * rel_bound n V ^ k / INR (fact k)))%R
    with (Cmod a ^ k / INR (fact k) * (rel_bound n V ^ k * rsum n (fun j => Cmod (nth j v (RtoC 0)))))%R by (field; lra).
  apply Rmult_le_compat_l; [|exact X]. apply Rmult_le_pos; [exact PA|left; now apply Rinv_0_lt_compat].
Qed.
Lemma Cmod_Cconj z : Cmod (Cconj z) = Cmod z.
Proof. unfold Cmod, Cconj. cbn [fst snd]. f_equal. ring. Qed.
Lemma conj_dominated f : dominated f -> dominated (fun k => Cconj (f k)).
Proof. intros (K & M & H0 & H). exists K, M. split; [exact H0|]. intros k. rewrite Cmod_Cconj. apply H. Qed.

Hypothesis HV : hermitian n V.
Lemma herm_move x y : csum n (fun g => Cconj (nth g (mat_vec n V x) (RtoC 0)) * nth g y (RtoC 0))%C
  = csum n (fun g => Cconj (nth g x (RtoC 0)) * nth g (mat_vec n V y) (RtoC 0))%C.
Proof.
  transitivity (csum n (fun g => csum n (fun j => Cconj (nth j x (RtoC 0)) * V j g * nth g y (RtoC 0))))%C.
  - apply csum_ext. intros g Hg. rewrite mat_vec_nth by exact Hg. rewrite csum_conj, <- csum_scal_r. apply csum_ext. intros j Hj.
    rewrite (HV g j) by assumption. rewrite Cmult_conj, Cconj_conj. ring.
  - rewrite csum_swap. apply csum_ext. intros j Hj. rewrite mat_vec_nth by exact Hj. rewrite <- csum_scal. apply csum_ext. intros; ring.
Qed.
Lemma mat_pow_add k l v : mat_pow n V k (mat_pow n V l v) = mat_pow n V (k + l) v.
Proof. induction k as [|k IH]; [reflexivity|]. cbn [mat_pow Nat.add]. now rewrite IH. Qed.
Lemma mat_pow_S_r k v : mat_pow n V k (mat_vec n V v) = mat_pow n V (S k) v.
Proof. rewrite <- (Nat.add_1_r k). now rewrite <- mat_pow_add. Qed.
Lemma herm_pow k x y : csum n (fun g => Cconj (nth g (mat_pow n V k x) (RtoC 0)) * nth g y (RtoC 0))%C
  = csum n (fun g => Cconj (nth g x (RtoC 0)) * nth g (mat_pow n V k y) (RtoC 0))%C.
Proof.
  revert y. induction k as [|k IH]; intros y; [reflexivity|]. cbn [mat_pow]. rewrite herm_move, IH. now rewrite mat_pow_S_r.
Qed.
Lemma Cconj_RtoC x : Cconj (RtoC x) = RtoC x.
Proof. unfold Cconj, RtoC. cbn. f_equal. ring. Qed.
Lemma exp_term_conj a k : Cconj a = (- a)%C -> Cconj (exp_term a k) = exp_term (- a)%C k.
Proof.
  intros Ha. unfold exp_term, Cdiv. rewrite Cmult_conj. f_equal.
  - induction k as [|k IH]; cbn [cpow]; [apply Cconj_RtoC|]. now rewrite Cmult_conj, IH, Ha.
  - pose proof (fact_pos k). rewrite <- RtoC_inv by lra. apply Cconj_RtoC.
Qed.
Lemma cpow_neg a k : cpow (- a)%C k = (RtoC ((-1) ^ k) * cpow a k)%C.
Proof. induction k as [|k IH]; cbn [cpow pow]; [ring|]. rewrite IH, RtoC_mult. replace (RtoC (-1)) with (- RtoC 1)%C by (unfold RtoC, Copp; cbn; f_equal; ring). ring. Qed.
Lemma cpow_add a k l : cpow a (k + l)%nat = (cpow a k * cpow a l)%C.
Proof. induction k as [|k IH]; cbn [cpow Nat.add]; [ring|]. rewrite IH. ring. Qed.
Lemma exp_terms_cancel a N : csum (S N) (fun k => exp_term (- a)%C k * exp_term a (N - k)%nat)%C = if Nat.eqb N 0 then RtoC 1 else RtoC 0.
Proof.
  transitivity (cpow a N / RtoC (INR (fact N)) * RtoC (sum_f_R0 (fun k => Binomial.C N k * (-1) ^ k * 1 ^ (N - k)%nat)%R N))%C.
  - rewrite sum_rsum, <- csum_RtoC, <- csum_scal. apply csum_ext. intros k Hk. unfold exp_term. rewrite cpow_neg.
    replace (cpow a N) with (cpow a k * cpow a (N - k)%nat)%C by (rewrite <- cpow_add; f_equal; lia).
    unfold Binomial.C. rewrite pow1. pose proof (fact_pos N). pose proof (fact_pos k). pose proof (fact_pos (N - k)%nat).
    rewrite Rmult_1_r, RtoC_mult. unfold Rdiv. rewrite RtoC_mult, RtoC_inv by (apply Rgt_not_eq, Rmult_lt_0_compat; assumption). rewrite RtoC_mult.
    field. repeat split; intros E; apply RtoC_inj in E; lra.
  - rewrite <- Binomial.binomial. replace (-1 + 1)%R with 0%R by ring. destruct N as [|N]; cbn [Nat.eqb].
    + cbn [cpow pow fact]. change (INR 1) with 1%R. field. intros E; apply RtoC_inj in E; lra.
    + rewrite pow_i by lia. ring.
Qed.
Lemma exp_unitary a u v fu fv : Cconj a = (- a)%C -> length u = n -> length v = n ->
  is_exp_of n a V u fu -> is_exp_of n a V v fv ->
  csum n (fun g => Cconj (nth g fu (RtoC 0)) * nth g fv (RtoC 0))%C = csum n (fun g => Cconj (nth g u (RtoC 0)) * nth g v (RtoC 0))%C.
Proof.
  intros Ha Hu Hv (_ & Fu) (_ & Fv).
  eapply st_unique.
  - apply (st_csum n (fun N g => csum (S N) (fun k => Cconj (exp_term a k * nth g (mat_pow n V k u) (RtoC 0))
                                                     * (exp_term a (N - k)%nat * nth g (mat_pow n V (N - k)%nat v) (RtoC 0))))%C).
    intros g Hg.
    apply (st_mult (fun k => Cconj (exp_term a k * nth g (mat_pow n V k u) (RtoC 0)))%C (fun k => exp_term a k * nth g (mat_pow n V k v) (RtoC 0))%C).
    + apply conj_dominated. now apply exp_dominated.
    + now apply exp_dominated.
    + apply st_conj. now apply Fu.
    + now apply Fv.
  - apply st_ext with (fun N => if Nat.eqb N 0 then csum n (fun g => Cconj (nth g u (RtoC 0)) * nth g v (RtoC 0))%C else RtoC 0); [|apply st_single].
    intros N. symmetry. rewrite csum_swap.
    transitivity (csum (S N) (fun k => exp_term (- a)%C k * exp_term a (N - k)%nat
       * csum n (fun g => Cconj (nth g u (RtoC 0)) * nth g (mat_pow n V N v) (RtoC 0)))%C).
    + apply csum_ext. intros k Hk. rewrite <- exp_term_conj by exact Ha.
      replace (mat_pow n V N v) with (mat_pow n V k (mat_pow n V (N - k)%nat v)) by (rewrite mat_pow_add; f_equal; lia).
      rewrite <- herm_pow, <- csum_scal. apply csum_ext. intros g _. rewrite Cmult_conj. ring.
    + rewrite csum_scal_r, exp_terms_cancel. destruct N as [|N]; cbn [Nat.eqb mat_pow]; ring.
Qed.
Lemma exp_adjoint a u v fu fv : Cconj a = (- a)%C -> length u = n -> length v = n ->
  is_exp_of n (- a)%C V u fu -> is_exp_of n a V v fv ->
  csum n (fun g => Cconj (nth g u (RtoC 0)) * nth g fv (RtoC 0))%C = csum n (fun g => Cconj (nth g fu (RtoC 0)) * nth g v (RtoC 0))%C.
Proof.
  intros Ha Hu Hv (_ & Fu) (_ & Fv).
  assert (Ha' : Cconj (- a) = (- - a)%C) by (destruct a as (x, y); cbn in *; injection Ha as H1; unfold Cconj, Copp; cbn; f_equal; lra).
  eapply st_unique.
  - apply (st_csum n (fun k g => Cconj (nth g u (RtoC 0)) * (exp_term a k * nth g (mat_pow n V k v) (RtoC 0)))%C).
    intros g Hg. apply st_scal. now apply Fv.
  - apply st_ext with (fun k => csum n (fun g => nth g v (RtoC 0) * Cconj (exp_term (- a) k * nth g (mat_pow n V k u) (RtoC 0)))%C).
    + intros k. transitivity (exp_term a k * csum n (fun g => Cconj (nth g (mat_pow n V k u) (RtoC 0)) * nth g v (RtoC 0)))%C.
      * rewrite <- csum_scal. apply csum_ext. intros g _. rewrite Cmult_conj, exp_term_conj by exact Ha'.
        replace (- - a)%C with a by ring. ring.
      * rewrite herm_pow, <- csum_scal. apply csum_ext. intros; ring.
    + replace (csum n (fun g => Cconj (nth g fu (RtoC 0)) * nth g v (RtoC 0))%C) with (csum n (fun g => nth g v (RtoC 0) * Cconj (nth g fu (RtoC 0)))%C)
        by (apply csum_ext; intros; ring).
      apply (st_csum n (fun k g => nth g v (RtoC 0) * Cconj (exp_term (- a) k * nth g (mat_pow n V k u) (RtoC 0)))%C).
      intros g Hg. apply st_scal, st_conj. now apply Fu.
Qed.
(** e^{-aV} e^{aV} v = v. *)
Lemma exp_inverse a v fv w : Cconj a = (- a)%C -> length v = n ->
  (forall u, length u = n -> exists fu, is_exp_of n a V u fu) ->
  is_exp_of n a V v fv -> is_exp_of n (- a)%C V fv w -> w = v.
Proof.
  intros Ha Hv Ex Fv Fw. assert (Lf : length fv = n) by (destruct Fv; congruence). assert (Lw : length w = n) by (destruct Fw; congruence).
  apply (nth_ext _ _ (RtoC 0) (RtoC 0)); [congruence|]. intros g Hg. rewrite Lw in Hg.
  set (e := map (fun i => if Nat.eqb i g then RtoC 1 else RtoC 0) (seq 0 n)).
  assert (Le : length e = n) by (unfold e; now rewrite map_length, seq_length).
  assert (Ne : forall i, i < n -> nth i e (RtoC 0) = if Nat.eqb i g then RtoC 1 else RtoC 0).
  { intros i Hi. unfold e. rewrite (nth_indep _ _ ((fun i => if Nat.eqb i g then RtoC 1 else RtoC 0) 0)) by (rewrite map_length, seq_length; exact Hi).
    rewrite (map_nth (fun i => if Nat.eqb i g then RtoC 1 else RtoC 0)), seq_nth by exact Hi. reflexivity. }
  assert (Pick : forall x, csum n (fun i => Cconj (nth i e (RtoC 0)) * nth i x (RtoC 0))%C = nth g x (RtoC 0)).
  { intros x. rewrite (csum_delta n g); [rewrite Ne, Nat.eqb_refl, Cconj_RtoC by exact Hg; ring|exact Hg|].
    intros i Hi Hn. rewrite Ne by exact Hi. destruct (Nat.eqb_spec i g); [congruence|]. rewrite Cconj_RtoC. ring. }
  destruct (Ex e Le) as (fe & Fe).
  assert (Ha' : Cconj (- a) = (- - a)%C) by (destruct a as (x, y); cbn in *; injection Ha as H1; unfold Cconj, Copp; cbn; f_equal; lra).
  rewrite <- (Pick w), <- (Pick v).
  assert (Fe' : is_exp_of n (- - a)%C V e fe) by (replace (- - a)%C with a by ring; exact Fe).
  rewrite (exp_adjoint (- a)%C e fv fe w Ha' Le Lf Fe' Fw). now apply (exp_unitary a).
Qed.
End Exp.
