(** Complex arithmetic used by the transform, Hamiltonian, response and density
    models: finite sums over [0..n-1], roots of unity and their orthogonality.
    Complex numbers are Coquelicot's pairs of reals (exact arithmetic instead of
    the code's complex128). *)
From Coq Require Export Reals Lra.
From Coquelicot Require Export Complex.
From Verif Require Import Base.
Open Scope R_scope.
Open Scope C_scope.

Ltac cring := apply injective_projections; cbn; ring.

(** Finite sum [f 0 + ... + f (n-1)]. *)
Fixpoint csum (n : nat) (f : nat -> C) : C :=
  match n with
  | O => 0
  | S m => csum m f + f m
  end.

(** Real finite sum. *)
Fixpoint rsum (n : nat) (f : nat -> R) : R :=
  match n with
  | O => 0%R
  | S m => (rsum m f + f m)%R
  end.

(** [exp(i t)] *)
Definition cis (t : R) : C := (cos t, sin t).

(** [exp(2 pi i k / n)] *)
Definition root (n : nat) (k : Z) : C := cis (2 * PI * IZR k / INR n).

(* ------------------------------------------------------------------ *)

Lemma C_ext (a b : C) : fst a = fst b -> snd a = snd b -> a = b.
Proof. destruct a, b; cbn; congruence. Qed.

Lemma csum_ext n (f g : nat -> C) : (forall i, (i < n)%nat -> f i = g i) -> csum n f = csum n g.
Proof.
  induction n as [|n IH]; intros H; cbn; [reflexivity|].
  rewrite IH by (intros; apply H; lia). now rewrite (H n) by lia.
Qed.

Lemma csum_0 n : csum n (fun _ => RtoC 0) = 0.
Proof. induction n as [|n IH]; cbn; [reflexivity|]. rewrite IH. ring. Qed.

Lemma csum_zero n (f : nat -> C) : (forall i, (i < n)%nat -> f i = 0) -> csum n f = 0.
Proof. intros H. rewrite (csum_ext n f (fun _ => RtoC 0) H). apply csum_0. Qed.

Lemma csum_plus n (f g : nat -> C) : csum n (fun i => f i + g i) = csum n f + csum n g.
Proof. induction n as [|n IH]; cbn; [ring|]. rewrite IH. ring. Qed.

Lemma csum_minus n (f g : nat -> C) : csum n (fun i => f i - g i) = csum n f - csum n g.
Proof. induction n as [|n IH]; cbn; [ring|]. rewrite IH. ring. Qed.

Lemma csum_scal n (a : C) (f : nat -> C) : csum n (fun i => a * f i) = a * csum n f.
Proof. induction n as [|n IH]; cbn; [ring|]. rewrite IH. ring. Qed.

Lemma csum_scal_r n (a : C) (f : nat -> C) : csum n (fun i => f i * a) = csum n f * a.
Proof. induction n as [|n IH]; cbn; [ring|]. rewrite IH. ring. Qed.

Lemma csum_swap n m (f : nat -> nat -> C) :
  csum n (fun i => csum m (fun j => f i j)) = csum m (fun j => csum n (fun i => f i j)).
Proof.
  induction n as [|n IH]; cbn.
  - now rewrite csum_0.
  - rewrite IH. now rewrite <- csum_plus.
Qed.

Lemma csum_app n m (f : nat -> C) : csum (n + m) f = csum n f + csum m (fun i => f (n + i)%nat).
Proof.
  induction m as [|m IH]; cbn.
  - rewrite Nat.add_0_r. ring.
  - rewrite Nat.add_succ_r. cbn. rewrite IH. ring.
Qed.

Lemma csum_prod n m (f : nat -> C) :
  csum (n * m) f = csum n (fun i => csum m (fun j => f (i * m + j)%nat)).
Proof.
  induction n as [|n IH]; cbn; [reflexivity|].
  rewrite Nat.add_comm, csum_app, IH. reflexivity.
Qed.

Lemma csum_delta n k (f : nat -> C) :
  (k < n)%nat -> (forall i, (i < n)%nat -> i <> k -> f i = 0) -> csum n f = f k.
Proof.
  induction n as [|n IH]; intros Hk H; [lia|]. cbn.
  destruct (Nat.eq_dec k n) as [->|Hne].
  - rewrite csum_zero; [ring|]. intros i Hi. apply H; lia.
  - rewrite IH; [|lia|intros; apply H; lia]. rewrite (H n) by lia. ring.
Qed.

Lemma csum_const n (a : C) : csum n (fun _ => a) = RtoC (INR n) * a.
Proof.
  induction n as [|n IH].
  - cbn. ring.
  - cbn [csum]. rewrite IH, S_INR, RtoC_plus. ring.
Qed.

Lemma csum_conj n (f : nat -> C) : Cconj (csum n f) = csum n (fun i => Cconj (f i)).
Proof.
  induction n as [|n IH]; cbn [csum].
  - apply C_ext; cbn; ring.
  - rewrite <- IH. apply C_ext; cbn; ring.
Qed.

Lemma csum_mult n m (f g : nat -> C) :
  csum n f * csum m g = csum n (fun i => csum m (fun j => f i * g j)).
Proof.
  rewrite <- csum_scal_r. apply csum_ext. intros i _. now rewrite csum_scal.
Qed.

Lemma csum_RtoC n f : csum n (fun i => RtoC (f i)) = RtoC (rsum n f).
Proof. induction n as [|n IH]; cbn [csum rsum]; [reflexivity|]. now rewrite IH, RtoC_plus. Qed.

Lemma csum_re n f : fst (csum n f) = rsum n (fun i => fst (f i)).
Proof. induction n as [|n IH]; cbn; [reflexivity|]. now rewrite IH. Qed.

Lemma csum_im n f : snd (csum n f) = rsum n (fun i => snd (f i)).
Proof. induction n as [|n IH]; cbn; [reflexivity|]. now rewrite IH. Qed.

Lemma rsum_ext n f g : (forall i, (i < n)%nat -> f i = g i) -> rsum n f = rsum n g.
Proof.
  induction n as [|n IH]; intros H; cbn; [reflexivity|].
  rewrite IH by (intros; apply H; lia). now rewrite (H n) by lia.
Qed.

Lemma rsum_plus n f g : rsum n (fun i => f i + g i)%R = (rsum n f + rsum n g)%R.
Proof. induction n as [|n IH]; cbn; [ring|]. rewrite IH. ring. Qed.

Lemma rsum_scal n a f : rsum n (fun i => a * f i)%R = (a * rsum n f)%R.
Proof. induction n as [|n IH]; cbn; [ring|]. rewrite IH. ring. Qed.

Lemma rsum_nonneg n f : (forall i, (i < n)%nat -> (0 <= f i)%R) -> (0 <= rsum n f)%R.
Proof.
  induction n as [|n IH]; intros H; cbn; [lra|].
  specialize (IH (fun i Hi => H i (Nat.lt_lt_succ_r _ _ Hi))).
  specialize (H n (Nat.lt_succ_diag_r n)). lra.
Qed.

Lemma rsum_le n f g : (forall i, (i < n)%nat -> (f i <= g i)%R) -> (rsum n f <= rsum n g)%R.
Proof.
  induction n as [|n IH]; intros H; cbn; [lra|].
  specialize (IH (fun i Hi => H i (Nat.lt_lt_succ_r _ _ Hi))).
  specialize (H n (Nat.lt_succ_diag_r n)). lra.
Qed.

Lemma rsum_const n a : rsum n (fun _ => a) = (INR n * a)%R.
Proof. induction n as [|n IH]; [cbn; ring|]. cbn [rsum]. rewrite IH, S_INR. ring. Qed.

(* ------------------------------------------------------------------ *)
(** Roots of unity. *)

Lemma cis_plus s t : cis (s + t) = cis s * cis t.
Proof. unfold cis. apply C_ext; cbn; [apply cos_plus|]. rewrite sin_plus. ring. Qed.

Lemma cis_0 : cis 0 = 1.
Proof. unfold cis. now rewrite cos_0, sin_0. Qed.

Lemma cis_conj t : Cconj (cis t) = cis (- t).
Proof. unfold cis, Cconj. cbn. now rewrite cos_neg, sin_neg. Qed.

Lemma cis_2PI_nat k : cis (2 * PI * INR k) = 1.
Proof.
  induction k as [|k IH].
  - cbn. rewrite Rmult_0_r. apply cis_0.
  - rewrite S_INR. replace (2 * PI * (INR k + 1))%R with (2 * PI * INR k + 2 * PI)%R by ring.
    rewrite cis_plus, IH. unfold cis. rewrite cos_2PI, sin_2PI. apply C_ext; cbn; ring.
Qed.

Lemma cis_2PI_Z k : cis (2 * PI * IZR k) = 1.
Proof.
  destruct (Z_le_gt_dec 0 k) as [H|H].
  - rewrite <- (Z2Nat.id k H), <- INR_IZR_INZ. apply cis_2PI_nat.
  - replace k with (- Z.of_nat (Z.to_nat (- k)))%Z by lia.
    rewrite opp_IZR, <- INR_IZR_INZ.
    replace (2 * PI * - INR (Z.to_nat (- k)))%R with (- (2 * PI * INR (Z.to_nat (- k))))%R by ring.
    rewrite <- cis_conj, cis_2PI_nat. apply C_ext; cbn; ring.
Qed.

Lemma root_add n j k : root n (j + k) = root n j * root n k.
Proof.
  unfold root. rewrite plus_IZR, <- cis_plus. f_equal. unfold Rdiv. ring.
Qed.

Lemma root_0 n : root n 0 = 1.
Proof. unfold root. replace (2 * PI * 0 / INR n)%R with 0%R by (unfold Rdiv; ring). apply cis_0. Qed.

Lemma root_conj n k : Cconj (root n k) = root n (- k).
Proof. unfold root. rewrite cis_conj, opp_IZR. f_equal. unfold Rdiv. ring. Qed.

Lemma root_opp n k : root n k * root n (- k) = 1.
Proof. rewrite <- root_add, Z.add_opp_diag_r. apply root_0. Qed.

Lemma root_mult_n n k : (0 < n)%nat -> root n (Z.of_nat n * k) = 1.
Proof.
  intros Hn. unfold root. rewrite mult_IZR, <- INR_IZR_INZ.
  replace (2 * PI * (INR n * IZR k) / INR n)%R with (2 * PI * IZR k)%R.
  - apply cis_2PI_Z.
  - field. apply not_0_INR. lia.
Qed.

Lemma root_periodic n j k : (0 < n)%nat -> root n (j + Z.of_nat n * k) = root n j.
Proof. intros Hn. rewrite root_add, root_mult_n by assumption. ring. Qed.

Lemma root_mod n k : (0 < n)%nat -> root n (k mod Z.of_nat n) = root n k.
Proof.
  intros Hn. rewrite (Z.div_mod k (Z.of_nat n)) at 2 by lia.
  rewrite Z.add_comm, root_periodic by assumption. reflexivity.
Qed.

Lemma root_ne_1 n k : (0 < n)%nat -> (k mod Z.of_nat n <> 0)%Z -> root n k <> 1.
Proof.
  intros Hn Hk. rewrite <- root_mod by assumption. set (r := (k mod Z.of_nat n)%Z) in *.
  assert (Hr : (0 < r < Z.of_nat n)%Z) by (subst r; pose proof (Z.mod_pos_bound k (Z.of_nat n)); lia).
  unfold root, cis. intros H. apply (f_equal fst) in H. cbn in H.
  assert (Hnr : (0 < INR n)%R) by (apply lt_0_INR; lia).
  assert (Hrr : (0 < IZR r)%R) by (apply IZR_lt; lia).
  assert (Hrn : (IZR r < INR n)%R) by (rewrite INR_IZR_INZ; apply IZR_lt; lia).
  set (t := (PI * IZR r / INR n)%R).
  replace (2 * PI * IZR r / INR n)%R with (2 * t)%R in H by (unfold t; field; lra).
  rewrite cos_2a_sin in H.
  assert (0 < sin t)%R; [|nra].
  pose proof PI_RGT_0. apply sin_gt_0; unfold t.
  - apply Rdiv_lt_0_compat; [nra|assumption].
  - apply Rmult_lt_reg_r with (INR n); [assumption|].
    replace (PI * IZR r / INR n * INR n)%R with (PI * IZR r)%R by (field; lra). nra.
Qed.

Lemma root_geom n m k :
  (root n k - 1) * csum m (fun j => root n (Z.of_nat j * k)) = root n (Z.of_nat m * k) - 1.
Proof.
  induction m as [|m IH].
  - cbn [csum]. change (Z.of_nat 0 * k)%Z with 0%Z. rewrite root_0. ring.
  - cbn [csum]. rewrite Cmult_plus_distr_l, IH.
    replace (Z.of_nat (S m) * k)%Z with (k + Z.of_nat m * k)%Z by lia.
    rewrite root_add. ring.
Qed.

Theorem root_orthogonal n k : (0 < n)%nat ->
  csum n (fun j => root n (Z.of_nat j * k)) =
  if (k mod Z.of_nat n =? 0)%Z then RtoC (INR n) else 0.
Proof.
  intros Hn. destruct (Z.eqb_spec (k mod Z.of_nat n) 0) as [E|E].
  - rewrite (csum_ext n _ (fun _ => 1)).
    + rewrite csum_const. ring.
    + intros j _. rewrite (Z.div_mod k (Z.of_nat n)) by lia. rewrite E, Z.add_0_r.
      replace (Z.of_nat j * (Z.of_nat n * (k / Z.of_nat n)))%Z
        with (Z.of_nat n * (Z.of_nat j * (k / Z.of_nat n)))%Z by ring.
      now apply root_mult_n.
  - pose proof (root_geom n n k) as G. rewrite root_mult_n in G by assumption.
    assert (H1 : root n k - 1 <> 0).
    { intros H. apply (root_ne_1 n k Hn E). rewrite <- (Cplus_0_r (root n k)).
      replace (RtoC 0) with (- (1) + 1) by ring. rewrite Cplus_assoc.
      change (root n k + - (1)) with (root n k - 1). rewrite H. ring. }
    replace (csum n (fun j => root n (Z.of_nat j * k)))
      with (/ (root n k - 1) * ((root n k - 1) * csum n (fun j => root n (Z.of_nat j * k)))).
    + rewrite G. ring.
    + rewrite Cmult_assoc, Cinv_l by assumption. ring.
Qed.

Lemma cis_norm2 t : cis t * Cconj (cis t) = 1.
Proof. rewrite cis_conj, <- cis_plus, Rplus_opp_r. apply cis_0. Qed.
