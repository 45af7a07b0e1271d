(** Proofs about the mixers; statements for readers are in PropsMix.v. *)
From Verif Require Import Base CBase MixModel MixSpec.
Open Scope nat_scope.

(* ---------- sums under a permutation ---------- *)

Definition swapv (i j k : nat) : nat := if k =? i then j else if k =? j then i else k.

Lemma csum_perm n : forall (f : nat -> C) (s : nat -> nat),
  (forall i, i < n -> s i < n) -> (forall i j, i < n -> j < n -> s i = s j -> i = j) ->
  csum n (fun i => f (s i)) = csum n f.
Proof.
  induction n as [|n IH]; intros f s Hr Hi; [reflexivity|].
  cbn [csum].
  destruct (Nat.eq_dec (s n) n) as [E|E].
  - rewrite E. f_equal. apply IH.
    + intros i Hin. specialize (Hr i ltac:(lia)).
      destruct (Nat.eq_dec (s i) n) as [E2|E2]; [|lia].
      assert (i = n) by (apply Hi; lia). lia.
    + intros i j H1 H2. apply Hi; lia.
  - (* f' = f with n and s n exchanged *)
    set (t := s n) in *. assert (Ht : t < n) by (specialize (Hr n ltac:(lia)); fold t in Hr; lia).
    (* s' i = if s i = n then t else s i *)
    set (s' := fun i => if s i =? n then t else s i).
    assert (H1 : forall i, i < n -> s' i < n).
    { intros i Hin. unfold s'. destruct (Nat.eqb_spec (s i) n); [lia|]. specialize (Hr i ltac:(lia)). lia. }
    assert (H2 : forall i j, i < n -> j < n -> s' i = s' j -> i = j).
    { intros i j Hin Hjn. unfold s'.
      destruct (Nat.eqb_spec (s i) n) as [A|A], (Nat.eqb_spec (s j) n) as [B|B]; intros Hij.
      - apply Hi; lia.
      - assert (j = n) by (apply Hi; [lia|lia|unfold t in Hij; lia]). lia.
      - assert (i = n) by (apply Hi; [lia|lia|unfold t in Hij; lia]). lia.
      - apply Hi; lia. }
    (* sum of g(s' i) = sum g over n, with g k = if k = t then f n else f k *)
    pose (g := fun k => if k =? t then f n else f k).
    assert (G : csum n (fun i => f (s i)) = csum n (fun i => g (s' i))).
    { apply csum_ext. intros i Hin. unfold g, s'.
      destruct (Nat.eqb_spec (s i) n) as [A|A].
      - now rewrite Nat.eqb_refl, A.
      - destruct (Nat.eqb_spec (s i) t) as [B|B]; [|reflexivity].
        assert (i = n) by (apply Hi; [lia|lia|unfold t in B; lia]). lia. }
    rewrite G, (IH g s' H1 H2).
    (* csum n g + f t = csum n f + f n *)
    assert (K : (csum n g - csum n f = f n - f t)%C).
    { rewrite <- csum_minus. rewrite (csum_delta n t).
      - unfold g. now rewrite Nat.eqb_refl.
      - exact Ht.
      - intros i _ Hne. unfold g. destruct (Nat.eqb_spec i t); [contradiction|]. ring. }
    replace (csum n g) with (csum n f + (csum n g - csum n f))%C by ring.
    rewrite K. ring.
Qed.

(* ---------- the inner product ---------- *)

Section Dot.
Context (cfg : mixcfg).

Lemma deq_refl a : deq cfg a a.
Proof. intros s g _ _. reflexivity. Qed.
Lemma deq_sym a b : deq cfg a b -> deq cfg b a.
Proof. intros H s g Hs Hg. symmetry. now apply H. Qed.
Lemma deq_trans a b c : deq cfg a b -> deq cfg b c -> deq cfg a c.
Proof. intros H1 H2 s g Hs Hg. rewrite H1; auto. Qed.

Lemma chden_ext a b g : deq cfg a b -> g < mc_ng cfg -> chden cfg a g = chden cfg b g.
Proof. intros H Hg. apply csum_ext. intros s Hs. now apply H. Qed.

Lemma mdot_ext a a' b b' : deq cfg a a' -> deq cfg b b' -> mdot cfg a b = mdot cfg a' b'.
Proof.
  intros Ha Hb. unfold mdot.
  assert (E : csum (mc_ng cfg) (fun g => if (mc_has_g0 cfg && (g =? 0))%bool then RtoC 0
      else (Cconj (chden cfg a g) * chden cfg b g / RtoC (mc_g2 cfg g))%C) =
      csum (mc_ng cfg) (fun g => if (mc_has_g0 cfg && (g =? 0))%bool then RtoC 0
      else (Cconj (chden cfg a' g) * chden cfg b' g / RtoC (mc_g2 cfg g))%C)).
  { apply csum_ext. intros g Hg. now rewrite (chden_ext a a' g Ha Hg), (chden_ext b b' g Hb Hg). }
  cbv zeta. rewrite E.
  destruct (Nat.eqb_spec (mc_ns cfg) 2) as [N|N]; [|reflexivity].
  do 4 f_equal. apply csum_ext. intros g Hg.
  rewrite (Ha 0 g), (Ha 1 g), (Hb 0 g), (Hb 1 g) by lia. reflexivity.
Qed.

Lemma fst_div_R (z : C) (r : R) : fst (z / RtoC r)%C = (fst z / r)%R.
Proof.
  destruct (Req_dec r 0) as [->|Hr].
  - unfold Cdiv, Cinv, Rdiv. cbn.
    replace (0 * (0 * 1) + 0 * (0 * 1))%R with 0%R by ring. rewrite !Rinv_0. ring.
  - unfold Cdiv, Cinv, Rdiv. cbn. field. exact Hr.
Qed.

(** Real form of the inner product. *)
Definition re_cc (x y : C) : R := (fst x * fst y + snd x * snd y)%R.
Lemma fst_conj_mul x y : fst (Cconj x * y)%C = re_cc x y.
Proof. unfold re_cc. cbn. ring. Qed.
Definition gw (g : nat) : R := if (mc_has_g0 cfg && (g =? 0))%bool then 0%R else (/ mc_g2 cfg g)%R.
Lemma mdot_real a b : mdot cfg a b =
  (mc_fac cfg * rsum (mc_ng cfg) (fun g => gw g * re_cc (chden cfg a g) (chden cfg b g)) +
   (if mc_ns cfg =? 2 then mc_fac cfg * rsum (mc_ng cfg) (fun g =>
       re_cc (a 0%nat g - a 1%nat g)%C (b 0%nat g - b 1%nat g)%C) / (mc_tpiba cfg * mc_tpiba cfg) else 0))%R.
Proof.
  unfold mdot. cbv zeta. rewrite !csum_re.
  rewrite (rsum_ext _ _ (fun g => (gw g * re_cc (chden cfg a g) (chden cfg b g))%R)).
  2:{ intros g _. unfold gw. destruct (mc_has_g0 cfg && (g =? 0))%bool; [cbn; ring|].
      rewrite fst_div_R, fst_conj_mul. unfold Rdiv. ring. }
  destruct (mc_ns cfg =? 2).
  - f_equal. f_equal. f_equal. apply rsum_ext. intros g _. apply fst_conj_mul.
  - ring.
Qed.

Lemma re_cc_sym x y : re_cc x y = re_cc y x.
Proof. unfold re_cc; ring. Qed.

Lemma mdot_sym a b : mdot cfg a b = mdot cfg b a.
Proof.
  rewrite !mdot_real. f_equal.
  - f_equal. apply rsum_ext. intros. now rewrite re_cc_sym.
  - destruct (mc_ns cfg =? 2); [|reflexivity]. f_equal. f_equal. apply rsum_ext.
    intros. now rewrite re_cc_sym.
Qed.

Lemma chden_add a b g : chden cfg (dadd a b) g = (chden cfg a g + chden cfg b g)%C.
Proof. unfold chden, dadd. now rewrite csum_plus. Qed.
Lemma chden_scal c a g : chden cfg (dscal c a) g = (c * chden cfg a g)%C.
Proof. unfold chden, dscal. now rewrite csum_scal. Qed.

Lemma mdot_add_r a b c : mdot cfg a (dadd b c) = (mdot cfg a b + mdot cfg a c)%R.
Proof.
  rewrite !mdot_real.
  rewrite (rsum_ext _ (fun g => gw g * re_cc (chden cfg a g) (chden cfg (dadd b c) g))%R
    (fun g => gw g * re_cc (chden cfg a g) (chden cfg b g) + gw g * re_cc (chden cfg a g) (chden cfg c g))%R).
  2:{ intros g _. rewrite chden_add. unfold re_cc. cbn. ring. }
  rewrite rsum_plus. destruct (mc_ns cfg =? 2); [|ring].
  rewrite (rsum_ext _ (fun g => re_cc (a 0%nat g - a 1%nat g)%C (dadd b c 0%nat g - dadd b c 1%nat g)%C)
    (fun g => re_cc (a 0%nat g - a 1%nat g)%C (b 0%nat g - b 1%nat g)%C + re_cc (a 0%nat g - a 1%nat g)%C (c 0%nat g - c 1%nat g)%C)%R).
  2:{ intros g _. unfold dadd, re_cc. cbn. ring. }
  rewrite rsum_plus. unfold Rdiv. ring.
Qed.

Lemma mdot_scal_r a (r : R) b : mdot cfg a (dscal (RtoC r) b) = (r * mdot cfg a b)%R.
Proof.
  rewrite !mdot_real.
  rewrite (rsum_ext _ (fun g => gw g * re_cc (chden cfg a g) (chden cfg (dscal (RtoC r) b) g))%R
    (fun g => r * (gw g * re_cc (chden cfg a g) (chden cfg b g)))%R).
  2:{ intros g _. rewrite chden_scal. unfold re_cc. cbn. ring. }
  rewrite rsum_scal. destruct (mc_ns cfg =? 2); [|ring].
  rewrite (rsum_ext _ (fun g => re_cc (a 0%nat g - a 1%nat g)%C (dscal (RtoC r) b 0%nat g - dscal (RtoC r) b 1%nat g)%C)
    (fun g => r * re_cc (a 0%nat g - a 1%nat g)%C (b 0%nat g - b 1%nat g)%C)%R).
  2:{ intros g _. unfold dscal, re_cc. cbn. ring. }
  rewrite rsum_scal. unfold Rdiv. ring.
Qed.

Lemma mdot_sub_r a b c : mdot cfg a (dsub b c) = (mdot cfg a b - mdot cfg a c)%R.
Proof.
  rewrite (mdot_ext a a (dsub b c) (dadd b (dscal (RtoC (-1)) c))).
  - rewrite mdot_add_r, mdot_scal_r. ring.
  - apply deq_refl.
  - intros s g _ _. unfold dsub, dadd, dscal. apply C_ext; cbn; ring.
Qed.

Lemma mdot_neg_r a b : mdot cfg a (dneg b) = (- mdot cfg a b)%R.
Proof.
  rewrite (mdot_ext a a (dneg b) (dscal (RtoC (-1)) b)).
  - rewrite mdot_scal_r. ring.
  - apply deq_refl.
  - intros s g _ _. unfold dneg, dscal. apply C_ext; cbn; ring.
Qed.

Lemma mdot_zero_r a b : (deq cfg b (fun _ _ => RtoC 0)) -> mdot cfg a b = 0%R.
Proof.
  intros H. rewrite (mdot_ext a a b (dscal (RtoC 0) b)).
  - rewrite mdot_scal_r. ring.
  - apply deq_refl.
  - intros s g Hs Hg. rewrite H by assumption. unfold dscal. rewrite H by assumption. ring.
Qed.

Lemma mdot_lincomb a n c x v :
  mdot cfg a (lincomb n c x v) = (mdot cfg a x - rsum n (fun i => c i * mdot cfg a (v i)))%R.
Proof.
  induction n as [|n IH].
  - cbn. rewrite (mdot_ext a a (lincomb 0 c x v) x); [ring|apply deq_refl|].
    intros s g _ _. unfold lincomb. cbn. ring.
  - rewrite (mdot_ext a a (lincomb (S n) c x v) (dsub (lincomb n c x v) (dscal (RtoC (c n)) (v n)))).
    + rewrite mdot_sub_r, IH, mdot_scal_r. cbn [rsum]. ring.
    + apply deq_refl.
    + intros s g _ _. unfold lincomb, dsub, dscal. cbn [csum]. ring.
Qed.

Lemma mdot_nonneg a :
  (0 <= mc_fac cfg)%R -> (forall g, g < mc_ng cfg -> (mc_has_g0 cfg = true /\ g = 0) \/ (0 < mc_g2 cfg g)%R) ->
  (0 <= mdot cfg a a)%R.
Proof.
  intros Hf Hg. rewrite mdot_real.
  assert (P : forall z, (0 <= re_cc z z)%R) by (intros z; unfold re_cc; nra).
  apply Rplus_le_le_0_compat.
  - apply Rmult_le_pos; [exact Hf|]. apply rsum_nonneg. intros g Hlt. apply Rmult_le_pos; [|apply P].
    unfold gw. destruct (Hg g Hlt) as [[-> ->]|Hpos]; [cbn; lra|].
    destruct (mc_has_g0 cfg && (g =? 0))%bool; [lra|]. left. now apply Rinv_0_lt_compat.
  - destruct (mc_ns cfg =? 2); [|lra].
    unfold Rdiv. apply Rmult_le_pos.
    + apply Rmult_le_pos; [exact Hf|]. apply rsum_nonneg. intros; apply P.
    + destruct (Req_dec (mc_tpiba cfg * mc_tpiba cfg) 0) as [->|N]; [rewrite Rinv_0; lra|].
      left. apply Rinv_0_lt_compat. nra.
Qed.

(** Orthogonality to all directions gives the least norm. *)
Lemma orth_min n c x v :
  (0 <= mc_fac cfg)%R -> (forall g, g < mc_ng cfg -> (mc_has_g0 cfg = true /\ g = 0) \/ (0 < mc_g2 cfg g)%R) ->
  (forall i, i < n -> mdot cfg (v i) (lincomb n c x v) = 0%R) ->
  forall y, (mdot cfg (lincomb n c x v) (lincomb n c x v) <= mdot cfg (lincomb n y x v) (lincomb n y x v))%R.
Proof.
  intros Hf Hg Ho y. set (r := lincomb n c x v) in *.
  set (w := lincomb n (fun i => (y i - c i)%R) (fun _ _ => RtoC 0) v).
  assert (E : deq cfg (lincomb n y x v) (dadd r w)).
  { intros s g _ _. unfold r, w, lincomb, dadd.
    rewrite (csum_ext n (fun i => (RtoC (y i) * v i s g)%C)
       (fun i => (RtoC (c i) * v i s g + RtoC (y i - c i) * v i s g)%C)).
    - rewrite csum_plus. ring.
    - intros i _. rewrite RtoC_minus. ring. }
  rewrite (mdot_ext _ _ _ _ E E).
  assert (O : mdot cfg r w = 0%R).
  { unfold w. rewrite mdot_lincomb.
    rewrite (rsum_ext n _ (fun _ => 0%R)).
    - rewrite mdot_zero_r by (intros ? ? ? ?; reflexivity). rewrite rsum_const. ring.
    - intros i Hi. rewrite (mdot_sym r (v i)), (Ho i Hi). ring. }
  rewrite mdot_add_r, (mdot_sym (dadd r w) r), (mdot_sym (dadd r w) w), !mdot_add_r, (mdot_sym w r), O.
  assert (H := mdot_nonneg w Hf Hg). lra.
Qed.

End Dot.

(* ---------- loops ---------- *)

Lemma for_range_overlap n isave (d : nat -> nat -> C) ov :
  isave < n -> (forall i j, d i j = d j i) ->
  let ov' := for_range n (fun i ov =>
        let ov1 := upd2 ov isave i (d i isave) in upd2 ov1 i isave (ov1 isave i)) ov in
  forall r c, ov' r c = if ((r =? isave) && (c <? n))%bool then d c isave
                       else if ((c =? isave) && (r <? n))%bool then d r isave else ov r c.
Proof.
  intros Hlt Hsym ov' r c. unfold ov'. clear ov'.
  assert (H : forall k, k <= n -> for_range k (fun i ov =>
        let ov1 := upd2 ov isave i (d i isave) in upd2 ov1 i isave (ov1 isave i)) ov r c =
        if ((r =? isave) && (c <? k))%bool then d c isave
                       else if ((c =? isave) && (r <? k))%bool then d r isave else ov r c).
  2:{ apply H. lia. }
  clear Hlt.
  induction k as [|k IH]; intros Hk; cbn [for_range].
  - destruct (r =? isave), (c =? isave); cbn; try reflexivity; destruct (Nat.ltb_spec c 0), (Nat.ltb_spec r 0); try lia; reflexivity.
  - specialize (IH ltac:(lia)). cbv zeta in IH |- *.
    set (M := for_range k _ ov) in *. clearbody M. unfold upd2.
    rewrite !Nat.eqb_refl. cbn [andb]. rewrite IH. clear IH.
    repeat (match goal with
            | |- context [?a =? ?b] => destruct (Nat.eqb_spec a b); subst
            | |- context [?a <? ?b] => destruct (Nat.ltb_spec a b)
            end; cbn [andb]); try lia; try reflexivity; try congruence.
Qed.

Lemma copy_lower_sym n m :
  (forall i j, i < n -> j < n -> m i j = m j i) ->
  forall r c, r < n -> c < n -> copy_lower n m r c = m r c.
Proof.
  intros Hs. unfold copy_lower.
  assert (H : forall k, k <= n -> forall r c, r < n -> c < n ->
    for_range k (fun i M r c => if ((c =? i) && (r <? i))%bool then M i r else M r c) m r c = m r c).
  { induction k as [|k IH]; intros Hk r c Hr Hc; cbn [for_range]; [reflexivity|].
    destruct (Nat.eqb_spec c k) as [->|]; cbn [andb].
    - destruct (Nat.ltb_spec r k).
      + rewrite IH by lia. apply Hs; lia.
      + apply IH; lia.
    - apply IH; lia. }
  intros r c Hr Hc. apply H; lia.
Qed.

Lemma for_range_modbro n (comp : nat -> C) (dr de : nat -> dens) x r :
  forall x' r', for_range n (fun i '(x, r) =>
     (dsub x (dscal (comp i) (dr i)), dsub r (dscal (comp i) (de i)))) (x, r) = (x', r') ->
  (forall s g, x' s g = (x s g - csum n (fun i => comp i * dr i s g))%C) /\
  (forall s g, r' s g = (r s g - csum n (fun i => comp i * de i s g))%C).
Proof.
  induction n as [|n IH]; intros x' r' H; cbn [for_range] in H.
  - injection H as <- <-. split; intros; cbn; ring.
  - destruct (for_range n _ (x, r)) as [x1 r1] eqn:E. specialize (IH _ _ eq_refl) as [I1 I2].
    injection H as <- <-. split; intros s g; unfold dsub, dscal; cbn [csum].
    + rewrite I1. ring.
    + rewrite I2. ring.
Qed.

Lemma for_range_genbro n (comp : nat -> C) (dr de : nat -> dens) (G : C) d :
  forall s g, for_range n (fun i d => dadd d (dscal (comp i) (dsub (dr i) (dscal G (de i))))) d s g =
  (d s g + csum n (fun i => comp i * (dr i s g - G * de i s g)))%C.
Proof.
  induction n as [|n IH]; intros s g; cbn [for_range csum].
  - ring.
  - unfold dadd at 1. rewrite IH. unfold dscal, dsub. ring.
Qed.

Lemma Cconj_mul' (a b : C) : Cconj (a * b)%C = (Cconj a * Cconj b)%C.
Proof. apply C_ext; cbn; ring. Qed.

(* ---------- inverses of real symmetric matrices ---------- *)

Section Inverse.
Context (n : nat) (A B : nat -> nat -> C).
Hypothesis HAB : forall i k, i < n -> k < n -> csum n (fun j => (A i j * B j k)%C) = delta i k.
Hypothesis HBA : forall i k, i < n -> k < n -> csum n (fun j => (B i j * A j k)%C) = delta i k.

Lemma delta_l k (f : nat -> C) : k < n -> csum n (fun j => (delta k j * f j)%C) = f k.
Proof.
  intros Hk. rewrite (csum_delta n k).
  - unfold delta. rewrite Nat.eqb_refl. ring.
  - exact Hk.
  - intros i _ Hne. unfold delta. destruct (Nat.eqb_spec k i); [congruence|]. ring.
Qed.
Lemma delta_r k (f : nat -> C) : k < n -> csum n (fun j => (f j * delta j k)%C) = f k.
Proof.
  intros Hk. rewrite (csum_delta n k).
  - unfold delta. rewrite Nat.eqb_refl. ring.
  - exact Hk.
  - intros i _ Hne. unfold delta. destruct (Nat.eqb_spec i k); [congruence|]. ring.
Qed.

Lemma inverse_unique (B' : nat -> nat -> C) :
  (forall i k, i < n -> k < n -> csum n (fun j => (B' i j * A j k)%C) = delta i k) ->
  forall i k, i < n -> k < n -> B' i k = B i k.
Proof.
  intros H i k Hi Hk.
  rewrite <- (delta_r k (fun j => B' i j) Hk).
  rewrite (csum_ext n _ (fun j => csum n (fun l => (B' i j * (A j l * B l k))%C))).
  2:{ intros j Hj. rewrite csum_scal. now rewrite HAB. }
  rewrite csum_swap.
  rewrite (csum_ext n _ (fun l => (delta i l * B l k)%C)).
  2:{ intros l Hl. rewrite <- H by assumption. rewrite <- csum_scal_r. apply csum_ext. intros; ring. }
  now rewrite delta_l.
Qed.

Lemma delta_sym i j : delta i j = delta j i.
Proof. unfold delta. now rewrite Nat.eqb_sym. Qed.
Lemma delta_conj i j : Cconj (delta i j) = delta i j.
Proof. unfold delta. destruct (i =? j); apply C_ext; cbn; ring. Qed.

Lemma inverse_sym : (forall i j, i < n -> j < n -> A i j = A j i) ->
  forall i j, i < n -> j < n -> B i j = B j i.
Proof.
  intros Hs i j Hi Hj. symmetry. apply (inverse_unique (fun i j => B j i)); try assumption.
  intros a b Ha Hb. rewrite delta_sym, <- HAB by assumption.
  apply csum_ext. intros l Hl. rewrite (Hs l b) by assumption. ring.
Qed.

Lemma inverse_real : (forall i j, i < n -> j < n -> Cconj (A i j) = A i j) ->
  forall i j, i < n -> j < n -> Cconj (B i j) = B i j.
Proof.
  intros Hs i j Hi Hj. apply (inverse_unique (fun i j => Cconj (B i j))); try assumption.
  intros a b Ha Hb. rewrite <- delta_conj, <- HBA by assumption.
  rewrite csum_conj. apply csum_ext. intros l Hl. rewrite Cconj_mul'. now rewrite (Hs l b) by assumption.
Qed.
End Inverse.

(* ---------- the state invariant ---------- *)

Section Inv.
Context (cfg : mixcfg) (m : method).
Notation at_ hist k := (nth k hist dp).

(** [n] calls made; the first [n-1] differences, the last [mixdim] of which survive. *)
Record minv (hist : list (dens * dens)) (st : mixst) : Prop := {
  mi_idx : ms_idxiter st = length hist;
  mi_rho : 0 < length hist -> ms_rho_old st = fst (at_ hist (length hist - 1));
  mi_res : 0 < length hist -> ms_res_old st = residual (at_ hist (length hist - 1));
  mi_dr : forall k, 1 <= k -> k < length hist -> length hist - 1 < k + mc_mixdim cfg ->
      ms_del_rho st ((k - 1) mod mc_mixdim cfg) = mdiff m (fst (at_ hist (k - 1))) (fst (at_ hist k));
  mi_de : forall k, 1 <= k -> k < length hist -> length hist - 1 < k + mc_mixdim cfg ->
      ms_del_res st ((k - 1) mod mc_mixdim cfg) = mdiff m (residual (at_ hist (k - 1))) (residual (at_ hist k));
  mi_ov : forall i j, i < Nat.min (length hist - 1) (mc_mixdim cfg) ->
      j < Nat.min (length hist - 1) (mc_mixdim cfg) ->
      ms_overlap st i j = RtoC (mdot cfg (ms_del_res st i) (ms_del_res st j))
}.

(** State after the bookkeeping of a non-first call. *)
Definition ring_push (st : mixst) (rho_in res : dens) : mixst :=
  let isave := (ms_idxiter st - 1) mod mc_mixdim cfg in
  let numdim := Nat.min (ms_idxiter st) (mc_mixdim cfg) in
  let del_rho := upd1 (ms_del_rho st) isave (mdiff m (ms_rho_old st) rho_in) in
  let del_res := upd1 (ms_del_res st) isave (mdiff m (ms_res_old st) res) in
  let d i j := RtoC (match m with ModBro => mdot cfg (del_res i) (del_res j)
                                | GenBro => mdot cfg (del_res j) (del_res i) end) in
  {| ms_idxiter := S (ms_idxiter st); ms_rho_old := rho_in; ms_res_old := res;
     ms_del_rho := del_rho; ms_del_res := del_res;
     ms_overlap := for_range numdim (fun i ov =>
        let ov1 := upd2 ov isave i (d i isave) in upd2 ov1 i isave (ov1 isave i)) (ms_overlap st) |}.

Lemma mod_window a b M : 0 < M -> a < b -> b < a + M -> a mod M <> b mod M.
Proof.
  intros HM H1 H2 E.
  assert (A := Nat.div_mod a M ltac:(lia)). assert (B := Nat.div_mod b M ltac:(lia)).
  rewrite E in A. revert A B.
  generalize (a / M) (b / M) (b mod M). intros x y z A B.
  destruct (Nat.le_gt_cases y x) as [L|L].
  - assert (M * y <= M * x) by (apply Nat.mul_le_mono_l; lia). lia.
  - assert (M * S x <= M * y) by (apply Nat.mul_le_mono_l; lia). lia.
Qed.

Lemma isave_lt n M : 0 < n -> 0 < M -> (n - 1) mod M < Nat.min n M.
Proof.
  intros Hn HM. assert (H := Nat.mod_upper_bound (n - 1) M ltac:(lia)).
  assert (H2 := Nat.mod_le (n - 1) M ltac:(lia)). lia.
Qed.

Lemma ring_push_overlap hist st rho_in res :
  0 < mc_mixdim cfg -> minv hist st -> 0 < length hist ->
  let st' := ring_push st rho_in res in
  forall i j, i < Nat.min (length hist) (mc_mixdim cfg) ->
      j < Nat.min (length hist) (mc_mixdim cfg) ->
      ms_overlap st' i j = RtoC (mdot cfg (ms_del_res st' i) (ms_del_res st' j)).
Proof.
  intros HM HI Hpos st' i j Hi Hj. destruct HI as [Hidx _ _ _ _ Hov].
  assert (HS := isave_lt (length hist) (mc_mixdim cfg) Hpos HM).
  unfold st', ring_push; cbn [ms_overlap ms_del_res]. rewrite Hidx in *.
  set (isave := (length hist - 1) mod mc_mixdim cfg) in *.
  set (de := upd1 (ms_del_res st) isave _).
  pose (dd := fun i j => RtoC (match m with ModBro => mdot cfg (de i) (de j) | GenBro => mdot cfg (de j) (de i) end)).
  assert (Dd : forall i j, dd i j = RtoC (mdot cfg (de i) (de j))).
  { intros a b. unfold dd. destruct m; [reflexivity|]. now rewrite mdot_sym. }
  assert (Hsym : forall i j, dd i j = dd j i) by (intros a b; rewrite !Dd; f_equal; apply mdot_sym).
  assert (F := for_range_overlap (Nat.min (length hist) (mc_mixdim cfg)) isave dd (ms_overlap st) HS Hsym i j).
  cbv zeta in F |- *. unfold dd in F at 1 2 3. rewrite F. clear F.
  destruct (Nat.eqb_spec i isave) as [->|Ni]; cbn [andb].
  - destruct (Nat.ltb_spec j (Nat.min (length hist) (mc_mixdim cfg))); [|lia].
    change (dd j isave = RtoC (mdot cfg (de isave) (de j))). rewrite Hsym. apply Dd.
  - destruct (Nat.eqb_spec j isave) as [->|Nj]; cbn [andb].
    + destruct (Nat.ltb_spec i (Nat.min (length hist) (mc_mixdim cfg))); [|lia].
      change (dd i isave = RtoC (mdot cfg (de i) (de isave))). apply Dd.
    + assert (Ed : forall a, a <> isave -> de a = ms_del_res st a).
      { intros a Ha. unfold de, upd1. destruct (Nat.eqb_spec a isave); [contradiction|reflexivity]. }
      rewrite (Ed i Ni), (Ed j Nj). apply Hov.
      * destruct (Nat.le_gt_cases (length hist) (mc_mixdim cfg)) as [L|L]; [|lia].
        unfold isave in Ni. rewrite Nat.mod_small in Ni by lia. lia.
      * destruct (Nat.le_gt_cases (length hist) (mc_mixdim cfg)) as [L|L]; [|lia].
        unfold isave in Nj. rewrite Nat.mod_small in Nj by lia. lia.
Qed.

Lemma ring_push_inv hist st p :
  0 < mc_mixdim cfg -> minv hist st -> 0 < length hist ->
  minv (hist ++ [p]) (ring_push st (fst p) (residual p)).
Proof.
  intros HM HI Hpos.
  assert (Hov := ring_push_overlap hist st (fst p) (residual p) HM HI Hpos).
  destruct HI as [Hidx Hrho Hres Hdr Hde _].
  assert (Ln : length (hist ++ [p]) = S (length hist)) by (rewrite app_length; cbn; lia).
  assert (Last : nth (S (length hist) - 1) (hist ++ [p]) dp = p).
  { replace (S (length hist) - 1) with (length hist) by lia.
    rewrite app_nth2 by lia. now rewrite Nat.sub_diag. }
  assert (Last' : nth (length hist) (hist ++ [p]) dp = p).
  { rewrite app_nth2 by lia. now rewrite Nat.sub_diag. }
  assert (Old : forall k, k < length hist -> nth k (hist ++ [p]) dp = nth k hist dp).
  { intros k Hk. now apply app_nth1. }
  assert (Hslot : forall (B : Type) (f : nat -> B) (v : B) k, 1 <= k -> k < length hist ->
     length hist < k + mc_mixdim cfg ->
     upd1 f ((ms_idxiter st - 1) mod mc_mixdim cfg) v ((k - 1) mod mc_mixdim cfg) = f ((k - 1) mod mc_mixdim cfg)).
  { intros B f v k H1 H2 H3. unfold upd1.
    destruct (Nat.eqb_spec ((k - 1) mod mc_mixdim cfg) ((ms_idxiter st - 1) mod mc_mixdim cfg)) as [E|E]; [|reflexivity].
    exfalso. rewrite Hidx in E. revert E. apply mod_window; lia. }
  split; rewrite ?Ln; unfold ring_push; cbn [ms_idxiter ms_rho_old ms_res_old ms_del_rho ms_del_res].
  - now rewrite Hidx.
  - intros _. now rewrite Last.
  - intros _. now rewrite Last.
  - intros k H1 H2 H3. destruct (Nat.eq_dec k (length hist)) as [->|Hk].
    + rewrite Last'.
      rewrite Old by lia. rewrite Hidx. unfold upd1. rewrite Nat.eqb_refl.
      now rewrite Hrho by lia.
    + rewrite Hslot by lia. rewrite !Old by lia. apply Hdr; lia.
  - intros k H1 H2 H3. destruct (Nat.eq_dec k (length hist)) as [->|Hk].
    + rewrite Last'.
      rewrite Old by lia. rewrite Hidx. unfold upd1. rewrite Nat.eqb_refl.
      now rewrite Hres by lia.
    + rewrite Hslot by lia. rewrite !Old by lia. apply Hde; lia.
  - replace (S (length hist) - 1) with (length hist) by lia. exact Hov.
Qed.

End Inv.

(** A call seen at the level of contents: the first one, and the later ones. *)
Lemma mix_first cfg m inv st h a_in a_out :
  ms_idxiter st = 0 ->
  mix_of m cfg inv st h a_in a_out =
  MixOk {| ms_idxiter := 1; ms_rho_old := hp_at h a_in; ms_res_old := dsub (hp_at h a_out) (hp_at h a_in);
           ms_del_rho := ms_del_rho st; ms_del_res := ms_del_res st; ms_overlap := ms_overlap st |}
        (hwrite h a_in (dadd (hp_at h a_in) (dscal (RtoC (mc_beta cfg)) (dsub (hp_at h a_out) (hp_at h a_in))))) a_in.
Proof. intros H. destruct m; cbn; unfold modbro_mix, genbro_mix; rewrite H; reflexivity. Qed.

Lemma mix_later cfg m inv st h a_in a_out st' h' a' :
  0 < mc_mixdim cfg -> 0 < ms_idxiter st ->
  mix_of m cfg inv st h a_in a_out = MixOk st' h' a' ->
  let res := dsub (hp_at h a_out) (hp_at h a_in) in
  let n := Nat.min (ms_idxiter st) (mc_mixdim cfg) in
  st' = ring_push cfg m st (hp_at h a_in) res /\
  exists oinv, inv n (ms_overlap st') = Some oinv /\
    hp_at h' a' = match m with
      | ModBro =>
          let comp i := csum n (fun k => (copy_lower n oinv k i * RtoC (mdot cfg (ms_del_res st' k) res))%C) in
          let '(x, r) := for_range n (fun i '(x, r) =>
            (dsub x (dscal (comp i) (ms_del_rho st' i)), dsub r (dscal (comp i) (ms_del_res st' i))))
            (hp_at h a_in, res) in dadd x (dscal (RtoC (mc_beta cfg)) r)
      | GenBro =>
          let comp i := csum n (fun k => (oinv i k * RtoC (mdot cfg (ms_del_res st' k) (dneg res)))%C) in
          dadd (hp_at h a_in) (for_range n (fun i d =>
            dadd d (dscal (comp i) (dsub (ms_del_rho st' i) (dscal (RtoC (- mc_beta cfg)) (ms_del_res st' i)))))
            (dscal (- RtoC (- mc_beta cfg))%C res))
      end.
Proof.
  intros HM Hi H res n.
  assert (Hn : (n =? 0) = false) by (apply Nat.eqb_neq; unfold n; lia).
  destruct m; cbn [mix_of] in H; unfold modbro_mix, genbro_mix in H; fold n in H; rewrite Hn in H;
    cbv zeta in H; fold res in H.
  - match type of H with (match inv n ?ov with _ => _ end) = _ => destruct (inv n ov) as [oinv|] eqn:E; [|discriminate] end.
    cbn [halloc] in H.
    match type of H with (let '(_, _) := ?f in _) = _ => destruct f as [x r] eqn:F end.
    injection H as <- <- <-. split; [reflexivity|]. exists oinv. split; [exact E|].
    cbn [ms_del_rho ms_del_res]. cbv zeta. rewrite F. unfold hwrite; cbn. unfold upd1 at 1. now rewrite Nat.eqb_refl.
  - match type of H with (match inv n ?ov with _ => _ end) = _ => destruct (inv n ov) as [oinv|] eqn:E; [|discriminate] end.
    injection H as <- <- <-. split; [reflexivity|]. exists oinv. split; [exact E|].
    cbn [ms_del_rho ms_del_res]. unfold hwrite; cbn. unfold upd1 at 1. now rewrite Nat.eqb_refl.
Qed.

Lemma history_inv cfg m inv hist st :
  0 < mc_mixdim cfg -> mix_history cfg m inv hist st -> minv cfg m hist st.
Proof.
  intros HM H. induction H as [g|hist st h a_in a_out st' h' a' H IH E].
  - split; cbn; try lia.
  - destruct (Nat.eq_dec (length hist) 0) as [L|L].
    + rewrite mix_first in E by (rewrite (mi_idx _ _ _ _ IH); exact L).
      injection E as <- _ _. apply length_zero_iff_nil in L as ->.
      split; cbn; try lia; reflexivity.
    + assert (Hi : 0 < ms_idxiter st) by (rewrite (mi_idx _ _ _ _ IH); lia).
      destruct (mix_later _ _ _ _ _ _ _ _ _ _ HM Hi E) as [-> _].
      apply (ring_push_inv cfg m hist st (hp_at h a_in, hp_at h a_out)); auto. lia.
Qed.

(** The value returned by a later call, for both methods at once. *)
Lemma mix_formula cfg m inv st h a_in a_out st' h' a' :
  0 < mc_mixdim cfg -> 0 < ms_idxiter st ->
  mix_of m cfg inv st h a_in a_out = MixOk st' h' a' ->
  let res := dsub (hp_at h a_out) (hp_at h a_in) in
  let n := Nat.min (ms_idxiter st) (mc_mixdim cfg) in
  exists oinv, inv n (ms_overlap st') = Some oinv /\
  let B i k := match m with ModBro => copy_lower n oinv k i | GenBro => oinv i k end in
  let comp i := csum n (fun k => (B i k * RtoC (mdot cfg (ms_del_res st' k) res))%C) in
  forall s g, hp_at h' a' s g =
    (hp_at h a_in s g - csum n (fun i => comp i * ms_del_rho st' i s g) +
     RtoC (mc_beta cfg) * (res s g - csum n (fun i => comp i * ms_del_res st' i s g)))%C.
Proof.
  intros HM Hi H res n.
  destruct (mix_later _ _ _ _ _ _ _ _ _ _ HM Hi H) as [-> [oinv [E V]]].
  fold res n in E, V |- *. exists oinv. split; [exact E|]. intros B comp s g. rewrite V. clear V.
  destruct m.
  - cbv zeta. fold (comp).
    match goal with |- (let '(_, _) := ?f in _) _ _ = _ => destruct f as [x r] eqn:F end.
    apply for_range_modbro in F as [F1 F2]. unfold dadd, dscal. rewrite F1, F2. reflexivity.
  - cbv zeta. unfold dadd at 1. rewrite for_range_genbro. unfold dscal.
    rewrite (csum_ext n (fun i => (csum n (fun k => (oinv i k * RtoC (mdot cfg (ms_del_res (ring_push cfg GenBro st (hp_at h a_in) res) k) (dneg res)))%C) * (ms_del_rho (ring_push cfg GenBro st (hp_at h a_in) res) i s g - RtoC (- mc_beta cfg) * ms_del_res (ring_push cfg GenBro st (hp_at h a_in) res) i s g))%C)
      (fun i => (- (comp i * ms_del_rho (ring_push cfg GenBro st (hp_at h a_in) res) i s g) +
                 - RtoC (mc_beta cfg) * (comp i * ms_del_res (ring_push cfg GenBro st (hp_at h a_in) res) i s g))%C)).
    + rewrite csum_plus, csum_scal.
      rewrite (csum_ext n (fun i => (- (comp i * ms_del_rho (ring_push cfg GenBro st (hp_at h a_in) res) i s g))%C)
        (fun i => (RtoC (-1) * (comp i * ms_del_rho (ring_push cfg GenBro st (hp_at h a_in) res) i s g))%C)).
      2:{ intros i _. apply C_ext; cbn; ring. }
      rewrite csum_scal. unfold res. unfold dsub. rewrite RtoC_opp.
      replace (RtoC (-1)) with (- RtoC 1)%C by (apply C_ext; cbn; ring). ring.
    + intros i _.
      assert (Ec : csum n (fun k => (oinv i k * RtoC (mdot cfg (ms_del_res (ring_push cfg GenBro st (hp_at h a_in) res) k) (dneg res)))%C) = (- comp i)%C).
      { unfold comp, B. replace (- csum n (fun k => oinv i k * RtoC (mdot cfg (ms_del_res (ring_push cfg GenBro st (hp_at h a_in) res) k) res)))%C
          with (RtoC (-1) * csum n (fun k => oinv i k * RtoC (mdot cfg (ms_del_res (ring_push cfg GenBro st (hp_at h a_in) res) k) res)))%C
          by (apply C_ext; cbn; ring).
        rewrite <- csum_scal. apply csum_ext. intros k _. rewrite mdot_neg_r, RtoC_opp.
        replace (RtoC (-1)) with (- RtoC 1)%C by (apply C_ext; cbn; ring). ring. }
      rewrite Ec, RtoC_opp. ring.
Qed.

(** With a true inverse the coefficients are real and leave a residual
    orthogonal to every stored residual difference. *)
Lemma mix_orth cfg m inv hist st h a_in a_out st' h' a' :
  inv_contract inv -> 0 < mc_mixdim cfg -> 0 < length hist ->
  minv cfg m hist st ->
  mix_of m cfg inv st h a_in a_out = MixOk st' h' a' ->
  let res := dsub (hp_at h a_out) (hp_at h a_in) in
  let n := Nat.min (length hist) (mc_mixdim cfg) in
  exists c : nat -> R,
    deq cfg (hp_at h' a')
      (dadd (lincomb n c (hp_at h a_in) (ms_del_rho st'))
            (dscal (RtoC (mc_beta cfg)) (lincomb n c res (ms_del_res st')))) /\
    (forall i, i < n -> mdot cfg (ms_del_res st' i) (lincomb n c res (ms_del_res st')) = 0%R) /\
    (forall B, (forall i k, i < n -> k < n -> csum n (fun j => (B i j * ms_overlap st' j k)%C) = delta i k) ->
       forall i, i < n -> RtoC (c i) = csum n (fun k => (B i k * RtoC (mdot cfg (ms_del_res st' k) res))%C)).
Proof.
  intros HC HM Hpos HI H res n.
  assert (Hi : 0 < ms_idxiter st) by (rewrite (mi_idx _ _ _ _ HI); lia).
  assert (En : Nat.min (ms_idxiter st) (mc_mixdim cfg) = n) by (rewrite (mi_idx _ _ _ _ HI); reflexivity).
  destruct (mix_formula _ _ _ _ _ _ _ _ _ _ HM Hi H) as [oinv [Einv F]].
  destruct (mix_later _ _ _ _ _ _ _ _ _ _ HM Hi H) as [Est _].
  fold res in F, Est. rewrite En in Einv, F.
  assert (Hov := ring_push_overlap cfg m hist st (hp_at h a_in) res HM HI Hpos).
  rewrite <- Est in Hov. cbv zeta in Hov. fold n in Hov.
  destruct (HC _ _ _ Einv) as [HAB HBA].
  assert (Asym : forall i j, i < n -> j < n -> ms_overlap st' i j = ms_overlap st' j i).
  { intros i j Hi' Hj. rewrite !Hov by assumption. now rewrite mdot_sym. }
  assert (Areal : forall i j, i < n -> j < n -> Cconj (ms_overlap st' i j) = ms_overlap st' i j).
  { intros i j Hi' Hj. rewrite !Hov by assumption. apply C_ext; cbn; ring. }
  assert (Bsym := inverse_sym n _ oinv HAB Asym).
  assert (Breal := inverse_real n _ oinv HAB HBA Areal).
  set (B := fun i k => match m with ModBro => copy_lower n oinv k i | GenBro => oinv i k end).
  assert (EB : forall i k, i < n -> k < n -> B i k = oinv i k).
  { intros i k Hi' Hk. unfold B. destruct m; [|reflexivity].
    rewrite copy_lower_sym by assumption. now apply Bsym. }
  set (comp := fun i => csum n (fun k => (B i k * RtoC (mdot cfg (ms_del_res st' k) res))%C)).
  assert (F' : forall s g, hp_at h' a' s g =
    (hp_at h a_in s g - csum n (fun i => comp i * ms_del_rho st' i s g) +
     RtoC (mc_beta cfg) * (res s g - csum n (fun i => comp i * ms_del_res st' i s g)))%C) by exact F.
  clear F; rename F' into F.
  assert (Ecomp : forall i, i < n -> comp i = csum n (fun k => (oinv i k * RtoC (mdot cfg (ms_del_res st' k) res))%C)).
  { intros i Hi'. unfold comp. apply csum_ext. intros k Hk. now rewrite EB. }
  assert (Hreal : forall i, i < n -> comp i = RtoC (fst (comp i))).
  { intros i Hi'.
    assert (Ez : Cconj (comp i) = comp i).
    { rewrite Ecomp by assumption. rewrite csum_conj. apply csum_ext. intros k Hk.
      rewrite Cconj_mul', Breal by assumption. f_equal. apply C_ext; cbn; ring. }
    apply C_ext; [reflexivity|]. apply (f_equal snd) in Ez. cbn in Ez |- *. lra. }
  exists (fun i => fst (comp i)). split; [|split].
  - intros s g _ _. rewrite F. unfold dadd, dscal, lincomb.
    rewrite (csum_ext n (fun i => comp i * ms_del_rho st' i s g)%C (fun i => (RtoC (fst (comp i)) * ms_del_rho st' i s g)%C))
      by (intros i Hi'; now rewrite <- Hreal).
    rewrite (csum_ext n (fun i => comp i * ms_del_res st' i s g)%C (fun i => (RtoC (fst (comp i)) * ms_del_res st' i s g)%C))
      by (intros i Hi'; now rewrite <- Hreal).
    reflexivity.
  - intros i Hi'. rewrite mdot_lincomb.
    assert (Q : RtoC (rsum n (fun j => fst (comp j) * mdot cfg (ms_del_res st' i) (ms_del_res st' j))%R) =
                RtoC (mdot cfg (ms_del_res st' i) res)).
    { rewrite <- csum_RtoC.
      rewrite (csum_ext n _ (fun j => csum n (fun k => (ms_overlap st' i j * oinv j k * RtoC (mdot cfg (ms_del_res st' k) res))%C))).
      2:{ intros j Hj. rewrite RtoC_mult, <- Hreal, <- Hov, Ecomp by assumption.
          rewrite Cmult_comm, <- csum_scal. apply csum_ext. intros; ring. }
      rewrite csum_swap.
      rewrite (csum_ext n _ (fun k => (delta i k * RtoC (mdot cfg (ms_del_res st' k) res))%C)).
      2:{ intros k Hk. rewrite csum_scal_r. now rewrite HAB. }
      now rewrite delta_l. }
    apply (f_equal fst) in Q. cbn in Q. rewrite Q. ring.
  - intros B' HB' i Hi'. rewrite <- Hreal, Ecomp by assumption. apply csum_ext. intros k Hk.
    f_equal. symmetry. apply (inverse_unique n _ oinv HAB B' HB'); assumption.
Qed.
