(** C117: occupied and empty bands of a wavefunction object. *)
From Coq Require Import Reals Lra Lia Sorted.
From Verif Require Import Base LatModel KPtsModel OccModel OccIdxModel OccProofs PropsOcc CBase.
Local Open Scope R_scope.

Lemma where_in {A} (p : A -> bool) d l i : In i (where_ p d l) <-> (i < length l)%nat /\ p (nth i l d) = true.
Proof. unfold where_. rewrite filter_In, in_seq. split; intros [H1 H2]; split; auto; lia. Qed.
Lemma seq_sorted n : forall a, StronglySorted lt (seq a n).
Proof.
  induction n as [|n IH]; intros a; cbn; constructor; [apply IH|].
  apply Forall_forall. intros x Hx. apply in_seq in Hx. lia.
Qed.
Lemma filter_sorted {A} (r : A -> A -> Prop) p l : StronglySorted r l -> StronglySorted r (filter p l).
Proof.
  induction 1 as [|x l S IH F]; cbn; [constructor|]. destruct (p x); [|exact IH]. constructor; [exact IH|].
  rewrite Forall_forall in *. intros y Hy. apply filter_In in Hy as [Hy _]. auto.
Qed.
Lemma alh_iff o : at_least_half o = true <-> exists x, o = Some x /\ 1 / 2 <= x.
Proof.
  destruct o as [x|]; cbn; [|split; [discriminate|intros (x & E & _); discriminate]].
  destruct (Rle_dec _ _); split; intros H; try discriminate; auto.
  - exists x. split; [reflexivity|lra].
  - destruct H as (y & E & Hy). injection E as <-. lra.
Qed.
Lemma bh_iff o : below_half o = true <-> exists x, o = Some x /\ x < 1 / 2.
Proof.
  destruct o as [x|]; cbn; [|split; [discriminate|intros (x & E & _); discriminate]].
  destruct (Rlt_dec _ _); split; intros H; try discriminate; auto.
  - exists x. split; [reflexivity|lra].
  - destruct H as (y & E & Hy). injection E as <-. lra.
Qed.

(** The two lists are increasing lists of band numbers; a band is in the first when its
    occupation is at least one half and in the second when it is less; no band is in both, and
    a band with a number for its occupation is in one of them.  A band whose occupation is
    not a number is in neither. *)
Theorem C117_split : forall occ,
  StronglySorted lt (indices_occupied occ) /\ StronglySorted lt (indices_empty occ)
  /\ (forall b, In b (indices_occupied occ) <-> exists x, nth_error occ b = Some (Some x) /\ 1 / 2 <= x)
  /\ (forall b, In b (indices_empty occ) <-> exists x, nth_error occ b = Some (Some x) /\ x < 1 / 2)
  /\ (forall b, ~ (In b (indices_occupied occ) /\ In b (indices_empty occ)))
  /\ (forall b, nth_error occ b = Some None -> ~ In b (indices_occupied occ) /\ ~ In b (indices_empty occ))
  /\ ((forall o, In o occ -> o <> None) -> (length (indices_occupied occ) + length (indices_empty occ) = length occ)%nat).
Proof.
  intros occ.
  assert (IO : forall b, In b (indices_occupied occ) <-> exists x, nth_error occ b = Some (Some x) /\ 1 / 2 <= x).
  { intros b. unfold indices_occupied. rewrite where_in, alh_iff. split.
    - intros (Hb & x & E & Hx). exists x. split; [|exact Hx]. rewrite <- E. apply nth_error_nth', Hb.
    - intros (x & E & Hx). split; [apply nth_error_Some; congruence|]. exists x. split; [|exact Hx].
      exact (nth_error_nth _ _ _ E). }
  assert (IE : forall b, In b (indices_empty occ) <-> exists x, nth_error occ b = Some (Some x) /\ x < 1 / 2).
  { intros b. unfold indices_empty. rewrite where_in, bh_iff. split.
    - intros (Hb & x & E & Hx). exists x. split; [|exact Hx]. rewrite <- E. apply nth_error_nth', Hb.
    - intros (x & E & Hx). split; [apply nth_error_Some; congruence|]. exists x. split; [|exact Hx].
      exact (nth_error_nth _ _ _ E). }
  split; [apply filter_sorted, seq_sorted|]. split; [apply filter_sorted, seq_sorted|].
  split; [exact IO|]. split; [exact IE|]. split; [|split].
  - intros b [H1 H2]. apply IO in H1 as (x & E & Hx). apply IE in H2 as (y & E' & Hy).
    assert (x = y) by congruence. lra.
  - intros b Hb. split; intros H; [apply IO in H|apply IE in H]; destruct H as (x & E & _); congruence.
  - intros Hn. unfold indices_occupied, indices_empty, where_. rewrite <- (seq_length (length occ) 0) at 3.
    assert (HP : forall b, In b (seq 0 (length occ)) -> below_half (nth b occ None) = negb (at_least_half (nth b occ None))).
    { intros b Hb. apply in_seq in Hb. assert (Hin : In (nth b occ None) occ) by (apply nth_In; lia).
      destruct (nth b occ None) as [x|]; [|destruct (Hn _ Hin eq_refl)]. cbn.
      destruct (Rlt_dec x (/ 2)), (Rle_dec (/ 2) x); auto; lra. }
    revert HP. generalize (seq 0 (length occ)) as l. induction l as [|b l IH]; intros HP; cbn; [reflexivity|].
    rewrite (HP b (or_introl eq_refl)). specialize (IH (fun c Hc => HP c (or_intror Hc))).
    destruct (at_least_half _); cbn; lia.
Qed.
Print Assumptions C117_split.

Lemma filter_seq_prefix (p : nat -> bool) n m : (m <= n)%nat -> (forall b, (b < n)%nat -> p b = (b <? m)%nat) ->
  filter p (seq 0 n) = seq 0 m.
Proof.
  intros Hm Hp. replace n with (m + (n - m))%nat by lia. rewrite seq_app, filter_app. cbn [plus].
  assert (A : forall l, (forall b, In b l -> p b = true) -> filter p l = l).
  { induction l as [|b l IH]; intros H; cbn; [reflexivity|]. rewrite (H b (or_introl eq_refl)). f_equal. apply IH. intros c Hc. apply H. now right. }
  assert (B : forall l, (forall b, In b l -> p b = false) -> filter p l = []).
  { induction l as [|b l IH]; intros H; cbn; [reflexivity|]. rewrite (H b (or_introl eq_refl)). apply IH. intros c Hc. apply H. now right. }
  rewrite A, B; [apply app_nil_r| |]; intros b Hb; apply in_seq in Hb; rewrite Hp by lia.
  - apply Nat.ltb_ge. lia.
  - apply Nat.ltb_lt. lia.
Qed.

(** After the fixed occupations of N electrons the occupied bands of every k-point are the
    first N/2 and the empty ones the rest. *)
Theorem C117_after_fixed : forall world numbnd numel, unpolarised world numbnd ->
  Z.even numel = true -> (0 < numel)%Z -> (numel / 2 <= Z.of_nat numbnd)%Z ->
  exists world' e, fixed_compute_occ world numel = Ok (world', e)
  /\ forall w, In w (wfns world') ->
     indices_occupied (map Some (occ w)) = seq 0 (Z.to_nat (numel / 2))
     /\ indices_empty (map Some (occ w)) = seq (Z.to_nat (numel / 2)) (numbnd - Z.to_nat (numel / 2)).
Proof.
  intros world numbnd numel HW HE HP HN.
  destruct (C27_fixed_fills world numbnd numel HW HE HP HN) as (world' & ho & lu & E & F & _).
  exists world', (ho, lu). split; [exact E|]. intros w Hw.
  assert (H : length (occ w) = numbnd /\ forall b, (b < numbnd)%nat -> nth b (occ w) 0 = if (Z.of_nat b <? numel / 2)%Z then 1 else 0).
  { clear - F Hw. induction F as [|x y l l' Hxy F IH]; [destruct Hw|]. destruct Hw as [->|Hw]; [tauto|auto]. }
  destruct H as [L H]. set (m := Z.to_nat (numel / 2)).
  assert (Hm : (m <= numbnd)%nat) by (unfold m; lia).
  assert (Hnth : forall b, (b < numbnd)%nat -> nth b (map Some (occ w)) None = Some (if (b <? m)%nat then 1 else 0)).
  { intros b Hb. rewrite (nth_indep _ None (Some 0)) by (rewrite map_length; lia). rewrite (map_nth Some (occ w) 0 b), H by exact Hb.
    f_equal. unfold m. destruct (Z.ltb_spec (Z.of_nat b) (numel / 2)), (Nat.ltb_spec b (Z.to_nat (numel / 2))); auto; lia. }
  unfold indices_occupied, indices_empty, where_. rewrite map_length, L. split.
  - apply filter_seq_prefix; [exact Hm|]. intros b Hb. rewrite (Hnth b Hb). unfold at_least_half.
    destruct (b <? m)%nat; destruct (Rle_dec _ _); auto; lra.
  - replace numbnd with (m + (numbnd - m))%nat at 1 by lia. rewrite seq_app, filter_app. cbn [plus].
    assert (A : forall l, (forall b, In b l -> (m <= b < numbnd)%nat) -> filter (fun i => below_half (nth i (map Some (occ w)) None)) l = l).
    { induction l as [|b l IH]; intros Hl; cbn; [reflexivity|]. pose proof (Hl b (or_introl eq_refl)) as Hb.
      rewrite Hnth by lia. replace (b <? m)%nat with false by (symmetry; apply Nat.ltb_ge; lia). cbn.
      destruct (Rlt_dec 0 (/ 2)); [|lra]. f_equal. apply IH. intros c Hc. apply Hl. now right. }
    assert (B : forall l, (forall b, In b l -> (b < m)%nat) -> filter (fun i => below_half (nth i (map Some (occ w)) None)) l = []).
    { induction l as [|b l IH]; intros Hl; cbn; [reflexivity|]. pose proof (Hl b (or_introl eq_refl)) as Hb.
      rewrite Hnth by lia. replace (b <? m)%nat with true by (symmetry; apply Nat.ltb_lt; lia). cbn.
      destruct (Rlt_dec 1 (/ 2)); [lra|]. apply IH. intros c Hc. apply Hl. now right. }
    rewrite (B (seq 0 m)), (A (seq m (numbnd - m))); [reflexivity| |]; intros b Hb; apply in_seq in Hb; lia.
Qed.
Print Assumptions C117_after_fixed.

Lemma fd_half degauss mu e : 0 < degauss -> (1 / 2 <= occ_one fd_occ degauss mu e <-> e <= mu).
Proof.
  intros Hd. destruct (C28_fermi_dirac degauss mu Hd) as (_ & M & Hh & _). split.
  - intros H. destruct (Rle_dec e mu) as [|Hn]; [assumption|exfalso]. revert H.
    assert (Hf : 0 < (e - mu) / degauss) by (apply Rdiv_lt_0_compat; lra).
    unfold occ_one. destruct (Rle_dec _ _) as [Ha|Ha].
    + unfold fd_occ. pose proof (exp_increasing 0 _ Hf) as Hx. rewrite exp_0 in Hx.
      intros H. assert (1 / (1 + exp ((e - mu) / degauss)) < 1 / 2); [|lra].
      apply Rmult_lt_compat_l with (r := 1); [lra|]. apply Rinv_lt_contravar; lra.
    + destruct (Rlt_dec _ _) as [Hl|]; [unfold SMEAR_THRESHOLD in *; lra|]. lra.
  - intros H. rewrite <- Hh. apply M, H.
Qed.

(** After Fermi-Dirac smearing the occupied bands are those with an energy not above the
    chemical potential the routine returns, and the empty ones those above it. *)
Theorem C117_after_fermi_dirac : forall fuel degauss world numel world' mu en,
  0 < degauss -> smear_compute_occ fd_occ fd_en degauss fuel world numel = Ok (Some (world', (mu, en))) ->
  forall w, In w (wfns world') ->
    (forall b, In b (indices_occupied (map Some (occ w))) <-> exists e, nth_error (evl w) b = Some e /\ e <= mu)
    /\ (forall b, In b (indices_empty (map Some (occ w))) <-> exists e, nth_error (evl w) b = Some e /\ mu < e).
Proof.
  intros fuel degauss world numel world' mu en Hd H w Hw.
  assert (HO : occ w = map (occ_one fd_occ degauss mu) (evl w)).
  { unfold smear_compute_occ in H.
    destruct (sequence _); cbn [bind] in H; [|discriminate]. destruct (sequence _); cbn [bind] in H; [|discriminate].
    destruct (rminimum _); cbn [bind] in H; [|discriminate]. destruct (rmaximum _); cbn [bind] in H; [|discriminate].
    destruct (bisect _ _ _ _ _) as [m|] eqn:B; [|discriminate]. injection H as H H1 H2. subst m world'.
    unfold wfns in Hw. apply in_concat in Hw as (l & Hl & Hw). apply in_concat in Hl as (g & Hg & Hl).
    apply in_map_iff in Hg as (g0 & <- & _). apply in_map_iff in Hl as (l0 & <- & _). apply in_map_iff in Hw as (w0 & <- & _).
    reflexivity. }
  destruct (C117_split (map Some (occ w))) as (_ & _ & IO & IE & _). rewrite HO in *.
  split; intros b; [rewrite IO|rewrite IE]; rewrite map_map, nth_error_map; split.
  - intros (x & E & Hx). destruct (nth_error (evl w) b) as [e|]; [|discriminate]. injection E as <-. exists e. split; [reflexivity|].
    apply (fd_half degauss mu e Hd), Hx.
  - intros (e & -> & He). exists (occ_one fd_occ degauss mu e). split; [reflexivity|]. apply (fd_half degauss mu e Hd), He.
  - intros (x & E & Hx). destruct (nth_error (evl w) b) as [e|]; [|discriminate]. injection E as <-. exists e. split; [reflexivity|].
    destruct (Rle_dec e mu) as [Hn|Hn]; [|lra]. apply (fd_half degauss mu e Hd) in Hn. lra.
  - intros (e & -> & He). exists (occ_one fd_occ degauss mu e). split; [reflexivity|].
    destruct (Rlt_dec (occ_one fd_occ degauss mu e) (1 / 2)) as [|Hn]; [assumption|].
    apply Rnot_lt_le, (fd_half degauss mu e Hd) in Hn. lra.
Qed.
Print Assumptions C117_after_fermi_dirac.

(** Non-vacuity: one half is occupied, NaN neither. *)
Example C117_witness :
  indices_occupied [Some 1; Some (/ 2); None; Some 0] = [0; 1]%nat
  /\ indices_empty [Some 1; Some (/ 2); None; Some 0] = [3]%nat.
Proof.
  unfold indices_occupied, indices_empty, where_. cbn.
  destruct (Rle_dec (/ 2) 1); [|lra]. destruct (Rle_dec (/ 2) (/ 2)); [|lra]. destruct (Rle_dec (/ 2) 0); [lra|].
  destruct (Rlt_dec 1 (/ 2)); [lra|]. destruct (Rlt_dec (/ 2) (/ 2)); [lra|]. destruct (Rlt_dec 0 (/ 2)); [|lra].
  split; reflexivity.
Qed.
