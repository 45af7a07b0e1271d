(** C87: dielectric-matrix files.  C88: nested dictionaries in HDF5. *)
From Coq Require Import String.
From Verif Require Import Base EpsFileModel CBase.
Open Scope R_scope.

(* ------------------------------------------------------------------ *)
(** Vocabulary.  Two arrays are equal when shapes and entries inside the shape agree. *)
Definition same_mat (a b : mat) : Prop :=
  m_rows a = m_rows b /\ m_cols a = m_cols b
  /\ forall i j, (i < m_rows a)%nat -> (j < m_cols a)%nat -> m_at a i j = m_at b i j.
Definition conj_mat (m : mat) : mat := MkMat (m_rows m) (m_cols m) (fun i j => Cconj (m_at m i j)).
Definition leading (d : nat) (m : mat) : mat := MkMat d d (m_at m).
(** The last row / column has an entry of modulus above 1e-8. *)
Definition row_counts (m : mat) (i : nat) : Prop := exists j, (j < m_cols m)%nat /\ / 10 ^ 8 < Cmod (m_at m i j).
Definition col_counts (m : mat) (j : nat) : Prop := exists i, (i < m_rows m)%nat /\ / 10 ^ 8 < Cmod (m_at m i j).
Definition full_extent (m : mat) : Prop :=
  (0 < m_rows m)%nat /\ (0 < m_cols m)%nat /\ row_counts m (m_rows m - 1) /\ col_counts m (m_cols m - 1).

(* ------------------------------------------------------------------ *)
Lemma negligible_iff x : negligible x = true <-> Cmod x <= / 10 ^ 8.
Proof. unfold negligible. destruct (Rle_dec _ _); split; intros; try easy; discriminate. Qed.
Lemma Cmod_conj x : Cmod (Cconj x) = Cmod x.
Proof. unfold Cmod, Cconj. cbn [fst snd]. f_equal. ring. Qed.
Lemma row_negligible_iff m i : row_negligible m i = true <-> forall j, (j < m_cols m)%nat -> Cmod (m_at m i j) <= / 10 ^ 8.
Proof.
  unfold row_negligible. rewrite forallb_forall. split.
  - intros H j Hj. apply negligible_iff, H, in_seq. lia.
  - intros H j Hj. apply negligible_iff, H. apply in_seq in Hj. lia.
Qed.
Lemma col_negligible_iff m j : col_negligible m j = true <-> forall i, (i < m_rows m)%nat -> Cmod (m_at m i j) <= / 10 ^ 8.
Proof.
  unfold col_negligible. rewrite forallb_forall. split.
  - intros H i Hi. apply negligible_iff, H, in_seq. lia.
  - intros H i Hi. apply negligible_iff, H. apply in_seq in Hi. lia.
Qed.
Lemma row_not_negligible m i : row_negligible m i = false <-> row_counts m i.
Proof.
  split.
  - intros H. unfold row_negligible in H.
    assert (E : exists j, In j (seq 0 (m_cols m)) /\ negligible (m_at m i j) = false).
    { revert H. generalize (seq 0 (m_cols m)). induction l as [|a l IH]; cbn [forallb]; [discriminate|].
      destruct (negligible (m_at m i a)) eqn:E; cbn [andb]; intros H.
      - destruct (IH H) as (j & Hj & Ej). exists j. split; [now right|exact Ej].
      - exists a. split; [now left|exact E]. }
    destruct E as (j & Hj & Ej). exists j. apply in_seq in Hj. split; [lia|].
    unfold negligible in Ej. destruct (Rle_dec _ _); [discriminate|lra].
  - intros (j & Hj & H). destruct (row_negligible m i) eqn:E; [|reflexivity].
    apply row_negligible_iff with (j := j) in E; [lra|exact Hj].
Qed.
Lemma col_not_negligible m j : col_negligible m j = false <-> col_counts m j.
Proof.
  split.
  - intros H. unfold col_negligible in H.
    assert (E : exists i, In i (seq 0 (m_rows m)) /\ negligible (m_at m i j) = false).
    { revert H. generalize (seq 0 (m_rows m)). induction l as [|a l IH]; cbn [forallb]; [discriminate|].
      destruct (negligible (m_at m a j)) eqn:E; cbn [andb]; intros H.
      - destruct (IH H) as (i & Hi & Ei). exists i. split; [now right|exact Ei].
      - exists a. split; [now left|exact E]. }
    destruct E as (i & Hi & Ei). exists i. apply in_seq in Hi. split; [lia|].
    unfold negligible in Ei. destruct (Rle_dec _ _); [discriminate|lra].
  - intros (i & Hi & H). destruct (col_negligible m j) eqn:E; [|reflexivity].
    apply col_negligible_iff with (i := i) in E; [lra|exact Hi].
Qed.

(** Dropping rows: the result is the shortest prefix of rows that keeps every
    non-negligible row. *)
Lemma drop_rows_spec n m : n = m_rows m ->
  let m' := drop_rows n m in
  m_cols m' = m_cols m /\ m_at m' = m_at m /\ (m_rows m' <= m_rows m)%nat
  /\ (forall i, (m_rows m' <= i < m_rows m)%nat -> row_negligible m i = true)
  /\ (m_rows m' = 0%nat \/ row_negligible m (m_rows m' - 1) = false).
Proof.
  revert m. induction n as [|i IH]; intros m Hn m'; unfold m'; cbn [drop_rows].
  - repeat split; [lia|intros; lia|left; lia].
  - destruct (row_negligible m i) eqn:E.
    + destruct (IH (MkMat i (m_cols m) (m_at m)) eq_refl) as (A & B & D & F & H).
      set (q := drop_rows i _) in *. cbn [m_rows m_cols m_at] in *.
      split; [exact A|]. split; [exact B|]. split; [lia|]. split; [|exact H].
      intros k Hk. destruct (Nat.eq_dec k i) as [->|]; [exact E|]. apply F. lia.
    + repeat split; [lia|intros; lia|]. right. rewrite <- Hn. replace (S i - 1)%nat with i by lia. exact E.
Qed.
Lemma drop_cols_spec n m : n = m_cols m ->
  let m' := drop_cols n m in
  m_rows m' = m_rows m /\ m_at m' = m_at m /\ (m_cols m' <= m_cols m)%nat
  /\ (forall j, (m_cols m' <= j < m_cols m)%nat -> col_negligible m j = true)
  /\ (m_cols m' = 0%nat \/ col_negligible m (m_cols m' - 1) = false).
Proof.
  revert m. induction n as [|i IH]; intros m Hn m'; unfold m'; cbn [drop_cols].
  - repeat split; [lia|intros; lia|left; lia].
  - destruct (col_negligible m i) eqn:E.
    + destruct (IH (MkMat (m_rows m) i (m_at m)) eq_refl) as (A & B & D & F & H).
      set (q := drop_cols i _) in *. cbn [m_rows m_cols m_at] in *.
      split; [exact A|]. split; [exact B|]. split; [lia|]. split; [|exact H].
      intros k Hk. destruct (Nat.eq_dec k i) as [->|]; [exact E|]. apply F. lia.
    + repeat split; [lia|intros; lia|]. right. rewrite <- Hn. replace (S i - 1)%nat with i by lia. exact E.
Qed.

(** Unpadding a block: [r] and [c] are the extents kept. *)
Lemma unpad_block (m : mat) r c :
  (r <= m_rows m)%nat -> (c <= m_cols m)%nat -> (0 < r)%nat -> (0 < c)%nat ->
  (forall i j, (i < m_rows m)%nat -> (j < m_cols m)%nat -> (r <= i \/ c <= j)%nat -> m_at m i j = RtoC 0) ->
  (exists j, (j < c)%nat /\ / 10 ^ 8 < Cmod (m_at m (r - 1) j)) ->
  (exists i, (i < r)%nat /\ / 10 ^ 8 < Cmod (m_at m i (c - 1))) ->
  m_rows (unpad_array m) = Nat.min r c /\ m_cols (unpad_array m) = Nat.min r c /\ m_at (unpad_array m) = m_at m.
Proof.
  intros Hr Hc Hr0 Hc0 HZ (j0 & Hj0 & Hrow) (i0 & Hi0 & Hcol).
  assert (P0 : Cmod (RtoC 0) <= / 10 ^ 8).
  { rewrite Cmod_0. apply Rlt_le, Rinv_0_lt_compat. lra. }
  unfold unpad_array.
  destruct (drop_rows_spec (m_rows m) m eq_refl) as (A & B & D & F & H).
  set (q := drop_rows (m_rows m) m) in *.
  assert (Eq : m_rows q = r).
  { destruct (Nat.lt_trichotomy (m_rows q) r) as [L|[L|L]]; [|exact L|].
    - assert (T : row_negligible m (r - 1) = true) by (apply F; lia).
      apply row_negligible_iff with (j := j0) in T; [lra|lia].
    - destruct H as [H|H]; [lia|]. apply row_not_negligible in H. destruct H as (j & Hj & Hm).
      rewrite HZ in Hm by lia. lra. }
  destruct (drop_cols_spec (m_cols q) q eq_refl) as (A' & B' & D' & F' & H').
  set (p := drop_cols (m_cols q) q) in *.
  assert (Ep : m_cols p = c).
  { destruct (Nat.lt_trichotomy (m_cols p) c) as [L|[L|L]]; [|exact L|].
    - assert (T : col_negligible q (c - 1) = true) by (apply F'; lia).
      apply col_negligible_iff with (i := i0) in T; [|lia]. rewrite B in T. lra.
    - destruct H' as [H'|H']; [lia|]. apply col_not_negligible in H'. destruct H' as (i & Hi & Hm).
      rewrite B, HZ in Hm by lia. lra. }
  cbn [m_rows m_cols m_at]. rewrite A', Eq, Ep, B', B. repeat split; reflexivity.
Qed.

Lemma dim_bound mats m : In m mats ->
  (m_rows m <= fold_right Nat.max 0 (map (fun m => Nat.max (m_rows m) (m_cols m)) mats))%nat
  /\ (m_cols m <= fold_right Nat.max 0 (map (fun m => Nat.max (m_rows m) (m_cols m)) mats))%nat.
Proof.
  induction mats as [|a mats IH]; cbn [In map fold_right]; [tauto|]. intros [->|H]; [lia|]. specialize (IH H). lia.
Qed.

(** C87.  Writing a list of matrices and reading the file back returns as many matrices, in
    order; each is the complex conjugate of the leading square block of the one written, with
    its own size, whatever the sizes of the others — provided the last row and the last
    column of each have an entry above 1e-8 in modulus. *)
Theorem C87_roundtrip : forall mats,
  mats <> [] -> Forall full_extent mats ->
  exists f, write_mats mats = Ok f
  /\ Forall2 (fun m m' => same_mat m' (conj_mat (leading (Nat.min (m_rows m) (m_cols m)) m))) mats (read_mats f).
Proof.
  intros mats Hne HF.
  assert (W : write_mats mats = Ok (MkDataset (fold_right Nat.max 0%nat (map (fun m => Nat.max (m_rows m) (m_cols m)) mats))
      (map (fun m i j => (fst (pad m i j), snd (pad m i j))) mats))) by (destruct mats; [now destruct Hne|reflexivity]).
  eexists. split; [exact W|].
  unfold read_mats. cbn [ds_dim ds_blocks]. rewrite map_map.
  set (dim := fold_right Nat.max 0%nat _).
  assert (HD : forall m, In m mats -> (m_rows m <= dim)%nat /\ (m_cols m <= dim)%nat) by (intros m; apply dim_bound).
  clearbody dim. clear W Hne.
  induction HF as [|m mats Hm HF IH]; cbn [map]; constructor.
  - destruct Hm as (R0 & C0 & (j0 & Hj0 & Hr) & (i0 & Hi0 & Hc)).
    destruct (HD m (or_introl eq_refl)) as [D1 D2].
    match goal with |- same_mat (unpad_array ?b) _ => set (blk := b) end.
    assert (HB : forall i j, m_at blk i j = Cconj (pad m i j)).
    { intros i j. unfold blk. cbn [m_at]. now destruct (pad m i j). }
    assert (Hin : forall i j, (i < m_rows m)%nat -> (j < m_cols m)%nat -> m_at blk i j = Cconj (m_at m i j)).
    { intros i j Hi Hj. rewrite HB. unfold pad.
      destruct (Nat.ltb_spec i (m_rows m)); [|lia]. destruct (Nat.ltb_spec j (m_cols m)); [|lia]. reflexivity. }
    destruct (unpad_block blk (m_rows m) (m_cols m)) as (U1 & U2 & U3); try assumption.
    + intros i j _ _ Hout. rewrite HB. unfold pad.
      replace (Nat.ltb i (m_rows m) && Nat.ltb j (m_cols m))%bool with false; [apply C_ext; cbn; ring|].
      symmetry. apply andb_false_iff. destruct Hout as [Ho|Ho]; [left|right]; apply Nat.ltb_ge; exact Ho.
    + exists j0. split; [exact Hj0|]. rewrite Hin by lia. now rewrite Cmod_conj.
    + exists i0. split; [exact Hi0|]. rewrite Hin by lia. now rewrite Cmod_conj.
    + unfold same_mat, conj_mat, leading. cbn [m_rows m_cols m_at]. rewrite U1, U2, U3.
      split; [reflexivity|]. split; [reflexivity|]. intros i j Hi Hj. apply Hin; lia.
  - apply IH. intros m' Hm'. apply HD. now right.
Qed.
Print Assumptions C87_roundtrip.

(** ... in particular for square matrices whose last diagonal entry is above the threshold
    (as in an inverse dielectric matrix), two round trips give back the originals. *)
Theorem C87_two_roundtrips : forall mats,
  mats <> [] ->
  Forall (fun m => m_rows m = m_cols m /\ (0 < m_rows m)%nat
                   /\ / 10 ^ 8 < Cmod (m_at m (m_rows m - 1) (m_rows m - 1))) mats ->
  exists f f', write_mats mats = Ok f /\ write_mats (read_mats f) = Ok f'
  /\ Forall2 (fun m m' => same_mat m' (conj_mat m)) mats (read_mats f)
  /\ Forall2 (fun m m' => same_mat m' m) mats (read_mats f').
Proof.
  intros mats Hne HF.
  assert (HE : Forall full_extent mats).
  { eapply Forall_impl; [|exact HF]. intros m (E & P & H). unfold full_extent, row_counts, col_counts.
    rewrite <- E. repeat split; try lia; eexists; (split; [|exact H]); lia. }
  destruct (C87_roundtrip mats Hne HE) as (f & Ef & H2).
  assert (S1 : Forall2 (fun m m' => same_mat m' (conj_mat m)) mats (read_mats f)).
  { clear - HF H2. revert HF. induction H2 as [|m m' l l' H H2 IH]; intros HF; constructor; inversion HF as [|? ? (E & _) HF']; subst.
    - revert H. rewrite <- E, Nat.min_id. unfold same_mat, conj_mat, leading. cbn [m_rows m_cols m_at]. rewrite <- E. tauto.
    - now apply IH. }
  assert (Hne' : read_mats f <> []) by (destruct S1; [now destruct Hne|discriminate]).
  assert (HE' : Forall full_extent (read_mats f)).
  { clear - HF S1. revert HF. induction S1 as [|m m' l l' (A & B & D) S1 IH]; intros HF; constructor; inversion HF as [|? ? (E & P & H) HF']; subst.
    - cbn [conj_mat m_rows m_cols m_at] in A, B, D. unfold full_extent, row_counts, col_counts. rewrite A, B.
      assert (E1 : Cmod (m_at m' (m_rows m - 1) (m_rows m - 1)) = Cmod (m_at m (m_rows m - 1) (m_rows m - 1))).
      { rewrite D by lia. apply Cmod_conj. }
      split; [lia|]. split; [lia|]. split; exists (m_rows m - 1)%nat; (split; [lia|]); rewrite <- ?E, E1; exact H.
    - now apply IH. }
  destruct (C87_roundtrip (read_mats f) Hne' HE') as (f' & Ef' & H3).
  exists f, f'. split; [exact Ef|]. split; [exact Ef'|]. split; [exact S1|].
  clear - HF S1 H3. revert H3 HF. generalize (read_mats f'). induction S1 as [|m m' l l' (A & B & D) S1 IH]; intros l2 H3 HF.
  - inversion H3. constructor.
  - inversion H3 as [|? m2 ? l3 (A' & B' & D') H3']; subst. inversion HF as [|? ? (E & P & H) HF']; subst. constructor; [|now apply IH].
    cbn [conj_mat leading m_rows m_cols m_at] in *. unfold same_mat.
    assert (M : Nat.min (m_rows m') (m_cols m') = m_rows m) by (rewrite A, B, E; apply Nat.min_id).
    rewrite A', B', M. split; [reflexivity|]. split; [now rewrite E|]. intros i j Hi Hj.
    rewrite D' by (rewrite ?A', ?B', M; assumption). rewrite D by lia. apply C_ext; cbn; ring.
Qed.
Print Assumptions C87_two_roundtrips.

(** C87.  One round trip is not the identity: a matrix with an entry that is not real comes
    back changed. *)
Theorem C87_conjugated_refuted : forall m i j,
  full_extent m -> m_rows m = m_cols m -> (i < m_rows m)%nat -> (j < m_cols m)%nat -> snd (m_at m i j) <> 0 ->
  exists f m', write_mats [m] = Ok f /\ read_mats f = [m'] /\ m_at m' i j <> m_at m i j.
Proof.
  intros m i j HE Hsq Hi Hj Him.
  destruct (C87_roundtrip [m]) as (f & Ef & H); [discriminate|now constructor|].
  inversion H as [|? m' ? l (A & B & D) H']; subst. inversion H'; subst.
  exists f, m'. split; [exact Ef|]. split; [congruence|].
  cbn [conj_mat leading m_rows m_cols m_at] in *. rewrite <- Hsq, Nat.min_id in A, B.
  rewrite D by (rewrite ?A, ?B; lia). intros E. apply (f_equal snd) in E. cbn in E. lra.
Qed.
Print Assumptions C87_conjugated_refuted.

(** C87.  A matrix whose last row is negligible comes back smaller. *)
Theorem C87_negligible_row_refuted : forall m,
  (0 < m_rows m)%nat -> m_rows m = m_cols m ->
  (forall j, (j < m_cols m)%nat -> Cmod (m_at m (m_rows m - 1) j) <= / 10 ^ 8) ->
  exists f m', write_mats [m] = Ok f /\ read_mats f = [m'] /\ (m_rows m' < m_rows m)%nat.
Proof.
  intros m H0 Hsq Hneg. eexists. eexists. split; [reflexivity|]. split; [reflexivity|].
  cbn [map fold_right ds_dim ds_blocks]. rewrite <- Hsq, Nat.max_id, Nat.max_0_r.
  match goal with |- context [unpad_array ?b] => set (blk := b) end. unfold unpad_array.
  destruct (drop_rows_spec (m_rows blk) blk eq_refl) as (A & B & D & F & H).
  set (q := drop_rows (m_rows blk) blk) in *.
  destruct (drop_cols_spec (m_cols q) q eq_refl) as (A' & B' & D' & F' & H').
  set (p := drop_cols (m_cols q) q) in *. cbn [m_rows].
  enough (m_rows q < m_rows m)%nat by lia.
  assert (Hb : m_rows blk = m_rows m /\ m_cols blk = m_rows m) by (split; reflexivity). destruct Hb as [Hb1 Hb2].
  destruct (Nat.lt_ge_cases (m_rows q) (m_rows m)) as [L|L]; [exact L|exfalso].
  assert (Eq : m_rows q = m_rows m) by lia.
  destruct H as [H|H]; [lia|]. rewrite Eq in H. apply row_not_negligible in H. destruct H as (j & Hj & Hm).
  unfold blk in Hm. cbn [m_at] in Hm. revert Hm.
  match goal with |- context [Cmod (Cconj (fst ?x, snd ?x))] => replace (Cmod (Cconj (fst x, snd x))) with (Cmod x) end.
  2:{ rewrite Cmod_conj. cbn [fst snd]. now destruct (pad m (m_rows m - 1) j). }
  cbn [fst snd]. unfold pad.
  destruct (Nat.ltb_spec (m_rows m - 1) (m_rows m)); [|lia]. destruct (Nat.ltb_spec j (m_cols m)); [|lia]. cbn [andb].
  specialize (Hneg j ltac:(lia)). destruct (m_at m (m_rows m - 1) j) as [a b]. cbn [fst snd]. lra.
Qed.
Print Assumptions C87_negligible_row_refuted.

(** C87.  An empty list is refused by write_mats and skipped by Epsilon.write_epsmat. *)
Theorem C87_empty : write_mats [] = Err ValueError /\ write_epsmat [] = Ok None
  /\ forall mats, mats <> [] -> write_epsmat mats = do d <- write_mats mats; Ok (Some d).
Proof. split; [reflexivity|]. split; [reflexivity|]. intros [|m l] H; [now destruct H|reflexivity]. Qed.
Print Assumptions C87_empty.

(** Non-vacuity: a 1x1 and a 2x2 matrix with complex entries. *)
Example C87_nonvacuous :
  Forall full_extent [MkMat 1 1 (fun _ _ => Ci); MkMat 2 2 (fun i j => if Nat.eqb i j then RtoC 1 else Ci)].
Proof.
  assert (P : / 10 ^ 8 < 1) by (rewrite <- Rinv_1; apply Rinv_1_lt_contravar; lra).
  assert (M1 : Cmod Ci = 1) by (unfold Cmod, Ci; cbn [fst snd]; replace (0 ^ 2 + 1 ^ 2) with 1 by ring; apply sqrt_1).
  assert (M2 : Cmod (RtoC 1) = 1) by (rewrite Cmod_R; apply Rabs_R1).
  repeat constructor; unfold row_counts, col_counts; cbn [m_rows m_cols m_at]; try lia.
  - exists 0%nat. cbn. rewrite M1. split; [lia|exact P].
  - exists 0%nat. cbn. rewrite M1. split; [lia|exact P].
  - exists 1%nat. cbn [Nat.sub Nat.eqb]. rewrite M2. split; [lia|exact P].
  - exists 1%nat. cbn [Nat.sub Nat.eqb]. rewrite M2. split; [lia|exact P].
Qed.

(* ------------------------------------------------------------------ *)
(** C88: vocabulary.  What is found under a path of keys. *)
Inductive found (A : Type) : Type := IsArray (a : A) | IsDict.
Arguments IsArray {A}. Arguments IsDict {A}.
Fixpoint assoc {A} (k : string) (l : list (string * A)) : option A :=
  match l with [] => None | (k', v) :: l' => if String.eqb k' k then Some v else assoc k l' end.
Fixpoint lookup {A} (path : list string) (t : tree A) : option (found A) :=
  match path, t with
  | [], Leaf a => Some (IsArray a)
  | [], Node _ => Some IsDict
  | _ :: _, Leaf _ => None
  | k :: path', Node l => match assoc k l with Some v => lookup path' v | None => None end
  end.
(** A Python dictionary: the keys of every level are distinct. *)
Inductive is_dict {A} : tree A -> Prop :=
| dict_leaf a : is_dict (Leaf a)
| dict_node l : NoDup (map fst l) -> (forall k v, In (k, v) l -> is_dict v) -> is_dict (Node l).

Section TreeInd.
Context {A : Type} (P : tree A -> Prop) (HL : forall a, P (Leaf a))
  (HN : forall l, (forall k v, In (k, v) l -> P v) -> P (Node l)).
Fixpoint tree_ind' (t : tree A) : P t :=
  match t with
  | Leaf a => HL a
  | Node l => HN l ((fix go (l : list (string * tree A)) : forall k v, In (k, v) l -> P v :=
      match l with
      | [] => fun k v H => match H with end
      | (k0, v0) :: l' => fun k v H =>
          match H with
          | or_introl E => eq_ind v0 P (tree_ind' v0) v (f_equal snd E)
          | or_intror H' => go l' k v H'
          end
      end) l)
  end.
End TreeInd.

Lemma retrieve_id {A} (g : tree A) : retrieve_dict g = g.
Proof.
  induction g as [a|l IH] using tree_ind'; [reflexivity|]. cbn [retrieve_dict]. f_equal.
  induction l as [|[k v] l IHl]; [reflexivity|]. f_equal.
  - f_equal. apply (IH k v). now left.
  - apply IHl. intros k' v' H. apply (IH k' v'). now right.
Qed.

Fixpoint write_members {A} (l acc : list (string * tree A)) : res (list (string * tree A)) :=
  match l with
  | [] => Ok acc
  | (k, v) :: l' =>
      do _ <- (if existsb (fun p => String.eqb (fst p) k) acc then Err ValueError else Ok tt);
      do v' <- write_dict v;
      do acc' <- create k v' acc;
      write_members l' acc'
  end.
Lemma write_node {A} (l : list (string * tree A)) : write_dict (Node l) = do m <- write_members l []; Ok (Node m).
Proof.
  cbn [write_dict]. f_equal. generalize (@nil (string * tree A)). induction l as [|[k v] l IH]; intros acc; [reflexivity|].
  cbn [write_members]. destruct (existsb _ acc); cbn [bind]; [reflexivity|]. destruct (write_dict v) as [v1|e1]; cbn [bind]; [|reflexivity].
  destruct (create k v1 acc); cbn [bind]; [apply IH|reflexivity].
Qed.

Lemma existsb_keys {A} k (l : list (string * A)) : existsb (fun p => String.eqb (fst p) k) l = true <-> In k (map fst l).
Proof.
  rewrite existsb_exists. split.
  - intros (p & Hp & E). apply String.eqb_eq in E. subst k. now apply in_map.
  - intros H. apply in_map_iff in H. destruct H as (p & <- & Hp). exists p. split; [exact Hp|apply String.eqb_refl].
Qed.
Lemma assoc_insert {A} k (v : tree A) l k' : ~ In k (map fst l) ->
  assoc k' (insert_member k v l) = if String.eqb k k' then Some v else assoc k' l.
Proof.
  induction l as [|[k0 v0] l IH]; cbn [insert_member assoc map fst]; intros H; [reflexivity|].
  destruct (String.ltb k k0); cbn [assoc]; [reflexivity|].
  rewrite IH by (intros X; apply H; now right).
  destruct (String.eqb_spec k0 k'); [|reflexivity]. destruct (String.eqb_spec k k'); [|reflexivity].
  exfalso. apply H. left. congruence.
Qed.
Lemma insert_keys {A} k (v : tree A) l x : In x (map fst (insert_member k v l)) <-> x = k \/ In x (map fst l).
Proof.
  induction l as [|[k0 v0] l IH]; cbn [insert_member map fst In]; [intuition|].
  destruct (String.ltb k k0); cbn [map fst In]; [intuition|]. rewrite IH. intuition.
Qed.

Lemma write_members_spec {A} (W : tree A -> tree A) (l acc : list (string * tree A)) :
  NoDup (map fst l) -> (forall k, In k (map fst l) -> ~ In k (map fst acc)) ->
  (forall k v, In (k, v) l -> write_dict v = Ok (W v)) ->
  exists m, write_members l acc = Ok m
  /\ forall k, assoc k m = match assoc k l with Some v => Some (W v) | None => assoc k acc end.
Proof.
  revert acc. induction l as [|[k v] l IH]; intros acc HN HD HW.
  - exists acc. split; reflexivity.
  - cbn [map fst] in HN. inversion HN as [|? ? Hk HN']; subst. cbn [write_members].
    assert (Hacc : existsb (fun p => String.eqb (fst p) k) acc = false).
    { destruct (existsb _ acc) eqn:E; [|reflexivity]. apply existsb_keys in E. exfalso. apply (HD k); [now left|exact E]. }
    rewrite Hacc, (HW k v) by now left. cbn [bind]. unfold create. rewrite Hacc. cbn [bind].
    assert (Hnk : ~ In k (map fst acc)) by (apply HD; now left).
    destruct (IH (insert_member k (W v) acc)) as (m & E & Hm).
    + exact HN'.
    + intros x Hx Hin. apply insert_keys in Hin. destruct Hin as [->|Hin]; [contradiction|]. apply (HD x); [now right|exact Hin].
    + intros k' v' H. apply (HW k'). now right.
    + exists m. split; [exact E|]. intros x. rewrite Hm, assoc_insert by exact Hnk. cbn [assoc].
      destruct (String.eqb_spec k x) as [->|].
      * assert (Hn : assoc x l = None).
        { clear - Hk. induction l as [|[a b] l IH]; [reflexivity|]. cbn [assoc]. cbn [map fst In] in Hk.
          destruct (String.eqb_spec a x); [exfalso; apply Hk; now left|]. apply IH. intros X. apply Hk. now right. }
        now rewrite Hn.
      * reflexivity.
Qed.

(** C88.  A nested dictionary of arrays written by dict_to_h5 and read back by
    retrieve_dict is the same dictionary: under every path of keys the same array, the same
    sub-dictionary, or nothing. *)
Theorem C88_dict_roundtrip : forall (A : Type) (d : tree A), is_dict d ->
  exists g, write_dict d = Ok g /\ forall path, lookup path (retrieve_dict g) = lookup path d.
Proof.
  intros A d Hd.
  assert (HX : exists g, write_dict d = Ok g /\ forall path, lookup path g = lookup path d).
  { induction d as [a|l IH] using tree_ind'.
    - exists (Leaf a). split; reflexivity.
    - inversion Hd as [|? HN HC]; subst.
      set (W := fun v : tree A => match write_dict v with Ok g => g | Err _ => v end).
      assert (HW : forall k v, In (k, v) l -> write_dict v = Ok (W v) /\ forall path, lookup path (W v) = lookup path v).
      { intros k v Hin. destruct (IH k v Hin (HC k v Hin)) as (g & E & H). unfold W. rewrite E. split; [reflexivity|exact H]. }
      destruct (write_members_spec W l [] HN) as (m & E & Hm).
      + intros k _ [].
      + intros k v Hin. now apply (HW k v).
      + exists (Node m). split; [now rewrite write_node, E|].
        intros [|k path]; [reflexivity|]. cbn [lookup]. rewrite Hm.
        destruct (assoc k l) as [v|] eqn:EA; [|reflexivity].
        assert (Hin : In (k, v) l).
        { clear - EA. induction l as [|[a b] l IH]; [discriminate|]. cbn [assoc] in EA.
          destruct (String.eqb_spec a k) as [->|]; [injection EA as ->; now left|right; now apply IH]. }
        now apply (HW k v Hin). }
  destruct HX as (g & E & H). exists g. split; [exact E|]. intros path. rewrite retrieve_id. apply H.
Qed.
Print Assumptions C88_dict_roundtrip.

(** C88.  Copying a header from an auxiliary file succeeds and copies everything exactly when
    its groups are nested at most one deep; a group inside a group raises TypeError. *)
Theorem C88_header_copy : forall (A : Type) (l : list (string * tree A)),
  ((forall k sub, In (k, Node sub) l -> forall k' v, In (k', v) sub -> exists a, v = Leaf a) -> copy_header l = Ok l)
  /\ ((exists k sub k' sub', In (k, Node sub) l /\ In (k', Node sub') sub) -> copy_header l = Err TypeError).
Proof.
  assert (HS : forall (A : Type) (sub : list (string * tree A)),
     ((forall k v, In (k, v) sub -> exists a, v = Leaf a) -> copy_subgroup sub = Ok sub)
     /\ ((exists k s, In (k, Node s) sub) -> copy_subgroup sub = Err TypeError)
     /\ (copy_subgroup sub = Ok sub \/ copy_subgroup sub = Err TypeError)).
  { intros A. unfold copy_subgroup. induction sub as [|[k v] sub (I1 & I2 & I3)].
    - split; [reflexivity|]. split; [intros (k & s & [])|now left].
    - cbn [map sequence snd fst]. destruct v as [a|s]; cbn [copy_dataset bind].
      + split; [|split].
        * intros H. rewrite I1; [reflexivity|]. intros k' v' Hin. apply (H k' v'). now right.
        * intros (k' & s' & [E|Hin]); [discriminate|]. rewrite I2; [reflexivity|]. now exists k', s'.
        * destruct I3 as [-> | ->]; [left|right]; reflexivity.
      + split; [|split].
        * intros H. destruct (H k (Node s)) as (a & Ea); [now left|discriminate].
        * reflexivity.
        * now right. }
  intros A l. unfold copy_header.
  assert (H3 : ((forall k sub, In (k, Node sub) l -> forall k' v, In (k', v) sub -> exists a, v = Leaf a) -> 
     sequence (map (fun p : string * tree A => match snd p with Leaf a => Ok (fst p, Leaf a) | Node sub => do s <- copy_subgroup sub; Ok (fst p, Node s) end) l) = Ok l)
     /\ ((exists k sub k' sub', In (k, Node sub) l /\ In (k', Node sub') sub) ->
     sequence (map (fun p : string * tree A => match snd p with Leaf a => Ok (fst p, Leaf a) | Node sub => do s <- copy_subgroup sub; Ok (fst p, Node s) end) l) = Err TypeError)).
  2:{ exact H3. }
  induction l as [|[k v] l [I1 I2]].
  - split; [reflexivity|]. intros (k & s & k' & s' & [] & _).
  - cbn [map sequence snd fst]. destruct v as [a|sub]; cbn [bind].
    + split.
      * intros H. rewrite I1; [reflexivity|]. intros k' s Hin. apply (H k'). now right.
      * intros (k1 & s1 & k2 & s2 & [E|Hin] & Hin2); [discriminate|]. rewrite I2; [reflexivity|]. exists k1, s1, k2, s2. now split.
    + destruct (HS A sub) as (S1 & S2 & S3). split.
      * intros H. rewrite S1 by (intros k' v' Hin; apply (H k sub (or_introl eq_refl) k' v' Hin)). cbn [bind].
        rewrite I1; [reflexivity|]. intros k' s Hin. apply (H k'). now right.
      * intros (k1 & s1 & k2 & s2 & [E|Hin] & Hin2).
        -- injection E as <- <-. rewrite S2; [reflexivity|]. now exists k2, s2.
        -- destruct S3 as [-> | ->]; cbn [bind]; [|reflexivity].
           rewrite I2; [reflexivity|]. exists k1, s1, k2, s2. now split.
Qed.
Print Assumptions C88_header_copy.

Example C88_nonvacuous :
  is_dict (Node [("b", Leaf 1); ("a", Node [("c", Leaf 2); ("a", Leaf 3)])]%string)
  /\ write_dict (Node [("b", Leaf 1); ("a", Node [("c", Leaf 2); ("a", Leaf 3)])]%string)
     = Ok (Node [("a", Node [("a", Leaf 3); ("c", Leaf 2)]); ("b", Leaf 1)]%string).
Proof.
  split; [|vm_compute; reflexivity].
  repeat (constructor; try (cbn; intuition discriminate)).
  - intros k v H. cbn in H. destruct H as [E|[E|[]]]; injection E as <- <-; constructor.
    + repeat constructor; cbn; intuition discriminate.
    + intros k v H. cbn in H. destruct H as [E|[E|[]]]; injection E as <- <-; constructor.
Qed.
