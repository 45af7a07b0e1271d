(** Lemmas for the batched transforms (C99). *)
From Verif Require Import Base GIndexModel CBase BufferModel DistBufSpec DistBufProofs FFTModel FFTSpec FFTProofs FFTProofs2 BatchModel BatchSpec.
From Coq Require Import Lia.
Open Scope nat_scope.

(** ** multi-indices *)
Lemma prodl_pos sh : 0 < prodl sh <-> Forall (fun d => 0 < d) sh.
Proof.
  induction sh as [|d sh IH]; cbn; [split; auto; lia|]. fold (prodl sh). split.
  - intros H. constructor; [nia|apply IH; nia].
  - intros H. inversion_clear H as [|? ? A B]. apply IH in B. nia.
Qed.

Lemma unravel_inside sh : forall i, i < prodl sh -> inside sh (unravel sh i) /\ ravel sh (unravel sh i) = i.
Proof.
  induction sh as [|d sh IH]; intros i Hi; cbn [prodl fold_right unravel ravel] in *.
  - split; [constructor|lia].
  - fold (prodl sh) in *. assert (P : prodl sh <> 0) by (intros E; rewrite E in Hi; lia).
    pose proof (Nat.mod_upper_bound i (prodl sh) P) as M.
    destruct (IH _ M) as [A B]. split.
    + constructor; [|exact A]. apply Nat.div_lt_upper_bound; [exact P|]. lia.
    + rewrite B. rewrite (Nat.div_mod i (prodl sh) P) at 3. lia.
Qed.

Lemma shift_app s1 : forall s2 i1 i2, length s1 = length i1 -> shift (s1 ++ s2) (i1 ++ i2) = (shift s1 i1 + shift s2 i2)%Z.
Proof.
  induction s1 as [|s s1 IH]; intros s2 [|i i1] i2 H; try discriminate; cbn [app shift]; [lia|].
  rewrite IH by (cbn in H; lia). lia.
Qed.

(** ** collapse *)
Lemma collapse_some axes : forall d t, collapse axes = Some (d, t) ->
  d = prodl (map fst axes) /\
  forall idx, inside (map fst axes) idx -> shift (map snd axes) idx = (Z.of_nat (ravel (map fst axes) idx) * t)%Z.
Proof.
  induction axes as [|[d s] rest IH]; intros d1 t E.
  - cbn in E. injection E as <- <-. split; [reflexivity|]. intros idx H. inversion H. reflexivity.
  - cbn [collapse] in E. destruct (Nat.eqb_spec d 1) as [->|Nd].
    + destruct (IH _ _ E) as [A B]. split; [cbn; fold (prodl (map fst rest)); lia|].
      intros idx H. cbn [map fst] in H. inversion H as [|i ? js ? Hi Hj]; subst. assert (i = 0) by lia. subst i.
      cbn [map fst snd shift ravel]. rewrite B by assumption. lia.
    + destruct rest as [|r0 rest'].
      * injection E as <- <-. split; [cbn; lia|]. intros idx H. cbn [map fst] in H. inversion H as [|i ? js ? Hi Hj]; subst.
        inversion Hj; subst. cbn. replace (i * 1 + 0) with i by lia. lia.
      * set (rest := r0 :: rest') in *. clearbody rest. destruct (collapse rest) as [[d' s']|]; [|discriminate].
        destruct (IH _ _ eq_refl) as [A B].
        destruct (Nat.eqb_spec d' 1) as [Ed|Nd'].
        -- injection E as <- <-. split; [cbn [map fst prodl fold_right]; fold (prodl (map fst rest)); rewrite <- A, Ed; lia|].
           intros idx H. cbn [map fst] in H. inversion H as [|i ? js ? Hi Hj]; subst. cbn [map fst snd shift ravel].
           fold (prodl (map fst rest)). rewrite B by assumption.
           pose proof (ravel_lt _ _ Hj) as L. assert (L1 : prodl (map fst rest) = 1) by congruence. rewrite L1 in *. assert (L0 : ravel (map fst rest) js = 0) by lia. rewrite L0.
           rewrite Z.mul_0_l. replace (i * 1 + 0) with i by lia. lia.
        -- destruct (Z.eqb_spec s (Z.of_nat d' * s')) as [Es|]; [|discriminate]. injection E as <- <-.
           split; [cbn [map fst prodl fold_right]; fold (prodl (map fst rest)); rewrite <- A; reflexivity|].
           intros idx H. cbn [map fst] in H. inversion H as [|i ? js ? Hi Hj]; subst. cbn [map fst snd shift ravel].
           fold (prodl (map fst rest)). rewrite B by assumption. lia.
Qed.

Lemma inside_zeros sh : Forall (fun d => 0 < d) sh -> inside sh (repeat 0 (length sh)).
Proof. induction 1 as [|d sh H Hs IH]; cbn; constructor; assumption. Qed.
Lemma ravel_zeros sh : ravel sh (repeat 0 (length sh)) = 0.
Proof. induction sh as [|d sh IH]; cbn; [reflexivity|]. exact IH. Qed.

Lemma collapse_none axes : Forall (fun d => 0 < d) (map fst axes) -> collapse axes = None ->
  forall t, ~ (forall idx, inside (map fst axes) idx -> shift (map snd axes) idx = (Z.of_nat (ravel (map fst axes) idx) * t)%Z).
Proof.
  induction axes as [|[d s] rest IH]; intros HP E t Ht; [discriminate|].
  cbn [map fst] in HP. inversion_clear HP as [|? ? Pd Pr].
  assert (HR : forall idx, inside (map fst rest) idx -> shift (map snd rest) idx = (Z.of_nat (ravel (map fst rest) idx) * t)%Z).
  { intros idx Hi. pose proof (Ht (0 :: idx) ltac:(constructor; assumption)) as A. cbn [map fst snd shift ravel] in A. lia. }
  cbn [collapse] in E. destruct (Nat.eqb_spec d 1) as [->|Nd]; [exact (IH Pr E t HR)|].
  destruct rest as [|r0 rest']; [discriminate|]. set (rest := r0 :: rest') in *.
  destruct (collapse rest) as [[d' s']|] eqn:Ec; [|exact (IH Pr eq_refl t HR)].
  destruct (collapse_some _ _ _ Ec) as [A B].
  destruct (Nat.eqb_spec d' 1) as [|Nd']; [discriminate|].
  destruct (Z.eqb_spec s (Z.of_nat d' * s')) as [|Ns]; [discriminate|]. apply Ns.
  pose proof (proj2 (prodl_pos _) Pr) as PP.
  destruct (unravel_inside (map fst rest) 1 ltac:(lia)) as [I1 R1].
  pose proof (HR _ I1) as E1. rewrite (B _ I1), R1 in E1.
  pose proof (Ht (1 :: repeat 0 (length (map fst rest)))) as E2.
  cbn [map fst snd shift ravel] in E2. rewrite ravel_zeros in E2.
  rewrite (HR _ (inside_zeros _ Pr)), ravel_zeros in E2. fold (prodl (map fst rest)) in E2.
  specialize (E2 ltac:(constructor; [lia|now apply inside_zeros])). rewrite A. lia.
Qed.

(** ** cells in C order *)
Lemma flat_map_length {A B} (f : A -> list B) n l : (forall x, In x l -> length (f x) = n) -> length (flat_map f l) = length l * n.
Proof. induction l as [|x l IH]; cbn; intros H; [reflexivity|]. rewrite app_length, IH, H; auto. Qed.

Lemma nth_flat_map {A B} (f : A -> list B) n l d dd : (forall x, In x l -> length (f x) = n) -> forall i j, i < length l -> j < n ->
  nth (i * n + j) (flat_map f l) d = nth j (f (nth i l dd)) d.
Proof.
  induction l as [|x l IH]; cbn [flat_map length]; intros H i j Hi Hj; [lia|].
  pose proof (H x (or_introl eq_refl)) as Hx.
  destruct i as [|i]; cbn [nth].
  - rewrite app_nth1 by lia. reflexivity.
  - rewrite app_nth2 by lia. rewrite Hx. replace (S i * n + j - n) with (i * n + j) by lia.
    apply IH; [intros; apply H; now right|lia|exact Hj].
Qed.

Lemma cells_length sh : forall off str, length str = length sh -> length (cells off sh str) = prodl sh.
Proof.
  induction sh as [|d sh IH]; intros off [|s str] H; try discriminate; [reflexivity|].
  cbn [cells prodl fold_right]. rewrite (flat_map_length _ (prodl sh)).
  - now rewrite seq_length.
  - intros x _. apply IH. cbn in H; lia.
Qed.

Lemma cells_nth sh : forall off str idx, length str = length sh -> inside sh idx ->
  nth (ravel sh idx) (cells off sh str) 0%Z = (off + shift str idx)%Z.
Proof.
  induction sh as [|d sh IH]; intros off str idx H Hi; inversion Hi as [|i ? js ? A B]; subst.
  - destruct str; [|discriminate]. cbn. lia.
  - destruct str as [|s str]; [discriminate|]. cbn [cells ravel shift]. fold (prodl sh).
    rewrite (nth_flat_map _ (prodl sh) _ _ 0); [|intros; apply cells_length; cbn in H; lia|now rewrite seq_length|now apply ravel_lt].
    rewrite seq_nth by assumption. rewrite IH by (try assumption; cbn in H; lia). lia.
Qed.

Lemma chunks_length {A} n rows : forall (l : list A), length (chunks n rows l) = rows.
Proof. induction rows as [|k IH]; intros l; cbn; [reflexivity|]. now rewrite IH. Qed.
Lemma chunks_nth {A} n : forall rows r (l : list A), r < rows -> nth r (chunks n rows l) [] = firstn n (skipn (r * n) l).
Proof.
  induction rows as [|k IH]; intros r l H; [lia|]. cbn [chunks]. destruct r as [|r]; [reflexivity|]. cbn [nth].
  rewrite IH by lia. f_equal. clear. revert l. induction n as [|n IHn]; intros l; [now rewrite !Nat.mul_0_r|].
  destruct l as [|x l]; [now rewrite !skipn_nil|]. cbn [skipn Nat.mul Nat.add].
  rewrite Nat.mul_succ_r, Nat.add_comm. clear IHn. cbn [skipn].
  remember (r * n) as q eqn:Eq. clear Eq. revert l. induction n as [|n IHn]; intros l; [reflexivity|]. destruct l as [|y l].
  - rewrite !skipn_nil. reflexivity.
  - cbn [skipn]. replace (S n + (r + q)) with (S (n + (r + q))) by lia. cbn [skipn]. apply IHn.
Qed.

(** ** reshape *)
Definition addr (v : view) (lead : list nat) (m n r j : nat) : Z := cell v (unravel lead (r / m) ++ [(r mod m) * n + j]).
Definition spaced (v : view) (lead : list nat) (m n : nat) : Prop :=
  exists t, forall idx b, inside lead idx -> b < m ->
    cell v (idx ++ [b * n]) = (v_off v + Z.of_nat (ravel lead idx * m + b) * t)%Z.

Lemma map_fst_combine {A B} (l : list A) (l' : list B) : length l = length l' -> map fst (combine l l') = l.
Proof. revert l'. induction l as [|x l IH]; intros [|y l'] H; try discriminate; cbn; [reflexivity|]. rewrite IH; [reflexivity|cbn in H; lia]. Qed.
Lemma map_snd_combine {A B} (l : list A) (l' : list B) : length l = length l' -> map snd (combine l l') = l'.
Proof. revert l'. induction l as [|x l IH]; intros [|y l'] H; try discriminate; cbn; [reflexivity|]. rewrite IH; [reflexivity|cbn in H; lia]. Qed.

Lemma cell_last v lead lstr s idx k : v_str v = lstr ++ [s] -> length lstr = length lead -> inside lead idx ->
  cell v (idx ++ [k]) = (v_off v + shift lstr idx + Z.of_nat k * s)%Z.
Proof.
  intros E L H. unfold cell. rewrite E, shift_app by (rewrite L; symmetry; now apply inside_length). cbn. lia.
Qed.

Lemma str_split v lead k : length (v_str v) = length (v_shape v) -> v_shape v = lead ++ [k] ->
  exists lstr s, v_str v = lstr ++ [s] /\ length lstr = length lead.
Proof.
  intros H E. rewrite E, app_length in H. cbn in H.
  destruct (exists_last (l := v_str v)) as (lstr & s & Es).
  { intros E0. rewrite E0 in H. cbn in H. lia. }
  exists lstr, s. split; [exact Es|]. rewrite Es, app_length in H. cbn in H. lia.
Qed.

Lemma nth_map_seq {A} (f : nat -> A) n i d : i < n -> nth i (map f (seq 0 n)) d = f i.
Proof. intros H. rewrite (nth_indep _ _ (f 0)) by (now rewrite map_length, seq_length). rewrite map_nth, seq_nth by assumption. reflexivity. Qed.

Lemma row_split lead m r : 0 < m -> r < prodl lead * m ->
  inside lead (unravel lead (r / m)) /\ r mod m < m /\ r = ravel lead (unravel lead (r / m)) * m + r mod m.
Proof.
  intros Hm Hr. assert (D : r / m < prodl lead) by (apply Nat.div_lt_upper_bound; lia).
  destruct (unravel_inside lead _ D) as [A B]. split; [exact A|]. split; [apply Nat.mod_upper_bound; lia|].
  rewrite B. rewrite (Nat.div_mod r m) at 1 by lia. lia.
Qed.

Lemma map_ext_seq {A} (f g : nat -> A) n : (forall i, i < n -> f i = g i) -> map f (seq 0 n) = map g (seq 0 n).
Proof. intros H. apply map_ext_in. intros i Hi. apply in_seq in Hi. apply H. lia. Qed.

Lemma firstn_skipn_nth {A} (l : list A) a n d : a + n <= length l -> firstn n (skipn a l) = map (fun j => nth (a + j) l d) (seq 0 n).
Proof.
  revert l. induction a as [|a IH]; intros l H.
  - cbn [skipn Nat.add]. revert l H. induction n as [|n IHn]; intros l H; [reflexivity|].
    destruct l as [|x l]; [cbn in H; lia|]. cbn [firstn seq map nth]. f_equal.
    rewrite <- seq_shift, map_map. apply IHn. cbn in H. lia.
  - destruct l as [|x l]; [cbn in H; lia|]. cbn [skipn Nat.add nth]. apply IH. cbn in H. lia.
Qed.

Lemma reshape_rows mm v lead m n : v_shape v = lead ++ [m * n] -> length (v_str v) = length (v_shape v) -> 0 < n ->
  exists rows, reshape mm v n = Ok rows /\ length rows = prodl lead * m /\
  ((rows = map (fun r => inl (map (addr v lead m n r) (seq 0 n))) (seq 0 (prodl lead * m)) /\ spaced v lead m n) \/
   (rows = map (fun r => inr (map (fun j => mm (addr v lead m n r j)) (seq 0 n))) (seq 0 (prodl lead * m)) /\
    (0 < prodl lead * m -> ~ spaced v lead m n))).
Proof.
  intros Es Hl Hn. destruct (str_split v lead _ Hl Es) as (lstr & s & Estr & Hls).
  assert (Ek : pred (length (v_shape v)) = length lead) by (rewrite Es, app_length; cbn; lia).
  assert (E1 : firstn (length lead) (v_shape v) = lead) by (rewrite Es, firstn_app, Nat.sub_diag; cbn; rewrite app_nil_r; apply firstn_all).
  assert (E2 : nth (length lead) (v_shape v) 0 = m * n) by (rewrite Es, app_nth2, Nat.sub_diag by lia; reflexivity).
  assert (E3 : nth (length lead) (v_str v) 0%Z = s) by (rewrite Estr, app_nth2 by lia; now rewrite Hls, Nat.sub_diag).
  assert (E4 : firstn (length lead) (v_str v) = lstr) by (rewrite Estr, <- Hls, firstn_app, Nat.sub_diag; cbn; rewrite app_nil_r; apply firstn_all).
  assert (Em : m * n / n = m) by (apply Nat.div_mul; lia).
  unfold reshape. rewrite Ek, E1, E2, E3, E4, Em.
  assert (Ec : (n =? 0) || negb ((m * n) mod n =? 0) = false).
  { rewrite Nat.mod_mul by lia. cbn. destruct (Nat.eqb_spec n 0); [lia|reflexivity]. }
  rewrite Ec. fold (prodl lead).
  set (axes := combine lead lstr ++ [(m, (Z.of_nat n * s)%Z)]).
  assert (F1 : map fst axes = lead ++ [m]) by (unfold axes; rewrite map_app, map_fst_combine by lia; reflexivity).
  assert (F2 : map snd axes = lstr ++ [(Z.of_nat n * s)%Z]) by (unfold axes; rewrite map_app, map_snd_combine by lia; reflexivity).
  assert (SH : forall t, (forall idx, inside (map fst axes) idx -> shift (map snd axes) idx = (Z.of_nat (ravel (map fst axes) idx) * t)%Z)
     <-> (forall idx b, inside lead idx -> b < m -> cell v (idx ++ [b * n]) = (v_off v + Z.of_nat (ravel lead idx * m + b) * t)%Z)).
  { intros t. rewrite F1, F2. split.
    - intros H idx b Hi Hb. rewrite (cell_last v lead lstr s) by assumption.
      pose proof (H (idx ++ [b]) (inside_snoc _ _ _ _ Hi Hb)) as A.
      rewrite shift_app in A by (rewrite Hls; symmetry; now apply inside_length).
      rewrite ravel_app in A by assumption. cbn [prodl fold_right ravel shift] in A. rewrite Nat.mul_1_r in A.
      replace (b * 1 + 0) with b in A by lia. rewrite <- A. rewrite Nat2Z.inj_mul. lia.
    - intros H idx Hi. apply inside_snoc_inv in Hi. destruct Hi as (js & b & -> & Hj & Hb).
      pose proof (H js b Hj Hb) as A. rewrite (cell_last v lead lstr s) in A by assumption.
      rewrite shift_app by (rewrite Hls; symmetry; now apply inside_length).
      rewrite ravel_app by assumption. cbn [prodl fold_right ravel shift]. rewrite Nat.mul_1_r.
      replace (b * 1 + 0) with b by lia. rewrite Nat2Z.inj_mul in A. lia. }
  destruct (collapse axes) as [[d t]|] eqn:Eax.
  - eexists. split; [reflexivity|]. split; [now rewrite map_length, seq_length|]. left.
    destruct (collapse_some _ _ _ Eax) as [_ B]. rewrite SH in B. split; [|exists t; exact B].
    apply map_ext_seq. intros r Hr. f_equal. apply map_ext_seq. intros j Hj. unfold addr.
    destruct (Nat.eq_dec m 0) as [->|Hm]; [lia|].
    destruct (row_split lead m r ltac:(lia) Hr) as (I & Rb & Er).
    pose proof (B _ _ I Rb) as A. rewrite <- Er in A.
    rewrite (cell_last v lead lstr s) in A |- * by assumption. lia.
  - eexists. split; [reflexivity|]. split; [now rewrite map_length, chunks_length|]. right. split.
    + apply nth_ext with (d := inr []) (d' := inr []); [now rewrite !map_length, chunks_length, seq_length|].
      intros r Hr. rewrite map_length, chunks_length in Hr.
      rewrite (nth_map_seq _ _ r) by assumption. rewrite (map_nth (@inr (list Z) (list C))). f_equal.
      rewrite chunks_nth by assumption.
      assert (Lc : length (cells (v_off v) (v_shape v) (v_str v)) = prodl lead * (m * n)).
      { rewrite cells_length by assumption. rewrite Es, prodl_app. cbn. lia. }
      rewrite (firstn_skipn_nth _ _ _ (RtoC 0)).
      2:{ rewrite map_length, Lc. nia. }
      apply map_ext_seq. intros j Hj.
      rewrite (nth_indep _ _ (mm 0%Z)) by (rewrite map_length, Lc; nia). rewrite map_nth. f_equal.
      destruct (Nat.eq_dec m 0) as [->|Hm]; [lia|].
      destruct (row_split lead m r ltac:(lia) Hr) as (I & Rb & Er).
      unfold addr, cell. set (idx := unravel lead (r / m)) in *.
      assert (Hb : r mod m * n + j < m * n) by nia.
      rewrite <- (cells_nth (v_shape v)); [|assumption|rewrite Es; now apply inside_snoc].
      f_equal. rewrite Es, ravel_app by assumption. cbn [prodl fold_right ravel]. rewrite Er at 1. lia.
    + intros P (t & Ht). apply (collapse_none axes) with (t := t); [|exact Eax|exact (proj2 (SH t) Ht)].
      rewrite F1. apply prodl_pos. rewrite prodl_app. cbn. lia.
Qed.

(** ** the loop *)
Lemma write_out a : forall m vals p, ~ In p a -> write m a vals p = m p.
Proof.
  induction a as [|q a IH]; intros m [|c vals] p H; try reflexivity. cbn [write].
  rewrite IH by (intros K; apply H; now right). destruct (Z.eqb_spec p q) as [->|]; [|reflexivity].
  exfalso. apply H. now left.
Qed.
Lemma write_in a : forall m vals, NoDup a -> length vals = length a -> map (write m a vals) a = vals.
Proof.
  induction a as [|q a IH]; intros m [|c vals] N L; try discriminate; [reflexivity|].
  inversion_clear N as [|? ? A B]. cbn [write map]. f_equal.
  - rewrite write_out by assumption. now rewrite Z.eqb_refl.
  - apply IH; [assumption|cbn in L; lia].
Qed.

Definition row_cells (r : row) : list Z := match r with inl a => a | inr _ => [] end.
Lemma fetch_same m m' r : (forall p, In p (row_cells r) -> m' p = m p) -> fetch m' r = fetch m r.
Proof. destruct r as [a|v]; cbn; intros H; [|reflexivity]. apply map_ext_in. exact H. Qed.

Lemma NoDup_app_parts {A} (l l' : list A) : NoDup (l ++ l') -> NoDup l /\ NoDup l' /\ forall x, In x l -> ~ In x l'.
Proof.
  induction l as [|x l IH]; cbn; intros H; [split; [constructor|split; [exact H|tauto]]|].
  inversion_clear H as [|? ? X Y]. destruct (IH Y) as (N1 & N2 & D). split; [|split].
  - constructor; [|exact N1]. intros K. apply X, in_or_app. now left.
  - exact N2.
  - intros y [<-|Hy] K; [apply X, in_or_app; now right|exact (D y Hy K)].
Qed.

Section Loop.
  Variable mk : list C -> call.
  Variable T : list C -> list C.
  Variable P : fft3d -> Prop.
  Hypothesis HT : forall f d, P f -> snd (fft_call f (mk d)) = T d.
  Hypothesis HP : forall f d, P f -> P (fst (fft_call f (mk d))).

  Lemma loop_keeps ins : forall outs f m, P f -> P (fst (loop mk f m ins outs)).
  Proof.
    induction ins as [|i ins IH]; intros [|o outs] f m H; try exact H. cbn [loop].
    pose proof (HP f (fetch m i) H) as H'. destruct (fft_call f (mk (fetch m i))) as [f' vals]. cbn in H'.
    apply IH, H'.
  Qed.

  Lemma loop_copies ins : forall outs f m, (forall o, In o outs -> row_cells o = [] ) -> snd (loop mk f m ins outs) = m.
  Proof.
    induction ins as [|i ins IH]; intros [|o outs] f m H; try reflexivity. cbn [loop].
    destruct (fft_call f (mk (fetch m i))) as [f' vals].
    replace (deposit m o vals) with m.
    - apply IH. intros o' Ho. apply H. now right.
    - pose proof (H o (or_introl eq_refl)) as E. destruct o as [a|v]; cbn in *; [subst a|]; reflexivity.
  Qed.

  Lemma loop_views ins : forall outs f m n, P f ->
    (forall o, In o outs -> length o = n) -> (forall d, length (T d) = n) ->
    NoDup (concat outs) -> (forall i p, In i ins -> In p (row_cells i) -> ~ In p (concat outs)) ->
    let m' := snd (loop mk f m ins (map inl outs)) in
    (forall p, ~ In p (concat (firstn (length ins) outs)) -> m' p = m p) /\
    (forall r, r < length ins -> r < length outs -> map m' (nth r outs []) = T (fetch m (nth r ins (inr [])))).
  Proof.
    induction ins as [|i ins IH]; intros outs f m n Hf Ho HL N D; cbn zeta.
    - split; [reflexivity|cbn; lia].
    - destruct outs as [|o outs]; [split; [reflexivity|cbn; lia]|]. cbn [map loop].
      pose proof (HT f (fetch m i) Hf) as E. pose proof (HP f (fetch m i) Hf) as Hf'.
      destruct (fft_call f (mk (fetch m i))) as [f' vals]. cbn [fst snd] in E, Hf'. cbn [deposit].
      cbn [concat] in N. destruct (NoDup_app_parts _ _ N) as (N1 & N2 & DD).
      specialize (IH outs f' (write m o vals) n Hf').
      destruct IH as [A B].
      + intros o' H. apply Ho. now right.
      + exact HL.
      + exact N2.
      + intros i' p Hi Hp K. apply (D i' p (or_intror Hi) Hp). cbn. apply in_or_app. now right.
      + set (m' := snd (loop mk f' (write m o vals) ins (map inl outs))) in *. split.
        * intros p Hp. cbn [length firstn concat] in Hp. rewrite A by (intros K; apply Hp, in_or_app; now right).
          apply write_out. intros K. apply Hp, in_or_app. now left.
        * intros [|r] H1 H2; cbn [nth].
          -- rewrite <- E. etransitivity; [|apply (write_in o m vals N1)].
             ++ apply map_ext_in. intros p Hp. apply A. intros K. apply (DD p Hp).
                rewrite <- (firstn_skipn (length ins) outs), concat_app. apply in_or_app. now left.
             ++ rewrite E, HL. symmetry. apply Ho. now left.
          -- rewrite B by (cbn in H1, H2; lia). f_equal. apply fetch_same. intros p Hp. apply write_out. intros K.
             assert (r < length ins) by (cbn in H1; lia).
             apply (D (nth r ins (inr [])) p); [right; now apply nth_In|exact Hp|cbn; apply in_or_app; now left].
  Qed.
End Loop.

Lemma in_concat_seq {A} (f : nat -> nat -> A) R n p : In p (concat (map (fun r => map (f r) (seq 0 n)) (seq 0 R))) <-> exists r j, r < R /\ j < n /\ p = f r j.
Proof.
  rewrite in_concat. split.
  - intros (l & Hl & Hp). apply in_map_iff in Hl. destruct Hl as (r & <- & Hr). apply in_map_iff in Hp. destruct Hp as (j & <- & Hj).
    apply in_seq in Hr, Hj. exists r, j. split; [lia|]. split; [lia|reflexivity].
  - intros (r & j & Hr & Hj & ->). exists (map (f r) (seq 0 n)). split; [apply in_map_iff; exists r; split; [reflexivity|apply in_seq; lia]|].
    apply in_map_iff. exists j. split; [reflexivity|apply in_seq; lia].
Qed.

Lemma NoDup_concat_seq {A} (f : nat -> nat -> A) n : forall R, 
  (forall r j r' j', r < R -> j < n -> r' < R -> j' < n -> f r j = f r' j' -> r = r' /\ j = j') ->
  NoDup (concat (map (fun r => map (f r) (seq 0 n)) (seq 0 R))).
Proof.
  intros R H.
  assert (G : forall k a, a + k <= R -> NoDup (concat (map (fun r => map (f r) (seq 0 n)) (seq a k)))).
  { induction k as [|k IH]; intros a Ha; cbn; [constructor|].
    assert (NA : forall (l l' : list A), NoDup l -> NoDup l' -> (forall x, In x l -> ~ In x l') -> NoDup (l ++ l')).
    { clear. induction l as [|x l IH]; intros l' N1 N2 D; cbn; [exact N2|]. inversion_clear N1 as [|? ? X Y]. constructor.
      - intros K. apply in_app_or in K. destruct K as [K|K]; [tauto|]. exact (D x (or_introl eq_refl) K).
      - apply IH; [exact Y|exact N2|]. intros y Hy. apply D. now right. }
    apply NA.
    - assert (NM : forall l, (forall x, In x l -> x < n) -> NoDup l -> NoDup (map (f a) l)).
      { induction l as [|x l IHl]; cbn; intros Hb N; [constructor|]. inversion_clear N as [|? ? X Y]. constructor.
        - intros K. apply in_map_iff in K. destruct K as (y & E & Hy). apply X.
          destruct (H a y a x ltac:(lia) (Hb y (or_intror Hy)) ltac:(lia) (Hb x (or_introl eq_refl)) E). now subst y.
        - apply IHl; [intros y Hy; apply Hb; now right|exact Y]. }
      apply NM; [|apply seq_NoDup]. intros x Hx. apply in_seq in Hx. lia.
    - apply IH. lia.
    - intros p Hp K. apply in_map_iff in Hp. destruct Hp as (j & <- & Hj). apply in_concat in K. destruct K as (l & Hl & Hp).
      apply in_map_iff in Hl. destruct Hl as (r & <- & Hr). apply in_map_iff in Hp. destruct Hp as (j' & E & Hj').
      apply in_seq in Hj, Hr, Hj'. destruct (H r j' a j ltac:(lia) ltac:(lia) ltac:(lia) ltac:(lia) E). lia. }
  apply G. lia.
Qed.

Lemma addr_inside v lead m n r j : v_shape v = lead ++ [m * n] -> r < prodl lead * m -> j < n ->
  inside (v_shape v) (unravel lead (r / m) ++ [(r mod m) * n + j]).
Proof.
  intros Es Hr Hj. assert (Hm : 0 < m) by (destruct m; lia). destruct (row_split lead m r Hm Hr) as (I & Rb & _).
  rewrite Es. apply inside_snoc; [exact I|]. nia.
Qed.
Lemma addr_holds v lead m n r j : v_shape v = lead ++ [m * n] -> r < prodl lead * m -> j < n -> holds v (addr v lead m n r j).
Proof. intros Es Hr Hj. eexists. split; [exact (addr_inside v lead m n r j Es Hr Hj)|reflexivity]. Qed.
Lemma addr_inj v lead m n r j r' j' : v_shape v = lead ++ [m * n] -> distinct v ->
  r < prodl lead * m -> j < n -> r' < prodl lead * m -> j' < n -> addr v lead m n r j = addr v lead m n r' j' -> r = r' /\ j = j'.
Proof.
  intros Es D Hr Hj Hr' Hj' E. assert (Hm : 0 < m) by (destruct m; lia).
  pose proof (D _ _ (addr_inside v lead m n r j Es Hr Hj) (addr_inside v lead m n r' j' Es Hr' Hj') E) as E2.
  destruct (row_split lead m r Hm Hr) as (_ & Rb & Er). destruct (row_split lead m r' Hm Hr') as (_ & Rb' & Er').
  apply app_inj_tail in E2. destruct E2 as [E2 E3].
  assert (Eb : r mod m = r' mod m /\ j = j').
  { revert E3 Hj Hj'. generalize (r mod m) (r' mod m). intros b b' E3 Hj Hj'. clear - E3 Hj Hj'.
    assert (b = b') by (destruct (Nat.lt_trichotomy b b') as [L|[L|L]]; [exfalso|exact L|exfalso]; nia). subst b'. split; [reflexivity|lia]. }
  destruct Eb as [Eb Ej]. split; [|exact Ej]. rewrite Er, Er', E2, Eb. reflexivity.
Qed.
Lemma addr_cell v lead m n idx b j : inside lead idx -> b < m -> addr v lead m n (ravel lead idx * m + b) j = cell v (idx ++ [b * n + j]).
Proof.
  intros H Hb. unfold addr. rewrite Nat.div_add_l by lia. rewrite Nat.div_small, Nat.add_0_r by exact Hb.
  rewrite unravel_ravel by assumption.
  replace ((ravel lead idx * m + b) mod m) with b; [reflexivity|]. rewrite Nat.add_comm, Nat.mod_add by lia. symmetry. apply Nat.mod_small, Hb.
Qed.

Section Batch.
  Variable mk : list C -> call.
  Variable T : list C -> list C.
  Variable P : fft3d -> Prop.
  Hypothesis HT : forall f d, P f -> snd (fft_call f (mk d)) = T d.
  Hypothesis HP : forall f d, P f -> P (fst (fft_call f (mk d))).
  Variables (li lo : list nat) (mi ni mo no : nat) (vi vo : view) (f : fft3d) (mm : mem).
  Hypothesis (Hf : P f) (Hni : 0 < ni) (Hno : 0 < no).
  Hypothesis (HL : forall d, length (T d) = no).
  Hypothesis (Ei : v_shape vi = li ++ [mi * ni]) (Eo : v_shape vo = lo ++ [mo * no]).
  Hypothesis (Si : length (v_str vi) = length (v_shape vi)) (So : length (v_str vo) = length (v_shape vo)).

  Lemma batch : exists ins outs, reshape mm vi ni = Ok ins /\ reshape mm vo no = Ok outs /\
    P (fst (loop mk f mm ins outs)) /\
    let m' := snd (loop mk f mm ins outs) in
    (spaced vo lo mo no -> distinct vo -> apart vi vo ->
       (forall p, ~ holds vo p -> m' p = mm p) /\
       (forall r j, r < prodl lo * mo -> j < no ->
          (r < prodl li * mi -> m' (addr vo lo mo no r j) = nth j (T (map (fun k => mm (addr vi li mi ni r k)) (seq 0 ni))) (RtoC 0)) /\
          (prodl li * mi <= r -> m' (addr vo lo mo no r j) = mm (addr vo lo mo no r j)))) /\
    (0 < prodl lo * mo -> ~ spaced vo lo mo no -> m' = mm).
  Proof.
    destruct (reshape_rows mm vi li mi ni Ei Si Hni) as (ins & E1 & L1 & A1).
    destruct (reshape_rows mm vo lo mo no Eo So Hno) as (outs & E2 & L2 & A2).
    exists ins, outs. split; [exact E1|]. split; [exact E2|]. split; [exact (loop_keeps mk P HP ins outs f mm Hf)|].
    cbn zeta. split.
    - intros Sp D Ap.
      set (O := map (fun r => map (addr vo lo mo no r) (seq 0 no)) (seq 0 (prodl lo * mo))).
      assert (EO : outs = map inl O).
      { destruct A2 as [[-> _]|[-> N]].
        - unfold O. now rewrite map_map.
        - destruct (Nat.eq_dec (prodl lo * mo) 0) as [Z0|NZ]; [unfold O; rewrite Z0; reflexivity|].
          exfalso. apply N; [lia|exact Sp]. }
      assert (LO : length O = prodl lo * mo) by (unfold O; now rewrite map_length, seq_length).
      assert (FI : forall r, r < prodl li * mi -> fetch mm (nth r ins (inr [])) = map (fun k => mm (addr vi li mi ni r k)) (seq 0 ni)
                   /\ forall p, In p (row_cells (nth r ins (inr []))) -> holds vi p).
      { intros r Hr. destruct A1 as [[-> _]|[-> _]]; rewrite nth_map_seq by exact Hr; cbn [fetch row_cells].
        - split; [now rewrite map_map|]. intros p Hp. apply in_map_iff in Hp. destruct Hp as (j & <- & Hj). apply in_seq in Hj.
          apply addr_holds; [exact Ei|exact Hr|lia].
        - split; [reflexivity|intros p []]. }
      assert (HO : forall p, In p (concat O) -> holds vo p).
      { intros p Hp. apply in_concat_seq in Hp. destruct Hp as (r & j & Hr & Hj & ->). now apply addr_holds. }
      destruct (loop_views mk T P HT HP ins O f mm no Hf) as [B1 B2].
      + intros o Ho. unfold O in Ho. apply in_map_iff in Ho. destruct Ho as (r & <- & _). now rewrite map_length, seq_length.
      + exact HL.
      + apply NoDup_concat_seq. intros r j r' j' H1 H2 H3 H4 E. exact (addr_inj vo lo mo no r j r' j' Eo D H1 H2 H3 H4 E).
      + intros i p Hi Hp K. apply (In_nth _ _ (inr [])) in Hi. destruct Hi as (r & Hr0 & <-). assert (Hr : r < prodl li * mi) by (rewrite <- L1; exact Hr0).
        exact (Ap p (proj2 (FI r Hr) p Hp) (HO p K)).
      + rewrite EO. set (m' := snd (loop mk f mm ins (map inl O))) in *. split.
        * intros p Hp. apply B1. intros K. apply Hp, HO. rewrite <- (firstn_skipn (length ins) O), concat_app. apply in_or_app. now left.
        * intros r j Hr Hj. split.
          -- intros Hr1. rewrite <- (proj1 (FI r Hr1)). rewrite <- B2 by (rewrite ?L1, ?LO; assumption).
             unfold O. rewrite nth_map_seq by exact Hr. rewrite map_map. now rewrite nth_map_seq by exact Hj.
          -- intros Hr1. apply B1. rewrite L1. intros K. unfold O in K. rewrite firstn_map in K.
             assert (FS : firstn (prodl li * mi) (seq 0 (prodl lo * mo)) = seq 0 (Nat.min (prodl li * mi) (prodl lo * mo))).
             { clear. generalize (prodl li * mi) (prodl lo * mo) 0. intros a b. revert a. induction b as [|b IH]; intros [|a] s0; try reflexivity.
               cbn [firstn seq Nat.min]. now rewrite IH. }
             rewrite FS in K. apply in_concat_seq in K. destruct K as (r' & j' & H1 & H2 & E).
             destruct (addr_inj vo lo mo no r j r' j' Eo D Hr Hj ltac:(lia) H2 E). lia.
    - intros Pos Ns. destruct A2 as [[_ Sp]|[-> _]]; [tauto|]. apply loop_copies. intros o Ho.
      apply in_map_iff in Ho. destruct Ho as (r & <- & _). reflexivity.
  Qed.
End Batch.

(** ** the FFT object of a G-space *)
Definition fft_ok (nx ny nz : nat) (s : gspace) (norm : bool) (f : fft3d) : Prop :=
  (exists g h, f = Full (full_run (full_init nx ny nz (map Z.to_nat (gs_idxgrid s)) norm g) h)) \/
  (exists g g' h, f = Sticks (sticks_run (sticks_init nx ny nz (map Z.to_nat (gs_idxgrid s)) norm g g') h)).

Lemma fft_keeps nx ny nz s norm f c : fft_ok nx ny nz s norm f -> fft_ok nx ny nz s norm (fst (fft_call f c)).
Proof.
  intros [(g & h & ->)|(g & g' & h & ->)]; cbn [fft_call].
  - left. exists g, (h ++ [c]). unfold full_run at 2. rewrite fold_left_app. cbn [fold_left]. fold (full_run (full_init nx ny nz (map Z.to_nat (gs_idxgrid s)) norm g) h).
    destruct (full_call _ c). reflexivity.
  - right. exists g, g', (h ++ [c]). unfold sticks_run at 2. rewrite fold_left_app. cbn [fold_left].
    fold (sticks_run (sticks_init nx ny nz (map Z.to_nat (gs_idxgrid s)) norm g g') h).
    destruct (sticks_call _ c). reflexivity.
Qed.

Lemma fft_value nx ny nz gs s norm f c : gspace_base (zshape nx ny nz) gs = Ok s -> fft_ok nx ny nz s norm f ->
  snd (fft_call f c) = full_fun nx ny nz (map Z.to_nat (gs_idxgrid s)) norm c.
Proof.
  intros Hs [(g & h & ->)|(g & g' & h & ->)]; cbn [fft_call].
  - rewrite <- (full_stateless nx ny nz _ norm g h c). destruct (full_call _ c). reflexivity.
  - destruct (gspace_idx nx ny nz gs s Hs) as (_ & HB & _).
    rewrite <- (sticks_stateless nx ny nz _ norm g g' h c HB). destruct (sticks_call _ c). reflexivity.
Qed.

Lemma fun_length nx ny nz gs s norm : gspace_base (zshape nx ny nz) gs = Ok s ->
  (forall d, length (full_fun nx ny nz (map Z.to_nat (gs_idxgrid s)) norm (G2R d)) = nx * ny * nz) /\
  (forall d, length (full_fun nx ny nz (map Z.to_nat (gs_idxgrid s)) norm (R2G d)) = length (gs_cryst s)).
Proof.
  intros Hs. destruct (gspace_idx nx ny nz gs s Hs) as (_ & _ & HL & _). split; intros d; cbn [full_fun].
  - unfold store. now rewrite map_length, seq_length.
  - unfold taken. now rewrite map_length.
Qed.

Lemma g2r_value nx ny nz gs s norm (c : nat -> C) x y z : gspace_base (zshape nx ny nz) gs = Ok s -> x < nx -> y < ny -> z < nz ->
  nth ((x * ny + y) * nz + z) (full_fun nx ny nz (map Z.to_nat (gs_idxgrid s)) norm (G2R (map c (seq 0 (length (gs_cryst s)))))) (RtoC 0)
  = fourier nx ny nz s norm c x y z.
Proof.
  intros Hs Hx Hy Hz. rewrite (g2r_gspace nx ny nz gs s norm) by (try assumption; now rewrite map_length, seq_length).
  unfold fourier. rewrite <- nfac_scal. f_equal. rewrite map_length, seq_length. apply csum_ext. intros k Hk. now rewrite nth_map_seq.
Qed.

Lemma r2g_value nx ny nz gs s norm (c : nat -> C) k : gspace_base (zshape nx ny nz) gs = Ok s -> k < length (gs_cryst s) ->
  nth k (full_fun nx ny nz (map Z.to_nat (gs_idxgrid s)) norm (R2G (map c (seq 0 (nx * ny * nz))))) (RtoC 0)
  = projection nx ny nz s c k.
Proof.
  intros Hs Hk. rewrite (r2g_gspace nx ny nz gs s norm) by assumption. unfold projection.
  apply csum_ext. intros x Hx. apply csum_ext. intros y Hy. apply csum_ext. intros z Hz. rewrite nth_map_seq; [reflexivity|].
  assert (x * ny + y < nx * ny) by nia. nia.
Qed.
