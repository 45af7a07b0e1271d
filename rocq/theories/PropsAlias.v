(** C104: which containers share memory. *)
From Coq Require Import Reals Lra.
From Verif Require Import Base BufferModel BufferProofs DistBufSpec DistBufProofs BatchProofs PropsBuffer AliasModel AliasSpec.
Import ListNotations.
Local Open Scope nat_scope.

Lemma in_indices sh ix : In ix (indices sh) <-> inside sh ix.
Proof.
  unfold indices. fold (prodl sh). rewrite in_map_iff. split.
  - intros (i & <- & Hi). apply in_seq in Hi. apply unravel_inside. lia.
  - intros H. exists (ravel sh ix). split; [now apply unravel_ravel|]. apply in_seq. pose proof (ravel_lt sh ix H). lia.
Qed.
Lemma NoDup_indices sh : NoDup (indices sh).
Proof.
  unfold indices. fold (prodl sh).
  assert (G : forall n, n <= prodl sh -> NoDup (map (unravel sh) (seq 0 n))).
  { induction n as [|n IH]; intros H; [constructor|]. rewrite seq_S, map_app. cbn [map Nat.add].
    apply NoDup_rev in IH; [|lia]. rewrite <- (rev_involutive (map (unravel sh) (seq 0 n) ++ _)). apply NoDup_rev. rewrite rev_app_distr. cbn [rev app].
    constructor; [|exact IH]. rewrite <- in_rev, in_map_iff. intros (i & E & Hi). apply in_seq in Hi.
    assert (ravel sh (unravel sh i) = ravel sh (unravel sh n)) as RR by now rewrite E.
    rewrite (proj2 (unravel_inside sh i ltac:(lia))), (proj2 (unravel_inside sh n ltac:(lia))) in RR. lia. }
  apply G. lia.
Qed.

(** ** writing *)
Lemma put_out c h a z x : ~ (a <= x < a + width c) -> put c h a z x = h x.
Proof.
  intros H. unfold put. destruct (Nat.eqb_spec x a); [subst; destruct c; cbn in H; lia|].
  destruct c; cbn [andb]; [|reflexivity]. destruct (Nat.eqb_spec x (S a)); [cbn in H; lia|reflexivity].
Qed.
Lemma fold_out b v l x : (forall ix, In ix l -> ~ in_cell b ix x) -> forall h,
  fold_left (fun h ix => put (cplx b) h (cell_of b ix) (v ix)) l h x = h x.
Proof.
  induction l as [|ix l IH]; intros H h; [reflexivity|]. cbn [fold_left]. rewrite IH by (intros jx Hj; apply H; now right).
  apply put_out. apply (H ix). now left.
Qed.
Lemma fold_in b v l ix x : NoDup l -> In ix l -> in_cell b ix x -> (forall jx, In jx l -> in_cell b jx x -> jx = ix) -> forall h,
  fold_left (fun h ix => put (cplx b) h (cell_of b ix) (v ix)) l h x = if x =? cell_of b ix then fst (v ix) else snd (v ix).
Proof.
  induction l as [|jx l IH]; intros ND I C1 U h; [easy|]. cbn [fold_left]. inversion_clear ND as [|? ? N ND'].
  destruct (list_eq_dec Nat.eq_dec jx ix) as [-> |NE].
  - rewrite fold_out.
    + unfold put. destruct (Nat.eqb_spec x (cell_of b ix)); [reflexivity|]. unfold in_cell in C1. destruct (cplx b); cbn [width andb] in *; [|lia].
      destruct (Nat.eqb_spec x (S (cell_of b ix))); [reflexivity|lia].
    + intros kx Hk Ck. assert (kx = ix) by (apply U; [now right|exact Ck]). subst kx. contradiction.
  - destruct I as [I|I]; [contradiction|]. apply IH; try assumption. intros kx Hk. apply U. now right.
Qed.
Lemma assign_out m b v x : ~ uses b x -> cells (assign m b v) x = cells m x.
Proof.
  intros H. unfold assign. cbn [cells]. apply fold_out. intros ix I C1. apply H. exists ix. split; [now apply in_indices|exact C1].
Qed.
Lemma assign_in m b v ix x : (forall ix jx x, inside (cshape b) ix -> inside (cshape b) jx -> in_cell b ix x -> in_cell b jx x -> ix = jx) ->
  inside (cshape b) ix -> in_cell b ix x -> cells (assign m b v) x = if x =? cell_of b ix then fst (v ix) else snd (v ix).
Proof.
  intros S1 I C1. unfold assign. cbn [cells]. apply fold_in; [apply NoDup_indices|now apply in_indices|exact C1|].
  intros jx J CJ. apply in_indices in J. exact (S1 jx ix x J I CJ C1).
Qed.
Lemma get_cells m m' b ix : (forall x, in_cell b ix x -> cells m' x = cells m x) -> get m' b ix = get m b ix.
Proof.
  intros H. unfold get. unfold in_cell in H. destruct (cplx b); cbn [width] in H; rewrite !H by lia; reflexivity.
Qed.
Lemma assign_kept m b b' v : apart b b' -> kept m (assign m b v) b'.
Proof.
  intros A1 ix I. apply get_cells. intros x C1. apply assign_out. intros U. apply (A1 x U). now exists ix.
Qed.
Lemma assign_get m b v ix : (forall ix jx x, inside (cshape b) ix -> inside (cshape b) jx -> in_cell b ix x -> in_cell b jx x -> ix = jx) ->
  inside (cshape b) ix -> get (assign m b v) b ix = stored (cplx b) (v ix).
Proof.
  intros S1 I. unfold get, stored. destruct (cplx b) eqn:C1.
  - rewrite !(assign_in m b v ix) by (try assumption; unfold in_cell; rewrite C1; cbn; lia).
    rewrite Nat.eqb_refl. destruct (Nat.eqb_spec (S (cell_of b ix)) (cell_of b ix)); [lia|]. now destruct (v ix).
  - rewrite (assign_in m b v ix) by (try assumption; unfold in_cell; rewrite C1; cbn; lia). now rewrite Nat.eqb_refl.
Qed.

(** ** allocation *)
Lemma alloc_cell m t c sh ix : cell_of (snd (alloc m t c sh)) ix = next m + width c * ravel sh ix.
Proof. reflexivity. Qed.
Lemma ravel_inj sh ix jx : inside sh ix -> inside sh jx -> ravel sh ix = ravel sh jx -> ix = jx.
Proof. intros I J E. rewrite <- (unravel_ravel sh ix I), <- (unravel_ravel sh jx J). now rewrite E. Qed.
Lemma alloc_proper m t c sh : let r := alloc m t c sh in
  proper (fst r) (snd r) /\ (forall x, uses (snd r) x -> next m <= x) /\ cells (fst r) = cells m /\ next m <= next (fst r) /\ cshape (snd r) = sh /\ cplx (snd r) = c.
Proof.
  cbv zeta. split; [split|split; [|split; [reflexivity|split; [unfold alloc; cbn; lia|split; reflexivity]]]].
  - intros x (ix & I & C1). unfold in_cell in C1. rewrite alloc_cell in C1. cbn [snd fst cplx alloc next] in *. unfold cshape in I. cbn in I.
    pose proof (ravel_lt sh ix I) as L. fold (prodl sh). nia.
  - intros ix jx x I J CI CJ. unfold in_cell in *. rewrite alloc_cell in CI, CJ. unfold cshape in I, J. cbn in I, J. cbn [snd cplx alloc] in CI, CJ.
    apply (ravel_inj sh); try assumption. destruct c; cbn [width] in *; nia.
  - intros x (ix & I & C1). unfold in_cell in C1. rewrite alloc_cell in C1. lia.
Qed.
Lemma proper_apart m b b' : proper m b -> (forall x, uses b' x -> next m <= x) -> apart b' b.
Proof. intros (P & _) H x U' U. specialize (P x U). specialize (H x U'). lia. Qed.
Lemma proper_mono m m' b : proper m b -> next m <= next m' -> proper m' b.
Proof. intros (P & S1) L. split; [intros x U; specialize (P x U); lia|exact S1]. Qed.

(** A new container: nothing existing is touched or shared, it is proper, and stores the given values. *)
Definition newly_made (m m' : mem) (b' : cont) (sh : list nat) (vals : list nat -> complex) : Prop :=
  proper m' b' /\ cshape b' = sh /\ (forall ix, inside sh ix -> get m' b' ix = vals ix)
  /\ forall b, proper m b -> proper m' b /\ apart b b' /\ apart b' b /\ kept m m' b.
Lemma make m t c sh v : let r := alloc m t c sh in newly_made m (assign (fst r) (snd r) v) (snd r) sh (fun ix => stored c (v ix)).
Proof.
  intros r. destruct (alloc_proper m t c sh) as (P & N & CE & NE & SH & CX). fold r in P, N, CE, NE, SH, CX.
  split; [exact P|]. split; [exact SH|]. split.
  - intros ix I. rewrite assign_get; [now rewrite CX|apply P|now rewrite SH].
  - intros b PB. pose proof (proper_apart m b (snd r) PB N) as AP.
    split; [apply (proper_mono (fst r)); [now apply (proper_mono m)|apply Nat.le_refl]|]. split; [intros x U U'; now apply (AP x)|]. split; [exact AP|].
    intros ix I. rewrite (assign_kept (fst r) (snd r) b v AP ix I). apply get_cells. intros x _. now rewrite CE.
Qed.
Lemma get_stored m b ix : stored (cplx b) (get m b ix) = get m b ix.
Proof. unfold stored, get. destruct (cplx b); [now destruct (cells m _, _)|reflexivity]. Qed.
Lemma newly_ext m m' b' sh v w : (forall ix, inside sh ix -> v ix = w ix) -> newly_made m m' b' sh v -> newly_made m m' b' sh w.
Proof. intros E (P & SH & V1 & K). split; [exact P|]. split; [exact SH|]. split; [|exact K]. intros ix I. rewrite <- E by exact I. now apply V1. Qed.

(** Writing to a container stores the values in it and changes no container apart from it. *)
Theorem C104_write : forall m b v, proper m b ->
  (forall ix, inside (cshape b) ix -> get (assign m b v) b ix = stored (cplx b) (v ix))
  /\ (forall b', apart b b' -> kept m (assign m b v) b')
  /\ (forall b', proper m b' -> proper (assign m b v) b').
Proof.
  intros m b v (P & S1). split; [intros ix I; now apply assign_get|]. split; [intros b' A1; now apply assign_kept|].
  intros b' (P' & S'). split; assumption.
Qed.
Print Assumptions C104_write.

(** zeros, from_array, copy, conj of complex data and imag of real data make new memory. *)
Theorem C104_new : forall basis m,
  (forall t c s, let r := c_zeros basis m t c s in newly_made m (fst r) (snd r) (lead s ++ [basis t]) (fun _ => (0, 0)%R))
  /\ (forall b, proper m b -> let r := c_copy m b in newly_made m (fst r) (snd r) (cshape b) (get m b))
  /\ (forall b, proper m b -> cplx b = true -> let r := c_conj m b in
        newly_made m (fst r) (snd r) (cshape b) (fun ix => (fst (get m b ix), - snd (get m b ix))%R))
  /\ (forall b, proper m b -> cplx b = false -> let r := c_imag m b in newly_made m (fst r) (snd r) (cshape b) (fun _ => (0, 0)%R))
  /\ (forall t c a, let b := MkCont c (MkBuffer t a) in shape a <> [] -> last (shape a) 0 = basis t ->
        exists r, c_from_array basis m t c a = Ok r /\ newly_made m (fst r) (snd r) (shape a) (get m b))
  /\ (forall t c a r, c_from_array basis m t c a = Ok r -> last (shape a) 0 = basis t).
Proof.
  intros basis m.
  assert (FR : forall b f, let r := fresh m b f in newly_made m (fst r) (snd r) (cshape b) (fun ix => stored (cplx b) (f (get m b ix)))).
  { intros b f. exact (make m (typ (buf b)) (cplx b) (cshape b) (fun ix => f (get m b ix))). }
  split; [|split; [|split; [|split; [|split]]]].
  - intros t c s. apply (newly_ext _ _ _ _ (fun ix => stored c (0, 0)%R)); [intros ix _; now destruct c|].
    exact (make m t c (lead s ++ [basis t]) (fun _ => (0, 0)%R)).
  - intros b PB. apply (newly_ext _ _ _ _ (fun ix => stored (cplx b) (get m b ix))); [intros ix _; apply get_stored|]. exact (FR b (fun z => z)).
  - intros b PB CX. cbv zeta. unfold c_conj. rewrite CX. apply (newly_ext _ _ _ _ (fun ix => stored (cplx b) (fst (get m b ix), - snd (get m b ix))%R)); [intros ix _; now rewrite CX|].
    exact (FR b (fun z => (fst z, - snd z)%R)).
  - intros b PB CX. cbv zeta. unfold c_imag. rewrite CX. apply (newly_ext _ _ _ _ (fun ix => stored (cplx b) (0, 0)%R)); [intros ix _; now destruct (cplx b)|].
    exact (FR b (fun _ => (0, 0)%R)).
  - intros t c a b NE L. unfold c_from_array, from_array. destruct (shape a) as [|n sh] eqn:SA; [easy|]. rewrite L, Nat.eqb_refl. cbn [bind].
    eexists. split; [reflexivity|]. rewrite <- SA. 
    apply (newly_ext _ _ _ _ (fun ix => stored (cplx b) (get m b ix))); [intros ix _; apply get_stored|]. exact (FR b (fun z => z)).
  - intros t c a r H. unfold c_from_array, from_array in H. destruct (shape a) as [|n sh]; [discriminate|].
    destruct (Nat.eqb_spec (last (n :: sh) 0) (basis t)); [assumption|discriminate].
Qed.
Print Assumptions C104_new.

(** ** views *)
(** [b'] shows the elements of [b] selected by [g]. *)
Definition view_of (b b' : cont) (g : list nat -> list nat) : Prop :=
  (forall js, inside (cshape b') js -> inside (cshape b) (g js))
  /\ (forall js ks, inside (cshape b') js -> inside (cshape b') ks -> g js = g ks -> js = ks)
  /\ (forall m js, inside (cshape b') js -> get m b' js = get m b (g js))
  /\ (forall m v, proper m b ->
        (forall js, inside (cshape b') js -> get (assign m b' v) b (g js) = stored (cplx b) (v js))
        /\ (forall ix, inside (cshape b) ix -> (forall js, inside (cshape b') js -> g js <> ix) -> get (assign m b' v) b ix = get m b ix)).
Lemma view_intro b b' g : cplx b' = cplx b -> (forall js, cell_of b' js = cell_of b (g js)) ->
  (forall js, inside (cshape b') js -> inside (cshape b) (g js)) ->
  (forall js ks, inside (cshape b') js -> inside (cshape b') ks -> g js = g ks -> js = ks) -> view_of b b' g.
Proof.
  intros CX CE IN INJ.
  assert (IC : forall js x, in_cell b' js x <-> in_cell b (g js) x) by (intros js x; unfold in_cell; now rewrite CE, CX).
  assert (GE : forall m js, get m b' js = get m b (g js)) by (intros m js; unfold get; now rewrite CE, CX).
  split; [exact IN|]. split; [exact INJ|]. split; [intros m js _; apply GE|]. intros m v (P & S1). split.
  - intros js J. rewrite <- GE, <- CX. apply assign_get; [|exact J]. intros ks ls x K L CK CL. apply INJ; try assumption. apply (S1 _ _ x); try (now apply IN); now apply IC.
  - intros ix I NE. apply get_cells. intros x C1. apply assign_out. intros (js & J & CJ). apply IC in CJ. apply (NE js J). apply (S1 _ _ x); try assumption. now apply IN.
Qed.
Lemma index_inj its : steps_ok its -> forall sh r, index sh its = Ok r -> forall js ks, inside (fst r) js -> inside (fst r) ks -> snd r js = snd r ks -> js = ks.
Proof.
  unfold inside. induction its as [|it its IH]; intros HS sh r H js ks J K E.
  - destruct sh; cbn in H; [|discriminate]. injection H as <-. cbn in J, K. inversion J; inversion K. reflexivity.
  - assert (HS' : steps_ok its) by (intros a b st Hin; apply (HS a b st); now right).
    destruct it as [i|a b st| |].
    + destruct sh as [|n sh]; [discriminate|]. cbn [index] in H. destruct ((_ && _)%bool); [|discriminate].
      destruct (index sh its) as [r'|] eqn:EI; [|discriminate]. injection H as <-. cbn [fst snd] in *. injection E as E. now apply (IH HS' sh r' EI).
    + destruct sh as [|n sh]; [discriminate|]. cbn [index] in H. destruct (index sh its) as [r'|] eqn:EI; [|discriminate]. cbn [bind] in H. injection H as <-. cbn [fst snd] in *.
      inversion J as [|j ? js' ? Hj J']; subst. inversion K as [|k ? ks' ? Hk K']; subst. cbn [hd tl] in E. injection E as E1 E2.
      assert (0 < st) by (apply (HS a b st); now left). f_equal; [nia|]. now apply (IH HS' sh r' EI).
    + cbn [index] in H. destruct (index sh its) as [r'|] eqn:EI; [|discriminate]. cbn [bind] in H. injection H as <-. cbn [fst snd] in *.
      inversion J as [|j ? js' ? Hj J']; subst. inversion K as [|k ? ks' ? Hk K']; subst. cbn [tl] in E. f_equal; [lia|]. now apply (IH HS' sh r' EI).
    + destruct sh; discriminate.
Qed.
Lemma steps_expand nd its e : steps_ok its -> expand nd its = Ok e -> steps_ok e.
Proof.
  intros HS EX. unfold expand in EX. destruct (1 <? _); [discriminate|]. destruct (_ <? _); [discriminate|]. injection EX as <-.
  intros x y st Hin. apply in_flat_map in Hin as (it & Hit & Hin).
  assert (K : In it its \/ it = IEll) by (destruct (existsb is_ell its); [now left|apply in_app_or in Hit as [|[|[]]]; auto]).
  destruct (is_ell it) eqn:EE.
  - apply repeat_spec in Hin. injection Hin as -> -> ->. lia.
  - destruct Hin as [->|[]]. destruct K as [K|K]; [exact (HS _ _ _ K)|discriminate].
Qed.

(** Indexing with integers, slices, newaxis and Ellipsis makes a view: it shows the selected elements in
    every state of the memory, and writing to it writes exactly those elements of the original. *)
Theorem C104_getitem_is_view : forall b its b', steps_ok its -> c_getitem b its = Ok b' -> exists g, view_of b b' g
  /\ exists v, np_getitem (data (buf b)) (its ++ [IEll; full_slice]) = Ok (v, g).
Proof.
  intros b its b' HS H. unfold c_getitem, getitem in H.
  destruct (np_getitem (data (buf b)) (its ++ [IEll; full_slice])) as [[v g]|] eqn:NG; [|discriminate]. cbn [bind] in H. injection H as <-.
  exists g. split; [|now exists v].
  assert (HS2 : steps_ok (its ++ [IEll; full_slice])).
  { intros x y st Hin. apply in_app_or in Hin as [Hin|[Hin|[Hin|[]]]]; [exact (HS _ _ _ Hin)|discriminate|injection Hin as _ _ <-; lia]. }
  pose proof (C26_getitem_in_range nat (data (buf b)) _ v g HS2 NG) as (AT & INR).
  apply view_intro; [reflexivity| | |].
  - intros js. unfold cell_of. cbn [buf data]. apply AT.
  - intros js J. unfold cshape in *. cbn [buf data] in J. exact (INR js J).
  - unfold np_getitem in NG. destruct (expand _ _) as [e|] eqn:EX; [|discriminate]. cbn [bind] in NG.
    destruct (index (shape (data (buf b))) e) as [r|] eqn:EI; [|discriminate]. injection NG as <- <-.
    intros js ks J K E. unfold cshape in J, K. cbn [buf data shape] in J, K. apply (index_inj e (steps_expand _ _ _ HS2 EX) _ _ EI); assumption.
Qed.
Print Assumptions C104_getitem_is_view.

(** conj of a real container has the right values but shares its memory: writing to the result changes the
    original, where conj of a complex container is independent; so does real. *)
Theorem C104_conj_real_refuted : forall m b, cplx b = false -> proper m b ->
  let r := c_conj m b in
  (forall ix, get (fst r) (snd r) ix = get m b ix)
  /\ (forall v ix, inside (cshape b) ix -> get (assign (fst r) (snd r) v) b ix = (fst (v ix), 0%R))
  /\ (forall m' v ix, proper m' b -> inside (cshape b) ix -> get (assign m' (c_real b) v) b ix = (fst (v ix), 0%R)).
Proof.
  intros m b H P. unfold c_conj. rewrite H. cbn [fst snd]. split; [reflexivity|].
  assert (RR : c_real b = b) by (unfold c_real; destruct b as [cx bb]; cbn [cplx] in H; now rewrite H).
  split; intros; rewrite ?RR; rewrite assign_get; try assumption; try (unfold stored; now rewrite H); [apply P|apply H0].
Qed.
Print Assumptions C104_conj_real_refuted.

(** real and imag of complex data are views of the parts: they always show them, and writing to them
    changes that part of the original only.  real of real data is the data itself. *)
Theorem C104_parts_are_views : forall m b, cplx b = true -> proper m b ->
  fst (c_imag m b) = m
  /\ (forall m' ix, get m' (c_real b) ix = (fst (get m' b ix), 0%R) /\ get m' (snd (c_imag m b)) ix = (snd (get m' b ix), 0%R))
  /\ (forall v ix, inside (cshape b) ix ->
        get (assign m (c_real b) v) b ix = (fst (v ix), snd (get m b ix))
        /\ get (assign m (snd (c_imag m b)) v) b ix = (fst (get m b ix), fst (v ix))).
Proof.
  intros m b CX (P & S1). unfold c_imag. rewrite CX. cbn [fst snd]. split; [reflexivity|].
  split; [intros m' ix; unfold get, c_real; cbn [cplx]; rewrite CX; split; reflexivity|].
  intros v ix I.
  assert (SEP : forall jx x, inside (cshape b) jx -> in_cell b ix x -> in_cell b jx x -> jx = ix) by (intros jx x J C1 C2; now apply (S1 jx ix x)).
  unfold in_cell in SEP. rewrite CX in SEP. cbn [width] in SEP.
  assert (OUTR : ~ uses (c_real b) (S (cell_of b ix))).
  { intros (jx & J & C1). unfold in_cell, c_real in C1. cbn [cplx width] in C1. change (cell_of {| cplx := false; buf := buf b |} jx) with (cell_of b jx) in C1.
    assert (jx = ix) as -> by (apply (SEP jx (S (cell_of b ix)) J); lia). lia. }
  set (bi := {| cplx := false; buf := _ |}).
  assert (OUTI : ~ uses bi (cell_of b ix)).
  { intros (jx & J & C1). unfold in_cell in C1. change (cell_of bi jx) with (S (cell_of b jx)) in C1. cbn [cplx width bi] in C1.
    assert (jx = ix) as -> by (apply (SEP jx (cell_of b ix) J); lia). lia. }
  assert (SR : forall i j x, inside (cshape (c_real b)) i -> inside (cshape (c_real b)) j -> in_cell (c_real b) i x -> in_cell (c_real b) j x -> i = j).
  { intros i j x Hi Hj Ci Cj. apply (S1 i j x Hi Hj); unfold in_cell in *; rewrite CX; cbn [c_real cplx width] in *; change (cell_of (c_real b)) with (cell_of b) in *; lia. }
  assert (SI : forall i j x, inside (cshape bi) i -> inside (cshape bi) j -> in_cell bi i x -> in_cell bi j x -> i = j).
  { intros i j x Hi Hj Ci Cj. apply (S1 i j x Hi Hj); unfold in_cell in *; rewrite CX; cbn [bi cplx width] in *; change (cell_of bi i) with (S (cell_of b i)) in *; change (cell_of bi j) with (S (cell_of b j)) in *; lia. }
  split; unfold get; rewrite CX.
  - rewrite (assign_out _ _ _ _ OUTR), (assign_in m (c_real b) v ix); [|exact SR|exact I|unfold in_cell, c_real; cbn; unfold cell_of; cbn; lia].
    change (cell_of (c_real b) ix) with (cell_of b ix). now rewrite Nat.eqb_refl.
  - rewrite (assign_out _ _ _ _ OUTI), (assign_in m bi v ix); [|exact SI|exact I|unfold in_cell; change (cell_of bi ix) with (S (cell_of b ix)); cbn; lia].
    change (cell_of bi ix) with (S (cell_of b ix)). now rewrite Nat.eqb_refl.
Qed.
Print Assumptions C104_parts_are_views.

(** reshape of data in C order is a view; of other data it is a view of a new copy. *)
Theorem C104_reshape : forall basis m b sh r, proper m b -> c_reshape basis m b sh = Ok r ->
  let g := fun js => unravel (cshape b) (ravel (sh ++ [basis (typ (buf b))]) js) in
  cshape (snd r) = sh ++ [basis (typ (buf b))]
  /\ (c_order b = true -> fst r = m /\ view_of b (snd r) g)
  /\ (c_order b = false -> let n := c_copy m b in fst r = fst n /\ newly_made m (fst n) (snd n) (cshape b) (get m b) /\ view_of (snd n) (snd r) g).
Proof.
  intros basis m b sh r P H g. unfold c_reshape, reshape in H. cbv zeta in H.
  assert (V1 : forall b0, shape (data (buf b0)) = cshape b -> cplx b0 = cplx b -> prodl (sh ++ [basis (typ (buf b))]) = prodl (cshape b) ->
     view_of b0 (MkCont (cplx b) (MkBuffer (typ (buf b0)) (MkNd (sh ++ [basis (typ (buf b))]) (fun js => at_ (data (buf b0)) (unravel (shape (data (buf b0))) (ravel (sh ++ [basis (typ (buf b))]) js)))))) g).
  { intros b0 SH CX E. apply view_intro.
    - now rewrite CX.
    - intros js. unfold cell_of, g. cbn [buf data at_]. now rewrite SH.
    - intros js J. unfold cshape in J |- *. cbn [buf data shape] in J. rewrite SH. unfold g. apply unravel_inside. rewrite <- E. now apply ravel_lt.
    - intros js ks J K EG. unfold cshape in J, K. cbn [buf data shape] in J, K. apply (ravel_inj _ _ _ J K).
      apply (f_equal (ravel (cshape b))) in EG. unfold g in EG.
      rewrite !(fun i h => proj2 (unravel_inside (cshape b) i h)) in EG; [exact EG| |]; rewrite <- E; now apply ravel_lt. }
  destruct (c_order b) eqn:CO.
  - destruct (Nat.eqb_spec (fold_right Nat.mul 1 (sh ++ [basis (typ (buf b))])) (fold_right Nat.mul 1 (shape (data (buf b))))) as [E|]; [|discriminate].
    cbn [bind] in H. injection H as <-. cbn [fst snd]. split; [reflexivity|]. split; [intros _|discriminate]. split; [reflexivity|]. apply (V1 b); [reflexivity|reflexivity|exact E].
  - change (shape (data (buf (snd (c_copy m b))))) with (cshape b) in H. change (typ (buf (snd (c_copy m b)))) with (typ (buf b)) in H.
    destruct (Nat.eqb_spec (fold_right Nat.mul 1 (sh ++ [basis (typ (buf b))])) (fold_right Nat.mul 1 (cshape b))) as [E|]; [|discriminate].
    cbn [bind] in H. injection H as <-. cbn [fst snd]. split; [reflexivity|]. split; [discriminate|intros _]. cbv zeta. split; [reflexivity|].
    split; [now apply (proj1 (proj2 (C104_new basis m)))|]. exact (V1 (snd (c_copy m b)) eq_refl eq_refl E).
Qed.
Print Assumptions C104_reshape.

Lemma index_all sh : exists g, index sh (repeat full_slice (length sh)) = Ok (sh, g) /\ forall js, length js = length sh -> g js = js.
Proof.
  induction sh as [|n sh (g & E & G)]; [exists (fun _ => []); split; [reflexivity|intros [|? ?]; [reflexivity|discriminate]]|].
  cbn [length repeat]. unfold full_slice at 1. cbn [index]. rewrite E. cbn [bind fst snd]. rewrite full_len.
  eexists. split; [reflexivity|]. intros [|j js] L; [discriminate|]. cbn [hd tl]. rewrite G by (cbn in L; lia). cbn [slice_start]. f_equal. lia.
Qed.
Lemma row_ok b n d sh i : cshape b = n :: d :: sh -> i < n -> exists b', c_getitem b [IInt (Z.of_nat i)] = Ok b' /\ cshape b' = d :: sh /\ typ (buf b') = typ (buf b) /\ view_of b b' (cons i).
Proof.
  intros SH Hi. destruct (index_all (d :: sh)) as (g & E & G).
  unfold c_getitem, getitem, np_getitem. unfold cshape in SH. rewrite SH.
  assert (EX : expand (length (n :: d :: sh)) ([IInt (Z.of_nat i)] ++ [IEll; full_slice]) = Ok (IInt (Z.of_nat i) :: repeat full_slice (length (d :: sh)))).
  { unfold expand. cbn [app existsb is_ell orb filter length]. change (1 <? 1) with false. cbv iota.
    change (consumed [IInt (Z.of_nat i); IEll; full_slice]) with 2. destruct (Nat.ltb_spec (S (S (length sh))) 2); [lia|].
    cbn [flat_map is_ell app]. f_equal. f_equal. replace (S (S (length sh)) - 2) with (length sh) by lia. rewrite (repeat_snoc full_slice (length sh)). reflexivity. }
  rewrite EX. cbn [bind]. cbn [index].
  destruct (Z.leb_spec (- Z.of_nat n) (Z.of_nat i)); [|lia]. destruct (Z.ltb_spec (Z.of_nat i) (Z.of_nat n)); [|lia]. cbn [andb].
  rewrite E. cbn [bind fst snd]. destruct (Z.ltb_spec (Z.of_nat i) 0); [lia|]. rewrite Nat2Z.id.
  eexists. split; [reflexivity|]. split; [reflexivity|]. split; [reflexivity|].
  set (b' := MkCont _ _).
  assert (GE : forall js, inside (cshape b') js -> g js = js).
  { intros js J. apply G. unfold inside in J. clear -J. change (cshape b') with (d :: sh) in J. induction J as [|? ? ? ? _ _ IH]; [reflexivity|cbn; now f_equal]. }
  assert (VV : view_of b b' (fun js => i :: g js)).
  { apply view_intro; [reflexivity|reflexivity| |].
    - intros js J. rewrite GE by exact J. unfold cshape. rewrite SH. now constructor.
    - intros js ks J K EQ. injection EQ as EQ. now rewrite !GE in EQ by assumption. }
  destruct VV as (V1 & V2 & V3 & V4).
  split; [|split; [|split]].
  - intros js J. rewrite <- (GE js J). now apply V1.
  - intros js ks J K EQ. injection EQ as EQ. exact EQ.
  - intros m js J. rewrite V3 by exact J. now rewrite GE by exact J.
  - intros m v P. destruct (V4 m v P) as (W1 & W2). split.
    + intros js J. rewrite <- (W1 js J). now rewrite GE by exact J.
    + intros ix I NE. apply W2; [exact I|]. intros js J. rewrite GE by exact J. now apply NE.
Qed.

(** Iterating over a container with leading axes gives one view per entry of the first axis, in order; a
    container without leading axes has no length and cannot be iterated over. *)
Theorem C104_iteration : forall b,
  (forall n, cshape b = [n] -> c_len b = Err TypeError /\ c_iter b = Err TypeError)
  /\ (forall n d sh, cshape b = n :: d :: sh -> c_len b = Ok n /\ exists l, c_iter b = Ok l /\ length l = n
      /\ forall i b', nth_error l i = Some b' -> cshape b' = d :: sh /\ typ (buf b') = typ (buf b) /\ view_of b b' (cons i)).
Proof.
  intros b. split.
  - intros n SH. unfold c_iter, c_len. rewrite SH. now split.
  - intros n d sh SH. unfold c_iter, c_len. rewrite SH. split; [reflexivity|]. cbn [bind].
    assert (G : forall k, k <= n -> exists l, sequence (map (fun i => c_getitem b [IInt (Z.of_nat i)]) (seq (n - k) k)) = Ok l /\ length l = k
       /\ forall i b', nth_error l i = Some b' -> cshape b' = d :: sh /\ typ (buf b') = typ (buf b) /\ view_of b b' (cons (n - k + i))).
    { induction k as [|k IH]; intros Hk; [exists []; split; [reflexivity|split; [reflexivity|intros [|i] b' X; discriminate]]|].
      destruct (IH ltac:(lia)) as (l & E & L & V1). destruct (row_ok b n d sh (n - S k) SH ltac:(lia)) as (b0 & E0 & S0 & T0 & V0).
      exists (b0 :: l). cbn [seq map sequence]. rewrite E0. cbn [bind]. replace (S (n - S k)) with (n - k) by lia. rewrite E. cbn [bind].
      split; [reflexivity|]. split; [cbn; now f_equal|]. intros [|i] b' X; cbn in X.
      - injection X as <-. rewrite Nat.add_0_r. exact (conj S0 (conj T0 V0)).
      - destruct (V1 i b' X) as (A1 & A2 & A3). replace (n - S k + S i) with (n - k + i) by lia. exact (conj A1 (conj A2 A3)). }
    destruct (G n (Nat.le_refl n)) as (l & E & L & V1). rewrite Nat.sub_diag in E, V1. exists l. split; [exact E|]. split; [exact L|]. exact V1.
Qed.
Print Assumptions C104_iteration.

(** Two complex rows over a basis of three: writing through the second row of the original is seen in the
    original and not in the copy made before. *)
Example C104_instance :
  let m0 := MkMem (fun _ => 0%R) 0 in
  let r := c_zeros (fun _ => 3) m0 7 true (SInt 2) in let b := snd r in
  let c := c_copy (fst r) b in
  exists row, c_getitem b [IInt 1] = Ok row /\ proper (fst r) b /\ proper (fst c) b
  /\ let m := assign (fst c) row (fun _ => (1, 2)%R) in
     get m b [1; 2] = (1, 2)%R /\ get m b [0; 2] = (0, 0)%R /\ get m (snd c) [1; 2] = (0, 0)%R.
Proof.
  intros m0 r b c. destruct (proj1 (C104_new (fun _ => 3) m0) 7 true (SInt 2)) as (P & SH & V1 & _). fold r in P, SH, V1. fold b in P, SH, V1.
  destruct (proj1 (proj2 (C104_new (fun _ => 3) (fst r))) b P) as (PC & SC & VC & KC). fold c in PC, SC, VC, KC.
  destruct (KC b P) as (PB & A1 & A2 & K). destruct (row_ok b 2 3 [] 1 SH ltac:(lia)) as (row & E & SR & _ & (W1 & W2 & W3 & W4)).
  exists row. split; [exact E|]. split; [exact P|]. split; [exact PB|]. cbv zeta. destruct (W4 (fst c) (fun _ => (1, 2)%R) PB) as (X1 & X2).
  assert (I2 : inside (cshape row) [2]) by (rewrite SR; repeat constructor).
  assert (I12 : inside (cshape b) [1; 2]) by (rewrite SH; repeat constructor).
  assert (I02 : inside (cshape b) [0; 2]) by (rewrite SH; repeat constructor).
  split; [|split].
  - rewrite (X1 [2] I2). reflexivity.
  - rewrite X2; [|exact I02|discriminate]. rewrite K by exact I02. apply V1. rewrite <- SH. exact I02.
  - assert (AP : apart row (snd c)).
    { intros x (js & J & C1) U. apply (A1 x); [|exact U]. exists (1 :: js). split; [now apply W1|]. unfold in_cell in *.
      pose proof (W3 (fst c)). clear -E C1. unfold c_getitem, getitem in E. cbn in E. injection E as <-. cbn in *. unfold cell_of in *. cbn in *. destruct js as [|j js]; cbn in *; lia. }
    rewrite (assign_kept _ _ _ _ AP [1; 2]) by (rewrite SC; exact I12). rewrite VC by exact I12. apply V1. rewrite <- SH. exact I12.
Qed.
