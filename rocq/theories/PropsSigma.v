(** Properties of the static self-energies of gw/sigma.py. *)
From Coq Require Import Reals Lra Lia.
From Verif Require PropsParseInp.
From Verif Require Import Base SortModel LatModel LatProofs GIndexModel FFTModel GwModel GwSpec GwProofs PropsUpf PropsGw PropsVcoul SigmaModel SigmaProofs CBase.
Open Scope R_scope.

(** ================= C76: static self-energies ================= *)
(** The result does not depend on the number of processes among which the q-points are distributed, nor on the choice
    between band-by-band accumulation and summation over all bands at once; this includes the exception raised. *)
Theorem C76_schedule_independent : forall S p p' y y', procs_ok p -> procs_ok p' ->
  agree (sigma_x p y S) (sigma_x p' y' S) /\
  agree (sigma_sx_static p y S) (sigma_sx_static p' y' S) /\
  agree (sigma_ch_static p y S) (sigma_ch_static p' y' S).
Proof.
  intros S p p' y y' H H'.
  assert (K : forall sign f nq c, agree (do m <- run p y sign f nq; Ok (scaled c m)) (do m <- run p' y' sign f nq; Ok (scaled c m))).
  { intros sign f nq c. apply agree_scaled. apply (agree_trans _ _ _ (run_sum p y sign f nq H)). apply agree_sym. now apply run_sum. }
  split; [|split]; apply K.
Qed.
Print Assumptions C76_schedule_independent.

(** Sum over a list of contributions. *)
Definition lrsum {A} (l : list A) (f : A -> R) : R := fold_right (fun a s => f a + s) 0 l.
Definition sq (z : C) : R := fst z * fst z + snd z * snd z.
(** What the q-point number [i] contributes to the exchange: the index of -q, the map of G-vectors, the Coulomb factors
    and the matrix elements of the occupied bands at -q. *)
Definition exchange_data (S : sigma_obj) (i : nat) (d : nat * list nat * list R * list marr) : Prop :=
  let '(im, m, v, Ms) := d in
  prepare S i = Ok (im, m) /\ nth_error (g_v S) i = Some v /\ matrix_elements S im false = Ok Ms /\ length v = length m.
Definition band_exchange (v : list R) (m : list nat) (M : marr) (i j : nat) : R :=
  rsum (length m) (fun g => nth g v 0 * sq (nth (nth g m O) (M i j) (RtoC 0))).
Lemma item_nth {A} (l : list A) i x : item l i = Ok x -> nth_error l i = Some x.
Proof. unfold item. destruct (nth_error l i); [|discriminate]. intros H. now injection H as ->. Qed.
Lemma pick_nth l m g : (g < length m)%nat -> nth g (pick l m) (RtoC 0) = nth (nth g m O) l (RtoC 0).
Proof. intros H. unfold pick. now rewrite (nth_map_lt _ m g O). Qed.
Lemma forall2_map {A B D} (P : A -> B -> Prop) (Q : A -> D -> Prop) (f : D -> B) l t :
  (forall a b, P a b -> exists d, Q a d /\ b = f d) -> Forall2 P l t -> exists ds, Forall2 Q l ds /\ t = map f ds.
Proof.
  intros H F. induction F as [|a b l t Hab F (ds & IH & ->)]; [exists []; split; [constructor|reflexivity]|].
  destruct (H a b Hab) as (d & Hd & ->). exists (d :: ds). split; [now constructor|reflexivity].
Qed.
Lemma qsum_map {A B} (g : A -> B) l f : qsum (map g l) f = qsum l (fun a => f (g a)).
Proof. induction l as [|a l IH]; [reflexivity|]. change (f (g a) + qsum (map g l) f = f (g a) + qsum l (fun a => f (g a)))%C. now rewrite IH. Qed.
Lemma qsum_real {A} (l : list A) f g : (forall a, In a l -> f a = RtoC (g a)) -> qsum l f = RtoC (lrsum l g).
Proof.
  induction l as [|a l IH]; intros H; [reflexivity|]. cbn [qsum lrsum fold_right]. rewrite (H a) by now left.
  unfold qsum, lrsum in IH. rewrite IH by (intros; apply H; now right). now rewrite <- RtoC_plus.
Qed.
Lemma tot_qsum l i j : tot l i j = qsum l (fun t : cmat => t i j). Proof. reflexivity. Qed.
Lemma x_term_real v m M i j : x_term v m M i j = RtoC (band_exchange v m M i j).
Proof.
  unfold x_term, band_exchange. cbn zeta. rewrite <- csum_RtoC. apply csum_ext. intros g Hg. rewrite pick_nth by exact Hg.
  set (z := nth (nth g m O) (M i j) (RtoC 0)). unfold sq. destruct z as [a b]. apply injective_projections; cbn; ring.
Qed.
Lemma lrsum_ext {A} (l : list A) f g : (forall a, In a l -> f a = g a) -> lrsum l f = lrsum l g.
Proof. induction l as [|a l IH]; intros H; [reflexivity|]. cbn [lrsum fold_right]. rewrite (H a) by now left. fold (lrsum l f) (lrsum l g). rewrite IH; [reflexivity|]. intros; apply H; now right. Qed.
Lemma lrsum_nonneg {A} (l : list A) f : (forall a, In a l -> 0 <= f a) -> 0 <= lrsum l f.
Proof. induction l as [|a l IH]; intros H; cbn [lrsum fold_right]; [lra|]. fold (lrsum l f). assert (0 <= f a) by (apply H; now left). assert (0 <= lrsum l f) by (apply IH; intros; apply H; now right). lra. Qed.

(** The bare exchange is minus the prefactor times the sum over q-points, occupied bands and G-vectors of the Coulomb
    factor times |M|^2. *)
Theorem C76_exchange_formula : forall S p y sig, procs_ok p -> sigma_x p y S = Ok sig ->
  exists ds, Forall2 (exchange_data S) (seq 0 (length (g_q S))) ds /\
  forall i j, sig i j = RtoC (- g_factor S * lrsum ds (fun d => let '(_, m, v, Ms) := d in lrsum Ms (fun M => band_exchange v m M i j))).
Proof.
  intros S p y sig Hp H. unfold sigma_x in H. apply bind_ok in H as (m & H & E). apply ok_inj in E. subst sig.
  apply run_ok in H as (ts & F & H); [|exact Hp].
  destruct (forall2_map (fun i t => x_q S i = Ok t) (exchange_data S) (fun d => let '(_, m, v, Ms) := d in map (x_term v m) Ms) (seq 0 (length (g_q S))) ts) as (ds & D & ->); [|exact F|].
  - intros i t K. unfold x_q in K. apply bind_ok in K as ([im mm] & P1 & K). apply bind_ok in K as (v & P2 & K). apply bind_ok in K as (Ms & P3 & K). cbn [fst snd] in *.
    apply bind_ok in K as (u & P4 & K). apply ok_inj in K. subst t. exists (im, mm, v, Ms). split; [|reflexivity].
    repeat split; [exact P1|now apply item_nth|exact P3|]. unfold axis in P4. destruct (Nat.eqb_spec (length v) (length mm)); [assumption|discriminate].
  - exists ds. split; [exact D|]. intros i j. unfold scaled. rewrite H, qsum_map.
    rewrite (qsum_real ds _ (fun d => let '(_, m, v, Ms) := d in lrsum Ms (fun M => band_exchange v m M i j))).
    + rewrite <- !RtoC_mult. f_equal. ring.
    + intros [[[im mm] v] Ms] _. rewrite tot_qsum, qsum_map. apply qsum_real. intros M _. apply x_term_real.
Qed.
Print Assumptions C76_exchange_formula.

(** It is therefore real, and negative or zero whenever the Coulomb factors are not negative. *)
Theorem C76_exchange_negative : forall S p y sig, procs_ok p -> sigma_x p y S = Ok sig -> 0 <= g_factor S ->
  (forall v x, In v (g_v S) -> In x v -> 0 <= x) -> forall i j, exists r, sig i j = RtoC r /\ r <= 0.
Proof.
  intros S p y sig Hp H Hf Hv i j. destruct (C76_exchange_formula S p y sig Hp H) as (ds & D & E).
  eexists. split; [apply E|]. assert (K : 0 <= lrsum ds (fun d => let '(_, m, v, Ms) := d in lrsum Ms (fun M => band_exchange v m M i j))); [|nra].
  apply lrsum_nonneg. intros [[[im mm] v] Ms] Hd. apply lrsum_nonneg. intros M _. unfold band_exchange. apply rsum_nonneg. intros g Hg.
  assert (In v (g_v S) /\ length v = length mm) as [Iv Lv].
  { clear -D Hd. induction D as [|a d l ds H D IH]; [easy|]. destruct Hd as [->|Hd]; [|auto]. destruct H as (_ & K & _ & L). split; [|exact L]. now apply nth_error_In in K. }
  apply Rmult_le_pos; [apply (Hv v _ Iv), nth_In; lia|unfold sq; nra].
Qed.
Print Assumptions C76_exchange_negative.

(** The screened part: v and eps^-1 - 1 enter through the matrix W(G,G') = v(G) (eps^-1 - 1)(G,G'). *)
Definition screened_data (S : sigma_obj) (all : bool) (i : nat) (d : nat * list nat * list R * list (list C) * list marr) : Prop :=
  let '(im, m, v, e, Ms) := d in
  prepare S i = Ok (im, m) /\ nth_error (g_v S) i = Some v /\ nth_error (g_eps S) i = Some e /\ matrix_elements S im all = Ok Ms /\
  length v = length m /\ length e = length m /\ (forall row, In row e -> length row = length m).
Definition wmat (v : list R) (e : list (list C)) : nat -> nat -> C := fun k l => (RtoC (nth k v 0) * nth l (nth k e []) (RtoC 0))%C.
Definition band_screened (v : list R) (e : list (list C)) (m : list nat) (M : marr) (i j : nat) : C :=
  quad (length m) (wmat v e) (fun g => nth (nth g m O) (M i j) (RtoC 0)).
Definition screened_sum (ds : list (nat * list nat * list R * list (list C) * list marr)) (i j : nat) : C :=
  qsum ds (fun d => let '(_, m, v, e, Ms) := d in qsum Ms (fun M => band_screened v e m M i j)).
Lemma w_term_quad v e m M i j : w_term v e m M i j = band_screened v e m M i j.
Proof.
  unfold w_term, band_screened, quad, wmat. cbn zeta. apply csum_ext. intros k Hk. apply csum_ext. intros l Hl. rewrite !pick_nth by assumption. unfold ent.
  set (a := nth (nth k m O) (M i j) (RtoC 0)). set (b := nth (nth l m O) (M i j) (RtoC 0)). set (x := nth l (nth k e []) (RtoC 0)). set (w := RtoC (nth k v 0)). ring.
Qed.
Lemma axis_ok b u : axis b = Ok u -> b = true. Proof. destruct b; [reflexivity|discriminate]. Qed.
Lemma w_q_data S all i t : w_q S all i = Ok t ->
  exists d, screened_data S all i d /\ t = (let '(_, m, v, e, Ms) := d in map (w_term v e m) Ms).
Proof.
  intros K. unfold w_q in K. apply bind_ok in K as ([im mm] & P1 & K). apply bind_ok in K as (e & P0 & K). apply bind_ok in K as (v & P2 & K). apply bind_ok in K as (Ms & P3 & K). cbn [fst snd] in *.
  apply bind_ok in K as (u & P4 & K). apply ok_inj in K. subst t. exists (im, mm, v, e, Ms). split; [|reflexivity]. apply axis_ok in P4. apply andb_true_iff in P4 as [A B]. apply Nat.eqb_eq in A.
  unfold square_n in B. apply andb_true_iff in B as [B D]. apply Nat.eqb_eq in B. rewrite forallb_forall in D.
  repeat split; [exact P1|now apply item_nth|now apply item_nth|exact P3|exact A|exact B|]. intros row Hr. now apply D, Nat.eqb_eq in Hr.
Qed.
Lemma qsum_ext {A} (l : list A) f g : (forall a, In a l -> f a = g a) -> qsum l f = qsum l g.
Proof. induction l as [|a l IH]; intros H; [reflexivity|]. change (f a + qsum l f = g a + qsum l g)%C. rewrite (H a) by now left. rewrite IH; [reflexivity|]. intros; apply H; now right. Qed.
Lemma run_screened S all f p y m : procs_ok p -> (forall i t, f i = Ok t -> w_q S all i = Ok t) ->
  run p y (RtoC 1) f (length (g_q S)) = Ok m ->
  exists ds, Forall2 (screened_data S all) (seq 0 (length (g_q S))) ds /\ forall i j, m i j = screened_sum ds i j.
Proof.
  intros Hp Hf H. apply run_ok in H as (ts & F & H); [|exact Hp].
  destruct (forall2_map (fun i t => f i = Ok t) (screened_data S all) (fun d => let '(_, m, v, e, Ms) := d in map (w_term v e m) Ms) (seq 0 (length (g_q S))) ts) as (ds & D & ->); [|exact F|].
  - intros i t K. now apply w_q_data, Hf.
  - exists ds. split; [exact D|]. intros i j. rewrite H, qsum_map, Cmult_1_l. apply qsum_ext. intros [[[[im mm] v] e] Ms] _. rewrite tot_qsum, qsum_map.
    apply qsum_ext. intros M _. apply w_term_quad.
Qed.
(** Screened exchange: minus the prefactor times the sum over q-points and occupied bands of M^dagger W M; Coulomb hole: half the prefactor
    times the same sum over all bands. *)
Theorem C76_screened_formula : forall S p y, procs_ok p ->
  (forall sig, sigma_sx_static p y S = Ok sig -> exists ds, Forall2 (screened_data S false) (seq 0 (length (g_q S))) ds /\
     forall i j, sig i j = (RtoC (- g_factor S) * screened_sum ds i j)%C) /\
  (forall sig, sigma_ch_static p y S = Ok sig -> exists ds, Forall2 (screened_data S true) (seq 0 (length (g_q S))) ds /\
     forall i j, sig i j = (RtoC (g_factor S / 2) * screened_sum ds i j)%C).
Proof.
  intros S p y Hp. split; intros sig H.
  - unfold sigma_sx_static in H. apply bind_ok in H as (m & H & E). apply ok_inj in E. subst sig. apply (run_screened S false) in H as (ds & D & H); [|exact Hp|].
    + exists ds. split; [exact D|]. intros i j. unfold scaled. rewrite H, Cmult_comm. do 2 f_equal. ring.
    + intros i t K. unfold sx_q in K. apply bind_ok in K as (a & _ & K). apply bind_ok in K as (b & _ & K). apply bind_ok in K as (u & _ & K). exact K.
  - unfold sigma_ch_static in H. apply bind_ok in H as (m & H & E). apply ok_inj in E. subst sig. apply (run_screened S true) in H as (ds & D & H); [|exact Hp|auto].
    exists ds. split; [exact D|]. intros i j. unfold scaled. rewrite H, Cmult_comm. do 2 f_equal. field.
Qed.
Print Assumptions C76_screened_formula.

(** The screening matrix of every q-point is Hermitian and negative semi-definite. *)
Definition screening (S : sigma_obj) : Prop := forall i v e, nth_error (g_v S) i = Some v -> nth_error (g_eps S) i = Some e ->
  hermitian (length v) (wmat v e) /\ forall x, fst (quad (length v) (wmat v e) x) <= 0.
Lemma quad_real n A x : hermitian n A -> snd (quad n A x) = 0.
Proof.
  intros H. assert (E : Cconj (quad n A x) = quad n A x).
  { unfold quad. rewrite csum_conj. rewrite (csum_ext n _ (fun i => csum n (fun j => Cconj (x j) * A j i * x i)%C)).
    - now rewrite csum_swap.
    - intros i Hi. rewrite csum_conj. apply csum_ext. intros j Hj. rewrite (H j i Hj Hi). destruct (x i) as [a b], (x j) as [a' b'], (A i j) as [u w]. apply injective_projections; cbn; ring. }
  apply (f_equal snd) in E. cbn in E. lra.
Qed.
Lemma forall2_in_r {A B} (P : A -> B -> Prop) l t b : Forall2 P l t -> In b t -> exists a, In a l /\ P a b.
Proof. intros F. induction F as [|a c l t H F IH]; [easy|]. intros [->|I]; [exists a; split; [now left|exact H]|]. destruct (IH I) as (a' & I' & P'). exists a'. split; [now right|exact P']. Qed.
Lemma screened_real S all l ds i j : screening S -> Forall2 (screened_data S all) l ds ->
  screened_sum ds i j = RtoC (lrsum ds (fun d => let '(_, m, v, e, Ms) := d in lrsum Ms (fun M => fst (band_screened v e m M i j)))).
Proof.
  intros W D. unfold screened_sum. apply qsum_real. intros [[[[im mm] v] e] Ms] Hd. apply (forall2_in_r _ _ _ _ D) in Hd as (q & _ & P1 & P2 & P3 & P4 & P5 & _).
  apply qsum_real. intros M _. destruct (W q v e P2 P3) as [Hh _]. unfold band_screened. rewrite <- P5.
  assert (Q := quad_real (length v) (wmat v e) (fun g => nth (nth g mm O) (M i j) (RtoC 0)) Hh). apply injective_projections; [reflexivity|exact Q].
Qed.
Lemma screened_neg S all l ds i j : screening S -> Forall2 (screened_data S all) l ds ->
  forall d, In d ds -> let '(_, m, v, e, Ms) := d in forall M, fst (band_screened v e m M i j) <= 0.
Proof.
  intros W D [[[[im mm] v] e] Ms] Hd M. apply (forall2_in_r _ _ _ _ D) in Hd as (q & _ & P1 & P2 & P3 & P4 & P5 & _).
  destruct (W q v e P2 P3) as [_ Hn]. unfold band_screened. rewrite <- P5. apply Hn.
Qed.
Lemma lrsum_opp {A} (l : list A) f : lrsum l (fun a => - f a) = - lrsum l f.
Proof. induction l as [|a l IH]; cbn [lrsum fold_right]; [lra|]. fold (lrsum l f) (lrsum l (fun a => - f a)). rewrite IH. lra. Qed.
Lemma lrsum_nonpos {A} (l : list A) f : (forall a, In a l -> f a <= 0) -> lrsum l f <= 0.
Proof. intros H. assert (0 <= lrsum l (fun a => - f a)) by (apply lrsum_nonneg; intros a Ha; specialize (H a Ha); lra). rewrite lrsum_opp in H0. lra. Qed.
Lemma lrsum_app {A} (l r : list A) f : lrsum (l ++ r) f = lrsum l f + lrsum r f.
Proof. induction l as [|a l IH]; cbn [lrsum fold_right List.app]; [unfold lrsum; lra|]. fold (lrsum l f) (lrsum (l ++ r) f). rewrite IH. lra. Qed.
(** With such a screening both parts are real; screening weakens the exchange (the correction is not negative), the Coulomb
    hole lowers every level, and the correction to the exchange is at most twice the size of the Coulomb hole, because the occupied bands are among all bands. *)
Lemma nv_le E nv : n_v_max E = Ok nv -> (nv <= e_nbands E)%nat.
Proof.
  unfold n_v_max. destruct (list_max_res (map snd (l_i_v E))) as [mx|] eqn:H; [|discriminate]. cbn [rmap]. intros K. injection K as <-.
  assert (forall l m, list_max_res l = Ok m -> In m l).
  { intros [|x l] m; [discriminate|]. cbn [list_max_res]. intros K. injection K as <-. induction l as [|a l IH]; [now left|]. cbn [fold_right].
    destruct (Nat.max_spec a (fold_right Nat.max x l)) as [[_ ->]|[_ ->]]; [|right; now left]. destruct IH as [IH|IH]; [left; exact IH|right; now right]. }
  apply H0, in_map_iff in H as ([k b] & <- & H). cbn [snd]. unfold l_i_v, states_with in H. apply in_flat_map in H as (k' & _ & H). apply in_map_iff in H as (b' & H & K).
  injection H as -> ->. apply filter_In in K as [K _]. apply in_seq in K. lia.
Qed.
Lemma occupied_first S im Ms Ms' : matrix_elements S im false = Ok Ms -> matrix_elements S im true = Ok Ms' -> exists r, Ms' = Ms ++ r.
Proof.
  unfold matrix_elements. cbn zeta. intros H H'. apply bind_ok in H as (nv & N & H). rewrite N in H'. cbn [bind] in H'. apply bind_ok in H as (cb & B & H). rewrite B in H'. cbn [bind] in H'.
  apply bind_ok in H as (ps & P & H). rewrite P in H'. cbn [bind] in H'. apply nv_le in N. change (e_nbands (at_q S im)) with (g_nbands S) in N.
  replace (g_nbands S) with (nv + (g_nbands S - nv))%nat in H' by lia. rewrite seq_app, map_app, sequence_app, H in H'. cbn [bind] in H'.
  apply bind_ok in H' as (r & _ & H'). apply ok_inj in H'. now exists r.
Qed.
Theorem C76_screening_signs : forall S p y p' y' sx ch, procs_ok p -> procs_ok p' -> 0 <= g_factor S -> screening S ->
  sigma_sx_static p y S = Ok sx -> sigma_ch_static p' y' S = Ok ch ->
  forall i j, exists a b, sx i j = RtoC a /\ ch i j = RtoC b /\ 0 <= a /\ b <= 0 /\ 2 * b + a <= 0.
Proof.
  intros S p y p' y' sx ch Hp Hp' Hf W Hs Hc i j.
  apply (proj1 (C76_screened_formula S p y Hp)) in Hs as (ds & Ds & Es). apply (proj2 (C76_screened_formula S p' y' Hp')) in Hc as (dc & Dc & Ec).
  rewrite Es, Ec, (screened_real S _ _ _ i j W Ds), (screened_real S _ _ _ i j W Dc), <- !RtoC_mult.
  set (fb := fun (d : nat * list nat * list R * list (list C) * list marr) => let '(_, m, v, e, Ms) := d in lrsum Ms (fun M => fst (band_screened v e m M i j))).
  do 2 eexists. split; [reflexivity|]. split; [reflexivity|].
  assert (N : forall all l ds, Forall2 (screened_data S all) l ds -> lrsum ds fb <= 0).
  { intros all l d D. apply lrsum_nonpos. intros [[[[im mm] v] e] Ms] Hd. apply lrsum_nonpos. intros M _. exact (screened_neg S all l d i j W D _ Hd M). }
  assert (X : lrsum dc fb <= lrsum ds fb).
  { clear Es Ec. revert dc Dc. assert (N' := screened_neg S). induction Ds as [|q d l ds H Ds IH]; intros dc Dc; inversion Dc as [|? d' ? dc' H' Dc' E1 E2]; subst; [apply Rle_refl|].
    specialize (IH dc' Dc'). cbn [lrsum fold_right]. fold (lrsum ds fb) (lrsum dc' fb). enough (fb d' <= fb d) by lra.
    assert (NN : forall M, let '(_, m, v, e, Ms) := d in fst (band_screened v e m M i j) <= 0).
    { intros M. assert (K := screened_neg S false (q :: l) (d :: ds) i j W (Forall2_cons _ _ H Ds) d (or_introl eq_refl)). destruct d as [[[[im mm] v] e] Ms]. apply K. }
    destruct d as [[[[im mm] v] e] Ms], d' as [[[[im' mm'] v'] e'] Ms']. destruct H as (P1 & P2 & P3 & P4 & _), H' as (P1' & P2' & P3' & P4' & _).
    rewrite P1 in P1'. rewrite P2 in P2'. rewrite P3 in P3'. apply ok_inj in P1'. injection P1' as <- <-. injection P2' as <-. injection P3' as <-.
    destruct (occupied_first S im Ms Ms' P4 P4') as (r & ->). unfold fb. rewrite lrsum_app. assert (lrsum r (fun M => fst (band_screened v e mm M i j)) <= 0) by (apply lrsum_nonpos; intros M _; apply NN). lra. }
  assert (A := N _ _ _ Ds). assert (B := N _ _ _ Dc). split; [nra|]. split; nra.
Qed.
Print Assumptions C76_screening_signs.

(** Success of any of the three tells that a band within number_bands is occupied and one is empty -- also for the exchange, which never uses empty bands. *)
Theorem C76_needs_empty_band : forall S p y sig, procs_ok p -> sigma_x p y S = Ok sig -> g_q S <> [] ->
  exists k b k' b', (b < g_nbands S)%nat /\ (b' < g_nbands S)%nat /\ (k < length (g_kpts S))%nat /\ (k' < length (g_kpts S))%nat /\ nth b (w_occ (kp_wfn (nth k (g_kpts S) k0))) 0 = 1 /\ nth b' (w_occ (kp_wfn (nth k' (g_kpts S) k0))) 0 = 0.
Proof.
  intros S p y sig Hp H Hq. destruct (C76_exchange_formula S p y sig Hp H) as (ds & D & _). destruct (g_q S) as [|q0 qs]; [easy|]. cbn [length seq] in D. inversion D as [|? d ? ds' H1 HD E1 E2]. subst.
  destruct d as [[[im m] v] Ms]. destruct H1 as (_ & _ & M & _). unfold matrix_elements in M. apply bind_ok in M as (nv & N & M). apply bind_ok in M as (cb & B & _).
  assert (I : forall x l (L : states_with (at_q S im) x <> []), exists k b, (b < g_nbands S)%nat /\ (k < length (g_kpts S))%nat /\ nth b (w_occ (kp_wfn (nth k (g_kpts S) k0))) 0 = x /\ l = l :> nat).
  { intros x l L. destruct (states_with (at_q S im) x) as [|[k b] r] eqn:E; [easy|]. assert (I : In (k, b) (states_with (at_q S im) x)) by (rewrite E; now left).
    unfold states_with in I. apply in_flat_map in I as (k' & I1 & I). apply in_map_iff in I as (b' & I & K). injection I as -> ->. apply filter_In in K as [K1 K2]. apply in_seq in K1, I1. apply reqb_iff in K2.
    exists k, b. change (e_nbands (at_q S im)) with (g_nbands S) in K1. change (length (e_kpts (at_q S im))) with (length (g_kpts S)) in I1. repeat split; [lia|lia|exact K2]. }
  destruct (I 1 O) as (k & b & A1 & A2 & A3 & _); [intros E; unfold n_v_max, l_i_v in N; rewrite E in N; discriminate|].
  destruct (I 0 O) as (k' & b' & B1 & B2 & B3 & _); [intros E; unfold n_c_beg, l_i_c in B; rewrite E in B; discriminate|].
  exists k, b, k', b'. auto 10.
Qed.
Print Assumptions C76_needs_empty_band.
