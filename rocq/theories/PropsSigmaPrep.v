(** Property C111: what a self-energy calculation starts from. *)
From Coq Require Import Reals Lra Sorting.Permutation Sorting.Sorted.
From Verif Require Import Base SortModel SortProofs LatModel LatProofs GIndexModel CBase FFTModel FFTProofs FFTProofs2 KSHamProofs GwModel GwSpec GwProofs GwProofs2 PropsGw SigmaPrepModel SigmaPrepSpec SigmaPrepProofs.
Local Open Scope nat_scope.

(** C111.  The k-points asked for: position i of the result is the first place where the wavefunction
    k-points hold exactly the i-th point asked for; the call fails with IndexError exactly when some
    point asked for does not occur. *)
Lemma reqb_spec x y : reqb x y = true <-> x = y.
Proof. unfold reqb. destruct (Req_EM_T x y); split; (reflexivity || congruence || discriminate). Qed.
Lemma rvec_eqb_spec a b : rvec_eqb a b = true <-> a = b.
Proof.
  unfold rvec_eqb. rewrite !andb_true_iff, !reqb_spec. destruct a, b. cbn. split; [intros ((-> & ->) & ->); reflexivity|now intros [= -> -> ->]].
Qed.
Lemma k_index_spec cryst p k : k_index cryst p = Ok k <->
  nth_error cryst k = Some p /\ forall j, j < k -> nth_error cryst j <> Some p.
Proof.
  unfold k_index. rewrite first_true_spec. rewrite map_length.
  assert (N : forall i, i < length cryst -> nth i (map (rvec_eqb p) cryst) false = rvec_eqb p (nth i cryst p)).
  { intros i H. now rewrite (nth_map_lt _ _ _ p) by exact H. }
  assert (NE : forall i, i < length cryst -> (nth_error cryst i = Some p <-> rvec_eqb p (nth i cryst p) = true)).
  { intros i H. rewrite rvec_eqb_spec, (nth_error_nth' cryst p H). split; [now intros [= ->]|now intros <-]. }
  split.
  - intros (H1 & H2 & H3). rewrite N in H2 by exact H1. split; [now apply NE|]. intros j Hj E.
    specialize (H3 j Hj). rewrite N in H3 by lia. apply NE in E; [|lia]. congruence.
  - intros (H1 & H2). assert (L : k < length cryst) by (apply nth_error_Some; congruence). split; [exact L|]. split.
    + rewrite N by exact L. now apply NE.
    + intros i Hi. rewrite N by lia. destruct (rvec_eqb p (nth i cryst p)) eqn:E; [|reflexivity].
      exfalso. apply (H2 i Hi). apply NE; [lia|exact E].
Qed.
Lemma first_true_err l e : first_true l = Err e -> e = IndexError /\ ~ In true l.
Proof.
  induction l as [|[|] l IH]; cbn; [intros [= <-]; split; [reflexivity|now intros []]|discriminate|].
  destruct (first_true l); [discriminate|]. cbn. intros [= <-]. destruct (IH eq_refl) as (-> & X). split; [reflexivity|]. intros [Y|Y]; [discriminate|auto].
Qed.
Lemma k_index_err cryst p e : k_index cryst p = Err e -> e = IndexError /\ ~ In p cryst.
Proof.
  intros H. apply first_true_err in H. destruct H as (-> & H). split; [reflexivity|]. intros X. apply H. apply in_map_iff. exists p. split; [now apply rvec_eqb_spec|exact X].
Qed.
Theorem C111_k_points : forall cryst asked l,
  k_indices cryst asked = Ok l <->
  length l = length asked /\ forall i p, nth_error asked i = Some p ->
    exists k, nth_error l i = Some k /\ nth_error cryst k = Some p /\ forall j, j < k -> nth_error cryst j <> Some p.
Proof.
  intros cryst asked. unfold k_indices. induction asked as [|p asked IH]; intros l; cbn [map sequence].
  - split; [intros [= <-]; split; [reflexivity|now intros [|]]|]. intros (H & _). destruct l; [reflexivity|discriminate].
  - destruct (k_index cryst p) as [k|e] eqn:E; cbn [bind].
    + apply k_index_spec in E. destruct (sequence (map (k_index cryst) asked)) as [r|e] eqn:ER; cbn [bind].
      * split.
        -- intros [= <-]. destruct (proj1 (IH r) eq_refl) as (H1 & H2). split; [cbn; now rewrite H1|].
           intros [|i] q; cbn; [intros [= <-]; exists k; tauto|apply H2].
        -- intros (H1 & H2). destruct l as [|k' l]; [discriminate|]. injection H1 as H1.
           destruct (H2 0 p eq_refl) as (k2 & A & B1 & B2). injection A as ->.
           assert (EK : k2 = k).
           { apply k_index_spec in E. assert (E2 : k_index cryst p = Ok k2) by (apply k_index_spec; now split). congruence. }
           subst k2. do 2 f_equal. assert (X : Ok r = Ok l) by (apply IH; split; [exact H1|]; intros i q Hq; exact (H2 (Datatypes.S i) q Hq)).
           congruence.
      * split; [discriminate|]. intros (H1 & H2). destruct l as [|k' l]; [discriminate|]. injection H1 as H1.
        assert (X : Err e = Ok l) by (apply IH; split; [exact H1|]; intros i q Hq; exact (H2 (Datatypes.S i) q Hq)). discriminate.
    + split; [discriminate|]. intros (H1 & H2). destruct (H2 0 p eq_refl) as (k & _ & B & _).
      apply k_index_err in E. destruct E as (_ & E). exfalso. apply E. eapply nth_error_In. exact B.
Qed.
Print Assumptions C111_k_points.
Theorem C111_missing_k_point : forall cryst asked e,
  k_indices cryst asked = Err e <-> e = IndexError /\ exists p, In p asked /\ ~ In p cryst.
Proof.
  intros cryst asked e. unfold k_indices. induction asked as [|p asked IH]; cbn [map sequence].
  - split; [discriminate|]. intros (_ & p & [] & _).
  - destruct (k_index cryst p) as [k|e'] eqn:E; cbn [bind].
    + apply k_index_spec in E. destruct E as (E & _). apply nth_error_In in E.
      destruct (sequence (map (k_index cryst) asked)) as [r|e2] eqn:ER; cbn [bind].
      * split; [discriminate|]. intros (-> & q & [<-|Hq] & Hn); [contradiction|].
        assert (X : Ok r = Err IndexError) by (apply IH; split; [reflexivity|now exists q]). discriminate.
      * split.
        -- intros [= <-]. destruct (proj1 IH eq_refl) as (-> & q & Hq & Hn). split; [reflexivity|]. exists q. split; [now right|exact Hn].
        -- intros (-> & q & [<-|Hq] & Hn); [contradiction|]. assert (X : Err e2 = Err IndexError :> res (list nat)) by (apply IH; split; [reflexivity|now exists q]). exact X.
    + apply k_index_err in E. destruct E as (-> & E). split.
      * intros [= <-]. split; [reflexivity|]. exists p. split; [now left|exact E].
      * intros (-> & _). reflexivity.
Qed.
Print Assumptions C111_missing_k_point.

(** C111.  From an SCF density with one spin channel: every coefficient is scaled so that the G=0
    coefficient becomes the number of electrons. *)
Lemma total_eq (l : list (list C)) : forall a, fold_left Cplus (map (fun ch => nth 0 ch (RtoC 0)) l) a
  = (a + fold_left Cplus (map (fun ch => nth 0 ch (RtoC 0)) l) (RtoC 0))%C.
Proof.
  induction l as [|c l IH]; intros a; cbn [map fold_left]; [ring|]. rewrite IH, (IH (RtoC 0 + _)%C). ring.
Qed.
Theorem C111_density : forall numel ch, nth 0 ch (RtoC 0) <> RtoC 0 ->
  exists rho, scf_density numel [ch] = Ok rho /\ length rho = length ch
  /\ (forall g, nth g rho (RtoC 0) = (RtoC numel / nth 0 ch (RtoC 0) * nth g ch (RtoC 0))%C)
  /\ nth 0 rho (RtoC 0) = RtoC numel.
Proof.
  intros numel ch H. unfold scf_density. cbn [map fold_left item nth_error]. rewrite Cplus_0_l.
  set (t := nth 0 ch (RtoC 0)) in *. exists (map (fun c => c * (RtoC numel / t))%C ch). split; [reflexivity|].
  split; [apply map_length|].
  assert (A : forall g, nth g (map (fun c => c * (RtoC numel / t))%C ch) (RtoC 0) = (RtoC numel / t * nth g ch (RtoC 0))%C).
  { intros g. destruct (Nat.lt_ge_cases g (length ch)).
    - rewrite (nth_map_lt _ _ _ (RtoC 0)) by assumption. ring.
    - rewrite !nth_overflow by (rewrite ?map_length; assumption). ring. }
  split; [exact A|]. rewrite A. fold t. field. exact H.
Qed.
Print Assumptions C111_density.
(** C111, refuted with two channels: the factor is that of the total charge, but only the first channel
    is kept; its charge is the number of electrons only when the second channel holds none. *)
Theorem C111_spin_density_refuted : forall numel up down rho, numel <> 0%R ->
  (nth 0 up (RtoC 0) + nth 0 down (RtoC 0) <> RtoC 0)%C ->
  scf_density numel [up; down] = Ok rho ->
  nth 0 rho (RtoC 0) = (RtoC numel * (nth 0 up (RtoC 0) / (nth 0 up (RtoC 0) + nth 0 down (RtoC 0))))%C
  /\ (nth 0 rho (RtoC 0) = RtoC numel -> nth 0 down (RtoC 0) = RtoC 0).
Proof.
  intros numel up down rho Hn Ht. unfold scf_density. cbn [map fold_left item nth_error]. rewrite Cplus_0_l. intros [= <-].
  set (u := nth 0 up (RtoC 0)) in *. set (d := nth 0 down (RtoC 0)) in *.
  assert (A : nth 0 (map (fun c => c * (RtoC numel / (u + d)))%C up) (RtoC 0) = (RtoC numel * (u / (u + d)))%C).
  { destruct up as [|c up]; cbn [map nth].
    - assert (U : u = RtoC 0) by reflexivity. rewrite U. unfold Cdiv. ring.
    - assert (U : u = c) by reflexivity. rewrite U in *. field. exact Ht. }
  split; [exact A|]. rewrite A. intros E.
  assert (N : RtoC numel <> RtoC 0) by (intros X; apply RtoC_inj in X; contradiction).
  assert (F : (RtoC numel * u = RtoC numel * (u + d))%C).
  { transitivity ((RtoC numel * (u / (u + d))) * (u + d))%C; [field; exact Ht|]. rewrite E. ring. }
  assert (G : (RtoC numel * d = RtoC 0)%C).
  { transitivity ((RtoC numel * (u + d)) - RtoC numel * u)%C; [ring|]. rewrite F. ring. }
  transitivity ((RtoC numel * d) / RtoC numel)%C; [field; exact N|]. rewrite G. unfold Cdiv. ring.
Qed.
Print Assumptions C111_spin_density_refuted.

(** C111.  From files: the first q-point is replaced by zero and is the q0 point; the others are kept.
    From an SCF run the q-points are kept and q0 is the first flagged one. *)
Theorem C111_q_points_from_data : forall metric q rest,
  (forall u, (0 <= metric u)%R) -> metric (V 0 0 0) = 0%R ->
  data_qpts metric (q :: rest) = Ok (V 0 0 0 :: rest, 0).
Proof.
  intros metric q rest Hp H0. unfold data_qpts.
  assert (E : index_q0 None (map metric (V 0 0 0 :: rest)) = Ok 0).
  { apply argmin_spec. rewrite map_length. split; [cbn; lia|]. split; [|intros i Hi; lia].
    intros i Hi. cbn [map nth]. rewrite H0. destruct i; [lra|]. cbn [length] in Hi.
    rewrite (nth_map_lt metric rest i (V 0 0 0) 0%R) by lia. apply Hp. }
  rewrite E. reflexivity.
Qed.
Print Assumptions C111_q_points_from_data.
Theorem C111_q_points_from_scf : forall metric flags qpts l i, length flags = length qpts ->
  scf_qpts metric (Some flags) qpts = Ok (l, i) <->
  l = qpts /\ i < length qpts /\ nth i flags false = true /\ forall j, j < i -> nth j flags false = false.
Proof.
  intros metric flags qpts l i L. unfold scf_qpts. cbn [index_q0].
  destruct (first_true flags) as [k|e] eqn:E; cbn [bind].
  - pose proof (proj1 (first_true_spec flags k) E) as (A & B & D). rewrite L in A. apply Nat.ltb_lt in A. rewrite A. split.
    + intros [= <- <-]. apply Nat.ltb_lt in A. tauto.
    + intros (-> & Hi & Hf & Hj). assert (X : first_true flags = Ok i) by (apply first_true_spec; rewrite L; tauto). congruence.
  - split; [discriminate|]. intros (-> & Hi & Hf & Hj). assert (X : first_true flags = Ok i) by (apply first_true_spec; rewrite L; tauto). congruence.
Qed.
Print Assumptions C111_q_points_from_scf.
(** C111, refuted: the flags of the input file are not used when starting from files; a first q-point
    that is not the small one is lost, and the flagged one is treated as an ordinary point. *)
Theorem C111_flagged_point_ignored_refuted : forall metric flags q rest i,
  (forall u, (0 <= metric u)%R) -> metric (V 0 0 0) = 0%R -> q <> V 0 0 0 ->
  scf_qpts metric (Some flags) (q :: rest) = Ok (q :: rest, Datatypes.S i) ->
  exists l j, data_qpts metric (q :: rest) = Ok (l, j) /\ j <> Datatypes.S i /\ nth 0 l q <> q.
Proof.
  intros metric flags q rest i Hp H0 Hq _. exists (V 0 0 0 :: rest), 0. split; [now apply C111_q_points_from_data|]. split; [discriminate|]. cbn. congruence.
Qed.
Print Assumptions C111_flagged_point_ignored_refuted.

(** C111.  The dielectric matrix handed over in sorted order as values W(G, G') is stored in the order of
    the calculation's own sphere, minus the identity.  At the q0 point (G=0 first in both sorted spheres)
    the wings are removed and the head kept. *)
Theorem C111_dielectric_at_q0 : forall W oneoverq qlen bare vcoul own order sorted eps,
  zero_at bare 0 -> zero_at own 0 ->
  sort_cryst_like_BGW (sp_gk bare) (sp_norm2 bare) = Ok order -> length vcoul = length (sp_g bare) ->
  nth (nth 0 order 0) vcoul 0%R <> 0%R ->
  sort_cryst_like_BGW (sp_gk own) (sp_norm2 own) = Ok sorted ->
  let n := length (sp_g own) in let G := fun i => nth i (sp_g own) (0, 0, 0)%Z in
  square n eps -> (forall a b, a < n -> b < n -> nth b (nth a eps []) (RtoC 0) = W (G (nth a sorted 0)) (G (nth b sorted 0))) ->
  exists m, stored_eps true oneoverq qlen bare vcoul own eps = Ok m /\ square n m
  /\ forall i j, i < n -> j < n -> nth j (nth i m []) (RtoC 0) = (wings_removed W (G i) (G j) - kron i j)%C.
Proof.
  intros W ooq qlen bare vcoul own order oE eps Hb Ho HsB Lv Hv HsE n G Hs HW.
  destruct (stored_ok true ooq qlen bare vcoul own eps 0 order oE Hb Ho HsB Lv HsE Hs) as (m & inv & E & Hm & Hinv & Hent).
  exists m. split; [exact E|]. split; [exact Hm|]. intros i j Hi Hj. change (nth j (nth i m []) (RtoC 0)) with (ent (RtoC 0) m i j).
  rewrite (Hent i j Hi Hj). destruct (Hinv i Hi) as (A1 & A2). destruct (Hinv j Hj) as (B1 & B2).
  pose proof Ho as (o & Ho' & L & HN & Hz & Hz0). rewrite HsE in Ho'. injection Ho' as <-.
  destruct (sort_perm _ _ _ HsE) as (_ & _ & HP). rewrite <- L in HP.
  assert (K : kron (inv i) (inv j) = kron i j).
  { unfold kron. destruct (Nat.eqb_spec i j) as [->|N1]; [now rewrite Nat.eqb_refl|]. destruct (Nat.eqb_spec (inv i) (inv j)) as [X|X]; [|reflexivity].
    exfalso. apply N1. rewrite <- A2, <- B2. now rewrite X. }
  rewrite K. f_equal.
  assert (ZI : forall i, i < n -> inv i < n -> nth (inv i) oE 0 = i -> is_zero (G i) = (inv i =? 0)).
  { intros k Hk K1 K2. destruct (Nat.eqb_spec (inv k) 0) as [X|X].
    - apply is_zero_spec. unfold G. rewrite <- K2, X. exact Hz0.
    - destruct (is_zero (G k)) eqn:Y; [|reflexivity]. exfalso. apply X. apply is_zero_spec in Y. unfold G in Y.
      rewrite <- K2 in Y. apply (order_nodup (0, 0, 0)%Z (sp_g own) oE (inv k) 0 HP HN K1 Hz). exact (eq_trans Y (eq_sym Hz0)). }
  unfold wings_removed. rewrite (ZI i Hi A1 A2), (ZI j Hj B1 B2).
  assert (EV : forall a b, a < n -> b < n -> ent (RtoC 0) eps a b = W (G (nth a oE 0)) (G (nth b oE 0))) by exact HW.
  destruct (Nat.eqb_spec (inv i) 0) as [Xi|Xi], (Nat.eqb_spec (inv j) 0) as [Xj|Xj]; cbn [andb orb].
  - assert (Hn : 0 < n) by lia. rewrite (EV 0 0 Hn Hn). rewrite Xi in A2. rewrite Xj in B2. rewrite A2 at 1. rewrite B2. unfold fix_head.
    field. intros X. apply RtoC_inj in X. contradiction.
  - unfold fix_wing. cbv iota. ring.
  - unfold fix_wingprime. cbv iota. ring.
  - rewrite (EV _ _ A1 B1), A2, B2. reflexivity.
Qed.
Print Assumptions C111_dielectric_at_q0.

(** C111.  At any other q-point the head and the body are kept and the wings rescaled; v is the Coulomb
    factor of the first vector of the sorted Coulomb sphere (the G=0 factor when G=0 comes first). *)
Theorem C111_dielectric_elsewhere : forall W oneoverq qlen bare vcoul own i0 order sorted eps,
  zero_at bare i0 -> zero_at own i0 ->
  sort_cryst_like_BGW (sp_gk bare) (sp_norm2 bare) = Ok order -> length vcoul = length (sp_g bare) ->
  sort_cryst_like_BGW (sp_gk own) (sp_norm2 own) = Ok sorted ->
  let v := nth (nth 0 order 0) vcoul 0%R in (v * qlen <> 0)%R ->
  let n := length (sp_g own) in let G := fun i => nth i (sp_g own) (0, 0, 0)%Z in
  square n eps -> (forall a b, a < n -> b < n -> nth b (nth a eps []) (RtoC 0) = W (G (nth a sorted 0)) (G (nth b sorted 0))) ->
  exists m, stored_eps false oneoverq qlen bare vcoul own eps = Ok m /\ square n m
  /\ forall i j, i < n -> j < n -> nth j (nth i m []) (RtoC 0) = (wings_rescaled oneoverq v qlen W (G i) (G j) - kron i j)%C.
Proof.
  intros W ooq qlen bare vcoul own i0 order oE eps Hb Ho HsB Lv HsE v Hv n G Hs HW.
  destruct (stored_ok false ooq qlen bare vcoul own eps i0 order oE Hb Ho HsB Lv HsE Hs) as (m & inv & E & Hm & Hinv & Hent).
  exists m. split; [exact E|]. split; [exact Hm|]. intros i j Hi Hj. change (nth j (nth i m []) (RtoC 0)) with (ent (RtoC 0) m i j).
  rewrite (Hent i j Hi Hj). destruct (Hinv i Hi) as (A1 & A2). destruct (Hinv j Hj) as (B1 & B2).
  pose proof Ho as (o & Ho' & L & HN & Hz & Hz0). rewrite HsE in Ho'. injection Ho' as <-.
  destruct (sort_perm _ _ _ HsE) as (_ & _ & HP). rewrite <- L in HP.
  assert (K : kron (inv i) (inv j) = kron i j).
  { unfold kron. destruct (Nat.eqb_spec i j) as [->|N1]; [now rewrite Nat.eqb_refl|]. destruct (Nat.eqb_spec (inv i) (inv j)) as [X|X]; [|reflexivity].
    exfalso. apply N1. rewrite <- A2, <- B2. now rewrite X. }
  rewrite K. f_equal.
  assert (ZI : forall i, i < n -> inv i < n -> nth (inv i) oE 0 = i -> is_zero (G i) = (inv i =? i0)).
  { intros k Hk K1 K2. destruct (Nat.eqb_spec (inv k) i0) as [X|X].
    - apply is_zero_spec. unfold G. rewrite <- K2, X. exact Hz0.
    - destruct (is_zero (G k)) eqn:Y; [|reflexivity]. exfalso. apply X. apply is_zero_spec in Y. unfold G in Y.
      rewrite <- K2 in Y. apply (order_nodup (0, 0, 0)%Z (sp_g own) oE (inv k) i0 HP HN K1 Hz). exact (eq_trans Y (eq_sym Hz0)). }
  unfold wings_rescaled. rewrite (ZI i Hi A1 A2), (ZI j Hj B1 B2).
  assert (EV : forall a b, a < n -> b < n -> ent (RtoC 0) eps a b = W (G (nth a oE 0)) (G (nth b oE 0))) by exact HW.
  pose proof PI_RGT_0 as PP.
  destruct (inv i =? i0), (inv j =? i0); cbn [andb orb]; rewrite (EV _ _ A1 B1), A2, B2; try reflexivity.
  - unfold fix_wing. cbv iota. try fold v. rewrite RtoC_div by exact Hv. unfold Cdiv. ring.
  - unfold fix_wingprime. cbv iota. try fold v. rewrite RtoC_div by lra. rewrite (RtoC_mult ooq qlen). unfold Cdiv. ring.
Qed.
Print Assumptions C111_dielectric_elsewhere.

(** C111.  The two spheres agree on where G=0 is.  If the dielectric sphere consists of the vectors of the
    Coulomb sphere of the same q-point below some |q+G|^2, the others lying at least 10^-10 higher, then its
    sorted list is the beginning of the Coulomb sphere's sorted list; so both have G=0 at the same place. *)
Lemma ss_app {A} (Q : A -> A -> Prop) l1 l2 : StronglySorted Q l1 -> StronglySorted Q l2 ->
  (forall a b, In a l1 -> In b l2 -> Q a b) -> StronglySorted Q (l1 ++ l2).
Proof.
  induction l1 as [|a l1 IH]; intros H1 H2 H; cbn; [exact H2|]. apply StronglySorted_inv in H1. destruct H1 as (H1 & F).
  constructor; [apply IH; [exact H1|exact H2|intros x y Hx Hy; apply H; [now right|exact Hy]]|].
  apply Forall_app. split; [exact F|]. apply Forall_forall. intros b Hb. apply H; [now left|exact Hb].
Qed.
Definition keyed (l : list (vec3 * R)) (q : rvec) : list (R * rvec) := map (fun p => (np_around 10 (snd p), shifted_by q (fst p))) l.
Lemma keyed_combine q : forall gs n2, combine (map (np_around 10) n2) (map (shifted_by q) gs) = keyed (combine gs n2) q.
Proof. induction gs as [|g gs IH]; intros [|x n2]; try reflexivity. cbn. unfold keyed in IH. now rewrite IH. Qed.
Lemma shifted_inj q g h : shifted_by q g = shifted_by q h -> g = h.
Proof.
  destruct g as ((a, b), c), h as ((a', b'), c'). unfold shifted_by. intros E.
  assert (X : (IZR a = IZR a')%R /\ (IZR b = IZR b')%R /\ (IZR c = IZR c')%R) by (inversion E; lra).
  destruct X as (X1 & X2 & X3). apply eq_IZR in X1, X2, X3. now subst.
Qed.
Definition around_point (q : rvec) (sp : sphere) : Prop :=
  sp_gk sp = map (shifted_by q) (sp_g sp) /\ length (sp_norm2 sp) = length (sp_g sp).
Theorem C111_spheres_aligned : forall q bare own others order sorted,
  around_point q bare -> around_point q own -> around_point q others ->
  Permutation (combine (sp_g bare) (sp_norm2 bare)) (combine (sp_g own) (sp_norm2 own) ++ combine (sp_g others) (sp_norm2 others)) ->
  (forall x y, In x (sp_norm2 own) -> In y (sp_norm2 others) -> (x + / 10 ^ 10 < y)%R) ->
  sort_cryst_like_BGW (sp_gk bare) (sp_norm2 bare) = Ok order ->
  sort_cryst_like_BGW (sp_gk own) (sp_norm2 own) = Ok sorted ->
  forall i, i < length (sp_g own) -> nth (nth i order 0) (sp_g bare) (0, 0, 0)%Z = nth (nth i sorted 0) (sp_g own) (0, 0, 0)%Z.
Proof.
  intros q bare own oth oB oE (B1 & B2) (O1 & O2) (R1 & R2) HP Hsep HB HE i Hi.
  unfold sort_cryst_like_BGW in HB, HE. rewrite B1 in HB. rewrite O1 in HE.
  destruct (_ =? _) in HB; [|discriminate]. destruct (_ =? _) in HE; [|discriminate].
  rewrite keyed_combine in HB, HE. injection HB as HB. injection HE as HE.
  set (KB := keyed (combine (sp_g bare) (sp_norm2 bare)) q) in *. set (KO := keyed (combine (sp_g own) (sp_norm2 own)) q) in *.
  set (KR := keyed (combine (sp_g oth) (sp_norm2 oth)) q).
  assert (LB : length KB = length (sp_g bare)) by (unfold KB, keyed; rewrite map_length, combine_length; lia).
  assert (LO : length KO = length (sp_g own)) by (unfold KO, keyed; rewrite map_length, combine_length; lia).
  assert (Lo : length oE = length (sp_g own)) by (rewrite <- HE, argsort_length; exact LO).
  assert (Lb : length oB = length (sp_g bare)) by (rewrite <- HB, argsort_length; exact LB).
  assert (PK : Permutation KB (KO ++ KR)) by (unfold KB, KO, KR, keyed; rewrite <- map_app; now apply Permutation_map).
  assert (LL : length (sp_g own) <= length (sp_g bare)).
  { rewrite <- LB, <- LO, (Permutation_length PK), app_length. lia. }
  assert (E : take kv0 KB oB = take kv0 KO oE ++ take kv0 KR (argsort lex4_leb KR)).
  { apply sorted_unique with (R := fun a b => lex4_leb a b = true).
    - intros a b. rewrite !lex4_iff. intros [D|D] [D'|D']; try congruence. exfalso. apply (dict_lt_irr a). eapply dict_lt_trans; eauto.
    - rewrite <- HB. apply take_argsort_sorted; [apply lex4_total|apply lex4_trans].
    - apply ss_app.
      + rewrite <- HE. apply take_argsort_sorted; [apply lex4_total|apply lex4_trans].
      + apply take_argsort_sorted; [apply lex4_total|apply lex4_trans].
      + intros a b Ha Hb.
        assert (Ha' : In a KO). { eapply Permutation_in; [|exact Ha]. apply take_perm. rewrite <- HE. apply argsort_perm. }
        assert (Hb' : In b KR). { eapply Permutation_in; [|exact Hb]. apply take_perm. apply argsort_perm. }
        unfold KO, keyed in Ha'. unfold KR, keyed in Hb'. apply in_map_iff in Ha', Hb'.
        destruct Ha' as ((ga, xa) & <- & Ia). destruct Hb' as ((gb, xb) & <- & Ib). cbn [fst snd] in *.
        apply in_combine_r in Ia. apply in_combine_r in Ib. specialize (Hsep xa xb Ia Ib).
        apply lex4_iff. left. left. cbn [fst].
        destruct (around_spec 10 xa) as (_ & Ea). destruct (around_spec 10 xb) as (_ & Eb).
        apply Rcomplements.Rabs_le_between in Ea. apply Rcomplements.Rabs_le_between in Eb. destruct Ea as (Ea1 & Ea2), Eb as (Eb1 & Eb2). lra.
    - transitivity KB.
      + apply take_perm. rewrite <- HB. apply argsort_perm.
      + rewrite PK. symmetry. apply Permutation_app; apply take_perm; [rewrite <- HE|]; apply argsort_perm. }
  assert (NB : nth i (take kv0 KB oB) kv0 = nth i (take kv0 KO oE) kv0).
  { rewrite E, app_nth1; [reflexivity|]. rewrite take_length, Lo. exact Hi. }
  rewrite (take_nth kv0 KB oB i) in NB by (rewrite Lb; lia). rewrite (take_nth kv0 KO oE i) in NB by (rewrite Lo; exact Hi).
  assert (PB : nth i oB 0 < length (combine (sp_g bare) (sp_norm2 bare))).
  { rewrite combine_length. assert (X : In (nth i oB 0) oB) by (apply nth_In; rewrite Lb; lia). rewrite <- HB in X at 2.
    apply argsort_bound in X. rewrite LB in X. lia. }
  assert (PO : nth i oE 0 < length (combine (sp_g own) (sp_norm2 own))).
  { rewrite combine_length. assert (X : In (nth i oE 0) oE) by (apply nth_In; rewrite Lo; lia). rewrite <- HE in X at 2.
    apply argsort_bound in X. rewrite LO in X. lia. }
  unfold KB, KO, keyed in NB.
  rewrite (nth_map_lt _ _ _ ((0, 0, 0)%Z : vec3, 0%R)) in NB by exact PB. rewrite (nth_map_lt _ _ _ ((0, 0, 0)%Z : vec3, 0%R)) in NB by exact PO.
  rewrite !combine_nth in NB by (symmetry; assumption). cbn [fst snd] in NB. apply (f_equal snd) in NB. cbn [snd] in NB.
  exact (shifted_inj q _ _ NB).
Qed.
Print Assumptions C111_spheres_aligned.
Theorem C111_zero_at_same_place : forall q bare own others order sorted,
  around_point q bare -> around_point q own -> around_point q others -> NoDup (sp_g bare) -> In (0, 0, 0)%Z (sp_g own) ->
  Permutation (combine (sp_g bare) (sp_norm2 bare)) (combine (sp_g own) (sp_norm2 own) ++ combine (sp_g others) (sp_norm2 others)) ->
  (forall x y, In x (sp_norm2 own) -> In y (sp_norm2 others) -> (x + / 10 ^ 10 < y)%R) ->
  sort_cryst_like_BGW (sp_gk bare) (sp_norm2 bare) = Ok order ->
  sort_cryst_like_BGW (sp_gk own) (sp_norm2 own) = Ok sorted ->
  exists i0, i0 < length (sp_g own) /\ zero_at bare i0 /\ zero_at own i0.
Proof.
  intros q bare own oth oB oE Hb Ho Hr HN Hin HP Hsep HB HE.
  pose proof (C111_spheres_aligned q bare own oth oB oE Hb Ho Hr HP Hsep HB HE) as AL.
  destruct Hb as (B1 & B2), Ho as (O1 & O2), Hr as (R1 & R2).
  destruct (sort_perm _ _ _ HE) as (_ & L2 & PE). rewrite O1, map_length in L2, PE.
  assert (PG : Permutation (sp_g bare) (sp_g own ++ sp_g oth)).
  { apply (Permutation_map fst) in HP. rewrite map_app in HP.
    assert (CF : forall (a : list vec3) (b : list R), length b = length a -> map fst (combine a b) = a) by (intros; apply combine_map_fst; lia).
    rewrite !CF in HP by assumption. exact HP. }
  assert (HNO : NoDup (sp_g own)).
  { apply (Permutation_NoDup PG) in HN. clear - HN. induction (sp_g own) as [|a l IH]; [constructor|]. cbn in HN. inversion HN; subst.
    constructor; [intros X; apply H1, in_or_app; now left|now apply IH]. }
  assert (LL : length (sp_g own) <= length (sp_g bare)) by (rewrite (Permutation_length PG), app_length; lia).
  destruct (In_nth _ _ (0, 0, 0)%Z Hin) as (k & Hk & Ek).
  assert (Ik : In k oE) by (apply (Permutation_in _ (Permutation_sym PE)), in_seq; split; [apply Nat.le_0_l|exact Hk]).
  destruct (In_nth _ _ 0 Ik) as (i0 & Hi0 & Ei0). exists i0. rewrite L2 in Hi0. split; [exact Hi0|].
  assert (Z0 : nth (nth i0 oE 0) (sp_g own) (0, 0, 0)%Z = (0, 0, 0)%Z) by (rewrite Ei0; exact Ek).
  split.
  - exists oB. split; [exact HB|]. split; [now rewrite B1, map_length|]. split; [exact HN|]. split; [lia|]. rewrite (AL i0 Hi0). exact Z0.
  - exists oE. split; [exact HE|]. split; [now rewrite O1, map_length|]. split; [exact HNO|]. split; [exact Hi0|]. exact Z0.
Qed.
Print Assumptions C111_zero_at_same_place.

(** Non-vacuity: q = 0, three vectors in the Coulomb sphere and two in the dielectric one, given in
    different orders: the stored matrix is in the dielectric sphere's own order, the dielectric matrix
    in the order of length. *)
Definition ex_bare : sphere := MkSphere [(1, 0, 0); (0, 0, 0); (2, 0, 0)]%Z [V 1 0 0; V 0 0 0; V 2 0 0] [1; 0; 4]%R.
Definition ex_own : sphere := MkSphere [(1, 0, 0); (0, 0, 0)]%Z [V 1 0 0; V 0 0 0] [1; 0]%R.
Lemma around_int (z : Z) : np_around 10 (IZR z) = IZR z.
Proof.
  unfold np_around. replace (rint (IZR z * 10 ^ 10)) with (z * 10 ^ 10)%Z.
  - rewrite mult_IZR. replace (IZR (10 ^ 10)) with (10 ^ 10)%R by (rewrite pow_IZR; reflexivity). field; apply pow_nonzero; lra.
  - replace (IZR z * 10 ^ 10)%R with (IZR (z * 10 ^ 10)).
    + unfold rint. rewrite (rfloor_unique _ (z * 10 ^ 10)) by lra. destruct (Rlt_dec _ _); [reflexivity|lra].
    + rewrite mult_IZR. f_equal. rewrite pow_IZR. reflexivity.
Qed.
Lemma lex_T a b : dict_lt a b -> lex4_leb a b = true. Proof. intros; apply lex4_iff; now left. Qed.
Lemma lex_F a b : dict_lt b a -> lex4_leb a b = false.
Proof. intros H. apply not_true_iff_false. rewrite lex4_iff. intros [G|G]; [apply (dict_lt_irr a); eapply dict_lt_trans; eauto|subst; now apply (dict_lt_irr b)]. Qed.
Lemma ex_bare_sort : sort_cryst_like_BGW (sp_gk ex_bare) (sp_norm2 ex_bare) = Ok [1; 0; 2].
Proof.
  unfold sort_cryst_like_BGW. cbn [ex_bare sp_gk sp_norm2 length Nat.eqb map combine].
  rewrite (around_int 1), (around_int 0), (around_int 4). f_equal. unfold argsort, isort. cbn [length seq combine fold_right insert fst].
  rewrite (lex_T (0, V 0 0 0) (4, V 2 0 0))%R by (left; cbn [fst]; lra). cbn [insert fst].
  rewrite (lex_F (1, V 1 0 0) (0, V 0 0 0))%R by (left; cbn [fst]; lra). cbn [insert fst].
  rewrite (lex_T (1, V 1 0 0) (4, V 2 0 0))%R by (left; cbn [fst]; lra). reflexivity.
Qed.
Lemma ex_own_sort : sort_cryst_like_BGW (sp_gk ex_own) (sp_norm2 ex_own) = Ok [1; 0].
Proof.
  unfold sort_cryst_like_BGW. cbn [ex_own sp_gk sp_norm2 length Nat.eqb map combine].
  rewrite (around_int 1), (around_int 0). f_equal. unfold argsort, isort. cbn [length seq combine fold_right insert fst].
  rewrite (lex_F (1, V 1 0 0) (0, V 0 0 0))%R by (left; cbn [fst]; lra). reflexivity.
Qed.
Example C111_example : forall a b c d,
  exists m, stored_eps true 0 0 ex_bare [5; 7; 2]%R ex_own [[a; b]; [c; d]] = Ok m
  /\ m = [[(d - RtoC 1)%C; RtoC 0]; [RtoC 0; (a - RtoC 1)%C]].
Proof.
  intros a b c d.
  assert (NB : NoDup (sp_g ex_bare)) by (repeat constructor; cbn; intros K; repeat (destruct K as [K|K]; [discriminate K|]); exact K).
  assert (NO : NoDup (sp_g ex_own)) by (repeat constructor; cbn; intros K; repeat (destruct K as [K|K]; [discriminate K|]); exact K).
  assert (ZB : zero_at ex_bare 0).
  { exists [1; 0; 2]. split; [exact ex_bare_sort|]. split; [reflexivity|]. split; [exact NB|]. split; [cbn; lia|reflexivity]. }
  assert (ZO : zero_at ex_own 0).
  { exists [1; 0]. split; [exact ex_own_sort|]. split; [reflexivity|]. split; [exact NO|]. split; [cbn; lia|reflexivity]. }
  set (W := fun g g' : vec3 => if is_zero g then (if is_zero g' then a else b) else (if is_zero g' then c else d)).
  destruct (C111_dielectric_at_q0 W 0%R 0%R ex_bare [5; 7; 2]%R ex_own [1; 0; 2] [1; 0] [[a; b]; [c; d]] ZB ZO ex_bare_sort) as (m & Em & (Lm & Rm) & Vm).
  - reflexivity.
  - cbn. lra.
  - exact ex_own_sort.
  - split; [reflexivity|]. intros r [<-|[<-|[]]]; reflexivity.
  - cbn [ex_own sp_g length]. intros x y Hx Hy. destruct x as [|[|]], y as [|[|]]; try lia; reflexivity.
  - exists m. split; [exact Em|]. cbn [ex_own sp_g length] in *.
    destruct m as [|r0 [|r1 [|]]]; try discriminate Lm.
    pose proof (Rm r0 (or_introl eq_refl)) as L0. pose proof (Rm r1 (or_intror (or_introl eq_refl))) as L1.
    destruct r0 as [|x00 [|x01 [|]]]; try discriminate L0. destruct r1 as [|x10 [|x11 [|]]]; try discriminate L1.
    pose proof (Vm 0 0 ltac:(lia) ltac:(lia)) as V00. pose proof (Vm 0 1 ltac:(lia) ltac:(lia)) as V01.
    pose proof (Vm 1 0 ltac:(lia) ltac:(lia)) as V10. pose proof (Vm 1 1 ltac:(lia) ltac:(lia)) as V11.
    cbn in V00, V01, V10, V11. subst. unfold W, kron, wings_removed; cbn.
    repeat f_equal; ring.
Qed.
