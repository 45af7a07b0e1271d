From Verif Require Import Base SortModel SortProofs GIndexModel GIndexProofs LatModel LatProofs GSphereModel.
From Coq Require Import Lra Psatz.
Open Scope R_scope.

Lemma rleb_spec x y : rleb x y = true <-> x <= y.
Proof. unfold rleb. destruct (Rle_dec x y); split; intros; try discriminate; auto. Qed.
Lemma rleb_false x y : rleb x y = false <-> y < x.
Proof. unfold rleb. destruct (Rle_dec x y); split; intros; try discriminate; auto; lra. Qed.

Lemma g_norm2_cart P L v : mk_lattice P = Ok L ->
  g_norm2 L v = vdot (cryst2cart L v) (cryst2cart L v).
Proof.
  intros H. pose proof (dot_cart P L 0 v v H) as D. cbn in D. injection D as D. exact D.
Qed.

Lemma in_dim_range n x : In x (dim_range n) <-> dim_ok n x = true.
Proof. unfold dim_range, dim_ok. rewrite in_zrange. lia. Qed.

Lemma in_grid_points sh g : In g (grid_points sh) <-> g_ok sh g = true.
Proof.
  destruct sh as [[n1 n2] n3], g as [[i j] k]. unfold grid_points, g_ok.
  rewrite in_flat_map. split.
  - intros (i' & Hi & H). apply in_flat_map in H as (j' & Hj & H).
    apply in_map_iff in H as (k' & [= -> -> ->] & Hk).
    apply in_dim_range in Hi, Hj, Hk. now rewrite Hi, Hj, Hk.
  - intros H. apply andb_prop in H as [H H3]. apply andb_prop in H as [H1 H2].
    exists i. split; [now apply in_dim_range|]. apply in_flat_map. exists j.
    split; [now apply in_dim_range|]. apply in_map_iff. exists k. split; [reflexivity|now apply in_dim_range].
Qed.

Lemma NoDup_app_intro {A} (l1 l2 : list A) :
  NoDup l1 -> NoDup l2 -> (forall x, In x l1 -> In x l2 -> False) -> NoDup (l1 ++ l2).
Proof.
  intros H1 H2 H. induction H1 as [|x l Hx Hl IH]; [exact H2|]. cbn. constructor.
  - rewrite in_app_iff. intros [?|?]; [contradiction|]. eapply H; [now left|eassumption].
  - apply IH. intros y Hy. apply H. now right.
Qed.

Lemma flat_map_NoDup {A B} (f : A -> list B) l :
  NoDup l -> (forall x, In x l -> NoDup (f x)) ->
  (forall x y b, In x l -> In y l -> In b (f x) -> In b (f y) -> x = y) -> NoDup (flat_map f l).
Proof.
  induction l as [|x l IH]; intros Hn Hf Hd; [constructor|]. cbn.
  inversion_clear Hn as [|? ? Hx Hl]. apply NoDup_app_intro.
  - apply Hf. now left.
  - apply IH; [exact Hl| |]; intros; [apply Hf; now right|]. eapply Hd; try eassumption; now right.
  - intros b Hb Hb'. apply in_flat_map in Hb' as (y & Hy & Hby).
    assert (x = y) by (eapply Hd; [now left|now right|exact Hb|exact Hby]). subst. contradiction.
Qed.

Lemma grid_points_NoDup sh : NoDup (grid_points sh).
Proof.
  destruct sh as [[n1 n2] n3]. unfold grid_points.
  apply flat_map_NoDup; [apply zrange_NoDup| |].
  - intros i _. apply flat_map_NoDup; [apply zrange_NoDup| |].
    + intros j _. apply FinFun.Injective_map_NoDup; [|apply zrange_NoDup]. intros a b [=]. assumption.
    + intros a b t _ _ Ha Hb. apply in_map_iff in Ha as (? & <- & _), Hb as (? & [=] & _). congruence.
  - intros a b t _ _ Ha Hb. apply in_flat_map in Ha as (? & _ & Ha), Hb as (? & _ & Hb).
    apply in_map_iff in Ha as (? & <- & _), Hb as (? & [=] & _). congruence.
Qed.

Lemma rmax_list_ge x l : x <= rmax_list x l.
Proof.
  revert x; induction l as [|y l IH]; intros x; cbn; [lra|].
  eapply Rle_trans; [apply Rmax_l|apply IH].
Qed.
Lemma rmax_list_in x l y : In y l -> y <= rmax_list x l.
Proof.
  revert x; induction l as [|z l IH]; intros x H; [contradiction|]. cbn. destruct H as [->|H].
  - eapply Rle_trans; [apply Rmax_r|apply rmax_list_ge].
  - now apply IH.
Qed.
Lemma ramax_in l y : In y l -> y <= ramax l.
Proof.
  destruct l as [|x l]; [contradiction|]. cbn. intros [->|H]; [apply rmax_list_ge|now apply rmax_list_in].
Qed.
Lemma rmax_list_is x l : rmax_list x l = x \/ In (rmax_list x l) l.
Proof.
  revert x; induction l as [|z l IH]; intros x; cbn; [now left|].
  destruct (IH (Rmax x z)) as [E|H]; [|now right; right].
  rewrite E. unfold Rmax. destruct (Rle_dec x z); [now right; left|now left].
Qed.
Lemma ramax_is l : l <> [] -> In (ramax l) l.
Proof.
  destruct l as [|x l]; [congruence|]. intros _. cbn. destruct (rmax_list_is x l) as [E|H]; auto.
Qed.

(** The meaning of a successful construction. *)
Lemma gspace_new_inv P U unit_ ecut arg s :
  mk_ulattice unit_ P = Ok U -> gspace_new U ecut arg = Ok s ->
  0 < ecut /\ sp_ecut s = ecut /\ sp_lat s = U
  /\ NoDup (gs_cryst (sp_base s))
  /\ (forall sh, arg = Some sh -> gs_shape (sp_base s) = sh)
  /\ (arg = None -> exists m, minimal_grid_shape (u_lat U) ecut = Ok m
                              /\ gs_shape (sp_base s) = optimal_grid_shape m)
  /\ (forall g, In g (gs_cryst (sp_base s)) <->
       (g_ok (gs_shape (sp_base s)) g = true /\
        vdot (cryst2cart (u_lat U) (gvec g)) (cryst2cart (u_lat U) (gvec g)) <= 2 * ecut))
  /\ StronglySorted Z.le
       (map (fun g => round_key (vdot (cryst2cart (u_lat U) (gvec g)) (cryst2cart (u_lat U) (gvec g)) / unit_))
            (take (0,0,0)%Z (gs_cryst (sp_base s)) (gs_idxsort (sp_base s)))).
Proof.
  unfold mk_ulattice. destruct (mk_lattice P) as [L|e] eqn:EL; [|discriminate].
  cbn [rmap]. intros [= <-]. unfold gspace_new. cbn [u_lat u_unit].
  destruct (rleb ecut 0) eqn:E0; [discriminate|]. apply rleb_false in E0.
  destruct (match arg with None => _ | Some _ => _ end) as [sh|e] eqn:Esh; [|discriminate].
  cbn [bind].
  set (pts := grid_points sh).
  destruct (rleb _ ecut) eqn:Ek; [discriminate|].
  set (icut := filter _ pts). destruct (Z.of_nat (length icut) <? 2)%Z; [discriminate|].
  set (ord := argsort Z.leb _). intros Hb.
  destruct (gspace_base sh (take (0,0,0)%Z icut ord)) as [b|e] eqn:EB; [|discriminate].
  cbn [bind] in Hb. injection Hb as <-. cbn [sp_ecut sp_lat sp_base].
  pose proof (gspace_base_spec _ _ _ EB) as (HP & HN & _ & _ & HT & _ & _ & _ & _ & _ & _ & HS).
  assert (Hord : Permutation ord (seq 0 (length icut))).
  { unfold ord. eapply Permutation_trans; [apply argsort_perm|]. now rewrite map_length. }
  assert (Htake : Permutation (take (0,0,0)%Z icut ord) icut) by now apply take_perm.
  rewrite HS. repeat split; try reflexivity; try assumption.
  - eapply Permutation_NoDup; [symmetry; exact HP|exact HN].
  - intros sh' ->. destruct (negb (shape_ok sh')); [discriminate|].
    destruct (check_grid_shape L ecut sh'); [|discriminate]. cbn in Esh. congruence.
  - intros ->. destruct (minimal_grid_shape L ecut) as [m|] eqn:Em; [|discriminate]. cbn in Esh.
    exists m. split; congruence.
  - apply (Permutation_in _ HP), (Permutation_in _ Htake), filter_In in H as [H _]. now apply in_grid_points.
  - apply (Permutation_in _ HP), (Permutation_in _ Htake), filter_In in H as [_ H].
    apply rleb_spec in H. now rewrite (g_norm2_cart P) in H by exact EL.
  - intros [H1 H2]. apply (Permutation_in _ (Permutation_sym HP)), (Permutation_in _ (Permutation_sym Htake)).
    apply filter_In. split; [now apply in_grid_points|]. apply rleb_spec.
    now rewrite (g_norm2_cart P) by exact EL.
  - rewrite HT.
    set (key := fun g => round_key (g_norm2 L (gvec g) / unit_)).
    replace (map _ (take (0,0,0)%Z icut ord)) with (take (key (0,0,0)%Z) (map key icut) ord).
    + eapply StronglySorted_impl; [|apply (take_argsort_sorted Z.leb)].
      * cbn. intros x y Hxy. lia.
      * intros x y. lia.
      * intros x y z. lia.
    + rewrite take_map. apply map_ext. intros g. unfold key. now rewrite (g_norm2_cart P) by exact EL.
Qed.

(** Conversely: when the construction succeeds. *)
Lemma gspace_new_total P U unit_ ecut arg sh :
  mk_ulattice unit_ P = Ok U -> 0 < ecut -> shape_ok sh = true ->
  (arg = Some sh \/ (arg = None /\ exists m, minimal_grid_shape (u_lat U) ecut = Ok m /\ sh = optimal_grid_shape m)) ->
  (exists g, g_ok sh g = true /\ 2 * ecut < vdot (cryst2cart (u_lat U) (gvec g)) (cryst2cart (u_lat U) (gvec g))) ->
  (exists g h, g <> h /\ (forall x, x = g \/ x = h -> g_ok sh x = true /\
       vdot (cryst2cart (u_lat U) (gvec x)) (cryst2cart (u_lat U) (gvec x)) <= 2 * ecut)) ->
  exists s, gspace_new U ecut arg = Ok s.
Proof.
  unfold mk_ulattice. destruct (mk_lattice P) as [L|e] eqn:EL; [|discriminate].
  cbn [rmap]. intros [= <-] He Hsh Harg (g & Hg & Hgn) (p & q & Hpq & Hin). cbn [u_lat] in *.
  unfold gspace_new. cbn [u_lat u_unit].
  destruct (rleb ecut 0) eqn:E0; [apply rleb_spec in E0; lra|].
  assert (Esh : match arg with
       | Some sh => if negb (shape_ok sh) then Err ValueError else do _ <- check_grid_shape L ecut sh; Ok sh
       | None => do m <- minimal_grid_shape L ecut; Ok (optimal_grid_shape m)
       end = Ok sh).
  { destruct Harg as [->|[-> (m & Em & ->)]].
    - rewrite Hsh. cbn [negb]. unfold check_grid_shape, minimal_grid_shape. rewrite E0. cbn [bind].
      rewrite Hsh. cbn [assert_ bind]. rewrite !Z.ltb_irrefl. reflexivity.
    - rewrite Em. reflexivity. }
  rewrite Esh. cbn [bind]. clear Esh.
  destruct (rleb _ ecut) eqn:Ek.
  { exfalso. apply rleb_spec in Ek.
    assert (g_norm2 L (gvec g) <= ramax (map (fun g => g_norm2 L (gvec g)) (grid_points sh))).
    { apply ramax_in, in_map_iff. exists g. split; [reflexivity|now apply in_grid_points]. }
    rewrite (g_norm2_cart P) in H by exact EL. lra. }
  set (icut := filter _ (grid_points sh)).
  assert (Hm : forall x, x = p \/ x = q -> In x icut).
  { intros x Hx. destruct (Hin x Hx). apply filter_In. split; [now apply in_grid_points|].
    apply rleb_spec. now rewrite (g_norm2_cart P) by exact EL. }
  assert (Hl : (2 <= length icut)%nat).
  { change 2%nat with (length [p; q]). apply NoDup_incl_length.
    - constructor; [intros [H|[]]; congruence|]. constructor; [intros []|constructor].
    - intros x [<-|[<-|[]]]; apply Hm; auto. }
  destruct (Z.ltb_spec (Z.of_nat (length icut)) 2); [lia|].
  set (ord := argsort Z.leb _).
  assert (Hord : Permutation ord (seq 0 (length icut))).
  { unfold ord. eapply Permutation_trans; [apply argsort_perm|]. now rewrite map_length. }
  assert (Htake : Permutation (take (0,0,0)%Z icut ord) icut) by now apply take_perm.
  destruct (gspace_base_total sh (take (0,0,0)%Z icut ord)) as (b & Eb).
  - exact Hsh.
  - apply forallb_forall. intros x Hx. apply (Permutation_in _ Htake), filter_In in Hx as [Hx _].
    now apply in_grid_points.
  - eapply Permutation_NoDup; [symmetry; exact Htake|]. apply NoDup_filter, grid_points_NoDup.
  - intros E. apply Permutation_length in Htake. rewrite E in Htake.
    assert (X : 0%nat = @length vec3 icut) by exact Htake. lia.
  - rewrite Eb. eexists. reflexivity.
Qed.

(** Bad cutoffs are refused. *)
Lemma gspace_new_rejects U ecut arg : ecut <= 0 -> gspace_new U ecut arg = Err ValueError.
Proof. intros H. unfold gspace_new. apply rleb_spec in H. now rewrite H. Qed.

(** GkSpace. *)
Lemma filter_map_swap {A B} (f : B -> bool) (g : A -> B) l :
  filter f (map g l) = map g (filter (fun x => f (g x)) l).
Proof.
  induction l as [|x l IH]; [reflexivity|]. cbn. destruct (f (g x)); cbn; now rewrite IH.
Qed.

Lemma take_filter_seq {A} (d : A) (f : A -> bool) l :
  take d l (filter (fun i => f (nth i l d)) (seq 0 (length l))) = filter f l.
Proof.
  induction l as [|x l IH]; [reflexivity|]. cbn [length seq].
  rewrite <- seq_shift. cbn [filter].
  rewrite (filter_map_swap (fun i => f (nth i (x :: l) d)) S).
  change (fun x0 => f (nth (S x0) (x :: l) d)) with (fun x0 => f (nth x0 l d)).
  change (f (nth 0 (x :: l) d)) with (f x).
  rewrite <- IH. unfold take. destruct (f x); cbn [map]; rewrite map_map; reflexivity.
Qed.

Lemma gkspace_new_inv P U unit_ ecut arg G k ew b idx :
  mk_ulattice unit_ P = Ok U -> gspace_new U ecut arg = Ok G ->
  gkspace_new G k ew = Ok (b, idx) ->
  let e := match ew with None => ecut / 4 | Some e => e end in
  NoDup (gs_cryst b) /\ gs_shape b = gs_shape (sp_base G)
  /\ (forall g, In g (gs_cryst b) <->
        (In g (gs_cryst (sp_base G)) /\
         vdot (cryst2cart (u_lat U) (vadd (gvec g) k)) (cryst2cart (u_lat U) (vadd (gvec g) k)) <= 2 * e))
  /\ take (0,0,0)%Z (gs_cryst b) (gs_idxsort b)
     = take (0,0,0)%Z (take (0,0,0)%Z (gs_cryst (sp_base G)) (gs_idxsort (sp_base G))) idx.
Proof.
  intros HU HG. pose proof HG as HG'.
  apply (gspace_new_inv P U unit_) in HG as (_ & He & HL & HN & _ & _ & _ & _); [|exact HU].
  unfold gspace_new in HG'.
  assert (HT : exists gs sh, gspace_base sh gs = Ok (sp_base G)).
  { destruct (rleb ecut 0); [discriminate|].
    destruct (match arg with None => _ | Some _ => _ end) as [sh|?]; [|discriminate]. cbn [bind] in HG'.
    destruct (rleb _ ecut); [discriminate|]. destruct (_ <? 2)%Z; [discriminate|].
    match type of HG' with context[gspace_base ?a ?b] => destruct (gspace_base a b) as [bb|] eqn:EB; [|discriminate] end.
    cbn in HG'. injection HG' as <-. cbn. eexists. eexists. exact EB. }
  destruct HT as (gs0 & sh0 & HB0). clear HG'.
  apply gspace_base_spec in HB0 as (HP0 & HN0 & _ & _ & HT0 & _ & _ & _ & _ & _ & _ & _).
  unfold gkspace_new. rewrite HL, He, HT0.
  unfold mk_ulattice in HU. destruct (mk_lattice P) as [L|] eqn:EL; [|discriminate]. cbn in HU. injection HU as <-.
  cbn [u_lat]. set (e := match ew with None => _ | Some _ => _ end).
  set (keep := fun g => rleb (g_norm2 L (vadd (gvec g) k)) (2 * e)).
  set (ix := filter _ _). intros H.
  destruct (gspace_base (gs_shape (sp_base G)) (take (0,0,0)%Z gs0 ix)) as [b'|] eqn:EB; [|discriminate].
  cbn in H. injection H as <- <-.
  apply gspace_base_spec in EB as (HP & HNb & _ & _ & HT & _ & _ & _ & _ & _ & _ & HS).
  assert (EQ : take (0,0,0)%Z gs0 ix = filter keep gs0) by exact (take_filter_seq (0,0,0)%Z keep gs0).
  rewrite EQ in HP, HNb, HT.
  repeat split.
  - eapply Permutation_NoDup; [symmetry; exact HP|exact HNb].
  - exact HS.
  - apply (Permutation_in _ HP), filter_In in H as [H _]. eapply Permutation_in; [symmetry; exact HP0|exact H].
  - apply (Permutation_in _ HP), filter_In in H as [_ H]. apply rleb_spec in H.
    now rewrite (g_norm2_cart P) in H by exact EL.
  - intros [H1 H2]. apply (Permutation_in _ (Permutation_sym HP)), filter_In.
    split; [eapply Permutation_in; [exact HP0|exact H1]|]. apply rleb_spec.
    now rewrite (g_norm2_cart P) by exact EL.
  - rewrite HT, <- EQ. reflexivity.
Qed.

(** Minimal grids contain the sphere: Cauchy-Schwarz. *)
Lemma cauchy_schwarz u v : Rabs (vdot u v) <= vnorm u * vnorm v.
Proof.
  unfold vnorm. rewrite <- sqrt_mult by apply vdot_nonneg.
  rewrite <- sqrt_Rsqr_abs. apply sqrt_le_1_alt. unfold Rsqr.
  destruct u as [a b c], v as [d e f]. vec_unfold.
  pose proof (Rle_0_sqr (a * e - b * d)). pose proof (Rle_0_sqr (a * f - c * d)).
  pose proof (Rle_0_sqr (b * f - c * e)). unfold Rsqr in *. nra.
Qed.

Lemma comp1 P v : vdot (mv P v) (vcross (c2 P) (c3 P)) = vx v * mdet P.
Proof. vec_destruct. vec_unfold. ring. Qed.
Lemma comp2 P v : vdot (mv P v) (vcross (c1 P) (c3 P)) = - (vy v * mdet P).
Proof. vec_destruct. vec_unfold. ring. Qed.
Lemma comp3 P v : vdot (mv P v) (vcross (c1 P) (c2 P)) = vz v * mdet P.
Proof. vec_destruct. vec_unfold. ring. Qed.

Lemma vnorm_nonneg v : 0 <= vnorm v.
Proof. apply sqrt_pos. Qed.

Lemma comp_bound omega (t : R) w d :
  d <> 0 -> 0 < vnorm w -> Rabs (t * d) <= omega * vnorm w ->
  Rabs t <= omega / (Rabs d / vnorm w).
Proof.
  intros Hd Hw H. rewrite Rabs_mult in H. pose proof (Rabs_pos_lt d Hd) as Hp.
  replace (omega / (Rabs d / vnorm w)) with (omega * vnorm w / Rabs d) by (field; split; lra).
  apply Rmult_le_reg_r with (Rabs d); [exact Hp|].
  replace (omega * vnorm w / Rabs d * Rabs d) with (omega * vnorm w) by (field; lra). exact H.
Qed.

Lemma dim_ok_bound i x : Rabs (IZR i) <= x -> dim_ok (2 * rfloor x + 1) i = true.
Proof.
  intros H. pose proof (rfloor_spec x) as [H1 H2].
  assert (IZR i < IZR (rfloor x + 1)) by (rewrite plus_IZR; pose proof (Rle_abs (IZR i)); lra).
  assert (IZR (- i) < IZR (rfloor x + 1)).
  { rewrite plus_IZR, opp_IZR. pose proof (Rle_abs (- IZR i)). rewrite Rabs_Ropp in *. lra. }
  apply lt_IZR in H0, H3. unfold dim_ok. lia.
Qed.

Lemma vnorm_pos_of_det v w d : vdot v w = d -> d <> 0 -> 0 < vnorm w.
Proof.
  intros E Hd. destruct (Rle_lt_or_eq_dec 0 (vnorm w) (vnorm_nonneg w)) as [H|H]; [exact H|].
  exfalso. pose proof (cauchy_schwarz v w) as C. rewrite <- H, Rmult_0_r, E in C.
  pose proof (Rabs_pos_lt d Hd). lra.
Qed.

Lemma minimal_contains P L ecut m g :
  mk_lattice P = Ok L -> minimal_grid_shape L ecut = Ok m ->
  vdot (cryst2cart L (gvec g)) (cryst2cart L (gvec g)) <= 2 * ecut ->
  g_ok m g = true /\ shape_ok m = true.
Proof.
  intros HL Hm Hg. unfold minimal_grid_shape in Hm. destruct (rleb ecut 0) eqn:E0; [discriminate|].
  apply rleb_false in E0.
  pose proof (mk_lattice_ok _ _ HL) as (D & HP & _ & _ & HV).
  apply Ok_inj in Hm. subst m. rewrite HV, HP.
  set (om := sqrt (2 * ecut)).
  assert (Hn : vnorm (mv P (gvec g)) <= om).
  { unfold vnorm, om. apply sqrt_le_1_alt. unfold cryst2cart in Hg. now rewrite HP in Hg. }
  destruct g as [[i j] k].
  assert (B : forall w t, vdot (mv P (gvec (i,j,k))) w = t -> Rabs t <= om * vnorm w).
  { intros w t <-. eapply Rle_trans; [apply cauchy_schwarz|].
    apply Rmult_le_compat_r; [apply vnorm_nonneg|exact Hn]. }
  assert (Hom : 0 <= om) by apply sqrt_pos.
  assert (P1 : 0 < vnorm (vcross (c2 P) (c3 P))) by (eapply (vnorm_pos_of_det (c1 P)); [reflexivity|exact D]).
  assert (P2 : 0 < vnorm (vcross (c1 P) (c3 P))).
  { eapply (vnorm_pos_of_det (c2 P)); [|exact (Ropp_neq_0_compat _ D)]. vec_destruct. vec_unfold. ring. }
  assert (P3 : 0 < vnorm (vcross (c1 P) (c2 P))).
  { eapply (vnorm_pos_of_det (c3 P)); [|exact D]. vec_destruct. vec_unfold. ring. }
  assert (F1 : Rabs (IZR i) <= om / (Rabs (mdet P) / vnorm (vcross (c2 P) (c3 P)))).
  { apply comp_bound; try assumption. apply B. now rewrite comp1. }
  assert (F2 : Rabs (IZR j) <= om / (Rabs (mdet P) / vnorm (vcross (c1 P) (c3 P)))).
  { apply comp_bound; try assumption. rewrite <- Rabs_Ropp. apply B. now rewrite comp2. }
  assert (F3 : Rabs (IZR k) <= om / (Rabs (mdet P) / vnorm (vcross (c1 P) (c2 P)))).
  { apply comp_bound; try assumption. apply B. now rewrite comp3. }
  assert (NN : forall w, 0 < vnorm w -> (0 <= rfloor (om / (Rabs (mdet P) / vnorm w)))%Z).
  { intros w Hw. pose proof (rfloor_spec (om / (Rabs (mdet P) / vnorm w))) as [_ H].
    assert (0 <= om / (Rabs (mdet P) / vnorm w)).
    { apply Rle_mult_inv_pos; [exact Hom|]. apply Rdiv_lt_0_compat; [now apply Rabs_pos_lt|exact Hw]. }
    assert (IZR 0 < IZR (rfloor (om / (Rabs (mdet P) / vnorm w)) + 1)) by (rewrite plus_IZR; lra).
    apply lt_IZR in H1. lia. }
  split.
  - cbv beta iota delta [g_ok]. rewrite (dim_ok_bound i), (dim_ok_bound j), (dim_ok_bound k) by assumption. reflexivity.
  - pose proof (NN _ P1). pose proof (NN _ P2). pose proof (NN _ P3). unfold shape_ok. lia.
Qed.

Lemma dim_ok_mono n m i : (n <= m)%Z -> dim_ok n i = true -> dim_ok m i = true.
Proof. unfold dim_ok. lia. Qed.

Lemma optimal_dim_z_ge n : (0 < n)%Z -> (n <= optimal_dim_z n)%Z.
Proof.
  intros H. destruct (optimal_dim_spec n H) as (m & Hm & _ & _ & F).
  unfold optimal_dim_z. rewrite F by lia. lia.
Qed.

Lemma optimal_contains m g : shape_ok m = true -> g_ok m g = true ->
  g_ok (optimal_grid_shape m) g = true /\ shape_ok (optimal_grid_shape m) = true.
Proof.
  destruct m as [[a b] c], g as [[i j] k]. intros Hs Hg. apply shape_ok_pos in Hs as (H1 & H2 & H3).
  unfold g_ok in Hg. apply andb_prop in Hg as [Hg G3]. apply andb_prop in Hg as [G1 G2].
  pose proof (optimal_dim_z_ge a H1). pose proof (optimal_dim_z_ge b H2). pose proof (optimal_dim_z_ge c H3).
  split.
  - unfold optimal_grid_shape, g_ok.
    rewrite (dim_ok_mono a), (dim_ok_mono b), (dim_ok_mono c) by assumption. reflexivity.
  - apply shape_ok_pos. lia.
Qed.

(** With the default grid nothing of the sphere is lost. *)
Lemma default_grid_complete P U unit_ ecut s :
  mk_ulattice unit_ P = Ok U -> gspace_new U ecut None = Ok s ->
  forall g, In g (gs_cryst (sp_base s)) <->
    vdot (cryst2cart (u_lat U) (gvec g)) (cryst2cart (u_lat U) (gvec g)) <= 2 * ecut.
Proof.
  intros HU HG g. pose proof HG as HG'.
  apply (gspace_new_inv P U unit_) in HG' as (_ & _ & _ & _ & _ & HM & HI & _); [|exact HU].
  rewrite HI. split; [tauto|]. intros H. split; [|exact H].
  destruct (HM eq_refl) as (m & Em & ->).
  unfold mk_ulattice in HU. destruct (mk_lattice P) as [L|] eqn:EL; [|discriminate]. cbn in HU. injection HU as <-.
  cbn [u_lat] in *. destruct (minimal_contains P L ecut m g EL Em H). now apply optimal_contains.
Qed.

(** check_grid_shape never complains about a grid that is too small. *)
Lemma check_grid_shape_accepts_all L ecut sh : 0 < ecut -> shape_ok sh = true ->
  check_grid_shape L ecut sh = Ok tt.
Proof.
  intros He Hs. unfold check_grid_shape, minimal_grid_shape.
  destruct (rleb ecut 0) eqn:E; [apply rleb_spec in E; lra|]. cbn [bind].
  rewrite Hs. cbn [assert_ bind]. now rewrite !Z.ltb_irrefl.
Qed.

(** A simple cubic lattice, unit length 1. *)
Lemma cubic_det : mdet mid <> 0.
Proof. rewrite mdet_mid. lra. Qed.
Lemma cubic_norm L a b c : primvec L = mid ->
  vdot (cryst2cart L (gvec (a,b,c))) (cryst2cart L (gvec (a,b,c)))
  = IZR (a * a + b * b + c * c).
Proof.
  intros H. unfold cryst2cart. rewrite H, mv_mid. unfold gvec, vdot. cbn.
  now rewrite !plus_IZR, !mult_IZR.
Qed.

Lemma cubic_min8 L : mk_lattice mid = Ok L -> minimal_grid_shape L 8 = Ok (9, 9, 9)%Z.
Proof.
  intros EL. unfold minimal_grid_shape. destruct (rleb 8 0) eqn:E; [apply rleb_spec in E; lra|].
  pose proof (mk_lattice_ok _ _ EL) as (_ & HP & _ & _ & HV). rewrite HV, HP, mdet_mid, Rabs_R1.
  assert (S16 : sqrt (2 * 8) = 4).
  { replace (2 * 8) with (4 * 4) by lra. apply sqrt_square. lra. }
  assert (N1 : vnorm (vcross (c2 mid) (c3 mid)) = 1).
  { unfold vnorm. vec_unfold. replace (_ + _ + _) with 1 by ring. apply sqrt_1. }
  assert (N2 : vnorm (vcross (c1 mid) (c3 mid)) = 1).
  { unfold vnorm. vec_unfold. replace (_ + _ + _) with 1 by ring. apply sqrt_1. }
  assert (N3 : vnorm (vcross (c1 mid) (c2 mid)) = 1).
  { unfold vnorm. vec_unfold. replace (_ + _ + _) with 1 by ring. apply sqrt_1. }
  rewrite N1, N2, N3, S16. replace (rfloor (4 / (1 / 1))) with 4%Z; [reflexivity|].
  symmetry. apply rfloor_unique. lra.
Qed.

Lemma default_grid_witness : exists U s, mk_ulattice 1 mid = Ok U /\ gspace_new U 8 None = Ok s.
Proof.
  destruct (mk_lattice_iff mid) as [_ K]. destruct (K cubic_det) as (L & EL & PL).
  assert (HU : mk_ulattice 1 mid = Ok (MkULattice 1 L)) by (unfold mk_ulattice; now rewrite EL).
  destruct (gspace_new_total mid (MkULattice 1 L) 1 8 None (9,9,9)%Z HU) as (s & Es).
  - lra.
  - reflexivity.
  - right. split; [reflexivity|]. exists (9,9,9)%Z. split; [now apply cubic_min8|reflexivity].
  - exists (3,4,4)%Z. split; [reflexivity|]. cbn [u_lat]. rewrite cubic_norm by exact PL.
    replace (2 * 8) with (IZR 16) by (cbn; lra). apply IZR_lt. lia.
  - exists (0,0,0)%Z, (1,0,0)%Z. split; [discriminate|]. intros x Hx. cbn [u_lat].
    destruct Hx as [-> | ->]; (split; [reflexivity|]); rewrite cubic_norm by exact PL; cbn; lra.
  - exists (MkULattice 1 L), s. now split.
Qed.

Lemma small_grid_witness :
  exists U s, mk_ulattice 1 mid = Ok U
    /\ minimal_grid_shape (u_lat U) 8 = Ok (9, 9, 9)%Z
    /\ gspace_new U 8 (Some (7, 9, 9)%Z) = Ok s
    /\ vdot (cryst2cart (u_lat U) (gvec (4,0,0)%Z)) (cryst2cart (u_lat U) (gvec (4,0,0)%Z)) <= 2 * 8
    /\ ~ In (4,0,0)%Z (gs_cryst (sp_base s)).
Proof.
  destruct (mk_lattice_iff mid) as [_ K]. destruct (K cubic_det) as (L & EL & PL).
  assert (HU : mk_ulattice 1 mid = Ok (MkULattice 1 L)) by (unfold mk_ulattice; now rewrite EL).
  destruct (gspace_new_total mid (MkULattice 1 L) 1 8 (Some (7,9,9)%Z) (7,9,9)%Z HU) as (s & Es).
  - lra.
  - reflexivity.
  - now left.
  - exists (3,4,4)%Z. split; [reflexivity|]. cbn [u_lat]. rewrite cubic_norm by exact PL.
    replace (2 * 8) with (IZR 16) by (cbn; lra). apply IZR_lt. lia.
  - exists (0,0,0)%Z, (1,0,0)%Z. split; [discriminate|]. intros x Hx. cbn [u_lat].
    destruct Hx as [-> | ->]; (split; [reflexivity|]); rewrite cubic_norm by exact PL; cbn; lra.
  - exists (MkULattice 1 L), s. split; [exact HU|]. cbn [u_lat]. split; [|split; [exact Es|split]].
    + unfold minimal_grid_shape. destruct (rleb 8 0) eqn:E; [apply rleb_spec in E; lra|].
      pose proof (mk_lattice_ok _ _ EL) as (_ & HP & _ & _ & HV). rewrite HV, HP, mdet_mid, Rabs_R1.
      assert (S16 : sqrt (2 * 8) = 4).
      { replace (2 * 8) with (4 * 4) by lra. apply sqrt_square. lra. }
      assert (N1 : vnorm (vcross (c2 mid) (c3 mid)) = 1).
      { unfold vnorm. vec_unfold. replace (_ + _ + _) with 1 by ring. apply sqrt_1. }
      assert (N2 : vnorm (vcross (c1 mid) (c3 mid)) = 1).
      { unfold vnorm. vec_unfold. replace (_ + _ + _) with 1 by ring. apply sqrt_1. }
      assert (N3 : vnorm (vcross (c1 mid) (c2 mid)) = 1).
      { unfold vnorm. vec_unfold. replace (_ + _ + _) with 1 by ring. apply sqrt_1. }
      rewrite N1, N2, N3, S16. replace (rfloor (4 / (1 / 1))) with 4%Z; [reflexivity|].
      symmetry. apply rfloor_unique. lra.
    + rewrite cubic_norm by exact PL. cbn. lra.
    + intros H. pose proof (gspace_new_inv mid _ 1 8 _ s HU Es) as (_ & _ & _ & _ & HS & _ & HI & _).
      apply HI in H as [H _]. rewrite (HS _ eq_refl) in H. discriminate.
Qed.

(** Finding: the default grid can be refused (cubic, cutoff radius between
    sqrt 3 and 2 lattice spacings): the default 3x3x3 grid fits inside the sphere. *)
Lemma default_grid_can_be_refused :
  exists U, mk_ulattice 1 mid = Ok U /\ gspace_new U (18 / 10) None = Err ValueError.
Proof.
  destruct (mk_lattice_iff mid) as [_ K]. destruct (K cubic_det) as (L & EL & PL).
  assert (HU : mk_ulattice 1 mid = Ok (MkULattice 1 L)) by (unfold mk_ulattice; now rewrite EL).
  exists (MkULattice 1 L). split; [exact HU|].
  assert (EM : minimal_grid_shape L (18/10) = Ok (3,3,3)%Z).
  { unfold minimal_grid_shape. destruct (rleb (18/10) 0) eqn:E; [apply rleb_spec in E; lra|].
    pose proof (mk_lattice_ok _ _ EL) as (_ & HP & _ & _ & HV). rewrite HV, HP, mdet_mid, Rabs_R1.
    assert (N1 : vnorm (vcross (c2 mid) (c3 mid)) = 1).
    { unfold vnorm. vec_unfold. replace (_ + _ + _) with 1 by ring. apply sqrt_1. }
    assert (N2 : vnorm (vcross (c1 mid) (c3 mid)) = 1).
    { unfold vnorm. vec_unfold. replace (_ + _ + _) with 1 by ring. apply sqrt_1. }
    assert (N3 : vnorm (vcross (c1 mid) (c2 mid)) = 1).
    { unfold vnorm. vec_unfold. replace (_ + _ + _) with 1 by ring. apply sqrt_1. }
    rewrite N1, N2, N3.
    assert (S1 : 1 <= sqrt (2 * (18/10)) < 2).
    { split.
      - rewrite <- sqrt_1 at 1. apply sqrt_le_1_alt. lra.
      - apply Rlt_le_trans with (sqrt (2 * 2)); [apply sqrt_lt_1_alt; lra|rewrite sqrt_square; lra]. }
    replace (rfloor (sqrt (2 * (18/10)) / (1 / 1))) with 1%Z; [reflexivity|].
    symmetry. apply rfloor_unique.
    replace (sqrt (2 * (18 / 10)) / (1 / 1)) with (sqrt (2 * (18/10))) by field. lra. }
  unfold gspace_new. cbn [u_lat]. destruct (rleb (18/10) 0) eqn:E; [apply rleb_spec in E; lra|].
  rewrite EM. cbn [bind]. change (optimal_grid_shape (3,3,3)%Z) with (3,3,3)%Z.
  destruct (rleb _ (18/10)) eqn:Ek; [reflexivity|]. exfalso. apply rleb_false in Ek.
  set (l := map _ _) in Ek.
  assert (Hin : In (ramax l) l) by (apply ramax_is; discriminate).
  unfold l in Hin at 2. apply in_map_iff in Hin as ([[a b] c] & E1 & Hg).
  apply in_grid_points in Hg. rewrite (g_norm2_cart mid), cubic_norm in E1 by assumption.
  assert (Hb : (a * a + b * b + c * c <= 3)%Z).
  { unfold g_ok, dim_ok in Hg. change (3 / 2)%Z with 1%Z in Hg. change ((3 + 1) / 2)%Z with 2%Z in Hg.
    assert (Ha : (a = -1 \/ a = 0 \/ a = 1)%Z) by lia.
    assert (Hb : (b = -1 \/ b = 0 \/ b = 1)%Z) by lia.
    assert (Hc : (c = -1 \/ c = 0 \/ c = 1)%Z) by lia.
    destruct Ha as [->|[->| ->]], Hb as [->|[->| ->]], Hc as [->|[->| ->]]; lia. }
  apply IZR_le in Hb. rewrite <- E1 in Ek. lra.
Qed.
