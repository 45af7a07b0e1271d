(** C25: density symmetrisation.  [gs] below is the module's list of G-vectors (g_cryst);
    a density is its list of coefficients, [field_at gs rho r] its value at the point r. *)
From Verif Require Import Base SortModel SortProofs LatModel LatProofs GIndexModel GIndexProofs
  GSphereModel GSphereProofs SymmModel SymmSpec SymmProofs SymmProofs2 SymmProofs3 PropsGSphere CBase.
Open Scope Z_scope.

(** The setting: a G-space of a lattice, the crystal's operations that survive the grid
    filter form a space group of isometries, and the G-vectors are closed under them. *)
Record symm_setting (U : ulattice) (S : gsphere) (ops : list symop) : Prop := {
  ss_lattice : exists P unit_ ecut arg, mk_ulattice unit_ P = Ok U /\ gspace_new U ecut arg = Ok S;
  ss_group : space_group (filter_frac_trans (gs_shape (sp_base S)) ops);
  ss_isometry : forall o, In o (filter_frac_trans (gs_shape (sp_base S)) ops) -> isometry U (recilat_rot o);
  ss_closed : forall o g, In o (filter_frac_trans (gs_shape (sp_base S)) ops) ->
     In g (gs_cryst (sp_base S)) -> In (imv (recilat_rot o) g) (gs_cryst (sp_base S)) }.

(** With the default grid, closure is automatic: the G-vectors are the whole sphere. *)
Theorem C25_default_grid_closed : forall P U unit_ ecut S ops,
  mk_ulattice unit_ P = Ok U -> gspace_new U ecut None = Ok S ->
  space_group (filter_frac_trans (gs_shape (sp_base S)) ops) ->
  (forall o, In o (filter_frac_trans (gs_shape (sp_base S)) ops) -> isometry U (recilat_rot o)) ->
  symm_setting U S ops.
Proof.
  intros P U u e S ops HU HS HG HI. constructor; eauto.
  - now exists P, u, e, None.
  - intros o g Ho Hg. apply (C11_default_grid_complete P U u e S HU HS) in Hg.
    apply (C11_default_grid_complete P U u e S HU HS). unfold len2 in *. now rewrite (HI o Ho g).
Qed.
Print Assumptions C25_default_grid_closed.

Lemma setting_facts U S ops : symm_setting U S ops ->
  shape_ok (gs_shape (sp_base S)) = true
  /\ (forall g, In g (gs_cryst (sp_base S)) -> g_ok (gs_shape (sp_base S)) g = true)
  /\ NoDup (gs_cryst (sp_base S))
  /\ (forall o g, In o (filter_frac_trans (gs_shape (sp_base S)) ops) ->
        round_key (g_norm2 (u_lat (sp_lat S)) (gvec (imv (recilat_rot o) g)))
        = round_key (g_norm2 (u_lat (sp_lat S)) (gvec g))).
Proof.
  intros [(P & u & e & arg & HU & HS) HG HI HC].
  destruct (C09_gspace_is_sphere P U u e arg S HU HS) as (He & _ & EU & HN & _ & _ & Hin & _).
  split; [|split; [|split]].
  - clear - HS. unfold gspace_new in HS. destruct (rleb e 0); [discriminate|].
    match type of HS with bind ?x _ = _ => destruct x as [sh|] eqn:E; [|discriminate] end. cbn [bind] in HS.
    destruct (rleb _ e); [discriminate|]. destruct (_ <? 2); [discriminate|].
    match type of HS with bind ?x _ = _ => destruct x as [b|] eqn:Eb; [|discriminate] end. cbn [bind] in HS.
    injection HS as <-. cbn [sp_base]. apply gspace_base_spec in Eb. destruct Eb as (_ & _ & _ & _ & _ & _ & _ & _ & H & _ & _ & E').
    now rewrite E'.
  - intros g Hg. now apply Hin in Hg.
  - exact HN.
  - intros o g Ho. rewrite EU. unfold mk_ulattice in HU. destruct (mk_lattice P) as [L|] eqn:EL; [|discriminate].
    injection HU as <-. cbn [u_lat]. f_equal. rewrite !(g_norm2_cart P) by assumption. apply (HI o Ho g).
Qed.

(** C25: construction succeeds, publishes the filtered operations, and symmetrising any
    coefficients gives at every G-vector the average over the group of the transported
    coefficients (whatever the output buffer contained). *)
Theorem C25_group_average : forall U S ops, symm_setting U S ops ->
  let gs := gs_cryst (sp_base S) in
  let kept := filter_frac_trans (gs_shape (sp_base S)) ops in
  exists M, symmod_new ops S = Ok (M, kept)
  /\ forall F rho junk, (forall i, (i < length gs)%nat -> rho i = F (nth i gs (0, 0, 0))) ->
     forall i, (i < length gs)%nat -> symmetrize M junk rho i = group_average kept F (nth i gs (0, 0, 0)).
Proof.
  intros U S ops H gs kept. destruct (setting_facts U S ops H) as (H1 & H2 & H3 & H4). destruct H as [_ HG HI HC].
  unfold symmod_new. cbv zeta. fold gs kept.
  rewrite (columns_eq (gs_shape (sp_base S)) gs kept _ H1 H2 H3 HG HC (fun o g Ho _ => H4 o g Ho)).
  cbn [bind]. eexists. split; [reflexivity|]. intros F rho junk HF i Hi. unfold symmetrize. cbn [sm_ops sm_cols].
  apply (symmetrize_arr_eq _ gs kept _ H1 H2 H3 HG HC (fun o g Ho _ => H4 o g Ho) F rho junk i HF Hi).
Qed.
Print Assumptions C25_group_average.

(** Any coefficient list is a function of the G-vector. *)
Lemma as_function gs (rho : nat -> C) : NoDup gs ->
  exists F, forall i, (i < length gs)%nat -> rho i = F (nth i gs (0, 0, 0)).
Proof.
  intros HN. exists (fun g => rho (SymmProofs2.pos gs g)). intros i Hi. f_equal. symmetry. now apply (pos_gat gs HN).
Qed.

(** C25 in real space: the symmetrised density at r is the average over the operations
    r -> W r + t of the density at the image points. *)
Theorem C25_real_space_average : forall U S ops M kept, symm_setting U S ops -> symmod_new ops S = Ok (M, kept) ->
  let gs := gs_cryst (sp_base S) in
  forall rho junk r, field_at gs (symmetrize M junk rho) r
    = (lsum (map (fun o => field_at gs rho (act o r)) kept) / RtoC (INR (length kept)))%C.
Proof.
  intros U S ops M kept H HM gs rho junk r.
  destruct (C25_group_average U S ops H) as (M' & EM & HA). rewrite HM in EM. injection EM as <- ->.
  destruct (setting_facts U S ops H) as (_ & _ & HN & _). destruct H as [_ HG _ HC].
  destruct (as_function gs rho HN) as [F HF].
  rewrite (field_at_lsum gs _ (group_average (filter_frac_trans (gs_shape (sp_base S)) ops) F)) by (intros i Hi; now apply HA).
  rewrite (average_field gs _ HN HG HC). f_equal. f_equal. apply map_ext. intros o. symmetry. now apply field_at_lsum.
Qed.
Print Assumptions C25_real_space_average.

(** C25: the result is invariant under every operation kept. *)
Theorem C25_invariant : forall U S ops M kept, symm_setting U S ops -> symmod_new ops S = Ok (M, kept) ->
  let gs := gs_cryst (sp_base S) in
  forall rho junk o r, In o kept ->
    field_at gs (symmetrize M junk rho) (act o r) = field_at gs (symmetrize M junk rho) r.
Proof.
  intros U S ops M kept H HM gs rho junk o r Ho.
  destruct (C25_group_average U S ops H) as (M' & EM & HA). rewrite HM in EM. injection EM as <- ->.
  destruct (setting_facts U S ops H) as (_ & _ & HN & _). destruct H as [_ HG _ HC].
  destruct (as_function gs rho HN) as [F HF].
  set (A := group_average (filter_frac_trans (gs_shape (sp_base S)) ops) F).
  assert (HA' : forall i, (i < length gs)%nat -> symmetrize M junk rho i = A (nth i gs (0, 0, 0)))
    by (intros i Hi; now apply HA).
  rewrite (field_at_lsum gs _ A (act o r) HA'), (field_at_lsum gs _ A r HA').
  etransitivity; [symmetry; apply (transported_sum gs _ HN HG HC A o r Ho)|]. f_equal. apply map_ext. intros g.
  unfold A. now rewrite (average_invariant _ HG F o g Ho).
Qed.
Print Assumptions C25_invariant.

(** C25: symmetrising twice is symmetrising once. *)
Theorem C25_idempotent : forall U S ops M kept, symm_setting U S ops -> symmod_new ops S = Ok (M, kept) ->
  forall rho j1 j2 j3 i, (i < length (gs_cryst (sp_base S)))%nat ->
    symmetrize M j2 (symmetrize M j1 rho) i = symmetrize M j3 rho i.
Proof.
  intros U S ops M kept H HM rho j1 j2 j3 i Hi.
  destruct (C25_group_average U S ops H) as (M' & EM & HA). rewrite HM in EM. injection EM as <- ->.
  destruct (setting_facts U S ops H) as (_ & _ & HN & _). destruct H as [_ HG _ HC].
  destruct (as_function (gs_cryst (sp_base S)) rho HN) as [F HF].
  set (A := group_average (filter_frac_trans (gs_shape (sp_base S)) ops) F).
  rewrite (HA A (symmetrize M j1 rho) j2) by (auto; intros k Hk; now apply HA).
  rewrite (HA F rho j3 HF i Hi). apply (average_idem _ HG).
Qed.
Print Assumptions C25_idempotent.

(** C25: a density that is already symmetric (as a function of the point) is returned
    unchanged, coefficient by coefficient. *)
Theorem C25_symmetric_unchanged : forall U S ops M kept, symm_setting U S ops -> symmod_new ops S = Ok (M, kept) ->
  let gs := gs_cryst (sp_base S) in
  forall rho junk, (forall o r, In o kept -> field_at gs rho (act o r) = field_at gs rho r) ->
  forall i, (i < length gs)%nat -> symmetrize M junk rho i = rho i.
Proof.
  intros U S ops M kept H HM gs rho junk Hinv i Hi.
  pose proof (C25_real_space_average U S ops M kept H HM rho junk) as HR. cbv zeta in HR. fold gs in HR.
  destruct (C25_group_average U S ops H) as (M' & EM & HA). rewrite HM in EM. injection EM as <- ->.
  destruct (setting_facts U S ops H) as (_ & _ & HN & _). destruct H as [_ HG _ HC].
  fold gs in HN, HC. destruct (as_function gs rho HN) as [F HF].
  set (A := group_average (filter_frac_trans (gs_shape (sp_base S)) ops) F).
  rewrite (HA F rho junk HF i Hi), (HF i Hi). apply (planewaves_independent gs A F HN); [|now apply nth_In].
  intros r. transitivity (field_at gs (symmetrize M junk rho) r);
    [symmetry; apply field_at_lsum; intros k Hk; now apply HA|].
  transitivity (field_at gs rho r); [|apply field_at_lsum; exact HF]. rewrite HR.
  rewrite (map_ext_in _ (fun _ => field_at gs rho r)) by (intros o Ho; now apply Hinv).
  rewrite lsum_const. unfold Cdiv. rewrite (Cmult_comm (RtoC _)), <- Cmult_assoc, Cinv_r by apply (numops_nz _ HG). ring.
Qed.
Print Assumptions C25_symmetric_unchanged.

(** C25: the G = 0 coefficient (the total charge) is kept. *)
Theorem C25_charge_kept : forall U S ops M kept, symm_setting U S ops -> symmod_new ops S = Ok (M, kept) ->
  forall rho junk i, (i < length (gs_cryst (sp_base S)))%nat -> nth i (gs_cryst (sp_base S)) (1, 1, 1) = (0, 0, 0) ->
    symmetrize M junk rho i = rho i.
Proof.
  intros U S ops M kept H HM rho junk i Hi E0.
  destruct (C25_group_average U S ops H) as (M' & EM & HA). rewrite HM in EM. injection EM as <- ->.
  destruct (setting_facts U S ops H) as (_ & _ & HN & _). destruct H as [_ HG _ HC].
  destruct (as_function (gs_cryst (sp_base S)) rho HN) as [F HF].
  rewrite (HA F rho junk HF i Hi), (HF i Hi).
  pose proof (nth_indep (gs_cryst (sp_base S)) (0, 0, 0) (1, 1, 1) Hi) as EN.
  rewrite E0 in EN.
  exact (eq_trans (f_equal (group_average _ F) EN) (eq_trans (average_zero _ HG F) (f_equal F (eq_sym EN)))).
Qed.
Print Assumptions C25_charge_kept.

(** C25: a real, non-negative density stays real and non-negative. *)
Lemma lsum_nonneg l : (forall x, In x l -> (0 <= fst x)%R /\ snd x = 0%R) -> (0 <= fst (lsum l))%R /\ snd (lsum l) = 0%R.
Proof.
  induction l as [|x l IH]; intros H; [cbn; lra|]. destruct IH as [H1 H2]; [intros y Hy; apply H; now right|].
  destruct (H x (or_introl eq_refl)) as [H3 H4]. unfold lsum in *. cbn [fold_right].
  destruct (fold_right Cplus (RtoC 0) l) as [s1 s2], x as [x1 x2]. cbn in *. split; lra.
Qed.
Theorem C25_density_stays_nonnegative : forall U S ops M kept, symm_setting U S ops -> symmod_new ops S = Ok (M, kept) ->
  let gs := gs_cryst (sp_base S) in
  forall rho junk, (forall r, 0 <= fst (field_at gs rho r) /\ snd (field_at gs rho r) = 0)%R ->
  forall r, (0 <= fst (field_at gs (symmetrize M junk rho) r) /\ snd (field_at gs (symmetrize M junk rho) r) = 0)%R.
Proof.
  intros U S ops M kept H HM gs rho junk Hr r. unfold gs in *. rewrite (C25_real_space_average U S ops M kept H HM).
  set (k := length kept).
  destruct (lsum_nonneg (map (fun o => field_at (gs_cryst (sp_base S)) rho (act o r)) kept)) as [H1 H2].
  { intros x Hx. apply in_map_iff in Hx as (o & <- & _). apply Hr. }
  assert (HG : space_group kept).
  { destruct (C25_group_average U S ops H) as (M' & EM & _). rewrite HM in EM. injection EM as _ ->. apply (ss_group _ _ _ H). }
  pose proof (numops_nz _ HG) as Hk.
  assert (Hk' : (0 < INR k)%R).
  { unfold k. destruct kept; [exfalso; apply Hk; reflexivity|]. apply lt_0_INR. cbn. lia. }
  fold k in Hk. assert (E : forall z : C, (z / RtoC (INR k) = (fst z / INR k, snd z / INR k)%R)%C).
  { intros [a b]. unfold Cdiv. rewrite <- RtoC_inv by lra. unfold Cmult, RtoC. cbn. apply C_ext; cbn; unfold Rdiv; ring. }
  rewrite E. cbn [fst snd]. rewrite H2. split; [|unfold Rdiv; ring].
  unfold Rdiv. apply Rmult_le_pos; [assumption|]. left. now apply Rinv_0_lt_compat.
Qed.
Print Assumptions C25_density_stays_nonnegative.

(** C25: the operation list of a crystal is a space group with one operation per rotation,
    for every list spglib may return (also for supercells). *)
Theorem C25_operations_are_a_group : forall D, spglib_dataset D -> space_group (crystal_symm D).
Proof. exact crystal_symm_group. Qed.
Print Assumptions C25_operations_are_a_group.

(** C25: dropping the operations off the FFT grid keeps a group if the rotations map the
    grid to itself, in particular for every cubic grid.  (Translations are exact: within
    symprec of the grid means on the grid.) *)
Theorem C25_filter_keeps_group : forall sh ops, space_group ops ->
  (forall o, In o ops -> (on_grid sh (reallat_trans o) = true <-> grid_translation sh (reallat_trans o))) ->
  (forall o t, In o ops -> grid_translation sh t -> grid_translation sh (imr (reallat_rot o) t)) ->
  space_group (filter_frac_trans sh ops).
Proof. exact filter_group. Qed.
Print Assumptions C25_filter_keeps_group.
Theorem C25_filter_keeps_group_cubic : forall n ops, space_group ops ->
  (forall o, In o ops -> (on_grid (n, n, n) (reallat_trans o) = true <-> grid_translation (n, n, n) (reallat_trans o))) ->
  space_group (filter_frac_trans (n, n, n) ops).
Proof. intros n ops HG H. apply filter_group; auto. intros o t _. apply cubic_compatible. Qed.
Print Assumptions C25_filter_keeps_group_cubic.

(* ---------------- concrete cases ---------------- *)
Lemma rint_IZR k : rint (IZR k) = k.
Proof.
  unfold rint. assert (E : rfloor (IZR k) = k) by (apply rfloor_unique; lra). rewrite E.
  destruct (Rlt_dec (IZR k - IZR k) (1 / 2)); [reflexivity|lra].
Qed.
Lemma on_grid_yes n1 n2 n3 t a b c : (vx t * IZR n1 = IZR a)%R -> (vy t * IZR n2 = IZR b)%R -> (vz t * IZR n3 = IZR c)%R ->
  on_grid (n1, n2, n3) t = true.
Proof.
  intros E1 E2 E3. unfold on_grid. rewrite E1, E2, E3, !rint_IZR.
  replace (V (IZR a - IZR a) (IZR b - IZR b) (IZR c - IZR c)) with (V 0 0 0) by (f_equal; ring). apply tiny_0.
Qed.
Lemma half_off n (x : R) : (x = IZR n + / 2)%R -> (1 / 4 <= (x - IZR (rint x)) * (x - IZR (rint x)))%R.
Proof.
  intros ->. set (k := rint _). destruct (Z_le_gt_dec k n) as [H|H].
  - apply IZR_le in H. nra.
  - assert (H' : n + 1 <= k) by lia. apply IZR_le in H'. rewrite plus_IZR in H'. nra.
Qed.
Lemma on_grid_no n1 n2 n3 t k : (vy t * IZR n2 = IZR k + / 2)%R -> on_grid (n1, n2, n3) t = false.
Proof.
  intros E. apply half_off in E. unfold on_grid, tiny, rleb. destruct (Rle_dec _ symprec) as [H|]; [|reflexivity].
  exfalso. unfold vnorm, vdot in H. cbn [vx vy vz] in H. revert H E.
  set (a := (vx t * IZR n1 - IZR (rint (vx t * IZR n1)))%R).
  set (b := (vy t * IZR n2 - IZR (rint (vy t * IZR n2)))%R).
  set (c := (vz t * IZR n3 - IZR (rint (vz t * IZR n3)))%R). intros H E.
  assert (Hs : (sqrt (1 / 4) <= sqrt (a * a + b * b + c * c))%R) by (apply sqrt_le_1_alt; nra).
  replace (1 / 4)%R with (/ 2 * / 2)%R in Hs by lra. rewrite sqrt_square in Hs by lra. unfold symprec in H. lra.
Qed.

(** A fourfold axis whose square is a twofold axis through another point. *)
Definition r4 : imat := ((0, -1, 0), (1, 0, 0), (0, 0, 1)).
Definition r2 : imat := ((-1, 0, 0), (0, -1, 0), (0, 0, 1)).
Definition r43 : imat := ((0, 1, 0), (-1, 0, 0), (0, 0, 1)).
Definition fourfold : list symop :=
  [MkOp iid (V 0 0 0) (recip iid); MkOp r4 (V (/2) 0 0) (recip r4);
   MkOp r2 (V (/2) (/2) 0) (recip r2); MkOp r43 (V 0 (/2) 0) (recip r43)].
Ltac find_int := first [exists 0 | exists 1 | exists (-1)].
Ltac mod1 := unfold eq_mod1, int_vec, vsub, vadd; cbn;
  first [ exists 0, 0, 0; f_equal; lra | exists 1, 0, 0; f_equal; lra | exists 0, 1, 0; f_equal; lra
        | exists (-1), 0, 0; f_equal; lra | exists 0, (-1), 0; f_equal; lra
        | exists 1, 1, 0; f_equal; lra | exists (-1), (-1), 0; f_equal; lra
        | exists 1, (-1), 0; f_equal; lra | exists (-1), 1, 0; f_equal; lra ].
Lemma fourfold_group : space_group fourfold.
Proof.
  constructor.
  - eexists _, _. split; [reflexivity|]. split; [reflexivity|]. now exists 0, 0, 0.
  - intros o [<-|[<-|[<-|[<-|[]]]]]; cbn; auto.
  - intros o [<-|[<-|[<-|[<-|[]]]]]; reflexivity.
  - cbn. repeat constructor; cbn; intros H; repeat destruct H as [H|H]; try discriminate H; try destruct H.
  - intros o p [<-|[<-|[<-|[<-|[]]]]] [<-|[<-|[<-|[<-|[]]]]];
    first
     [ exists (MkOp iid (V 0 0 0) (recip iid)); split; [now left|]; split; [reflexivity|]; mod1
     | exists (MkOp r4 (V (/2) 0 0) (recip r4)); split; [right; now left|]; split; [reflexivity|]; mod1
     | exists (MkOp r2 (V (/2) (/2) 0) (recip r2)); split; [right; right; now left|]; split; [reflexivity|]; mod1
     | exists (MkOp r43 (V 0 (/2) 0) (recip r43)); split; [do 3 right; now left|]; split; [reflexivity|]; mod1 ].
Qed.

Lemma fourfold_filter n1 n2 n3 : filter_frac_trans (2 * n1, 2 * n2 + 1, n3) fourfold
  = [MkOp iid (V 0 0 0) (recip iid); MkOp r4 (V (/2) 0 0) (recip r4)].
Proof.
  unfold filter_frac_trans, fourfold. cbn [filter reallat_trans].
  rewrite (on_grid_yes _ _ _ (V 0 0 0) 0 0 0) by (cbn [vx vy vz]; ring).
  rewrite (on_grid_yes _ _ _ (V (/2) 0 0) n1 0 0) by (cbn [vx vy vz]; rewrite ?mult_IZR; lra).
  rewrite (on_grid_no _ _ _ (V (/2) (/2) 0) n2) by (cbn [vx vy vz]; rewrite plus_IZR, mult_IZR; lra).
  rewrite (on_grid_no _ _ _ (V 0 (/2) 0) n2) by (cbn [vx vy vz]; rewrite plus_IZR, mult_IZR; lra).
  reflexivity.
Qed.

(** C25 is false for grids that the rotations do not preserve: filtering a space group for
    such a grid (any even-by-odd one here) leaves a set that is not closed, and averaging over it is neither
    idempotent nor invariant. *)
Theorem C25_filter_group_refuted : exists ops, space_group ops /\ forall n1 n2 n3,
  let kept := filter_frac_trans (2 * n1, 2 * n2 + 1, n3) ops in
  ~ space_group kept
  /\ exists F g, group_average kept (group_average kept F) g <> group_average kept F g.
Proof.
  exists fourfold. split; [apply fourfold_group|]. intros n1 n2 n3. cbv zeta. rewrite fourfold_filter. split.
  - intros HG. destruct (sg_closed _ HG (MkOp r4 (V (/2) 0 0) (recip r4)) (MkOp r4 (V (/2) 0 0) (recip r4)))
      as (q & Hq & E & _); [right; now left|right; now left|].
    destruct Hq as [<-|[<-|[]]]; discriminate E.
  - exists (fun g => if vec3_eqb g (1, 0, 0) then RtoC 1 else RtoC 0), (1, 0, 0). intros E.
    apply (f_equal fst) in E. revert E.
    unfold group_average, lsum, transported. cbn -[cis PI Rmult Rplus].
    replace (2 * PI * (1 * 0 + 0 * 0 + 0 * 0))%R with 0%R by ring.
    rewrite !cis_0. unfold Cdiv. cbn. lra.
Qed.
Print Assumptions C25_filter_group_refuted.

(** C25: the operation list is shared and filtered in place, so the operations used for a
    grid depend on the grids used before. *)
Theorem C25_history_refuted : exists ops sh1 sh2, space_group ops
  /\ filter_frac_trans sh2 ops = ops
  /\ filter_frac_trans sh2 (filter_frac_trans sh1 ops) <> filter_frac_trans sh2 ops.
Proof.
  exists fourfold, (2 * 1, 2 * 1 + 1, 1), (2, 2, 2). split; [apply fourfold_group|].
  assert (E : filter_frac_trans (2, 2, 2) fourfold = fourfold).
  { unfold filter_frac_trans, fourfold. cbn [filter reallat_trans].
    rewrite (on_grid_yes _ _ _ (V 0 0 0) 0 0 0) by (cbn [vx vy vz]; ring).
    rewrite (on_grid_yes _ _ _ (V (/2) 0 0) 1 0 0) by (cbn [vx vy vz]; lra).
    rewrite (on_grid_yes _ _ _ (V (/2) (/2) 0) 1 1 0) by (cbn [vx vy vz]; lra).
    rewrite (on_grid_yes _ _ _ (V 0 (/2) 0) 0 1 0) by (cbn [vx vy vz]; lra). reflexivity. }
  split; [exact E|]. rewrite E, fourfold_filter. intros H. apply (f_equal (@length symop)) in H.
  assert (HL : (length (filter_frac_trans (2, 2, 2)%Z [MkOp iid (V 0 0 0) (recip iid); MkOp r4 (V (/2) 0 0) (recip r4)]) <= 2)%nat).
  { unfold filter_frac_trans. cbn [filter]. destruct (on_grid _ _), (on_grid _ _); cbn; lia. }
  rewrite H in HL. cbn in HL. lia.
Qed.
Print Assumptions C25_history_refuted.

(** The same grid again keeps the same operations. *)
Theorem C25_same_grid_again : forall sh ops, filter_frac_trans sh (filter_frac_trans sh ops) = filter_frac_trans sh ops.
Proof.
  intros sh ops. unfold filter_frac_trans. induction ops as [|o ops IH]; [reflexivity|].
  cbn [filter]. destruct (on_grid sh (reallat_trans o)) eqn:E; [|exact IH]. cbn [filter]. now rewrite E, IH.
Qed.
Print Assumptions C25_same_grid_again.

(** A setting with a screw-like threefold operation: cubic lattice, 9x9x9 grid, cutoff 8,
    translations (1/3,1/3,1/3). *)
Definition p3 : imat := ((0, 0, 1), (1, 0, 0), (0, 1, 0)).
Definition p32 : imat := ((0, 1, 0), (0, 0, 1), (1, 0, 0)).
Definition screw : list (imat * rvec) := [(iid, V 0 0 0); (p3, V (/3) (/3) (/3)); (p32, V (2/3) (2/3) (2/3))].
Lemma not_tiny x y z : (1 / 3 <= x)%R -> tiny (V x y z) = false.
Proof.
  intros H. unfold tiny, rleb, vnorm, vdot. cbn [vx vy vz]. destruct (Rle_dec _ _) as [H'|]; [|reflexivity].
  assert (Hs : (sqrt (1 / 3 * (1 / 3)) <= sqrt (x * x + y * y + z * z))%R) by (apply sqrt_le_1_alt; nra).
  rewrite sqrt_square in Hs by lra. unfold symprec in H'. lra.
Qed.
Lemma screw_dataset : spglib_dataset screw.
Proof.
  constructor.
  - eexists. reflexivity.
  - repeat constructor; cbn; intros H; repeat destruct H as [H|H]; try discriminate H; try destruct H.
  - intros p [<-|[<-|[<-|[]]]]; cbn; auto.
  - intros p [<-|[<-|[<-|[]]]]; cbn; lra.
  - intros p [<-|[<-|[<-|[]]]]; cbn [snd]; [reflexivity| |]; rewrite not_tiny by lra; discriminate.
  - intros p q [<-|[<-|[<-|[]]]] [<-|[<-|[<-|[]]]];
    first
     [ exists (iid, V 0 0 0); split; [now left|]; split; [reflexivity|]
     | exists (p3, V (/3) (/3) (/3)); split; [right; now left|]; split; [reflexivity|]
     | exists (p32, V (2/3) (2/3) (2/3)); split; [right; right; now left|]; split; [reflexivity|] ];
    unfold eq_mod1, int_vec, vsub, vadd; cbn;
    first [exists 0, 0, 0; f_equal; lra | exists (-1), (-1), (-1); f_equal; lra].
Qed.

Ltac zc := cbn -[IZR Rmult Rle Rlt]; lra.
Example C25_witness : exists U S M, symm_setting U S (crystal_symm screw)
  /\ symmod_new (crystal_symm screw) S = Ok (M, crystal_symm screw) /\ length (crystal_symm screw) = 3%nat
  /\ In (1, 2, 0) (gs_cryst (sp_base S)).
Proof.
  assert (EC : crystal_symm screw = map (fun p => MkOp (fst p) (snd p) (recip (fst p))) screw) by reflexivity.
  destruct (mk_ulattice 1 mid) as [U|] eqn:EU.
  2:{ unfold mk_ulattice, mk_lattice in EU. destruct (Req_EM_T (mdet mid) 0) as [E|]; [|discriminate].
      unfold mdet, mid, vdot, vcross in E. cbn in E. lra. }
  assert (EL : exists L, mk_lattice mid = Ok L /\ u_lat U = L).
  { unfold mk_ulattice in EU. destruct (mk_lattice mid) as [L|]; [|discriminate]. injection EU as <-. eauto. }
  destruct EL as (L & EL & EUL).
  assert (Hlen : forall g, len2 U (gvec g) = IZR (let '(a, b, c) := g in a * a + b * b + c * c)).
  { intros [[a b] c]. unfold len2. rewrite EUL. unfold mk_lattice in EL. destruct (Req_EM_T _ _); [discriminate|].
    injection EL as <-. unfold cryst2cart, mv, vadd, vscale, vdot, mid. cbn. rewrite !plus_IZR, !mult_IZR. ring. }
  destruct (C09_gspace_total mid U 1 8 (Some (9, 9, 9)) (9, 9, 9)) as [S HS]; auto; try lra.
  { exists (4, 4, 4). split; [reflexivity|]. rewrite Hlen. zc. }
  { exists (0, 0, 0), (1, 0, 0). split; [discriminate|]. intros x [-> | ->]; (split; [reflexivity|]); rewrite Hlen; zc. }
  destruct (C09_gspace_is_sphere mid U 1 8 _ S EU HS) as (_ & _ & _ & _ & Hsh & _ & Hin & _).
  specialize (Hsh _ eq_refl).
  assert (EF : filter_frac_trans (gs_shape (sp_base S)) (crystal_symm screw) = crystal_symm screw).
  { rewrite Hsh, EC. unfold filter_frac_trans, screw. cbn [map filter fst snd reallat_trans].
    rewrite (on_grid_yes _ _ _ (V 0 0 0) 0 0 0) by (cbn [vx vy vz]; ring).
    rewrite (on_grid_yes _ _ _ (V (/3) (/3) (/3)) 3 3 3) by (cbn [vx vy vz]; lra).
    rewrite (on_grid_yes _ _ _ (V (2/3) (2/3) (2/3)) 6 6 6) by (cbn [vx vy vz]; lra). reflexivity. }
  assert (Hrot : forall o g, In o (crystal_symm screw) -> len2 U (gvec (imv (recilat_rot o) g)) = len2 U (gvec g)).
  { intros o [[a b] c] Ho. rewrite EC in Ho. rewrite !Hlen. f_equal.
    destruct Ho as [<-|[<-|[<-|[]]]]; cbn [recilat_rot fst];
      match goal with |- context [imv ?A _] => let A' := eval vm_compute in A in change A with A' end;
      unfold imv, idot; cbv beta iota; ring. }
  assert (HSS : symm_setting U S (crystal_symm screw)).
  { constructor; rewrite ?EF.
    - now exists mid, 1%R, 8%R, (Some (9, 9, 9)).
    - apply crystal_symm_group, screw_dataset.
    - intros o Ho g. now apply Hrot.
    - intros o g Ho Hg. apply Hin in Hg as [_ Hg]. apply Hin. rewrite Hsh in *. rewrite (Hrot o g Ho). split; [|assumption].
      rewrite <- (Hrot o g Ho) in Hg. rewrite Hlen in Hg. destruct (imv (recilat_rot o) g) as [[x y] z].
      replace (2 * 8)%R with (IZR 16) in Hg by (cbn [vx vy vz]; lra). apply le_IZR in Hg. unfold g_ok, dim_ok.
      change (9 / 2) with 4. change ((9 + 1) / 2) with 5.
      assert (-5 < x < 5) by nia. assert (-5 < y < 5) by nia. assert (-5 < z < 5) by nia. lia. }
  destruct (C25_group_average U S _ HSS) as (M & HM & _). exists U, S, M. rewrite EF in HM.
  split; [exact HSS|]. split; [exact HM|]. split; [reflexivity|]. apply Hin. rewrite Hsh, Hlen. split; [reflexivity|zc].
Qed.

(** C25: the operations that survive the filter are exactly those whose translation, measured in grid steps, lies within
    1e-5 of a point of the FFT grid. *)
Lemma rint_best x a : (Rabs (x - IZR (rint x)) <= Rabs (x - IZR a))%R.
Proof.
  pose proof (rint_close x) as H. destruct (Z.eq_dec a (rint x)) as [->|N]; [lra|].
  apply Rle_trans with (1 := H). destruct (Z_lt_le_dec a (rint x)) as [L|L].
  - assert (L' : (a + 1 <= rint x)%Z) by lia. apply IZR_le in L'. rewrite plus_IZR in L'. revert H. unfold Rabs. repeat destruct (Rcase_abs _); lra.
  - assert (L' : (rint x + 1 <= a)%Z) by lia. apply IZR_le in L'. rewrite plus_IZR in L'. revert H. unfold Rabs. repeat destruct (Rcase_abs _); lra.
Qed.
Lemma sq_best x a : ((x - IZR (rint x)) * (x - IZR (rint x)) <= (x - IZR a) * (x - IZR a))%R.
Proof.
  pose proof (rint_best x a) as H. pose proof (Rabs_pos (x - IZR (rint x))) as P.
  assert (S : forall y, (y * y = Rabs y * Rabs y)%R) by (intros y; unfold Rabs; destruct (Rcase_abs y); ring).
  rewrite (S (x - IZR (rint x))%R), (S (x - IZR a)%R). nra.
Qed.
Theorem C25_filter_distance : forall n1 n2 n3 ops o, In o (filter_frac_trans (n1, n2, n3) ops) <->
  In o ops /\ exists a b c : Z, let t := reallat_trans o in
    (sqrt ((vx t * IZR n1 - IZR a) * (vx t * IZR n1 - IZR a) + (vy t * IZR n2 - IZR b) * (vy t * IZR n2 - IZR b)
           + (vz t * IZR n3 - IZR c) * (vz t * IZR n3 - IZR c)) <= / 10 ^ 5)%R.
Proof.
  intros n1 n2 n3 ops o. unfold filter_frac_trans. rewrite filter_In. unfold on_grid, tiny, rleb, vnorm, vdot. cbn [vx vy vz].
  assert (S : symprec = (/ 10 ^ 5)%R) by (unfold symprec; lra). rewrite S. split; intros [H1 H2]; (split; [exact H1|]).
  - destruct (Rle_dec _ _) as [L|]; [|discriminate]. do 3 eexists. exact L.
  - destruct H2 as (a & b & c & H2). cbv zeta in H2. destruct (Rle_dec _ _) as [L|N]; [reflexivity|]. exfalso. apply N. refine (Rle_trans _ _ _ _ H2).
    apply sqrt_le_1_alt. repeat apply Rplus_le_compat; apply sq_best.
Qed.
Print Assumptions C25_filter_distance.
