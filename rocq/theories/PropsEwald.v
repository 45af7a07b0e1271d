(** Property C64: the Ewald energy. *)
From Verif Require Import Base GIndexModel GIndexProofs LatModel LatProofs GSphereModel FFTModel FFTSpec FFTProofs PotModel PotSpec PotProofs EwaldModel EwaldSpec EwaldProofs CBase.
Open Scope R_scope.

(** C64.  The returned energy is the textbook Ewald sum for the largest screening parameter
    among 2.8, 2.7, ..., 0.1 whose truncation estimate is at most 1e-7, over a box of cells
    containing every cell once; ValueError is raised exactly when there is none.  erfc is
    arbitrary. *)
Theorem C64_ewald_sum : forall erfc P L G ecut l,
  mk_lattice P = Ok L -> constructed G -> In (0, 0, 0)%Z (gs_cryst (gp_gs G)) ->
  let bound k := total_charge (atoms l) * total_charge (atoms l) * sqrt (INR k / 10 / PI)
                 * erfc (sqrt (ecut / 2 / (INR k / 10))) in
  match ewald erfc L G ecut l with
  | Ok E => exists k n1 n2 n3 box,
      (1 <= k <= 28)%nat /\ bound k <= / 10000000 /\ (forall j, (k < j <= 28)%nat -> / 10000000 < bound j)
      /\ (1 <= n1 /\ 1 <= n2 /\ 1 <= n3)%Z
      /\ NoDup box /\ (forall N, In N box <-> in_box n1 n2 n3 N)
      /\ E = ewald_sum erfc (INR k / 10) L G box (atoms l)
  | Err e => e = ValueError /\ forall k, (1 <= k <= 28)%nat -> / 10000000 < bound k
  end.
Proof.
  intros erfc P L G ecut l HL HC H0 bound.
  assert (EB : forall a, err_bounds erfc ecut (l_charges l) a
     = total_charge (atoms l) * total_charge (atoms l) * sqrt (a / PI) * erfc (sqrt (ecut / 2 / a))).
  { intros a. unfold err_bounds. rewrite charges_atoms, np_sum_lsum, lsum_map. reflexivity. }
  rewrite (ewald_formula erfc P) by assumption.
  destruct (find_alpha erfc ecut (l_charges l) 28) as [alpha|e] eqn:EA; cbn [bind].
  - apply find_alpha_spec in EA as (m & Hm & Ha & He & Hj).
    assert (Pa : 0 < alpha) by (rewrite Ha; apply Rdiv_lt_0_compat; [apply lt_0_INR; lia|lra]).
    assert (Pb : 0 < sqrt alpha) by now apply sqrt_lt_R0.
    destruct (mk_lattice_ok P L HL) as (HD & _).
    pose proof (row_norms_pos P HD) as RN. destruct (row_norms P) as [[l1 l2] l3]. destruct RN as (P1 & P2 & P3).
    pose proof (n_range_pos _ _ Pb P1) as N1. pose proof (n_range_pos _ _ Pb P2) as N2. pose proof (n_range_pos _ _ Pb P3) as N3.
    exists m, (n_range (sqrt alpha) l1), (n_range (sqrt alpha) l2), (n_range (sqrt alpha) l3),
      (cells (n_range (sqrt alpha) l1) (n_range (sqrt alpha) l2) (n_range (sqrt alpha) l3)).
    split; [exact Hm|]. split; [rewrite EB, Ha in He; exact He|].
    split; [intros j Hj'; specialize (Hj j Hj'); rewrite EB in Hj; exact Hj|].
    split; [tauto|]. split; [apply cells_nodup|]. split; [intros N; apply cells_in; lia|]. now rewrite <- Ha.
  - apply find_alpha_err in EA as [-> Hj]. split; [reflexivity|]. intros k Hk. specialize (Hj k Hk).
    rewrite EB in Hj. exact Hj.
Qed.
Print Assumptions C64_ewald_sum.

(** C64.  The order of species and of the atoms within a species does not matter. *)
Theorem C64_atom_order_irrelevant : forall erfc P L G ecut l l',
  mk_lattice P = Ok L -> constructed G -> In (0, 0, 0)%Z (gs_cryst (gp_gs G)) ->
  Permutation (atoms l) (atoms l') ->
  ewald erfc L G ecut l = ewald erfc L G ecut l'.
Proof.
  intros erfc P L G ecut l l' HL HC H0 HP. rewrite !(ewald_formula erfc P) by assumption.
  rewrite (find_alpha_ext erfc ecut (l_charges l) (l_charges l')).
  2:{ rewrite !charges_atoms, !np_sum_lsum, !lsum_map. now apply lsum_perm. }
  destruct (find_alpha erfc ecut (l_charges l') 28) as [alpha|e]; [|reflexivity]. cbn [bind].
  destruct (row_norms P) as [[l1 l2] l3]. f_equal. unfold ewald_sum. f_equal; [f_equal|].
  - f_equal. apply lsum_ext. intros N _. now apply pair_sum_perm.
  - f_equal. f_equal.
    + apply rsum_ext. intros k Hk. rewrite (structure_factor_perm (atoms l) (atoms l')) by exact HP. reflexivity.
    + unfold total_charge. rewrite (lsum_perm (atoms l) (atoms l')) by exact HP. reflexivity.
  - f_equal. now apply lsum_perm.
Qed.
Print Assumptions C64_atom_order_irrelevant.

Definition shift (t : rvec) (sp : species) : species := MkSpecies (valence sp) (map (fun r => vadd r t) (r_cryst sp)).
Lemma atoms_shift t l : atoms (map (shift t) l) = map (fun a : atom => (fst a, vadd (snd a) t)) (atoms l).
Proof.
  unfold atoms. induction l as [|sp l IH]; [reflexivity|]. cbn [map flat_map]. rewrite IH, map_app. f_equal.
  cbn [valence r_cryst shift]. now rewrite !map_map.
Qed.

Lemma structure_factor_shift t l g :
  structure_factor (map (fun a : atom => (fst a, vadd (snd a) t)) l) g
  = (cis (- (2 * PI * vdot (gvec g) t)) * structure_factor l g)%C.
Proof.
  unfold structure_factor. induction l as [|a l IH]; [cbn; ring|]. cbn [map fold_right]. rewrite IH. cbn [fst snd].
  replace (- (2 * PI * vdot (gvec g) (vadd (snd a) t))) with (- (2 * PI * vdot (gvec g) t) + - (2 * PI * vdot (gvec g) (snd a))).
  - rewrite cis_plus. ring.
  - unfold vdot, vadd. cbn [vx vy vz]. ring.
Qed.
Lemma Cmod_cis t : Cmod (cis t) = 1.
Proof. unfold Cmod, cis. cbn [fst snd]. rewrite <- sqrt_1. f_equal. pose proof (sin2_cos2 t) as H. unfold Rsqr in H. lra. Qed.

(** C64.  Translating the whole crystal by any vector leaves the energy unchanged. *)
Theorem C64_translation_invariant : forall erfc P L G ecut l t,
  mk_lattice P = Ok L -> constructed G -> In (0, 0, 0)%Z (gs_cryst (gp_gs G)) ->
  ewald erfc L G ecut (map (shift t) l) = ewald erfc L G ecut l.
Proof.
  intros erfc P L G ecut l t HL HC H0. rewrite !(ewald_formula erfc P) by assumption.
  assert (EQ : l_charges (map (shift t) l) = l_charges l).
  { rewrite !charges_atoms, atoms_shift, map_map. apply map_ext. reflexivity. }
  rewrite EQ. destruct (find_alpha erfc ecut (l_charges l) 28) as [alpha|e]; [|reflexivity]. cbn [bind].
  destruct (row_norms P) as [[l1 l2] l3]. f_equal. rewrite atoms_shift. set (la := atoms l).
  set (f := fun a : atom => (fst a, vadd (snd a) t)).
  assert (EN : forall i, (i < length la)%nat -> nth i (map f la) no_atom = f (nth i la no_atom)).
  { intros i Hi. rewrite (nth_indep _ _ (f no_atom)) by (rewrite map_length; exact Hi). apply map_nth. }
  unfold ewald_sum. f_equal; [f_equal|].
  - f_equal. apply lsum_ext. intros N _. unfold pair_sum. rewrite map_length.
    apply rsum_ext. intros i Hi. apply rsum_ext. intros j Hj. rewrite !EN by assumption.
    destruct (negb (negb (is_zero N)) && Nat.eqb i j)%bool; [reflexivity|].
    unfold screened, distance, f. cbn [fst snd].
    replace (vsub (vadd (snd (nth i la no_atom)) t) (vadd (snd (nth j la no_atom)) t))
      with (vsub (snd (nth i la no_atom)) (snd (nth j la no_atom))); [reflexivity|].
    unfold vsub, vadd. cbn [vx vy vz]. apply V_ext; ring.
  - f_equal. f_equal.
    + apply rsum_ext. intros k Hk. unfold f. rewrite structure_factor_shift, Cmod_mult, Cmod_cis, Rmult_1_l. reflexivity.
    + unfold total_charge. rewrite lsum_map. reflexivity.
  - f_equal. rewrite lsum_map. reflexivity.
Qed.
Print Assumptions C64_translation_invariant.

(** C64.  In an axis-aligned cell, with all atoms within one unit cell of one another (any
    pair of coordinates differs by at most 1), every pair and image closer than
    4/sqrt(alpha) is in the real-space sum. *)
Theorem C64_all_images_in_axis_aligned_cells : forall erfc a b c P L G ecut l E,
  P = Mat (V a 0 0) (V 0 b 0) (V 0 0 c) -> 0 < a -> 0 < b -> 0 < c ->
  mk_lattice P = Ok L -> constructed G -> In (0, 0, 0)%Z (gs_cryst (gp_gs G)) ->
  (forall x y, In x (atoms l) -> In y (atoms l) -> let d := vsub (snd x) (snd y) in
     Rabs (vx d) <= 1 /\ Rabs (vy d) <= 1 /\ Rabs (vz d) <= 1) ->
  ewald erfc L G ecut l = Ok E ->
  exists alpha box, 0 < alpha <= 28 / 10 /\ E = ewald_sum erfc alpha L G box (atoms l) /\
    forall x y N, In x (atoms l) -> In y (atoms l) -> distance L x y N <= 4 / sqrt alpha -> In N box.
Proof.
  intros erfc a b c P L G ecut l E EP Pa Pb Pc HL HC H0 HA HE.
  rewrite (ewald_formula erfc P) in HE by assumption.
  destruct (find_alpha erfc ecut (l_charges l) 28) as [alpha|e] eqn:EA; cbn [bind] in HE; [|discriminate].
  apply find_alpha_spec in EA as (m & Hm & Ha & _).
  assert (Pal : 0 < alpha) by (rewrite Ha; apply Rdiv_lt_0_compat; [apply lt_0_INR; lia|lra]).
  assert (Psq : 0 < sqrt alpha) by now apply sqrt_lt_R0.
  assert (SQ : forall x, 0 < x -> sqrt (x * x + 0 * 0 + 0 * 0) = x).
  { intros x Hx. replace (x * x + 0 * 0 + 0 * 0) with (x * x) by ring. apply sqrt_square. lra. }
  assert (ER : row_norms P = (a, b, c)).
  { rewrite EP. unfold row_norms, mtrans, vnorm, vdot. cbn [LatModel.c1 c2 c3 vx vy vz].
    repeat f_equal; [apply SQ; lra| |].
    - replace (0 * 0 + b * b + 0 * 0) with (b * b + 0 * 0 + 0 * 0) by ring. apply SQ; lra.
    - replace (0 * 0 + 0 * 0 + c * c) with (c * c + 0 * 0 + 0 * 0) by ring. apply SQ; lra. }
  rewrite ER in HE. injection HE as <-.
  eexists alpha, _. split.
  { split; [exact Pal|]. rewrite Ha. apply Rmult_le_compat_r; [lra|]. replace 28 with (INR 28) by (cbn; lra). apply le_INR. lia. }
  split; [reflexivity|]. intros x y [[N1 N2] N3] Hx Hy Hd.
  apply cells_in; try (apply Z.lt_le_incl, Z.lt_le_trans with 1%Z; [lia|apply n_range_pos; assumption]).
  destruct (mk_lattice_ok P L HL) as (_ & HP & _).
  unfold distance, cryst2cart in Hd. rewrite HP, EP in Hd.
  destruct (HA x y Hx Hy) as (D1 & D2 & D3). set (d := vsub (snd x) (snd y)) in *.
  set (X := 4 / sqrt alpha) in *.
  assert (PX : 0 < X) by (apply Rdiv_lt_0_compat; lra).
  assert (HC1 : forall u (p : R), 0 < p -> forall q, 0 <= q -> sqrt (u * p * (u * p) + q) <= X -> Rabs u <= X / p).
  { intros u p Hp q Hq Hs.
    assert (Hu : Rabs (u * p) <= X).
    { apply Rle_trans with (2 := Hs). rewrite <- sqrt_Rsqr_abs. unfold Rsqr. apply sqrt_le_1_alt. lra. }
    rewrite Rabs_mult, (Rabs_pos_eq p) in Hu by lra. apply Rmult_le_reg_r with p; [exact Hp|].
    unfold Rdiv. rewrite Rmult_assoc, Rinv_l by lra. lra. }
  assert (HC2 : forall (n : Z) (dd p : R), Rabs dd <= 1 -> Rabs (IZR n + dd) <= X / p -> (Z.abs n <= n_range (sqrt alpha) p)%Z).
  { intros n dd p Hdd Hs. unfold n_range. fold X.
    assert (Rabs (IZR n) <= X / p + 1).
    { replace (IZR n) with ((IZR n + dd) + - dd) by ring. eapply Rle_trans; [apply Rabs_triang|]. rewrite Rabs_Ropp. lra. }
    rewrite <- abs_IZR in H. unfold rfloor. destruct (base_Int_part (X / p)) as [B1 B2].
    assert (HZ : IZR (Z.abs n) < IZR (Int_part (X / p) + 1 + 1)) by (rewrite !plus_IZR; lra).
    apply lt_IZR in HZ. lia. }
  unfold vnorm, mv, vadd, vscale, gvec in Hd. fold d in Hd. cbn [LatModel.c1 c2 c3 vx vy vz] in Hd. unfold vdot in Hd. cbn [vx vy vz] in Hd.
  assert (SS : forall u v : R, 0 <= u * u + v * v) by (intros; nra).
  cbn [in_box]. split; [|split].
  - apply (HC2 N1 (vx d)); [exact D1|]. apply (HC1 _ a Pa (((IZR N2 + vy d) * b) * ((IZR N2 + vy d) * b) + ((IZR N3 + vz d) * c) * ((IZR N3 + vz d) * c))).
    + apply SS.
    + eapply Rle_trans; [|exact Hd]. apply Req_le. f_equal. ring.
  - apply (HC2 N2 (vy d)); [exact D2|]. apply (HC1 _ b Pb (((IZR N1 + vx d) * a) * ((IZR N1 + vx d) * a) + ((IZR N3 + vz d) * c) * ((IZR N3 + vz d) * c))).
    + apply SS.
    + eapply Rle_trans; [|exact Hd]. apply Req_le. f_equal. ring.
  - apply (HC2 N3 (vz d)); [exact D3|]. apply (HC1 _ c Pc (((IZR N1 + vx d) * a) * ((IZR N1 + vx d) * a) + ((IZR N2 + vy d) * b) * ((IZR N2 + vy d) * b))).
    + apply SS.
    + eapply Rle_trans; [|exact Hd]. apply Req_le. f_equal. ring.
Qed.
Print Assumptions C64_all_images_in_axis_aligned_cells.

(** What the refutations need of erfc: positive, non-increasing and vanishing at infinity
    (true of the complementary error function). *)
Definition erfc_like (erfc : R -> R) : Prop :=
  (forall x, 0 < erfc x) /\ (forall x y, x <= y -> erfc y <= erfc x)
  /\ (forall eps, 0 < eps -> exists X, 0 < X /\ erfc X <= eps).

(** For such functions a large enough cutoff selects alpha = 2.8. *)
Lemma large_cutoff erfc q : erfc_like erfc -> exists ecut, 0 < ecut /\ find_alpha erfc ecut q 28 = Ok (28 / 10).
Proof.
  intros (HP & _ & HL).
  set (A := np_sum q * np_sum q * sqrt (28 / 10 / PI)).
  assert (PA : 0 <= A) by (unfold A; apply Rmult_le_pos; [nra|apply sqrt_pos]).
  destruct (HL (EWALD_ERR_THR / (A + 1))) as (X & PX & HX); [apply Rdiv_lt_0_compat; [unfold EWALD_ERR_THR; lra|lra]|].
  exists (2 * (28 / 10) * (X * X)). split; [nra|].
  cbn [find_alpha]. replace (alpha_of 28) with (28 / 10) by (unfold alpha_of; cbn; lra).
  destruct (rltb EWALD_ERR_THR (err_bounds erfc (2 * (28 / 10) * (X * X)) q (28 / 10))) eqn:E; [|reflexivity].
  exfalso. apply rltb_spec in E. unfold err_bounds in E. fold A in E.
  replace (2 * (28 / 10) * (X * X) / 2 / (28 / 10)) with (X * X) in E by field.
  rewrite sqrt_square in E by lra.
  assert (H1 : A * erfc X <= A * (EWALD_ERR_THR / (A + 1))) by (apply Rmult_le_compat_l; assumption).
  assert (H2 : A * (EWALD_ERR_THR / (A + 1)) <= EWALD_ERR_THR).
  { apply Rmult_le_reg_r with (A + 1); [lra|]. unfold Rdiv.
    rewrite Rmult_assoc, (Rmult_assoc EWALD_ERR_THR), Rinv_l by lra. unfold EWALD_ERR_THR. nra. }
  lra.
Qed.

(** A cubic G-space with the vectors 0, b1, -b1 (any would do). *)
Lemma exists_gspace : exists G, constructed G /\ In (0, 0, 0)%Z (gs_cryst (gp_gs G)) /\ gp_size G = 3%nat.
Proof.
  destruct (gspace_base (zshape 3 1 1) [(0, 0, 0); (1, 0, 0); (-1, 0, 0)]%Z) as [s|e] eqn:E; [|vm_compute in E; discriminate].
  assert (EC : gs_cryst s = [(0, 0, 0); (1, 0, 0); (-1, 0, 0)]%Z) by (vm_compute in E; injection E as <-; reflexivity).
  assert (EL : exists L, mk_lattice mid = Ok L).
  { unfold mk_lattice. destruct (Req_EM_T (mdet mid) 0) as [X|_]; [rewrite mdet_mid in X; lra|eauto]. }
  destruct EL as [L EL]. exists (MkGsp L 3 1 1 s). split; [split; [exists mid; exact EL|eexists; exact E]|].
  unfold gp_size. cbn [gp_gs]. rewrite EC. split; [now left|reflexivity].
Qed.

Lemma mk_lattice_of P : mdet P <> 0 -> exists L, mk_lattice P = Ok L /\ primvec L = P.
Proof. apply mk_lattice_iff. Qed.

Lemma rfloor_small x : 0 <= x < 1 -> rfloor x = 0%Z.
Proof.
  intros H. unfold rfloor. destruct (base_Int_part x) as [A B].
  assert (-1 < IZR (Int_part x)) by lra. assert (IZR (Int_part x) < 1) by lra.
  apply lt_IZR in H0, H1. lia.
Qed.
Lemma cutoff_radius : 0 < sqrt (28 / 10) /\ 2 < 4 / sqrt (28 / 10) < 3.
Proof.
  assert (H : 0 < sqrt (28 / 10)) by (apply sqrt_lt_R0; lra).
  assert (S : sqrt (28 / 10) * sqrt (28 / 10) = 28 / 10) by (apply sqrt_sqrt; lra).
  assert (E : 4 / sqrt (28 / 10) * sqrt (28 / 10) = 4) by (field; lra).
  split; [exact H|]. generalize dependent (4 / sqrt (28 / 10)). generalize dependent (sqrt (28 / 10)). intros b Hb Hbb q Hq.
  assert (4 / 3 < b < 2) by (split; nra). split; nra.
Qed.

(** C64, limit of the claim: in a skewed cell (a1 = (1,0,0), a2 = (3,1,0), a3 = (0,0,10)) the
    range of cells is derived from the rows of the lattice matrix instead of the lattice
    vectors, and an image of an atom at distance 1, well within the cutoff 4/sqrt(2.8), is
    left out of the sum. *)
Theorem C64_all_images_in_skewed_cells_refuted : forall erfc, erfc_like erfc ->
  exists P L G ecut l E box N x,
    mk_lattice P = Ok L /\ constructed G /\ In (0, 0, 0)%Z (gs_cryst (gp_gs G))
    /\ ewald erfc L G ecut l = Ok E /\ E = ewald_sum erfc (28 / 10) L G box (atoms l)
    /\ NoDup box /\ In x (atoms l) /\ 0 < screened erfc (28 / 10) L x x N
    /\ distance L x x N = 1 /\ 1 < 4 / sqrt (28 / 10) /\ ~ In N box.
Proof.
  intros erfc HE.
  set (P := Mat (V 1 0 0) (V 3 1 0) (V 0 0 10)).
  assert (HD : mdet P <> 0) by (unfold P, mdet, vdot, vcross; cbn; lra).
  destruct (mk_lattice_of P HD) as (L & HL & HPv).
  destruct exists_gspace as (G & HC & H0 & _).
  set (l := [MkSpecies 1 [V 0 0 0]]).
  destruct (large_cutoff erfc (l_charges l) HE) as (ecut & _ & EA).
  destruct cutoff_radius as (Psq & R1 & R2).
  pose proof (ewald_formula erfc P L G ecut l HL HC H0) as EW. rewrite EA in EW. cbn [bind] in EW.
  assert (RR : exists r1 r3, row_norms P = (r1, 1, r3) /\ 3 < r1 /\ 3 < r3).
  { eexists _, _. split; [unfold row_norms, P, mtrans, vnorm, vdot; cbn [LatModel.c1 c2 c3 vx vy vz]; repeat f_equal|].
    - replace (0 * 0 + 1 * 1 + 0 * 0) with 1 by ring. apply sqrt_1.
    - split.
      + replace 3 with (sqrt (3 * 3)) at 1 by (apply sqrt_square; lra). apply sqrt_lt_1_alt. lra.
      + replace 3 with (sqrt (3 * 3)) at 1 by (apply sqrt_square; lra). apply sqrt_lt_1_alt. lra. }
  destruct RR as (r1 & r3 & ER & Hr1 & Hr3). rewrite ER in EW.
  assert (EN : n_range (sqrt (28 / 10)) r1 = 1%Z).
  { unfold n_range. rewrite rfloor_small; [reflexivity|]. split.
    - apply Rlt_le, Rdiv_lt_0_compat; lra.
    - apply Rmult_lt_reg_r with r1; [lra|]. unfold Rdiv at 1. rewrite Rmult_assoc, Rinv_l by lra. lra. }
  rewrite EN in EW.
  assert (DN : distance L (1, V 0 0 0) (1, V 0 0 0) (-3, 1, 0)%Z = 1).
  { unfold distance, cryst2cart. rewrite HPv. unfold P, gvec, mv, vadd, vsub, vscale, vnorm, vdot. cbn [fst snd LatModel.c1 c2 c3 vx vy vz].
    transitivity (sqrt 1); [f_equal; ring|apply sqrt_1]. }
  eexists P, L, G, ecut, l, _, _, (-3, 1, 0)%Z, (1, V 0 0 0).
  split; [exact HL|]. split; [exact HC|]. split; [exact H0|]. split; [exact EW|]. split; [reflexivity|].
  split; [apply cells_nodup|]. split; [now left|].
  split; [unfold screened; rewrite DN; cbn [fst]; destruct HE as (HP & _); specialize (HP (sqrt (28 / 10) * 1)); lra|].
  split; [exact DN|]. split; [lra|].
  rewrite cells_in; [|lia| |].
  - cbn. lia.
  - apply Z.lt_le_incl, Z.lt_le_trans with 1%Z; [lia|]. apply n_range_pos; lra.
  - apply Z.lt_le_incl, Z.lt_le_trans with 1%Z; [lia|]. apply n_range_pos; lra.
Qed.
Print Assumptions C64_all_images_in_skewed_cells_refuted.

Lemma cells_111 : cells 1 1 1 = flat_map (fun a => flat_map (fun b => map (fun c => (a, b, c)) [-1; 0; 1]%Z) [-1; 0; 1]%Z) [-1; 0; 1]%Z.
Proof. vm_compute. reflexivity. Qed.

(** Sum over the 27 cells, by columns along the first axis. *)
Definition columns (F : Z -> Z -> Z -> R) : R :=
  lsum [-1; 0; 1]%Z (fun b => lsum [-1; 0; 1]%Z (fun c => F (-1)%Z b c + F 0%Z b c + F 1%Z b c)).
Lemma cells_columns (F : vec3 -> R) : lsum (cells 1 1 1) F = columns (fun a b c => F (a, b, c)).
Proof. rewrite cells_111. unfold columns. cbn [flat_map map app lsum fold_right]. ring. Qed.

(** C64, limit of the claim: the energy is not a function of the periodic crystal; writing an
    atom one cell further (an equivalent position) changes it, because the cells are
    counted from the given positions, which are not wrapped. *)
Theorem C64_equivalent_positions_refuted : forall erfc, erfc_like erfc ->
  exists P L G ecut E1 E2,
    mk_lattice P = Ok L /\ constructed G /\ In (0, 0, 0)%Z (gs_cryst (gp_gs G))
    /\ ewald erfc L G ecut [MkSpecies 1 [V 0 0 0; V (1 / 4) 0 0]] = Ok E1
    /\ ewald erfc L G ecut [MkSpecies 1 [V 0 0 0; V (1 / 4 + 1) 0 0]] = Ok E2
    /\ E2 < E1.
Proof.
  intros erfc HE.
  set (P := Mat (V 10 0 0) (V 0 10 0) (V 0 0 10)).
  assert (HD : mdet P <> 0) by (unfold P, mdet, vdot, vcross; cbn; lra).
  destruct (mk_lattice_of P HD) as (L & HL & HPv).
  destruct exists_gspace as (G & HC & H0 & _).
  destruct (large_cutoff erfc [1; 1] HE) as (ecut & _ & EA).
  destruct cutoff_radius as (Psq & R1 & R2).
  assert (SQ : forall x y z : R, x * x + y * y + z * z = 10 * 10 -> sqrt (x * x + y * y + z * z) = 10).
  { intros x y z ->. apply sqrt_square. lra. }
  assert (ER : row_norms P = (10, 10, 10)).
  { unfold row_norms, P, mtrans, vnorm, vdot. cbn [LatModel.c1 c2 c3 vx vy vz]. repeat f_equal; apply SQ; ring. }
  assert (EN : n_range (sqrt (28 / 10)) 10 = 1%Z).
  { unfold n_range. rewrite rfloor_small; [reflexivity|]. split.
    - apply Rlt_le, Rdiv_lt_0_compat; lra.
    - apply Rmult_lt_reg_r with 10; [lra|]. unfold Rdiv at 1. rewrite Rmult_assoc, Rinv_l by lra. lra. }
  set (beta := sqrt (28 / 10)) in *.
  set (phi := fun u v w : R => let d := sqrt (u * 10 * (u * 10) + v * 10 * (v * 10) + w * 10 * (w * 10)) in erfc (beta * d) / d).
  assert (EW : forall x, ewald erfc L G ecut [MkSpecies 1 [V 0 0 0; V x 0 0]]
     = Ok (ewald_sum erfc (28 / 10) L G (cells 1 1 1) [(1, V 0 0 0); (1, V x 0 0)])).
  { intros x. rewrite (ewald_formula erfc P) by assumption.
    change (l_charges [MkSpecies 1 [V 0 0 0; V x 0 0]]) with [1; 1]. rewrite EA. cbn [bind]. rewrite ER. fold beta. rewrite EN. reflexivity. }
  assert (SC : forall x1 x2 a b c, screened erfc (28 / 10) L (1, V x1 0 0) (1, V x2 0 0) (a, b, c) = phi (IZR a + (x1 - x2)) (IZR b) (IZR c)).
  { intros. unfold screened, distance, cryst2cart. rewrite HPv. fold beta. cbn [fst snd].
    assert (ED : vnorm (mv P (vadd (gvec (a, b, c)) (vsub (V x1 0 0) (V x2 0 0))))
      = sqrt ((IZR a + (x1 - x2)) * 10 * ((IZR a + (x1 - x2)) * 10) + IZR b * 10 * (IZR b * 10) + IZR c * 10 * (IZR c * 10))).
    { unfold vnorm, P, gvec, mv, vadd, vsub, vscale, vdot. cbn [LatModel.c1 c2 c3 vx vy vz]. f_equal. ring. }
    rewrite ED. unfold phi, Rdiv. ring. }
  assert (PS : forall x a b c, pair_sum (negb (is_zero (a, b, c))) [(1, V 0 0 0); (1, V x 0 0)] (fun p q => screened erfc (28 / 10) L p q (a, b, c))
     = (if is_zero (a, b, c) then 0 else 2 * phi (IZR a) (IZR b) (IZR c)) + (phi (IZR a - x) (IZR b) (IZR c) + phi (IZR a + x) (IZR b) (IZR c))).
  { intros x a b c. unfold pair_sum. cbn [length rsum nth Nat.eqb]. rewrite !SC, Bool.negb_involutive.
    replace (IZR a + (0 - 0)) with (IZR a) by ring. replace (IZR a + (x - x)) with (IZR a) by ring.
    replace (IZR a + (0 - x)) with (IZR a - x) by ring. replace (IZR a + (x - 0)) with (IZR a + x) by ring.
    clearbody phi. destruct (is_zero (a, b, c)); cbn [andb]; ring. }
  assert (EVEN : forall u v w, phi (- u) v w = phi u v w).
  { intros. unfold phi. replace (- u * 10 * (- u * 10)) with (u * 10 * (u * 10)) by ring. reflexivity. }
  assert (DEC : forall u u' v w, 0 < u < u' -> phi u' v w < phi u v w).
  { intros u u' v w Hu. unfold phi. cbv zeta.
    set (d := sqrt (u * 10 * (u * 10) + v * 10 * (v * 10) + w * 10 * (w * 10))).
    set (d' := sqrt (u' * 10 * (u' * 10) + v * 10 * (v * 10) + w * 10 * (w * 10))).
    assert (S1 : forall t : R, 0 <= t * 10 * (t * 10)) by (intros; nra).
    pose proof (S1 v). pose proof (S1 w).
    assert (U : 0 < u * 10 * (u * 10) < u' * 10 * (u' * 10)) by nra.
    assert (Pd : 0 < d) by (apply sqrt_lt_R0; lra).
    assert (Hdd : d < d') by (apply sqrt_lt_1_alt; lra).
    destruct HE as (HP & HM & _).
    pose proof (HP (beta * d')). assert (erfc (beta * d') <= erfc (beta * d)) by (apply HM; nra).
    assert (/ d' < / d) by (apply Rinv_lt_contravar; nra).
    assert (0 < / d') by (apply Rinv_0_lt_compat; lra). unfold Rdiv. nra. }
  (* the reciprocal-space part is the same *)
  assert (SF : forall g, structure_factor [(1, V 0 0 0); (1, V (1 / 4 + 1) 0 0)] g = structure_factor [(1, V 0 0 0); (1, V (1 / 4) 0 0)] g).
  { intros [[a b] c]. unfold structure_factor. cbn [fold_right fst snd gvec]. f_equal. f_equal. f_equal. unfold vdot. cbn [vx vy vz].
    replace (- (2 * PI * (IZR a * (1 / 4 + 1) + IZR b * 0 + IZR c * 0)))
      with (- (2 * PI * (IZR a * (1 / 4) + IZR b * 0 + IZR c * 0)) + 2 * PI * IZR (- a)) by (rewrite opp_IZR; ring).
    rewrite cis_plus, cis_2PI_Z. ring. }
  exists P, L, G, ecut. eexists _, _. split; [exact HL|]. split; [exact HC|]. split; [exact H0|].
  split; [apply EW|]. split; [apply EW|].
  unfold ewald_sum. rewrite !cells_columns.
  rewrite (rsum_ext (gp_size G) (fun k => if is_zero (gv G k) then 0 else _ * (Cmod (structure_factor [(1, V 0 0 0); (1, V (1 / 4 + 1) 0 0)] (gv G k)) * _))
    (fun k => if is_zero (gv G k) then 0 else exp (- sq_length G k / (4 * (28 / 10))) / sq_length G k *
      (Cmod (structure_factor [(1, V 0 0 0); (1, V (1 / 4) 0 0)] (gv G k)) * Cmod (structure_factor [(1, V 0 0 0); (1, V (1 / 4) 0 0)] (gv G k)))))
    by (intros k _; now rewrite SF).
  match goal with |- 1 / 2 * ?A + ?B - ?C < 1 / 2 * ?A' + ?B' - ?C' =>
    change B' with B; change C' with C; cut (A < A'); [intros; lra|] end.
  unfold columns. cbn [lsum fold_right]. rewrite !PS.
  assert (K : forall b c : Z, 
     phi (IZR (-1) - (1 / 4 + 1)) (IZR b) (IZR c) + phi (IZR (-1) + (1 / 4 + 1)) (IZR b) (IZR c)
     + (phi (IZR 0 - (1 / 4 + 1)) (IZR b) (IZR c) + phi (IZR 0 + (1 / 4 + 1)) (IZR b) (IZR c))
     + (phi (IZR 1 - (1 / 4 + 1)) (IZR b) (IZR c) + phi (IZR 1 + (1 / 4 + 1)) (IZR b) (IZR c))
     < phi (IZR (-1) - 1 / 4) (IZR b) (IZR c) + phi (IZR (-1) + 1 / 4) (IZR b) (IZR c)
     + (phi (IZR 0 - 1 / 4) (IZR b) (IZR c) + phi (IZR 0 + 1 / 4) (IZR b) (IZR c))
     + (phi (IZR 1 - 1 / 4) (IZR b) (IZR c) + phi (IZR 1 + 1 / 4) (IZR b) (IZR c))).
  { intros b c.
    replace (IZR (-1) - (1 / 4 + 1)) with (- (9 / 4)) by lra. replace (IZR (-1) + (1 / 4 + 1)) with (1 / 4) by lra.
    replace (IZR 0 - (1 / 4 + 1)) with (- (5 / 4)) by lra. replace (IZR 0 + (1 / 4 + 1)) with (5 / 4) by lra.
    replace (IZR 1 - (1 / 4 + 1)) with (- (1 / 4)) by lra. replace (IZR 1 + (1 / 4 + 1)) with (9 / 4) by lra.
    replace (IZR (-1) - 1 / 4) with (- (5 / 4)) by lra. replace (IZR (-1) + 1 / 4) with (- (3 / 4)) by lra.
    replace (IZR 0 - 1 / 4) with (- (1 / 4)) by lra. replace (IZR 0 + 1 / 4) with (1 / 4) by lra.
    replace (IZR 1 - 1 / 4) with (3 / 4) by lra. replace (IZR 1 + 1 / 4) with (5 / 4) by lra.
    rewrite !EVEN. pose proof (DEC (3 / 4) (9 / 4) (IZR b) (IZR c) ltac:(lra)). lra. }
  clearbody phi.
  pose proof (K (-1)%Z (-1)%Z). pose proof (K (-1)%Z 0%Z). pose proof (K (-1)%Z 1%Z).
  pose proof (K 0%Z (-1)%Z). pose proof (K 0%Z 0%Z). pose proof (K 0%Z 1%Z).
  pose proof (K 1%Z (-1)%Z). pose proof (K 1%Z 0%Z). pose proof (K 1%Z 1%Z).
  lra.
Qed.
Print Assumptions C64_equivalent_positions_refuted.

(** Non-vacuity of the hypotheses of the positive theorems and of [erfc_like]. *)
Example C64_nonvacuous :
  (exists erfc, erfc_like erfc)
  /\ (exists P L G, mk_lattice P = Ok L /\ constructed G /\ In (0, 0, 0)%Z (gs_cryst (gp_gs G)))
  /\ Permutation (atoms [MkSpecies 1 [V 0 0 0; V (1 / 2) 0 0]; MkSpecies 3 [V 0 (1 / 3) 0]])
                 (atoms [MkSpecies 3 [V 0 (1 / 3) 0]; MkSpecies 1 [V (1 / 2) 0 0; V 0 0 0]]).
Proof.
  split; [|split].
  - exists (fun x => exp (- x)). split; [intros; apply exp_pos|]. split.
    + intros x y [H| ->]; [|lra]. left. apply exp_increasing. lra.
    + intros eps He. exists (Rmax 1 (- ln eps)). pose proof (Rmax_l 1 (- ln eps)). pose proof (Rmax_r 1 (- ln eps)).
      split; [lra|]. rewrite <- (exp_ln eps) at 2 by exact He.
      destruct (Req_dec (- Rmax 1 (- ln eps)) (ln eps)) as [->|]; [lra|]. left. apply exp_increasing. lra.
  - destruct (mk_lattice_of mid) as (L & HL & _); [rewrite mdet_mid; lra|]. destruct exists_gspace as (G & HC & H0 & _). exists mid, L, G. tauto.
  - cbn. eapply perm_trans; [apply perm_swap|]. eapply perm_trans; [apply perm_skip, perm_swap|]. 
    eapply perm_trans; [apply perm_swap|]. apply Permutation_refl.
Qed.
