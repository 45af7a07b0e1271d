(** C108: symmetries of the Kohn-Sham Hamiltonian the program applies: opposite k-points, k-points that differ
    by a reciprocal lattice vector, and rigid translations. *)
From Coq Require Import Reals Lra Permutation.
From Verif Require Import Base SortModel GIndexModel GIndexProofs LatModel LatProofs GSphereModel GSphereProofs PropsGSphere NlocModel NlocSpec NlocProofs PropsNloc FFTModel FFTSpec MixProofs KSHamModel KSHamSpec KSHamProofs PropsKSHam HamSymModel HamSymSpec HamSymProofs CBase.
Local Open Scope R_scope.

Lemma coef_nth gl : forall psi, NoDup gl -> length psi = length gl -> forall i, (i < length gl)%nat -> coef gl psi (nth i gl (0, 0, 0)%Z) = nth i psi (RtoC 0).
Proof.
  induction gl as [|a gl IH]; intros [|c psi] N HL i Hi; cbn [length] in *; try lia. apply NoDup_cons_iff in N as (N1 & N2).
  destruct i as [|i]; cbn [nth coef].
  - destruct (vec3_dec a a); [reflexivity|contradiction].
  - destruct (vec3_dec a (nth i gl (0, 0, 0)%Z)) as [E|_].
    + exfalso. apply N1. rewrite E. apply nth_In. lia.
    + apply IH; [exact N2|lia|lia].
Qed.
Definition at_ (v : list C) (ny nz x y z : nat) : C := nth ((x * ny + y) * nz + z)%nat v (RtoC 0).
(** Matrix elements as functions of the two vectors. *)
Definition locv (nx ny nz : nat) (v : list C) (g g' : vec3) : C :=
  csum nx (fun x => csum ny (fun y => csum nz (fun z =>
    Cconj (plane_wave nx ny nz g x y z) * at_ v ny nz x y z * plane_wave nx ny nz g' x y z)))%C.
Definition nlv1 (N : nonloc) (L : lattice) (w w' : rvec) : C :=
  csum (num_full (species_of N)) (fun p => csum (num_full (species_of N)) (fun q =>
    vkx N L p w * RtoC (dij_full (species_of N) p q) * Cconj (vkx N L q w')))%C.
Definition nlv (gens : list nonloc) (L : lattice) (w w' : rvec) : C :=
  fold_right (fun N acc => nlv1 N L w w' + acc)%C (RtoC 0) gens.
Definition kinv (L : lattice) (k : rvec) (g g' : vec3) : C :=
  if vec3_dec g g' then RtoC (/ 2 * vdot (gk_cart L (gk_cryst k g)) (gk_cart L (gk_cryst k g))) else RtoC 0.
Definition Hv (nx ny nz : nat) (L : lattice) (k : rvec) (v : list C) (gens : list nonloc) (g g' : vec3) : C :=
  (kinv L k g g' + locv nx ny nz v g g' + nlv gens L (gk_cryst k g) (gk_cryst k g'))%C.

Lemma init_parts L k b v gens h : ksham_init L k b v gens = Ok h ->
  kh_lat h = L /\ kh_k h = k /\ kh_gs h = b /\ kh_vloc h = v
  /\ Forall2 (fun N vd => gen_vkb_dij N L (map (gk_cryst k) (gs_cryst b)) = Ok vd) gens (kh_nloc h).
Proof.
  unfold ksham_init. destruct (sequence _) as [nl|] eqn:E; [|discriminate]. cbn [bind]. intros H. injection H as <-. cbn.
  repeat split. apply sequence_ok in E. revert nl E. induction gens as [|N gens IH]; intros [|vd nl] E; cbn [map] in E; try discriminate E; constructor.
  - congruence.
  - apply IH. congruence.
Qed.
Lemma separable_vec N L ws vd i j : gen_vkb_dij N L ws = Ok vd -> (i < length ws)%nat -> (j < length ws)%nat ->
  separable vd i j = nlv1 N L (nth i ws (V 0 0 0)) (nth j ws (V 0 0 0)) /\ (forall r, In r (fst vd) -> length r = length ws).
Proof.
  unfold gen_vkb_dij. destruct (kpoint_of N L ws) as [K|] eqn:E; [|discriminate]. cbn [bind]. intros H Hi Hj. injection H as <-. split.
  - unfold separable, nlv1. cbn [fst snd]. rewrite map_length, seq_length. apply csum_ext. intros p Hp. apply csum_ext. intros q Hq.
    assert (R0 : forall p g, (p < num_full (species_of N))%nat -> (g < length ws)%nat ->
      nth g (nth p (map (fun i0 => map (vkb_full sph_harm_y (species_of N) K i0) (seq 0 (length ws))) (seq 0 (num_full (species_of N)))) []) (RtoC 0)
      = vkx N L p (nth g ws (V 0 0 0))).
    { intros p' g Hp' Hg. rewrite (nth_indep _ _ (map (vkb_full sph_harm_y (species_of N) K O) (seq 0 (length ws)))) by (rewrite map_length, seq_length; lia).
      rewrite (map_nth (fun i0 => map (vkb_full sph_harm_y (species_of N) K i0) (seq 0 (length ws)))), seq_nth by lia.
      rewrite (nth_indep _ _ (vkb_full sph_harm_y (species_of N) K (0 + p') O)) by (rewrite map_length, seq_length; lia).
      rewrite map_nth, seq_nth by lia. now apply vkb_explicit. }
    rewrite !R0 by assumption. reflexivity.
  - cbn [fst]. intros r Hr. apply in_map_iff in Hr as (p & <- & _). now rewrite map_length, seq_length.
Qed.
Lemma hamiltonian_vec nx ny nz L k b v gens h i j : ksham_init L k b v gens = Ok h -> NoDup (gs_cryst b) ->
  (i < length (gs_cryst b))%nat -> (j < length (gs_cryst b))%nat ->
  hamiltonian nx ny nz h i j = Hv nx ny nz L k v gens (nth i (gs_cryst b) (0, 0, 0)%Z) (nth j (gs_cryst b) (0, 0, 0)%Z).
Proof.
  intros H ND Hi Hj. apply init_parts in H as (EL & EK & EG & EV & F). unfold hamiltonian, Hv. f_equal; [f_equal|].
  - unfold kinetic, kinv. rewrite EL, EK, EG. destruct (Nat.eqb_spec i j) as [->|N].
    + destruct (vec3_dec _ _); [reflexivity|contradiction].
    + destruct (vec3_dec _ _) as [E|_]; [|reflexivity]. exfalso. apply N. now apply (proj1 (NoDup_nth (gs_cryst b) (0, 0, 0)%Z) ND).
  - unfold local, locv, at_. now rewrite EG, EV.
  - unfold nonlocal, nlv.
    assert (W : forall i, (i < length (gs_cryst b))%nat -> nth i (map (gk_cryst k) (gs_cryst b)) (V 0 0 0) = gk_cryst k (nth i (gs_cryst b) (0, 0, 0)%Z)).
    { intros t Ht. rewrite (nth_indep _ _ (gk_cryst k (0, 0, 0)%Z)) by (rewrite map_length; lia). apply map_nth. }
    rewrite <- (W i Hi), <- (W j Hj). clear -F Hi Hj. revert F. generalize (kh_nloc h). induction gens as [|N gens IH]; intros nl F; inversion F as [|? vd ? nl' F1 F2]; subst; [reflexivity|].
    cbn [fold_right]. destruct (separable_vec _ _ _ _ i j F1) as (E & _); try (rewrite map_length; assumption). rewrite E. f_equal. now apply IH.
Qed.
Lemma init_wf nx ny nz L k b v gens h : ksham_init L k b v gens = Ok h -> (exists gs, gspace_base (zshape nx ny nz) gs = Ok b) ->
  length v = (nx * ny * nz)%nat -> well_formed nx ny nz h.
Proof.
  intros H HB HV. apply init_parts in H as (EL & EK & EG & EV & F). unfold well_formed. rewrite EG, EV. split; [exact HB|]. split; [exact HV|].
  intros vd r Hvd Hr. revert F Hvd. generalize (kh_nloc h). induction gens as [|N gens IH]; intros nl F Hvd; inversion F as [|? vd' ? nl' F1 F2]; subst; [destruct Hvd|].
  destruct Hvd as [->|Hvd]; [|now apply (IH nl')]. clear IH F F2. unfold gen_vkb_dij in F1. destruct (kpoint_of _ _ _); [|discriminate]. cbn [bind] in F1. injection F1 as <-.
  cbn [fst] in Hr. apply in_map_iff in Hr as (p & <- & _). now rewrite !map_length, seq_length.
Qed.

(** One application, coefficient by coefficient. *)
Lemma apply_coef nx ny nz L k b v gens h gar hist psi : ksham_init L k b v gens = Ok h -> (exists gs, gspace_base (zshape nx ny nz) gs = Ok b) ->
  length v = (nx * ny * nz)%nat -> NoDup (gs_cryst b) -> length psi = length (gs_cryst b) -> forall g, In g (gs_cryst b) ->
  coef (gs_cryst b) (apply_h nx ny nz h gar hist psi) g
  = lsum (gs_cryst b) (fun g' => Hv nx ny nz L k v gens g g' * coef (gs_cryst b) psi g')%C.
Proof.
  intros H HB HV ND HL g Hg. pose proof (init_wf nx ny nz _ _ _ _ _ _ H HB HV) as WF. pose proof (init_parts _ _ _ _ _ _ H) as (_ & _ & EG & _).
  destruct (apply_h_eq nx ny nz h gar hist psi WF) as (L1 & E); [now rewrite EG|]. rewrite EG in *.
  apply (In_nth _ _ (0, 0, 0)%Z) in Hg as (i & Hi & <-). rewrite coef_nth by assumption. rewrite E by exact Hi.
  rewrite <- (lsum_nth _ (0, 0, 0)%Z). apply csum_ext. intros j Hj. rewrite coef_nth by assumption.
  now rewrite (hamiltonian_vec nx ny nz _ _ _ _ _ _ i j H ND Hi Hj).
Qed.

(** Two plane-wave sets related by an injective map of vectors. *)
Lemma related_perm (f : vec3 -> vec3) gl gl' : NoDup gl -> NoDup gl' -> (forall g g', f g = f g' -> g = g') ->
  (forall g, In g gl' <-> In (f g) gl) -> (forall g, In g gl -> exists g', g = f g') -> Permutation (map f gl') gl.
Proof.
  intros N N' J E SU. apply NoDup_Permutation; [|exact N|].
  - clear -N' J. induction N' as [|a l A _ IH]; [constructor|]. cbn [map]. constructor; [|exact IH]. intros Hin. apply in_map_iff in Hin as (c & C1 & C2). apply J in C1. now subst.
  - intros g. rewrite in_map_iff. split; [intros (g' & <- & Hg'); now apply E|]. intros Hg. destruct (SU g Hg) as (g' & ->). exists g'. split; [reflexivity|]. now apply E.
Qed.
Lemma gk_base P U unit_ ecut arg G k ew b idx nx ny nz : mk_ulattice unit_ P = Ok U -> gspace_new U ecut arg = Ok G ->
  gs_shape (sp_base G) = zshape nx ny nz ->
  gkspace_new G k ew = Ok (b, idx) -> (exists gs, gspace_base (zshape nx ny nz) gs = Ok b) /\ NoDup (gs_cryst b)
  /\ forall g, In g (gs_cryst b) <-> (In g (gs_cryst (sp_base G)) /\ len2 U (vadd (gvec g) k) <= 2 * match ew with None => ecut / 4 | Some e => e end).
Proof.
  intros HU HG HS HB. destruct (C09_gkspace_is_sphere _ _ _ _ _ _ _ _ _ _ HU HG HB) as (N & _ & E & _). split; [|split; [exact N|exact E]].
  unfold gkspace_new in HB. destruct (gspace_base _ _) as [b0|] eqn:EB; [|discriminate]. cbn [bind] in HB. injection HB as <- <-. rewrite HS in EB. eauto.
Qed.

Lemma gvec_neg g : gvec (zneg g) = vneg (gvec g).
Proof. destruct g as [[a b] c]. unfold gvec, zneg, vneg. cbn [vx vy vz]. now rewrite !opp_IZR. Qed.
Lemma gvec_plus g h : gvec (zplus g h) = vadd (gvec g) (gvec h).
Proof. destruct g as [[a b] c], h as [[x y] z]. unfold gvec, zplus, vadd. cbn [vx vy vz]. now rewrite !plus_IZR. Qed.
Lemma zneg_zneg g : zneg (zneg g) = g.
Proof. destruct g as [[a b] c]. unfold zneg. now rewrite !Z.opp_involutive. Qed.
Lemma vneg_add u v : vadd (vneg u) (vneg v) = vneg (vadd u v).
Proof. unfold vadd, vneg. cbn [vx vy vz]. f_equal; ring. Qed.
Lemma gk_neg k g : gk_cryst (vneg k) g = vneg (gk_cryst k (zneg g)).
Proof. unfold gk_cryst. rewrite <- vneg_add, <- gvec_neg, zneg_zneg. reflexivity. Qed.
Lemma len2_neg U w : len2 U (vneg w) = len2 U w.
Proof. unfold len2. change (cryst2cart (u_lat U)) with (gk_cart (u_lat U)). rewrite cart_neg. unfold vdot, vneg. cbn [vx vy vz]. ring. Qed.
Lemma pw_neg nx ny nz g x y z : plane_wave nx ny nz (zneg g) x y z = Cconj (plane_wave nx ny nz g x y z).
Proof. destruct g as [[a b] c]. unfold plane_wave, zneg. rewrite cis_conj, !opp_IZR. f_equal. ring. Qed.
Lemma dij_conj (r : R) : Cconj (RtoC r) = RtoC r.
Proof. unfold Cconj, RtoC. cbn [fst snd]. f_equal. ring. Qed.

Lemma conj_real (c : C) : snd c = 0 -> Cconj c = c.
Proof. destruct c as [p q]. cbn [snd]. intros ->. unfold Cconj. cbn [fst snd]. f_equal. ring. Qed.
(** ---- opposite k-points ---- *)
Lemma basis_mirror P U unit_ ecut G k ew b idx b' idx' : mk_ulattice unit_ P = Ok U -> gspace_new U ecut None = Ok G ->
  gkspace_new G k ew = Ok (b, idx) -> gkspace_new G (vneg k) ew = Ok (b', idx') ->
  forall g, In g (gs_cryst b') <-> In (zneg g) (gs_cryst b).
Proof.
  intros HU HG HB HB' g.
  destruct (C09_gkspace_is_sphere _ _ _ _ _ _ _ _ _ _ HU HG HB) as (_ & _ & E & _).
  destruct (C09_gkspace_is_sphere _ _ _ _ _ _ _ _ _ _ HU HG HB') as (_ & _ & E' & _).
  rewrite E, E', !(C11_default_grid_complete _ _ _ _ _ HU HG). rewrite gvec_neg, len2_neg.
  change (vadd (gvec g) (vneg k)) with (gk_cryst (vneg k) g). rewrite gk_neg, len2_neg. unfold gk_cryst. rewrite gvec_neg. reflexivity.
Qed.
Lemma Hv_neg e nx ny nz L k v gens g g' : Forall (made_from_file e) gens -> (forall c, In c v -> snd c = 0) ->
  (gk_norm L (gk_cryst k (zneg g)) = 0 \/ / 10 ^ 7 < gk_norm L (gk_cryst k (zneg g))) ->
  (gk_norm L (gk_cryst k (zneg g')) = 0 \/ / 10 ^ 7 < gk_norm L (gk_cryst k (zneg g'))) ->
  Hv nx ny nz L (vneg k) v gens g g' = Cconj (Hv nx ny nz L k v gens (zneg g) (zneg g')).
Proof.
  intros HM HR W W'. unfold Hv. rewrite !Cplus_conj. f_equal; [f_equal|].
  - unfold kinv. destruct (vec3_dec g g') as [->|N].
    + destruct (vec3_dec _ _); [|contradiction]. rewrite dij_conj, gk_neg, cart_neg. do 2 f_equal. unfold vdot, vneg. cbn [vx vy vz]. ring.
    + destruct (vec3_dec (zneg g) (zneg g')) as [E|_]; [|now rewrite dij_conj]. exfalso. apply N. rewrite <- (zneg_zneg g), E. apply zneg_zneg.
  - unfold locv. rewrite csum_conj. apply csum_ext. intros x _. rewrite csum_conj. apply csum_ext. intros y _. rewrite csum_conj. apply csum_ext. intros z _.
    rewrite !Cmult_conj, !pw_neg, !Cconj_conj. assert (V0 : Cconj (at_ v ny nz x y z) = at_ v ny nz x y z).
    { apply conj_real. unfold at_. set (t := ((x * ny + y) * nz + z)%nat). destruct (Nat.lt_ge_cases t (length v)) as [Ht|Ht]; [now apply HR, nth_In|].
      now rewrite nth_overflow. }
    rewrite V0. ring.
  - unfold nlv. induction HM as [|N gens HN _ IH]; [symmetry; apply dij_conj|]. cbn [fold_right]. rewrite Cplus_conj, IH. f_equal.
    unfold nlv1. rewrite csum_conj. apply csum_ext. intros p Hp. rewrite csum_conj. apply csum_ext. intros q Hq.
    rewrite !Cmult_conj, !gk_neg, dij_conj, !(vkx_neg e) by assumption. reflexivity.
Qed.

(** C108.  Time reversal: the plane-wave sets at k and -k are mirror images, and for a real potential the
    Hamiltonian at -k acts on the mirrored conjugate of psi as the Hamiltonian at k acts on psi. *)
Theorem C108_time_reversal : forall P U unit_ ecut G k ew b idx b' idx' nx ny nz vloc gens h h',
  mk_ulattice unit_ P = Ok U -> gspace_new U ecut None = Ok G -> gs_shape (sp_base G) = zshape nx ny nz ->
  gkspace_new G k ew = Ok (b, idx) -> gkspace_new G (vneg k) ew = Ok (b', idx') ->
  length vloc = (nx * ny * nz)%nat -> (forall c, In c vloc -> snd c = 0) ->
  Forall (made_from_file ecut) gens -> directions_known (u_lat U) k (gs_cryst b) ->
  ksham_init (u_lat U) k b vloc gens = Ok h -> ksham_init (u_lat U) (vneg k) b' vloc gens = Ok h' ->
  (forall g, In g (gs_cryst b') <-> In (zneg g) (gs_cryst b)) /\
  forall psi psi', length psi = length (gs_cryst b) -> length psi' = length (gs_cryst b') ->
    (forall g, In g (gs_cryst b') -> coef (gs_cryst b') psi' g = Cconj (coef (gs_cryst b) psi (zneg g))) ->
    forall gar hist gar' hist' g, In g (gs_cryst b') ->
      coef (gs_cryst b') (apply_h nx ny nz h' gar' hist' psi') g
      = Cconj (coef (gs_cryst b) (apply_h nx ny nz h gar hist psi) (zneg g)).
Proof.
  intros P U unit_ ecut G k ew b idx b' idx' nx ny nz vloc gens h h' HU HG HS HB HB' HV HR HM HD Hh Hh'.
  pose proof (basis_mirror _ _ _ _ _ _ _ _ _ _ _ HU HG HB HB') as MI. split; [exact MI|].
  destruct (gk_base _ _ _ _ _ _ _ _ _ _ nx ny nz HU HG HS HB) as (GB & ND & _). destruct (gk_base _ _ _ _ _ _ _ _ _ _ nx ny nz HU HG HS HB') as (GB' & ND' & _).
  intros psi psi' L1 L2 E gar hist gar' hist' g Hg.
  rewrite (apply_coef _ _ _ _ _ _ _ _ _ gar' hist' psi' Hh' GB' HV ND' L2 g Hg).
  rewrite (apply_coef _ _ _ _ _ _ _ _ _ gar hist psi Hh GB HV ND L1 (zneg g)) by now apply MI.
  rewrite <- (lsum_perm (map zneg (gs_cryst b')) (gs_cryst b)).
  - rewrite lsum_map. assert (LC : forall (l : list vec3) f, Cconj (lsum l f) = lsum l (fun a => Cconj (f a))).
    { intros l f. induction l as [|a l IH]; [unfold lsum; cbn; apply dij_conj|]. rewrite !lsum_cons, Cplus_conj, IH. reflexivity. }
    rewrite LC. apply lsum_ext. intros g' Hg'. rewrite Cmult_conj, E by exact Hg'. f_equal.
    apply (Hv_neg ecut); [exact HM|exact HR| |]; apply HD; now apply MI.
  - apply related_perm; [exact ND|exact ND'| |exact MI|].
    + intros a c H. rewrite <- (zneg_zneg a), H. apply zneg_zneg.
    + intros a _. exists (zneg a). symmetry. apply zneg_zneg.
Qed.
Print Assumptions C108_time_reversal.

(** ---- k-points that differ by a reciprocal lattice vector ---- *)
Lemma gk_plus k g0 g : gk_cryst (vadd k (gvec g0)) g = gk_cryst k (zplus g g0).
Proof. unfold gk_cryst. rewrite gvec_plus. unfold vadd. cbn [vx vy vz]. f_equal; ring. Qed.
Lemma zplus_inj g0 g h : zplus g g0 = zplus h g0 -> g = h.
Proof. destruct g as [[a b] c], h as [[x y] z], g0 as [[p q] r]. unfold zplus. intros H. injection H as H1 H2 H3. f_equal; [f_equal|]; lia. Qed.
Lemma zplus_cancel g0 g : g = zplus (zplus g (zneg g0)) g0.
Proof. destruct g as [[a b] c], g0 as [[p q] r]. unfold zplus, zneg. f_equal; [f_equal|]; lia. Qed.
Lemma pw_plus nx ny nz g h x y z : plane_wave nx ny nz (zplus g h) x y z = (plane_wave nx ny nz g x y z * plane_wave nx ny nz h x y z)%C.
Proof. destruct g as [[a b] c], h as [[p q] r]. unfold plane_wave, zplus. rewrite <- cis_plus, !plus_IZR. f_equal. ring. Qed.
Lemma pw_unit nx ny nz g x y z : (plane_wave nx ny nz g x y z * Cconj (plane_wave nx ny nz g x y z) = RtoC 1)%C.
Proof. destruct g as [[a b] c]. unfold plane_wave. apply cis_norm2. Qed.
Lemma Hv_plus nx ny nz L k v gens g0 g g' :
  Hv nx ny nz L (vadd k (gvec g0)) v gens g g' = Hv nx ny nz L k v gens (zplus g g0) (zplus g' g0).
Proof.
  unfold Hv. rewrite !gk_plus. f_equal. f_equal.
  - unfold kinv. rewrite gk_plus. destruct (vec3_dec g g') as [->|N]; [destruct (vec3_dec _ _); [reflexivity|contradiction]|].
    destruct (vec3_dec (zplus g g0) (zplus g' g0)) as [E|_]; [|reflexivity]. now apply zplus_inj in E.
  - unfold locv. apply csum_ext. intros x _. apply csum_ext. intros y _. apply csum_ext. intros z _. rewrite !pw_plus, Cmult_conj.
    set (p := plane_wave nx ny nz g0 x y z). pose proof (pw_unit nx ny nz g0 x y z) as U1. fold p in U1.
    set (a := Cconj (plane_wave nx ny nz g x y z)). set (c := plane_wave nx ny nz g' x y z). set (w := at_ v ny nz x y z).
    transitivity ((a * w * c) * (p * Cconj p))%C; [rewrite U1; ring|ring].
Qed.
Lemma len2_norm U w : len2 U w = length_of (u_lat U) w * length_of (u_lat U) w.
Proof. unfold len2, length_of. symmetry. apply sqrt_sqrt. unfold vdot. nra. Qed.
Lemma length_nonneg L w : 0 <= length_of L w.
Proof. apply sqrt_pos. Qed.
Lemma length_sub U u w e E : len2 U (vadd u w) <= 2 * e -> sqrt (2 * e) + length_of (u_lat U) w <= sqrt (2 * E) -> 0 < E -> len2 U u <= 2 * E.
Proof.
  intros H1 H2 HE.
  assert (T0 : length_of (u_lat U) u <= length_of (u_lat U) (vadd u w) + length_of (u_lat U) w).
  { set (a := mv (primvec (u_lat U)) (vadd u w)). set (c := mv (primvec (u_lat U)) w).
    assert (EU : mv (primvec (u_lat U)) u = vsub a c).
    { unfold a, c, vsub, mv, vadd, vscale. destruct (primvec (u_lat U)) as [[a1 a2 a3] [b1 b2 b3] [d1 d2 d3]]. cbn. f_equal; ring. }
    unfold length_of. rewrite EU. fold a c. apply Rsqr_incr_0_var; [|apply Rplus_le_le_0_compat; apply sqrt_pos].
    pose proof (cauchy_schwarz a c) as CS. unfold vnorm in CS. assert (CS2 : - (sqrt (vdot a a) * sqrt (vdot c c)) <= vdot a c <= sqrt (vdot a a) * sqrt (vdot c c)) by (revert CS; unfold Rabs; destruct Rcase_abs; lra). clear CS.
    rewrite Rsqr_sqrt by (unfold vdot; nra). unfold Rsqr. set (x := sqrt (vdot a a)) in *. set (y := sqrt (vdot c c)) in *.
    assert (X2 : x * x = vdot a a) by (apply sqrt_sqrt; unfold vdot; nra). assert (Y2 : y * y = vdot c c) by (apply sqrt_sqrt; unfold vdot; nra).
    replace (vdot (vsub a c) (vsub a c)) with (vdot a a - 2 * vdot a c + vdot c c) by (unfold vdot, vsub; cbn [vx vy vz]; ring). nra. }
  assert (T1 : length_of (u_lat U) (vadd u w) <= sqrt (2 * e)).
  { rewrite len2_norm in H1. rewrite <- (sqrt_square (length_of (u_lat U) (vadd u w))) by apply length_nonneg. apply sqrt_le_1_alt. exact H1. }
  rewrite len2_norm. assert (Q : sqrt (2 * E) * sqrt (2 * E) = 2 * E) by (apply sqrt_sqrt; lra). rewrite <- Q.
  pose proof (length_nonneg (u_lat U) u). apply Rmult_le_compat; lra.
Qed.
(** C108.  Periodicity in reciprocal space: for k and k + G0 both well inside the density sphere, the plane-wave
    sets are shifted copies of each other and the Hamiltonians act alike on shifted coefficients. *)
Theorem C108_periodic : forall P U unit_ ecut G k g0 ew b idx b' idx' nx ny nz vloc gens h h',
  mk_ulattice unit_ P = Ok U -> gspace_new U ecut None = Ok G -> gs_shape (sp_base G) = zshape nx ny nz ->
  gkspace_new G k ew = Ok (b, idx) -> gkspace_new G (vadd k (gvec g0)) ew = Ok (b', idx') ->
  (let e := match ew with None => ecut / 4 | Some e => e end in
   sqrt (2 * e) + length_of (u_lat U) k <= sqrt (2 * ecut) /\ sqrt (2 * e) + length_of (u_lat U) (vadd k (gvec g0)) <= sqrt (2 * ecut)) ->
  length vloc = (nx * ny * nz)%nat ->
  ksham_init (u_lat U) k b vloc gens = Ok h -> ksham_init (u_lat U) (vadd k (gvec g0)) b' vloc gens = Ok h' ->
  (forall g, In g (gs_cryst b') <-> In (zplus g g0) (gs_cryst b)) /\
  forall psi psi', length psi = length (gs_cryst b) -> length psi' = length (gs_cryst b') ->
    (forall g, In g (gs_cryst b') -> coef (gs_cryst b') psi' g = coef (gs_cryst b) psi (zplus g g0)) ->
    forall gar hist gar' hist' g, In g (gs_cryst b') ->
      coef (gs_cryst b') (apply_h nx ny nz h' gar' hist' psi') g
      = coef (gs_cryst b) (apply_h nx ny nz h gar hist psi) (zplus g g0).
Proof.
  intros P U unit_ ecut G k g0 ew b idx b' idx' nx ny nz vloc gens h h' HU HG HS HB HB' HE HV Hh Hh'.
  destruct (C09_gspace_is_sphere _ _ _ _ _ _ HU HG) as (EP & _).
  destruct (gk_base _ _ _ _ _ _ _ _ _ _ nx ny nz HU HG HS HB) as (GB & ND & EB). destruct (gk_base _ _ _ _ _ _ _ _ _ _ nx ny nz HU HG HS HB') as (GB' & ND' & EB').
  assert (MI : forall g, In g (gs_cryst b') <-> In (zplus g g0) (gs_cryst b)).
  { intros g. rewrite EB, EB', !(C11_default_grid_complete _ _ _ _ _ HU HG). cbv zeta in HE. destruct HE as (HE1 & HE2).
    pose proof (gk_plus k g0 g) as W. unfold gk_cryst in W. rewrite W. clear W. split; intros (A1 & A2); (split; [|exact A2]).
    - exact (length_sub _ _ _ _ _ A2 HE1 EP).
    - apply (length_sub U (gvec g) (vadd k (gvec g0)) (match ew with None => ecut / 4 | Some e => e end)); [|exact HE2|exact EP].
      pose proof (gk_plus k g0 g) as W. unfold gk_cryst in W. rewrite W. exact A2. }
  split; [exact MI|]. intros psi psi' L1 L2 E gar hist gar' hist' g Hg.
  rewrite (apply_coef _ _ _ _ _ _ _ _ _ gar' hist' psi' Hh' GB' HV ND' L2 g Hg).
  rewrite (apply_coef _ _ _ _ _ _ _ _ _ gar hist psi Hh GB HV ND L1 (zplus g g0)) by now apply MI.
  rewrite <- (lsum_perm (map (fun a => zplus a g0) (gs_cryst b')) (gs_cryst b)).
  - rewrite lsum_map. apply lsum_ext. intros g' Hg'. now rewrite E, Hv_plus by exact Hg'.
  - apply related_perm; [exact ND|exact ND'|apply zplus_inj|exact MI|]. intros a _. exists (zplus a (zneg g0)). apply zplus_cancel.
Qed.
Print Assumptions C108_periodic.

(** ---- rigid translations ---- *)
Definition dgrid (nx ny nz a b c : nat) : rvec := V (INR a / INR nx) (INR b / INR ny) (INR c / INR nz).
Lemma moved_full d N : num_full (species_of (moved d N)) = num_full (species_of N).
Proof. unfold num_full. cbn. now rewrite map_length. Qed.
Lemma phase_add tau d w : phase (vadd tau d) w = (cis (- (2 * PI * vdot d w)) * phase tau w)%C.
Proof. unfold phase. rewrite <- cis_plus. f_equal. unfold vdot, vadd. cbn [vx vy vz]. ring. Qed.
Lemma vkx_moved d N L p w : (p < num_full (species_of N))%nat -> vkx (moved d N) L p w = (cis (- (2 * PI * vdot d w)) * vkx N L p w)%C.
Proof.
  intros Hp. unfold num_full in Hp. cbn [species_of s_pos s_l] in Hp.
  assert (Hn : (0 < numvkb (nl_l N))%nat) by (destruct (numvkb (nl_l N)); lia).
  unfold vkx. cbv zeta. change (nl_l (moved d N)) with (nl_l N). change (rad (moved d N)) with (rad N).
  assert (Hq : (p / numvkb (nl_l N) < length (nl_pos N))%nat) by (apply Nat.div_lt_upper_bound; lia).
  cbn [moved nl_pos]. rewrite (nth_indep _ _ (vadd (V 0 0 0) d)) by (rewrite map_length; exact Hq).
  rewrite (map_nth (fun tau => vadd tau d)), phase_add. ring.
Qed.
Lemma shift_sum n a (f : nat -> C) : csum n f = csum n (fun x => f ((x + a) mod n)%nat).
Proof.
  symmetry. destruct n as [|n]; [reflexivity|]. apply (csum_perm (S n) f (fun x => (x + a) mod S n)%nat).
  - intros i _. apply Nat.mod_upper_bound. lia.
  - intros i j Hi Hj E. assert (EZ : ((Z.of_nat i + Z.of_nat a) mod Z.of_nat (S n) = (Z.of_nat j + Z.of_nat a) mod Z.of_nat (S n))%Z) by (rewrite <- !Nat2Z.inj_add, <- !Nat2Z.inj_mod; now rewrite E).
    assert (D : ((Z.of_nat i - Z.of_nat j) mod Z.of_nat (S n) = 0)%Z).
    { replace (Z.of_nat i - Z.of_nat j)%Z with ((Z.of_nat i + Z.of_nat a) - (Z.of_nat j + Z.of_nat a))%Z by ring. rewrite Zminus_mod, EZ, Z.sub_diag. apply Z.mod_0_l. lia. }
    apply Z.mod_divide in D; [|lia]. destruct D as (q & D). assert (q = 0)%Z by nia. subst q. lia.
Qed.
Lemma pw_shift nx ny nz g x y z a b c : (0 < nx)%nat -> (0 < ny)%nat -> (0 < nz)%nat ->
  plane_wave nx ny nz g ((x + a) mod nx) ((y + b) mod ny) ((z + c) mod nz)
  = (plane_wave nx ny nz g x y z * cis (2 * PI * vdot (dgrid nx ny nz a b c) (gvec g)))%C.
Proof.
  intros Hx Hy Hz. destruct g as [[g1 g2] g3]. unfold plane_wave, dgrid, gvec, vdot. cbn [vx vy vz]. rewrite <- cis_plus.
  assert (M : forall n u t, (0 < n)%nat -> INR ((u + t) mod n) / INR n = INR u / INR n + INR t / INR n - IZR (Z.of_nat ((u + t) / n))).
  { intros n u t Hn. pose proof (Nat.div_mod (u + t) n ltac:(lia)) as D. apply (f_equal INR) in D. rewrite plus_INR, plus_INR, mult_INR in D.
    assert (INR n <> 0) by (apply not_0_INR; lia). rewrite <- INR_IZR_INZ. apply (Rmult_eq_reg_r (INR n)); [|assumption]. field_simplify; [|assumption..]. lra. }
  rewrite !M by assumption.
  set (q1 := Z.of_nat ((x + a) / nx)). set (q2 := Z.of_nat ((y + b) / ny)). set (q3 := Z.of_nat ((z + c) / nz)).
  match goal with |- cis ?u = cis ?t => replace u with (t + 2 * PI * IZR (- (g1 * q1 + g2 * q2 + g3 * q3))) by (rewrite opp_IZR, !plus_IZR, !mult_IZR; ring) end.
  rewrite cis_plus, cis_2PI_Z. ring.
Qed.
Lemma locv_moved nx ny nz a b c v v' g g' : moved_potential nx ny nz a b c v v' -> (0 < nx)%nat -> (0 < ny)%nat -> (0 < nz)%nat ->
  locv nx ny nz v' g g' = (cis (2 * PI * vdot (dgrid nx ny nz a b c) (vsub (gvec g') (gvec g))) * locv nx ny nz v g g')%C.
Proof.
  intros HM Hx Hy Hz. unfold locv. rewrite (shift_sum nx a). rewrite <- csum_scal. apply csum_ext. intros x Lx.
  rewrite (shift_sum ny b). rewrite <- csum_scal. apply csum_ext. intros y Ly. rewrite (shift_sum nz c). rewrite <- csum_scal. apply csum_ext. intros z Lz.
  rewrite !pw_shift by assumption. unfold at_. rewrite HM by assumption. rewrite Cmult_conj, cis_conj.
  set (d := dgrid nx ny nz a b c).
  replace (2 * PI * vdot d (vsub (gvec g') (gvec g))) with (2 * PI * vdot d (gvec g') + - (2 * PI * vdot d (gvec g))) by (unfold vdot, vsub; cbn [vx vy vz]; ring).
  rewrite cis_plus. ring.
Qed.
Lemma Hv_moved nx ny nz L k v v' gens g g' a b c : moved_potential nx ny nz a b c v v' -> (0 < nx)%nat -> (0 < ny)%nat -> (0 < nz)%nat ->
  let d := dgrid nx ny nz a b c in
  (Hv nx ny nz L k v' (map (moved d) gens) g g' * cis (- (2 * PI * vdot d (gk_cryst k g')))
   = cis (- (2 * PI * vdot d (gk_cryst k g))) * Hv nx ny nz L k v gens g g')%C.
Proof.
  intros HM Hx Hy Hz d.
  assert (PH : (cis (2 * PI * vdot d (vsub (gvec g') (gvec g))) * cis (- (2 * PI * vdot d (gk_cryst k g'))) = cis (- (2 * PI * vdot d (gk_cryst k g))))%C).
  { rewrite <- cis_plus. f_equal. unfold vdot, gk_cryst, vsub, vadd. cbn [vx vy vz]. ring. }
  unfold Hv. rewrite !Cmult_plus_distr_r, !Cmult_plus_distr_l. f_equal; [f_equal|].
  - unfold kinv. destruct (vec3_dec g g') as [->|N]; [ring|]. ring.
  - rewrite (locv_moved nx ny nz a b c v v') by assumption. fold d. rewrite <- PH. ring.
  - unfold nlv. induction gens as [|N gens IH]; [cbn [map fold_right]; ring|]. cbn [map fold_right]. rewrite Cmult_plus_distr_r, Cmult_plus_distr_l, IH. f_equal.
    unfold nlv1. rewrite moved_full. rewrite <- csum_scal_r, <- csum_scal. apply csum_ext. intros p Hp. rewrite <- csum_scal_r, <- csum_scal. apply csum_ext. intros q Hq.
    rewrite !vkx_moved by assumption. rewrite Cmult_conj, cis_conj, Ropp_involutive.
    assert (DJ : dij_full (species_of (moved d N)) p q = dij_full (species_of N) p q) by reflexivity. rewrite DJ.
    set (w' := gk_cryst k g'). pose proof (cis_plus (2 * PI * vdot d w') (- (2 * PI * vdot d w'))) as C0. rewrite Rplus_opp_r, cis_0 in C0.
    transitivity (cis (- (2 * PI * vdot d (gk_cryst k g))) * (vkx N L p (gk_cryst k g) * RtoC (dij_full (species_of N) p q) * Cconj (vkx N L q w'))
      * (cis (2 * PI * vdot d w') * cis (- (2 * PI * vdot d w'))))%C; [ring|]. rewrite <- C0. ring.
Qed.
(** C108.  Moving all atoms and the potential by a vector of the real-space grid multiplies every coefficient by
    exp(-i (k+G).d) and changes nothing else: plane waves, kinetic energies, spectrum. *)
Theorem C108_translation : forall P U unit_ ecut arg G k ew b idx nx ny nz vloc vloc' gens h h' a1 a2 a3,
  mk_ulattice unit_ P = Ok U -> gspace_new U ecut arg = Ok G -> gs_shape (sp_base G) = zshape nx ny nz ->
  gkspace_new G k ew = Ok (b, idx) ->
  length vloc = (nx * ny * nz)%nat -> length vloc' = (nx * ny * nz)%nat -> moved_potential nx ny nz a1 a2 a3 vloc vloc' ->
  let d := V (INR a1 / INR nx) (INR a2 / INR ny) (INR a3 / INR nz) in
  let u g := cis (- (2 * PI * vdot d (vadd (gvec g) k))) in
  ksham_init (u_lat U) k b vloc gens = Ok h -> ksham_init (u_lat U) k b vloc' (map (moved d) gens) = Ok h' ->
  forall psi psi', length psi = length (gs_cryst b) -> length psi' = length (gs_cryst b) ->
    (forall g, In g (gs_cryst b) -> coef (gs_cryst b) psi' g = u g * coef (gs_cryst b) psi g)%C ->
    forall gar hist gar' hist' g, In g (gs_cryst b) ->
      coef (gs_cryst b) (apply_h nx ny nz h' gar' hist' psi') g
      = (u g * coef (gs_cryst b) (apply_h nx ny nz h gar hist psi) g)%C.
Proof.
  intros P U unit_ ecut arg G k ew b idx nx ny nz vloc vloc' gens h h' a1 a2 a3 HU HG HS HB HV HV' HM d u Hh Hh' psi psi' L1 L2 E gar hist gar' hist' g Hg.
  destruct (gk_base _ _ _ _ _ _ _ _ _ _ nx ny nz HU HG HS HB) as (GB & ND & _).
  assert (PO : (0 < nx)%nat /\ (0 < ny)%nat /\ (0 < nz)%nat).
  { destruct GB as (gs & GB). unfold gspace_base, check_g_cryst in GB. destruct (shape_ok (zshape nx ny nz)) eqn:SO; [|discriminate GB].
    unfold shape_ok, zshape in SO. apply andb_true_iff in SO as (SO & S3). apply andb_true_iff in SO as (S1 & S2). lia. }
  destruct PO as (Hx & Hy & Hz).
  rewrite (apply_coef _ _ _ _ _ _ _ _ _ gar' hist' psi' Hh' GB HV' ND L2 g Hg).
  rewrite (apply_coef _ _ _ _ _ _ _ _ _ gar hist psi Hh GB HV ND L1 g Hg).
  rewrite <- lsum_scal. apply lsum_ext. intros g' Hg'. rewrite E by exact Hg'.
  pose proof (Hv_moved nx ny nz (u_lat U) k vloc vloc' gens g g' a1 a2 a3 HM Hx Hy Hz) as K. cbv zeta in K. change (dgrid nx ny nz a1 a2 a3) with d in K.
  unfold gk_cryst in K. fold (u g) (u g') in K. rewrite !Cmult_assoc. now rewrite K.
Qed.
Print Assumptions C108_translation.

(** ---- energy levels ---- *)
Lemma coef_map (F : vec3 -> C) gl g : In g gl -> coef gl (map F gl) g = F g.
Proof.
  induction gl as [|a gl IH]; intros Hg; [destruct Hg|]. cbn [map coef]. destruct (vec3_dec a g) as [->|N]; [reflexivity|].
  apply IH. destruct Hg as [Hg|Hg]; [contradiction|exact Hg].
Qed.
Lemma transport gl gl' (H H' : list C -> list C) (f F : vec3 -> vec3) (T S : vec3 -> C -> C) E :
  (forall g, In g gl' <-> In (f g) gl) -> (forall g, f (F g) = g) -> (forall g, F (f g) = g) ->
  (forall g c, T g (S g c) = c) -> (forall g c, S g (T g c) = c) -> (forall g c, T g (RtoC E * c) = RtoC E * T g c)%C ->
  (forall g, T g (RtoC 0) = RtoC 0) ->
  (forall psi psi', length psi = length gl -> length psi' = length gl' ->
     (forall g, In g gl' -> coef gl' psi' g = T g (coef gl psi (f g))) ->
     forall g, In g gl' -> coef gl' (H' psi') g = T g (coef gl (H psi) (f g))) ->
  is_level gl H E <-> is_level gl' H' E.
Proof.
  intros HM fF Ff TS ST TE T0 HI. split; intros (psi & HL & (g1 & Hg1 & NZ) & HE).
  - exists (map (fun g => T g (coef gl psi (f g))) gl'). split; [apply map_length|].
    assert (CF : forall g, In g gl' -> coef gl' (map (fun g => T g (coef gl psi (f g))) gl') g = T g (coef gl psi (f g))) by (intros g Hg; now apply (coef_map (fun g => T g (coef gl psi (f g))))).
    split.
    + exists (F g1). assert (I : In (F g1) gl') by (apply HM; now rewrite fF). split; [exact I|]. rewrite CF by exact I. rewrite fF. intros E0.
      apply NZ. rewrite <- (ST (F g1) (coef gl psi g1)), E0. pose proof (ST (F g1) (RtoC 0)) as Z0. rewrite T0 in Z0. exact Z0.
    + intros g Hg. rewrite (HI psi _ HL (map_length _ _) CF g Hg), CF by exact Hg. rewrite HE by now apply HM. apply TE.
  - set (phi := map (fun g => S (F g) (coef gl' psi (F g))) gl).
    assert (LP : length phi = length gl) by apply map_length.
    assert (CF : forall g, In g gl -> coef gl phi g = S (F g) (coef gl' psi (F g))) by (intros g Hg; now apply (coef_map (fun g => S (F g) (coef gl' psi (F g))))).
    assert (CG : forall g, In g gl' -> coef gl' psi g = T g (coef gl phi (f g))) by (intros g Hg; rewrite CF by (now apply HM); now rewrite Ff, TS).
    exists phi. split; [exact LP|]. split.
    + exists (f g1). split; [now apply HM|]. intros E0. apply NZ. rewrite CG by exact Hg1. now rewrite E0, T0.
    + intros g Hg. assert (I : In (F g) gl') by (apply HM; now rewrite fF).
      pose proof (HI phi psi LP HL CG (F g) I) as K. rewrite HE, CG, <- TE in K by exact I. rewrite fF in K.
      apply (f_equal (S (F g))) in K. rewrite !ST in K. now symmetry.
Qed.
Lemma zneg_neg g : zneg (zneg g) = g.
Proof. destruct g as [[a b] c]. cbn. now rewrite !Z.opp_involutive. Qed.
Lemma conj0 : Cconj (RtoC 0) = RtoC 0.
Proof. unfold Cconj, RtoC. cbn. now rewrite Ropp_0. Qed.
Lemma cis_inv t : (cis (- t) * cis t = RtoC 1)%C.
Proof. rewrite <- cis_plus, Rplus_opp_l. apply cis_0. Qed.
(** C108.  The energy levels at k and at -k are the same numbers. *)
Theorem C108_levels_opposite_k : forall P U unit_ ecut G k ew b idx b' idx' nx ny nz vloc gens h h' gar hist gar' hist' E,
  mk_ulattice unit_ P = Ok U -> gspace_new U ecut None = Ok G -> gs_shape (sp_base G) = zshape nx ny nz ->
  gkspace_new G k ew = Ok (b, idx) -> gkspace_new G (vneg k) ew = Ok (b', idx') ->
  length vloc = (nx * ny * nz)%nat -> (forall c, In c vloc -> snd c = 0) ->
  Forall (made_from_file ecut) gens -> directions_known (u_lat U) k (gs_cryst b) ->
  ksham_init (u_lat U) k b vloc gens = Ok h -> ksham_init (u_lat U) (vneg k) b' vloc gens = Ok h' ->
  is_level (gs_cryst b) (apply_h nx ny nz h gar hist) E <-> is_level (gs_cryst b') (apply_h nx ny nz h' gar' hist') E.
Proof.
  intros P U unit_ ecut G k ew b idx b' idx' nx ny nz vloc gens h h' gar hist gar' hist' E HU HG HS HB HB' HV HR HF HD Hh Hh'.
  destruct (C108_time_reversal _ _ _ _ _ _ _ _ _ _ _ nx ny nz vloc gens h h' HU HG HS HB HB' HV HR HF HD Hh Hh') as (MI & HI).
  apply (transport (gs_cryst b) (gs_cryst b') _ _ zneg zneg (fun _ => Cconj) (fun _ => Cconj) E MI); try (intros; apply zneg_neg); try (intros; apply Cconj_conj).
  - intros _ c. rewrite Cmult_conj. f_equal. unfold Cconj, RtoC. cbn. now rewrite Ropp_0.
  - intros _. apply conj0.
  - intros psi psi' L1 L2 C1 g Hg. exact (HI psi psi' L1 L2 C1 gar hist gar' hist' g Hg).
Qed.
Print Assumptions C108_levels_opposite_k.
(** C108.  The energy levels at k and at k + G0 are the same numbers. *)
Theorem C108_levels_periodic : forall P U unit_ ecut G k g0 ew b idx b' idx' nx ny nz vloc gens h h' gar hist gar' hist' E,
  mk_ulattice unit_ P = Ok U -> gspace_new U ecut None = Ok G -> gs_shape (sp_base G) = zshape nx ny nz ->
  gkspace_new G k ew = Ok (b, idx) -> gkspace_new G (vadd k (gvec g0)) ew = Ok (b', idx') ->
  (let e := match ew with None => ecut / 4 | Some e => e end in
   sqrt (2 * e) + length_of (u_lat U) k <= sqrt (2 * ecut) /\ sqrt (2 * e) + length_of (u_lat U) (vadd k (gvec g0)) <= sqrt (2 * ecut)) ->
  length vloc = (nx * ny * nz)%nat ->
  ksham_init (u_lat U) k b vloc gens = Ok h -> ksham_init (u_lat U) (vadd k (gvec g0)) b' vloc gens = Ok h' ->
  is_level (gs_cryst b) (apply_h nx ny nz h gar hist) E <-> is_level (gs_cryst b') (apply_h nx ny nz h' gar' hist') E.
Proof.
  intros P U unit_ ecut G k g0 ew b idx b' idx' nx ny nz vloc gens h h' gar hist gar' hist' E HU HG HS HB HB' HE HV Hh Hh'.
  destruct (C108_periodic _ _ _ _ _ _ _ _ _ _ _ _ nx ny nz vloc gens h h' HU HG HS HB HB' HE HV Hh Hh') as (MI & HI).
  apply (transport (gs_cryst b) (gs_cryst b') _ _ (fun g => zplus g g0) (fun g => zplus g (zneg g0)) (fun _ c => c) (fun _ c => c) E MI); try (intros; reflexivity).
  - intros g. symmetry. apply zplus_cancel.
  - intros [[x y] z]. destruct g0 as [[x0 y0] z0]. cbn. f_equal; [f_equal|]; ring.
  - intros psi psi' L1 L2 C1 g Hg. exact (HI psi psi' L1 L2 C1 gar hist gar' hist' g Hg).
Qed.
Print Assumptions C108_levels_periodic.
(** C108.  Moving the atoms and the potential together by a grid vector leaves the energy levels unchanged. *)
Theorem C108_levels_translation : forall P U unit_ ecut arg G k ew b idx nx ny nz vloc vloc' gens h h' a1 a2 a3 gar hist gar' hist' E,
  mk_ulattice unit_ P = Ok U -> gspace_new U ecut arg = Ok G -> gs_shape (sp_base G) = zshape nx ny nz ->
  gkspace_new G k ew = Ok (b, idx) ->
  length vloc = (nx * ny * nz)%nat -> length vloc' = (nx * ny * nz)%nat -> moved_potential nx ny nz a1 a2 a3 vloc vloc' ->
  let d := V (INR a1 / INR nx) (INR a2 / INR ny) (INR a3 / INR nz) in
  ksham_init (u_lat U) k b vloc gens = Ok h -> ksham_init (u_lat U) k b vloc' (map (moved d) gens) = Ok h' ->
  is_level (gs_cryst b) (apply_h nx ny nz h gar hist) E <-> is_level (gs_cryst b) (apply_h nx ny nz h' gar' hist') E.
Proof.
  intros P U unit_ ecut arg G k ew b idx nx ny nz vloc vloc' gens h h' a1 a2 a3 gar hist gar' hist' E HU HG HS HB HV HV' HM d Hh Hh'.
  pose proof (C108_translation _ _ _ _ _ _ _ _ _ _ nx ny nz vloc vloc' gens h h' a1 a2 a3 HU HG HS HB HV HV' HM Hh Hh') as HI. cbv zeta in HI. fold d in HI.
  set (t := fun g => 2 * PI * vdot d (vadd (gvec g) k)).
  apply (transport (gs_cryst b) (gs_cryst b) _ _ (fun g => g) (fun g => g) (fun g c => cis (- t g) * c)%C (fun g c => cis (t g) * c)%C E); try (intros; reflexivity).
  - intros g c. rewrite Cmult_assoc, cis_inv. ring.
  - intros g c. rewrite Cmult_assoc, (Cmult_comm (cis (t g))), cis_inv. ring.
  - intros g c. ring.
  - intros g. ring.
  - intros psi psi' L1 L2 C1 g Hg. exact (HI psi psi' L1 L2 C1 gar hist gar' hist' g Hg).
Qed.
Print Assumptions C108_levels_translation.

(** ---- construction ---- *)
Lemma sequence_total {X} (l : list (res X)) : (forall x, In x l -> exists v, x = Ok v) -> exists vs, sequence l = Ok vs.
Proof.
  induction l as [|x l IH]; intros H; [exists []; reflexivity|]. destruct (H x (or_introl eq_refl)) as (v & ->). destruct IH as (vs & E); [intros y Hy; apply H; now right|].
  exists (v :: vs). apply sequence_ok. apply sequence_ok in E. cbn [map]. now rewrite E.
Qed.
(** C108.  The Hamiltonian can be built at every k-point for every wavefunction cutoff up to a quarter of the
    density cutoff: no look-up falls off the projector tables made for that density cutoff. *)
Theorem C108_hamiltonian_exists : forall P U unit_ ecut arg G k ew b idx vloc gens,
  mk_ulattice unit_ P = Ok U -> gspace_new U ecut arg = Ok G -> gkspace_new G k ew = Ok (b, idx) ->
  match ew with None => True | Some e => e <= ecut / 4 end ->
  Forall (made_from_file ecut) gens ->
  exists h, ksham_init (u_lat U) k b vloc gens = Ok h.
Proof.
  intros P U unit_ ecut arg G k ew b idx vloc gens HU HG HB HW HF.
  destruct (C09_gkspace_is_sphere _ _ _ _ _ _ _ _ _ _ HU HG HB) as (_ & _ & EB & _).
  assert (R1 : forall N w, In N gens -> In w (map (gk_cryst k) (gs_cryst b)) -> forall p, exists y, radial N (u_lat U) p w = Ok y).
  { intros N w HN Hw p. rewrite Forall_forall in HF. destruct (HF N HN) as (Q & pos & EN). unfold nonloc_init in EN. destruct (forallb _ _); [|discriminate EN]. injection EN as <-.
    apply in_map_iff in Hw as (g & <- & Hg). apply EB in Hg as (_ & Hg).
    assert (HL : 0 <= gk_norm (u_lat U) (gk_cryst k g) <= sqrt (2 * (ecut / 4))).
    { unfold gk_norm, vnorm. split; [apply sqrt_pos|]. apply sqrt_le_1_alt. unfold len2 in Hg. unfold gk_cart, gk_cryst. eapply Rle_trans; [exact Hg|]. destruct ew; lra. }
    unfold radial, beta_gk. cbn [nl_nq nl_tab]. destruct (C44_in_range (ecut / 4) _ (fun iq => table_entry Q p (nth p (p_l Q) O) iq) HL) as (y & ->). eexists. reflexivity. }
  assert (R2 : forall N, In N gens -> exists v, gen_vkb_dij N (u_lat U) (map (gk_cryst k) (gs_cryst b)) = Ok v).
  { intros N HN. unfold gen_vkb_dij, kpoint_of.
    destruct (sequence_total (map (fun p => sequence (map (radial N (u_lat U) p) (map (gk_cryst k) (gs_cryst b)))) (seq 0 (length (nl_l N))))) as (vs & ->); [|eexists; reflexivity].
    intros x Hx. apply in_map_iff in Hx as (p & <- & _). apply sequence_total. intros y Hy. apply in_map_iff in Hy as (w & <- & Hw). now apply R1. }
  unfold ksham_init. destruct (sequence_total (map (fun N => gen_vkb_dij N (u_lat U) (map (gk_cryst k) (gs_cryst b))) gens)) as (vs & ->); [|eexists; reflexivity].
  intros x Hx. apply in_map_iff in Hx as (N & <- & HN). now apply R2.
Qed.
Print Assumptions C108_hamiltonian_exists.
(** C108.  The plane-wave basis of a k-point exists exactly when some vector of the density sphere has
    |k+G|^2/2 within the wavefunction cutoff. *)
Theorem C108_basis_exists : forall P U unit_ ecut arg G k ew,
  mk_ulattice unit_ P = Ok U -> gspace_new U ecut arg = Ok G ->
  (exists b idx, gkspace_new G k ew = Ok (b, idx)) <->
  (exists g, In g (gs_cryst (sp_base G)) /\ len2 U (vadd (gvec g) k) <= 2 * match ew with None => ecut / 4 | Some e => e end).
Proof.
  intros P U unit_ ecut arg G k ew HU HG. split.
  - intros (b & idx & HB). destruct (C09_gkspace_is_sphere _ _ _ _ _ _ _ _ _ _ HU HG HB) as (_ & _ & EB & _).
    unfold gkspace_new in HB. match type of HB with context[gspace_base ?a ?c] => destruct (gspace_base a c) as [b0|] eqn:EG; [|discriminate HB] end.
    cbn in HB. injection HB as <- <-. apply gspace_base_spec in EG as (HP & _ & _ & _ & _ & _ & _ & _ & _ & _ & NE & _).
    destruct (gs_cryst b0) as [|g gl] eqn:E0; [apply Permutation_nil in HP; contradiction|]. exists g. apply EB. now left.
  - intros (g & Hg & HL). pose proof HG as HG'. apply (gspace_new_inv P U unit_) in HG as (_ & He & HLt & HN & _ & _ & _ & _); [|exact HU].
    unfold gspace_new in HG'.
    assert (HT : exists gs sh, gspace_base sh gs = Ok (sp_base G)).
    { destruct (rleb ecut 0); [discriminate|].
      destruct (match arg with None => _ | Some _ => _ end) as [sh|?]; [|discriminate]. cbn [bind] in HG'.
      destruct (rleb _ ecut); [discriminate|]. destruct (_ <? 2)%Z; [discriminate|].
      match type of HG' with context[gspace_base ?a ?b] => destruct (gspace_base a b) as [bb|] eqn:EB; [|discriminate] end.
      cbn in HG'. injection HG' as <-. cbn. eexists. eexists. exact EB. }
    destruct HT as (gs0 & sh0 & HB0). clear HG'.
    apply gspace_base_spec in HB0 as (HP0 & HN0 & _ & _ & HT0 & _ & _ & _ & SO & GO & _ & SH).
    unfold gkspace_new. rewrite HLt, He, HT0, SH.
    unfold mk_ulattice in HU. destruct (mk_lattice P) as [L|] eqn:EL; [|discriminate]. cbn in HU. injection HU as <-.
    unfold len2 in HL. cbn [u_lat] in *. set (e := match ew with None => _ | Some _ => _ end) in *.
    set (keep := fun g => rleb (g_norm2 L (vadd (gvec g) k)) (2 * e)).
    assert (EQ : take (0,0,0)%Z gs0 (filter (fun i => keep (nth i gs0 (0, 0, 0)%Z)) (seq 0 (length gs0))) = filter keep gs0) by exact (take_filter_seq (0,0,0)%Z keep gs0).
    destruct (gspace_base_total sh0 (filter keep gs0)) as (b & Eb).
    + exact SO.
    + apply forallb_forall. intros x Hx. apply filter_In in Hx as (Hx & _). rewrite forallb_forall in GO. now apply GO.
    + now apply NoDup_filter.
    + intros E0. assert (I : In g (filter keep gs0)).
      { apply filter_In. split; [eapply Permutation_in; [exact HP0|exact Hg]|]. apply rleb_spec. now rewrite (g_norm2_cart P) by exact EL. }
      rewrite E0 in I. exact I.
    + exists b. eexists. cbv zeta. match goal with |- context [gspace_base sh0 ?t] => replace t with (filter keep gs0) by (symmetry; exact EQ) end. rewrite Eb. reflexivity.
Qed.
Print Assumptions C108_basis_exists.
(** Non-vacuity: the simple cubic lattice, k = (1/4,0,0), a real potential and one s projector on two atoms
    satisfy the hypotheses of the time-reversal and periodicity theorems together; six plane waves or more. *)
Definition ex_pseudo : pseudo := MkPseudo [0%nat] (fun _ _ => 1) 3 (fun i => INR i / 10) (fun _ => / 10) (fun _ i => INR i).
Example C108_nonvacuous : exists U G b idx b' idx' b'' idx'' N h h' h'',
  mk_ulattice 1 mid = Ok U /\ gspace_new U 8 None = Ok G /\ gs_shape (sp_base G) = zshape 9 9 9
  /\ gkspace_new G (V (/ 4) 0 0) None = Ok (b, idx) /\ gkspace_new G (vneg (V (/ 4) 0 0)) None = Ok (b', idx')
  /\ gkspace_new G (vadd (V (/ 4) 0 0) (gvec (1, 0, 0)%Z)) None = Ok (b'', idx'')
  /\ made_from_file 8 N /\ directions_known (u_lat U) (V (/ 4) 0 0) (gs_cryst b)
  /\ sqrt (2 * (8 / 4)) + length_of (u_lat U) (V (/ 4) 0 0) <= sqrt (2 * 8)
  /\ sqrt (2 * (8 / 4)) + length_of (u_lat U) (vadd (V (/ 4) 0 0) (gvec (1, 0, 0)%Z)) <= sqrt (2 * 8)
  /\ ksham_init (u_lat U) (V (/ 4) 0 0) b (repeat (RtoC 1) 729) [N] = Ok h
  /\ ksham_init (u_lat U) (vneg (V (/ 4) 0 0)) b' (repeat (RtoC 1) 729) [N] = Ok h'
  /\ ksham_init (u_lat U) (vadd (V (/ 4) 0 0) (gvec (1, 0, 0)%Z)) b'' (repeat (RtoC 1) 729) [N] = Ok h''
  /\ In (1, 0, 0)%Z (gs_cryst b) /\ In (-2, 0, 0)%Z (gs_cryst b).
Proof.
  destruct (mk_lattice_iff mid) as [_ K]. destruct (K cubic_det) as (L & EL & PL).
  assert (HU : mk_ulattice 1 mid = Ok (MkULattice 1 L)) by (unfold mk_ulattice; now rewrite EL).
  destruct default_grid_witness as (U0 & G & HU0 & HG). rewrite HU in HU0. injection HU0 as <-. set (U := MkULattice 1 L) in *.
  assert (HS : gs_shape (sp_base G) = zshape 9 9 9).
  { destruct (C09_gspace_is_sphere _ _ _ _ _ _ HU HG) as (_ & _ & _ & _ & _ & S0 & _). destruct (S0 eq_refl) as (m & Em & ->).
    unfold U in Em; cbn [u_lat] in Em; rewrite (cubic_min8 L EL) in Em. injection Em as <-. reflexivity. }
  assert (LW : forall w, len2 U w = vx w * vx w + vy w * vy w + vz w * vz w).
  { intros w. unfold len2, cryst2cart, U. cbn [u_lat]. rewrite PL, mv_mid. reflexivity. }
  assert (LO : forall w, length_of (u_lat U) w = sqrt (vx w * vx w + vy w * vy w + vz w * vz w)).
  { intros w. rewrite <- LW. unfold length_of, len2, cryst2cart. reflexivity. }
  assert (I0 : In (0, 0, 0)%Z (gs_cryst (sp_base G))) by (apply (C11_default_grid_complete _ _ _ _ _ HU HG); rewrite LW; cbn; lra).
  assert (I1 : In (1, 0, 0)%Z (gs_cryst (sp_base G))) by (apply (C11_default_grid_complete _ _ _ _ _ HU HG); rewrite LW; cbn; lra).
  assert (I2 : In (-2, 0, 0)%Z (gs_cryst (sp_base G))) by (apply (C11_default_grid_complete _ _ _ _ _ HU HG); rewrite LW; cbn; lra).
  destruct (proj2 (C108_basis_exists _ _ _ _ _ _ (V (/ 4) 0 0) None HU HG)) as (b & idx & HB); [exists (0, 0, 0)%Z; split; [exact I0|rewrite LW; cbn; lra]|].
  destruct (proj2 (C108_basis_exists _ _ _ _ _ _ (vneg (V (/ 4) 0 0)) None HU HG)) as (b' & idx' & HB'); [exists (0, 0, 0)%Z; split; [exact I0|rewrite LW; cbn; lra]|].
  destruct (proj2 (C108_basis_exists _ _ _ _ _ _ (vadd (V (/ 4) 0 0) (gvec (1, 0, 0)%Z)) None HU HG)) as (b'' & idx'' & HB''); [exists (0, 0, 0)%Z; split; [exact I0|rewrite LW; cbn; lra]|].
  assert (HN : exists N, nonloc_init ex_pseudo [V 0 0 0; V (/ 2) (/ 2) (/ 3)] 8 = Ok N) by (eexists; reflexivity).
  destruct HN as (N & HN). assert (HM : made_from_file 8 N) by (eexists; eexists; exact HN). assert (HF : Forall (made_from_file 8) [N]) by (constructor; [exact HM|constructor]).
  destruct (C108_hamiltonian_exists _ _ _ _ _ _ _ _ _ _ (repeat (RtoC 1) 729) [N] HU HG HB I HF) as (h & Hh).
  destruct (C108_hamiltonian_exists _ _ _ _ _ _ _ _ _ _ (repeat (RtoC 1) 729) [N] HU HG HB' I HF) as (h' & Hh').
  destruct (C108_hamiltonian_exists _ _ _ _ _ _ _ _ _ _ (repeat (RtoC 1) 729) [N] HU HG HB'' I HF) as (h'' & Hh'').
  destruct (C09_gkspace_is_sphere _ _ _ _ _ _ _ _ _ _ HU HG HB) as (_ & _ & EB & _).
  assert (Q4 : sqrt (2 * (8 / 4)) = 2) by (replace (2 * (8 / 4)) with (2 * 2) by lra; apply sqrt_square; lra).
  assert (Q16 : sqrt (2 * 8) = 4) by (replace (2 * 8) with (4 * 4) by lra; apply sqrt_square; lra).
  exists U, G, b, idx, b', idx', b'', idx'', N, h, h', h''.
  repeat match goal with |- _ /\ _ => split; [try assumption|] end; try assumption.
  - intros [[x y] z] _. right. rewrite LO. cbn [gvec vadd vx vy vz]. apply Rlt_le_trans with (/ 4); [|].
    + apply Rinv_lt_contravar; [|]; assert (1 < 10 ^ 6) by (apply Rlt_pow_R1; [lra|lia]); rewrite (tech_pow_Rmult 10 6) || idtac; nra.
    + rewrite <- (sqrt_square (/ 4)) at 1 by lra. apply sqrt_le_1_alt.
      assert (X : / 4 * / 4 <= (IZR x + / 4) * (IZR x + / 4)).
      { destruct (Z.leb_spec 0 x); [assert (0 <= IZR x) by (now apply IZR_le); nra|assert (IZR x <= -1) by (apply IZR_le; lia); nra]. }
      pose proof (Rle_0_sqr (IZR y + 0)) as Y0. pose proof (Rle_0_sqr (IZR z + 0)) as Z0. unfold Rsqr in Y0, Z0. lra.
  - rewrite Q4, Q16, LO. cbn [vx vy vz]. replace (/ 4 * / 4 + 0 * 0 + 0 * 0) with (/ 4 * / 4) by ring. rewrite sqrt_square; lra.
  - rewrite Q4, Q16, LO. cbn [gvec vadd vx vy vz]. replace ((/ 4 + 1) * (/ 4 + 1) + (0 + 0) * (0 + 0) + (0 + 0) * (0 + 0)) with (5 / 4 * (5 / 4)) by field. rewrite sqrt_square; lra.
  - apply EB. split; [exact I1|]. rewrite LW. cbn. lra.
  - apply EB. split; [exact I2|]. rewrite LW. cbn. lra.
Qed.
(** C108.  The Hamiltonian built from a real potential and symmetric coupling matrices is Hermitian. *)
Theorem C108_hermitian : forall P U unit_ ecut arg G k ew b idx nx ny nz vloc gens h g1 g2 h1 h2 phi psi,
  mk_ulattice unit_ P = Ok U -> gspace_new U ecut arg = Ok G -> gs_shape (sp_base G) = zshape nx ny nz ->
  gkspace_new G k ew = Ok (b, idx) -> length vloc = (nx * ny * nz)%nat -> (forall c, In c vloc -> snd c = 0) ->
  (forall N i j, In N gens -> nl_dij N i j = nl_dij N j i) ->
  ksham_init (u_lat U) k b vloc gens = Ok h ->
  length phi = length (gs_cryst b) -> length psi = length (gs_cryst b) ->
  braket phi (apply_h nx ny nz h g1 h1 psi) = braket (apply_h nx ny nz h g2 h2 phi) psi.
Proof.
  intros P U unit_ ecut arg G k ew b idx nx ny nz vloc gens h g1 g2 h1 h2 phi psi HU HG HS HB HV HR HD Hh L1 L2.
  destruct (gk_base _ _ _ _ _ _ _ _ _ _ nx ny nz HU HG HS HB) as (GB & _). pose proof (init_wf nx ny nz _ _ _ _ _ _ Hh GB HV) as WF.
  destruct (init_parts _ _ _ _ _ _ Hh) as (_ & _ & EG & EV & F). apply C46_hermitian; [exact WF| |now rewrite EG|now rewrite EG].
  split; [rewrite EV; exact HR|]. intros vd p q Hvd _ _. revert F Hvd HD. clear. generalize (kh_nloc h). induction gens as [|N gens IH]; intros nl F Hvd HD; inversion F as [|? vd' ? nl' F1 F2]; subst; [destruct Hvd|].
  destruct Hvd as [->|Hvd]; [|apply (IH nl'); [exact F2|exact Hvd|intros M i j HM; apply HD; now right]]. clear IH F F2. unfold gen_vkb_dij in F1. destruct (kpoint_of _ _ _); [|discriminate]. cbn [bind] in F1. injection F1 as <-.
  cbn [snd]. rewrite dij_conj. f_equal. unfold dij_full, dij_atom. cbn [species_of s_l s_dij]. rewrite (Nat.eqb_sym (p / _)).
  destruct (_ =? _)%nat; [|reflexivity]. rewrite (Nat.eqb_sym (nth (p mod _) _ _)), (Z.eqb_sym (nth (p mod _) _ _)), (HD N) by now left. reflexivity.
Qed.
Print Assumptions C108_hermitian.
