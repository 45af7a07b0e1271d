(** Properties C80 (time-dependent dipole after a kick) and C81 (dipole spectrum). *)
From Coq Require Import String Lra.
From Verif Require Import Base GIndexModel LatModel LatProofs CrystalModel GSphereModel CBase FFTModel FFTSpec FFTProofs FFTProofs2
  KSHamModel KSHamSpec KSHamProofs TddftModel TddftSpec TddftProofs TddftProofs2 TddftProofs3 PropsFFT PropsTddft OpticalModel.
From Verif Require EwaldProofs.
Open Scope nat_scope.

(* ------------------------------------------------------------------ *)
(** Vocabulary *)

(** A system whose FFT objects are those of the G-spaces [sk] (orbitals) and [sw] (density) on the
    grid, in any state of use. *)
Definition built (y : system) (sk sw : gspace) : Prop :=
  (exists gk, gspace_base (zshape (y_nx y) (y_ny y) (y_nz y)) gk = Ok sk) /\
  (exists gw, gspace_base (zshape (y_nx y) (y_ny y) (y_nz y)) gw = Ok sw) /\
  (exists g h, y_fk y = full_run (full_init (y_nx y) (y_ny y) (y_nz y) (map Z.to_nat (gs_idxgrid sk)) false g) h) /\
  (exists g h, y_fw y = full_run (full_init (y_nx y) (y_ny y) (y_nz y) (map Z.to_nat (gs_idxgrid sw)) true g) h) /\
  0 < y_nx y /\ 0 < y_ny y /\ 0 < y_nz y.

(** Orbitals of the right size, one occupation each, at least one. *)
Definition orbitals_ok (y : system) (sk : gspace) (b : bands) : Prop :=
  b <> [] /\ length (y_occ y) = length b /\ forall psi, In psi b -> length psi = length (gs_cryst sk).

(** The name of an axis. *)
Definition axis_name (a : axis) : string := match a with AX => "x" | AY => "y" | AZ => "z" end.
(** The component of a Cartesian vector along an axis. *)
Definition coordinate (a : axis) (r : rvec) : R := match a with AX => vx r | AY => vy r | AZ => vz r end.
(** A row divided by the kick: not a number for a zero kick. *)
Definition divided (kick : R) (row : list C) : option (list C) :=
  if Req_EM_T kick 0 then None else Some (map (fun c => c / RtoC kick)%C row).

(** Sum over the grid. *)
Definition over_grid (y : system) (f : nat -> nat -> nat -> C) : C :=
  csum (y_nx y) (fun i => csum (y_ny y) (fun j => csum (y_nz y) (fun k => f i j k))).
Definition at_point {A} (y : system) (l : list A) (d : A) (i j k : nat) : A := nth ((i * y_ny y + j) * y_nz y + k) l d.

(** The field with plane-wave coefficients rho_G = N * (Fourier coefficient), at a grid point. *)
Definition field_at (y : system) (sw : gspace) (rho : list C) (i j k : nat) : C :=
  (csum (length (gs_cryst sw)) (fun g => nth g rho (RtoC 0)
     * plane_wave (y_nx y) (y_ny y) (y_nz y) (nth g (gs_cryst sw) (0, 0, 0)%Z) i j k)
   / RtoC (INR (npts y)))%C.

(* ------------------------------------------------------------------ *)
Lemma over_grid_ext y f g : (forall i j k, i < y_nx y -> j < y_ny y -> k < y_nz y -> f i j k = g i j k) -> over_grid y f = over_grid y g.
Proof. intros H. unfold over_grid. repeat (apply csum_ext; intros ? ?). now apply H. Qed.

Lemma fold_plus_csum l : fold_right Cplus (RtoC 0) l = csum (length l) (fun i => nth i l (RtoC 0)).
Proof.
  induction l as [|c l IH]; [reflexivity|]. cbn [fold_right length]. rewrite IH. clear IH.
  change (S (length l)) with (1 + length l). rewrite csum_app. cbn [csum]. cbn [nth Nat.add].
  ring.
Qed.

Lemma flat_sum nx ny nz (f : nat -> C) : csum (nx * ny * nz) f = csum nx (fun i => csum ny (fun j => csum nz (fun k => f ((i * ny + j) * nz + k)))).
Proof.
  rewrite csum_prod. rewrite csum_prod. reflexivity.
Qed.

Lemma point_lt y i j k : i < y_nx y -> j < y_ny y -> k < y_nz y -> (i * y_ny y + j) * y_nz y + k < npts y.
Proof.
  unfold npts. generalize (y_nx y) (y_ny y) (y_nz y). intros nx ny nz Hi Hj Hk.
  assert (A : i * ny + j + 1 <= nx * ny) by nia. nia.
Qed.
Lemma Cminus_mult_r (x y z : C) : (x * z - y * z = (x - y) * z)%C.
Proof. ring. Qed.

Lemma built_g2r y sk sw v : built y sk sw -> length v = length (gs_cryst sw) ->
  length (snd (full_g2r (y_fw y) v)) = npts y /\
  forall i j k, i < y_nx y -> j < y_ny y -> k < y_nz y -> at_point y (snd (full_g2r (y_fw y) v)) (RtoC 0) i j k = field_at y sw v i j k.
Proof.
  intros (_ & (gw & Ew) & _ & (g & h & F) & _) L. split.
  - rewrite F. set (o := full_run _ _).
    assert (I : full_inv (y_nx y) (y_ny y) (y_nz y) (map Z.to_nat (gs_idxgrid sw)) true o) by (apply full_run_inv; unfold full_init, full_inv; cbn; tauto).
    destruct I as (I1 & I2 & I3 & _). unfold full_g2r. cbn [snd]. unfold store. rewrite map_length, seq_length, I1, I2, I3. reflexivity.
  - intros i j k Hi Hj Hk. unfold at_point. rewrite F.
    rewrite (C13_g2r_is_fourier_sum _ _ _ _ _ true g h v i j k Ew L Hi Hj Hk). unfold field_at, npts. rewrite L. unfold Cdiv. apply Cmult_comm.
Qed.

Theorem C80_dipole_is_first_moment : forall y sk sw pts rho rho0 a,
  built y sk sw -> length rho = length (gs_cryst sw) -> length rho0 = length (gs_cryst sw) -> length pts = npts y ->
  nth (match a with AX => 0 | AY => 1 | AZ => 2 end) (dipole y pts rho rho0) (RtoC 0)
  = (RtoC (y_vol y / INR (npts y)) *
     over_grid y (fun i j k => RtoC (coordinate a (at_point y pts (V 0 0 0) i j k))
        * (field_at y sw rho i j k - field_at y sw rho0 i j k)))%C.
Proof.
  change coordinate with comp.
  intros y sk sw pts rho rho0 a B L L0 Lp.
  set (d := zip_with Cminus rho rho0).
  assert (Ld : length d = length (gs_cryst sw)) by (unfold d; rewrite zip_with_length; lia).
  destruct (built_g2r y sk sw d B Ld) as [LG AG].
  assert (E : forall a, integrate_unitcell y (snd (full_g2r (y_fw y) d)) (map (comp a) pts)
     = (RtoC (y_vol y / INR (npts y)) * over_grid y (fun i j k => RtoC (comp a (at_point y pts (V 0 0 0) i j k))
        * (field_at y sw rho i j k - field_at y sw rho0 i j k)))%C).
  { clear a. intros a. unfold integrate_unitcell. rewrite Cmult_comm. f_equal.
    rewrite fold_plus_csum, zip_with_length, LG, map_length, Lp, Nat.min_id. unfold npts. rewrite flat_sum. unfold over_grid.
    apply csum_ext; intros i Hi. apply csum_ext; intros j Hj. apply csum_ext; intros k Hk.
    assert (Hp : (i * y_ny y + j) * y_nz y + k < npts y) by now apply point_lt.
    rewrite (zip_with_nth _ _ _ _ (RtoC 0) 0%R) by (rewrite ?LG, ?map_length, ?Lp; lia).
    change (nth ((i * y_ny y + j) * y_nz y + k) (snd (full_g2r (y_fw y) d)) (RtoC 0)) with (at_point y (snd (full_g2r (y_fw y) d)) (RtoC 0) i j k).
    rewrite AG by assumption. rewrite (nth_map_lt (comp a) (V 0 0 0)) by lia. unfold at_point. rewrite Cmult_comm. f_equal.
    unfold field_at, Cdiv.
    rewrite Cminus_mult_r, <- csum_minus. f_equal. apply csum_ext. intros g Hg. unfold d.
    rewrite (zip_with_nth _ _ _ _ (RtoC 0) (RtoC 0)) by lia. ring. }
  unfold dipole. fold d. destruct a; cbn [map axes nth]; apply E.
Qed.
Print Assumptions C80_dipole_is_first_moment.

(* ------------------------------------------------------------------ *)
(** C80.  The positions: grid point (i, j, k) lies at (i/n1, j/n2, k/n3) minus the charge centre of
    the ions, brought into the cell [-1/2, 1/2] around the origin in crystal coordinates. *)
Theorem C80_positions : forall y L P, mk_lattice P = Ok L -> u_lat (cr_lat (y_crystal y)) = L ->
  0 < y_nx y -> 0 < y_ny y -> 0 < y_nz y ->
  exists pts, positions y = Ok pts /\ length pts = npts y /\
  forall i j k, i < y_nx y -> j < y_ny y -> k < y_nz y ->
    let c := center_cryst (y_crystal y) in
    let wrap x := (x - IZR (rint x))%R in
    at_point y pts (V 0 0 0) i j k
    = cryst2cart L (V (wrap (INR i / INR (y_nx y) - vx c)%R) (wrap (INR j / INR (y_ny y) - vy c)%R) (wrap (INR k / INR (y_nz y) - vz c)%R)).
Proof.
  intros y L P HL EL Hx Hy Hz. unfold positions. set (U := cr_lat (y_crystal y)) in *. set (c := center_cryst (y_crystal y)).
  unfold get_mesh_coords. replace (negb _) with false by (symmetry; apply negb_false_iff; rewrite !andb_true_iff; repeat split; apply Z.ltb_lt; lia).
  cbn [origin_val bind]. rewrite EL. destruct (cryst_cart_inverse _ _ c HL) as [-> _].
  eexists. split; [reflexivity|]. rewrite !map_length.
  set (f3 := fun i j : Z => map (fun k : Z => (i, j, k)) (zrange 0 (Z.of_nat (y_nz y)))).
  assert (L3 : forall i j, length (f3 i j) = y_nz y) by (intros; unfold f3; rewrite map_length, zrange_length; lia).
  assert (L2 : forall i, length (flat_map (fun j => f3 i j) (zrange 0 (Z.of_nat (y_ny y)))) = y_ny y * y_nz y).
  { intros i. rewrite (flat_map_const_length _ _ (y_nz y)) by (intros; apply L3). rewrite zrange_length. f_equal. lia. }
  assert (LL : length (flat_map (fun i => flat_map (fun j => f3 i j) (zrange 0 (Z.of_nat (y_ny y)))) (zrange 0 (Z.of_nat (y_nx y)))) = npts y).
  { rewrite (flat_map_const_length _ _ (y_ny y * y_nz y)) by (intros; apply L2). rewrite zrange_length. unfold npts. rewrite Z.sub_0_r, Nat2Z.id. lia. }
  unfold f3 in L3, L2, LL. split; [exact LL|]. intros i j k Hi Hj Hk. pose proof (point_lt y i j k Hi Hj Hk) as Hp. unfold at_point.
  rewrite (nth_map_lt (cryst2cart L) (V 0 0 0)) by (rewrite map_length; rewrite LL; exact Hp). f_equal.
  rewrite (nth_map_lt _ (0, 0, 0)%Z) by (rewrite LL; exact Hp).
  replace ((i * y_ny y + j) * y_nz y + k) with (i * (y_ny y * y_nz y) + (j * y_nz y + k)) by ring.
  assert (Hjk : j * y_nz y + k < y_ny y * y_nz y) by (revert Hj Hk; generalize (y_ny y) (y_nz y); intros; nia).
  rewrite (EwaldProofs.flat_map_nth_const _ (y_ny y * y_nz y) 0%Z) by (try (intros; apply L2); rewrite ?zrange_length; lia || exact Hjk).
  rewrite (EwaldProofs.flat_map_nth_const _ (y_nz y) 0%Z) by (try (intros; apply L3); rewrite ?zrange_length; lia).
  rewrite (nth_map_lt _ 0%Z) by (rewrite zrange_length; lia).
  rewrite <- (Nat2Z.id i), <- (Nat2Z.id j), <- (Nat2Z.id k), !zrange_nth by lia. rewrite !Z.add_0_l, !Nat2Z.id.
  unfold mesh_point, mesh_wrap. rewrite <- !INR_IZR_INZ. reflexivity.
Qed.
Print Assumptions C80_positions.

(** C80.  The origin is the charge centre of the ions: the valence-weighted displacements of all atoms from it
    add up to zero. *)
Theorem C80_charge_centre : forall c, numel c <> 0%Z -> forall a,
  fold_right Rplus 0%R (map (fun sp => IZR (sp_valence sp) *
     fold_right Rplus 0 (map (fun r => coordinate a r - coordinate a (center_cryst c)) (sp_r sp)))%R (cr_atoms c)) = 0%R.
Proof.
  change coordinate with comp.
  intros c Hn a. apply (not_0_IZR) in Hn as Hr || assert (Hr : IZR (numel c) <> 0%R) by (apply IZR_neq; exact Hn).
  set (x := comp a (center_cryst c)).
  assert (Hx : (IZR (numel c) * x = fold_right Rplus 0 (map (fun sp => IZR (sp_valence sp) * fold_right Rplus 0 (map (comp a) (sp_r sp))) (cr_atoms c)))%R).
  { assert (V1 : forall l, comp a (fold_right vadd (V 0 0 0) l) = fold_right Rplus 0%R (map (comp a) l)).
    { induction l as [|v l IH]; [destruct a; reflexivity|]. cbn [fold_right map]. rewrite <- IH. destruct a; reflexivity. }
    assert (V2 : forall t v, comp a (vscale t v) = (t * comp a v)%R) by (intros; destruct a; reflexivity).
    unfold x, center_cryst. rewrite V2, V1, map_map. rewrite <- Rmult_assoc, Rinv_r, Rmult_1_l by exact Hr.
    f_equal. apply map_ext. intros sp. now rewrite V2, V1. }
  assert (G : forall l, fold_right Rplus 0%R (map (fun sp => IZR (sp_valence sp) * fold_right Rplus 0 (map (fun r => comp a r - x) (sp_r sp)))%R l)
     = (fold_right Rplus 0 (map (fun sp => IZR (sp_valence sp) * fold_right Rplus 0 (map (comp a) (sp_r sp))) l)
        - IZR (fold_right Z.add 0%Z (map (fun sp => (sp_valence sp * numatoms sp)%Z) l)) * x)%R).
  { induction l as [|sp l IH]; [cbn; ring|]. cbn [map fold_right]. rewrite IH, plus_IZR, mult_IZR.
    assert (K : forall rs, fold_right Rplus 0%R (map (fun r => (comp a r - x)%R) rs) = (fold_right Rplus 0 (map (comp a) rs) - IZR (Z.of_nat (length rs)) * x)%R).
    { induction rs as [|r rs IHr]; [cbn; ring|]. cbn [map fold_right length]. rewrite IHr, Nat2Z.inj_succ, succ_IZR. ring. }
    rewrite K. unfold numatoms. ring. }
  rewrite G. fold (numel c). rewrite Hx. ring.
Qed.
Print Assumptions C80_charge_centre.

(* ------------------------------------------------------------------ *)
(** The density of a set of orbitals: kw * sum over r of n(r) exp(-iG.r), with n the density of the
    normalised orbitals. *)
Lemma set_slice_all {A} (new l : list A) : length new = length l -> set_slice 0 new l = new.
Proof. intros H. unfold set_slice. cbn [firstn app]. rewrite H. cbn [Nat.add]. rewrite skipn_all. apply app_nil_r. Qed.

Definition orbital_density (y : system) (sk : gspace) (b : bands) (i j k : nat) : C :=
  (csum (length b) (fun n => let phi := orbital (y_nx y) (y_ny y) (y_nz y) sk (unit_vector (nth n b [])) i j k in
      RtoC (nth n (y_occ y) 0%R) * (Cconj phi * phi)) / RtoC (y_vol y))%C.

Lemma dens_ok y sk sw b : built y sk sw -> orbitals_ok y sk b ->
  exists rho, dens y b = Ok (map unit_vector b, rho) /\ length rho = length (gs_cryst sw) /\
  forall g, g < length (gs_cryst sw) ->
    nth g rho (RtoC 0) = (RtoC (y_kw y) * over_grid y (fun i j k => orbital_density y sk b i j k
        * Cconj (plane_wave (y_nx y) (y_ny y) (y_nz y) (nth g (gs_cryst sw) (0, 0, 0)%Z) i j k)))%C.
Proof.
  intros ((gk & Ek) & (gw & Ew) & (g & h & F) & (g' & h' & F') & _) (Hne & Lo & Hl).
  assert (Hb : 0 < length b) by (destruct b; [contradiction|cbn; lia]).
  unfold dens. rewrite F.
  destruct (C61_density_of_normalised_orbitals (y_nx y) (y_ny y) (y_nz y) gk sk (y_vol y) g h b (y_occ y) 0 (length b) Ek Lo Hl Hb (le_n _))
    as (o' & b' & rho & E & Lr & Hb' & D).
  unfold npts. unfold used in E. rewrite E. cbn [bind].
  assert (Eb : b' = map unit_vector b).
  { unfold compute_rho in E. rewrite normalize_eq in E. cbn [skipn] in E. rewrite Nat.sub_0_r, firstn_all in E. rewrite map_length in E.
    destruct (Nat.eqb (length b) 0); [discriminate|]. destruct (rho_sum _ _ _ _) as [o1 r1].
    apply (f_equal (fun z => match z with Ok (_, x, _) => x | _ => [] end)) in E. rewrite set_slice_all in E by apply map_length. now symmetry. }
  subst b'. eexists. split; [reflexivity|].
  assert (LG : length (snd (full_r2g (y_fw y) rho)) = length (gs_cryst sw)).
  { rewrite F'. set (o := full_run _ _).
    assert (I : full_inv (y_nx y) (y_ny y) (y_nz y) (map Z.to_nat (gs_idxgrid sw)) true o) by (apply full_run_inv; unfold full_init, full_inv; cbn; tauto).
    destruct I as (_ & _ & _ & I & _). unfold full_r2g. cbn [snd]. unfold taken. rewrite map_length, I, map_length.
    destruct (gspace_idx _ _ _ _ _ Ew) as (_ & _ & HL & _). rewrite map_length in HL. exact HL. }
  rewrite map_length. split; [exact LG|]. intros q Hq. rewrite (nth_map_lt _ (RtoC 0)) by lia. f_equal.
  rewrite F', (C13_r2g_is_projection_on_plane_waves _ _ _ _ _ true g' h' rho q Ew Hq). unfold over_grid.
  apply csum_ext; intros i Hi. apply csum_ext; intros j Hj. apply csum_ext; intros k Hk. f_equal.
  rewrite (D i j k Hi Hj Hk), Nat.sub_0_r. reflexivity.
Qed.

(** C80.  The density that enters the dipole. *)
Theorem C80_density : forall y sk sw b, built y sk sw -> orbitals_ok y sk b ->
  exists rho, dens y b = Ok (map unit_vector b, rho) /\ length rho = length (gs_cryst sw) /\
  forall g, g < length (gs_cryst sw) ->
    nth g rho (RtoC 0) = (RtoC (y_kw y) * over_grid y (fun i j k => orbital_density y sk b i j k
        * Cconj (plane_wave (y_nx y) (y_ny y) (y_nz y) (nth g (gs_cryst sw) (0, 0, 0)%Z) i j k)))%C.
Proof. exact dens_ok. Qed.
Print Assumptions C80_density.

Lemma unit_scaled (a : R) v : (0 < a)%R -> (0 < norm2 v)%R -> unit_vector (scaled (RtoC a) v) = unit_vector v.
Proof.
  intros Ha Hv. unfold unit_vector, scaled. change (fun c => (RtoC a * c)%C) with (Cmult (RtoC a)). rewrite (norm2_scaled (RtoC a) v). cbn [fst snd RtoC].
  replace ((a * a + 0 * 0) * norm2 v)%R with ((a * a) * norm2 v)%R by ring.
  rewrite sqrt_mult, sqrt_square by nra. rewrite map_map. apply map_ext. intros c.
  pose proof (sqrt_lt_R0 _ Hv) as Hs. rewrite RtoC_mult. unfold Cdiv. field.
  split; intros X; apply (f_equal fst) in X; cbn in X; lra.
Qed.
Lemma unit_unit v : (0 < norm2 v)%R -> unit_vector (unit_vector v) = unit_vector v.
Proof.
  intros Hv. unfold unit_vector at 1. rewrite unit_norm, sqrt_1 by exact Hv. rewrite <- (map_id (unit_vector v)) at 2.
  apply map_ext. intros c. unfold Cdiv. rewrite <- RtoC_inv by lra. rewrite Rinv_1. ring.
Qed.

Definition nonzero (b : bands) : Prop := forall psi, In psi b -> (0 < norm2 psi)%R.

(** The density depends on the normalised orbitals only. *)
Lemma dens_unit y sk sw b b' : built y sk sw -> orbitals_ok y sk b -> orbitals_ok y sk b' ->
  map unit_vector b' = map unit_vector b -> dens y b' = dens y b.
Proof.
  intros B O O' U. destruct (dens_ok y sk sw b B O) as (r & E1 & L1 & D1). destruct (dens_ok y sk sw b' B O') as (r' & E2 & L2 & D2).
  rewrite E1, E2, U. cut (r' = r); [now intros ->|].
  apply (nth_ext _ _ (RtoC 0) (RtoC 0)); [lia|]. intros g Hg. rewrite D1, D2 by lia. f_equal. apply over_grid_ext. intros i j k _ _ _. f_equal.
  assert (LL : length b' = length b) by (apply (f_equal (@length _)) in U; now rewrite !map_length in U).
  unfold orbital_density. rewrite LL. f_equal. apply csum_ext. intros n Hn.
  rewrite <- (map_nth unit_vector b [] n), <- (map_nth unit_vector b' [] n). now rewrite U.
Qed.

(** A second evaluation of the density changes neither the orbitals nor the density. *)
Lemma unit_bands_ok y sk b : orbitals_ok y sk b -> orbitals_ok y sk (map unit_vector b).
Proof.
  intros (A1 & A2 & A3). split; [destruct b; [contradiction|discriminate]|]. split; [now rewrite map_length|].
  intros psi Hp. apply in_map_iff in Hp. destruct Hp as (q & <- & Hq). rewrite unit_length. now apply A3.
Qed.
Lemma dens_again y sk sw b b1 rho : built y sk sw -> orbitals_ok y sk b -> nonzero b ->
  dens y b = Ok (b1, rho) -> dens y b1 = Ok (b1, rho).
Proof.
  intros B O Z E. destruct (dens_ok y sk sw b B O) as (r & E1 & L1 & D1). rewrite <- E. rewrite E1 in E. injection E as <- <-.
  apply (dens_unit y sk sw); try assumption; [now apply unit_bands_ok|].
  rewrite map_map. apply map_ext_in. intros v Hv. apply unit_unit. now apply Z.
Qed.

(* ------------------------------------------------------------------ *)
(** The run: densities after the completed steps, and how the loop ended. *)
Section Run.
  Variable P : Type.
  Variable step : bands -> list C -> P -> res (bands * P).
  Variable y : system.

  (** From orbitals [b] with density [rho]: one propagation step, then the density of the result,
      and so on [n] times; the list holds the densities of the completed steps. *)
  Fixpoint trajectory (n : nat) (b : bands) (rho : list C) (p : P) : list (list C) * res bands :=
    match n with
    | O => ([], Ok b)
    | S m =>
        match step b rho p with
        | Err e => ([], Err e)
        | Ok (b1, p1) =>
            match dens y b1 with
            | Err e => ([], Err e)
            | Ok (b2, rho2) => let '(l, r) := trajectory m b2 rho2 p1 in (rho2 :: l, r)
            end
        end
    end.

  Lemma trajectory_length n : forall b rho p l r, trajectory n b rho p = (l, r) ->
    length l <= n /\ (forall b', r = Ok b' -> length l = n).
  Proof.
    induction n as [|n IH]; intros b rho p l r; cbn [trajectory].
    - intros [= <- <-]. cbn. split; [lia|reflexivity].
    - destruct (step b rho p) as [[b1 p1]|e]; [|intros [= <- <-]; cbn; split; [lia|discriminate]].
      destruct (dens y b1) as [[b2 rho2]|e]; [|intros [= <- <-]; cbn; split; [lia|discriminate]].
      destruct (trajectory n b2 rho2 p1) as [l' r'] eqn:E. intros [= <- <-]. destruct (IH _ _ _ _ _ E) as [A B]. cbn [length].
      split; [lia|]. intros b' Hb. now rewrite (B b' Hb).
  Qed.

  (** One removal and one save at every tenth step, of the rows before the newest. *)
  Definition saves (kick : R) (rows : table) (from count : nat) : list event :=
    flat_map (fun i => if Nat.eqb (i mod 10) 0 then [Remove; Save (map (divided kick) (firstn (S i) rows))] else []) (seq from count).

  Lemma set_row_length i r t : i < length t -> length (set_row i r t) = length t.
  Proof. intros H. unfold set_row. rewrite app_length, firstn_length. cbn [length]. rewrite skipn_length. lia. Qed.

  Lemma set_row_firstn i r (t : table) : i < length t -> firstn (S i) (set_row i r t) = firstn i t ++ [r].
  Proof.
    intros H. unfold set_row. assert (L : length (firstn i t) = i) by (rewrite firstn_length; lia).
    rewrite firstn_app, L. replace (S i - i) with 1 by lia. rewrite firstn_firstn, Nat.min_r by lia. reflexivity.
  Qed.
  Lemma skipn_twice {A} a b (l : list A) : skipn a (skipn b l) = skipn (b + a) l.
  Proof. revert l. induction b as [|b IH]; intros l; [reflexivity|]. destruct l; cbn [skipn Nat.add]; [apply skipn_nil|apply IH]. Qed.
  Lemma set_row_skipn i r (t : table) m : i < length t -> skipn (S i + m) (set_row i r t) = skipn (S i + m) t.
  Proof.
    intros H. unfold set_row. assert (L : length (firstn i t) = i) by (rewrite firstn_length; lia).
    rewrite skipn_app, L. replace (S i + m - i) with (S m) by lia. rewrite skipn_all2 by lia. cbn [app].
    change (skipn (S m) (r :: skipn (S i) t)) with (skipn m (skipn (S i) t)). apply skipn_twice.
  Qed.
  Lemma firstn_set_row i r (t : table) : i < length t -> firstn i (set_row i r t) = firstn i t.
  Proof.
    intros H. unfold set_row. assert (L : length (firstn i t) = i) by (rewrite firstn_length; lia).
    rewrite firstn_app, L, Nat.sub_diag. cbn [firstn]. rewrite app_nil_r, firstn_firstn. f_equal. lia.
  Qed.

  Lemma loop_spec pts rho0 kick n : forall k b rho p t ev l r,
    k + 1 + n <= length t -> trajectory n b rho p = (l, r) ->
    let tab := firstn (S k) t ++ map (fun q => dipole y pts q rho0) l ++ skipn (S k + length l) t in
    loop P step y pts rho0 kick n (Z.of_nat k) b rho p (t, ev)
    = (ev ++ saves kick tab k (length l), match r with Ok b' => Ok (b', tab) | Err e => Err e end).
  Proof.
    induction n as [|n IH]; intros k b rho p t ev l r Hlen.
    - cbn [trajectory]. intros [= <- <-]. cbn [loop map app length]. rewrite Nat.add_0_r, firstn_skipn. unfold saves. cbn [seq flat_map].
      now rewrite app_nil_r.
    - cbn [trajectory loop]. destruct (step b rho p) as [[b1 p1]|e]; [|intros [= <- <-]; cbn; now rewrite app_nil_r].
      destruct (dens y b1) as [[b2 rho2]|e]; [|intros [= <- <-]; cbn; now rewrite app_nil_r].
      destruct (trajectory n b2 rho2 p1) as [l' r'] eqn:E. intros [= <- <-].
      set (d := dipole y pts rho2 rho0). set (t' := set_row (S k) d t).
      assert (Hk : S k < length t) by lia.
      assert (Lt : length t' = length t) by (apply set_row_length; exact Hk).
      assert (Etab : firstn (S (S k)) t' ++ map (fun q => dipole y pts q rho0) l' ++ skipn (S (S k) + length l') t'
                     = firstn (S k) t ++ map (fun q => dipole y pts q rho0) (rho2 :: l') ++ skipn (S k + length (rho2 :: l')) t).
      { unfold t'. rewrite set_row_firstn, set_row_skipn by exact Hk. cbn [map length]. fold d. rewrite <- app_assoc. cbn [app].
        do 4 f_equal. lia. }
      unfold compute_dipole. replace (Z.to_nat (Z.of_nat k + 1)) with (S k) by lia. fold d. fold t'.
      cbn [fst snd]. replace (Z.of_nat k + 1)%Z with (Z.of_nat (S k)) by lia.
      assert (M : (Z.of_nat k mod 10 =? 0)%Z = Nat.eqb (k mod 10) 0).
      { change 10%Z with (Z.of_nat 10). rewrite <- Nat2Z.inj_mod. destruct (Nat.eqb_spec (k mod 10) 0) as [X|X]; apply Z.eqb_eq || apply Z.eqb_neq; lia. }
      rewrite M. change (0 <? 10)%Z with true. cbn [andb].
      assert (S1 : firstn (S k) t' = firstn (S k) t) by (apply firstn_set_row; exact Hk).
      cbv zeta. rewrite <- Etab. set (tab := firstn (S (S k)) t' ++ _).
      assert (S2 : firstn (S k) tab = firstn (S k) t).
      { unfold tab. rewrite Etab. rewrite firstn_app, firstn_firstn, Nat.min_id, firstn_length, Nat.min_l by lia.
        replace (S k - S k) with 0 by lia. cbn [firstn]. apply app_nil_r. }
      unfold saves. cbn [length]. change (seq k (S (length l'))) with (k :: seq (S k) (length l')). cbn [flat_map]. rewrite S2.
      destruct (Nat.eqb (k mod 10) 0).
      + rewrite (IH (S k) _ _ _ _ _ l' r') by (try exact E; lia). cbv zeta. fold tab. rewrite S1. f_equal. rewrite <- app_assoc. reflexivity.
      + rewrite (IH (S k) _ _ _ _ _ l' r') by (try exact E; lia). reflexivity.
  Qed.
End Run.

Lemma dipole_self y sk sw pts rho : built y sk sw -> length rho = length (gs_cryst sw) -> length pts = npts y ->
  dipole y pts rho rho = [RtoC 0; RtoC 0; RtoC 0].
Proof.
  intros B L Lp.
  assert (Z : forall a, nth (match a with AX => 0 | AY => 1 | AZ => 2 end) (dipole y pts rho rho) (RtoC 0) = RtoC 0).
  { intros a. rewrite (C80_dipole_is_first_moment y sk sw) by assumption.
    rewrite (over_grid_ext _ _ (fun _ _ _ => RtoC 0)) by (intros; ring).
    unfold over_grid. rewrite csum_zero; [ring|]. intros i _. apply csum_zero. intros j _. apply csum_0. }
  pose proof (Z AX) as A. pose proof (Z AY) as A2. pose proof (Z AZ) as A3. clear Z. unfold dipole in *. cbn [axes map nth] in *.
  now rewrite A, A2, A3.
Qed.

Lemma saves_ext kick rows rows' from count : (forall i, from <= i < from + count -> firstn (S i) rows = firstn (S i) rows') ->
  saves kick rows from count = saves kick rows' from count.
Proof.
  intros H. unfold saves. rewrite !flat_map_concat_map. f_equal. apply map_ext_in. intros i Hi. apply in_seq in Hi. now rewrite (H i Hi).
Qed.

Lemma firstn_app_le {A} n (a b : list A) : n <= length a -> firstn n (a ++ b) = firstn n a.
Proof. intros H. rewrite firstn_app. replace (n - length a) with 0 by lia. cbn [firstn]. apply app_nil_r. Qed.

(** C80.  The whole call.  With rho0 the density of the orbitals handed in, and rho_1, rho_2, ... the
    densities after each completed propagation step of the kicked orbitals, the returned
    table has the zero row first and then the first moment of rho_n - rho0, everything
    divided by the kick; an error in a step is passed on.  The file holds, after every
    tenth step (0, 10, ...), the rows before the newest one - whatever write_freq is; only
    write_freq = 1 adds a save of the empty table at the start. *)
Theorem C80_response : forall (P : Type) (setup : list C -> bands -> res (bands * P)) step y sk sw b numstep kick dir write_freq
    a pts b1 rho0 b3 rho2 b4 p l r,
  built y sk sw -> orbitals_ok y sk b -> nonzero b ->
  dir = axis_name a -> positions y = Ok pts -> length pts = npts y ->
  dens y b = Ok (b1, rho0) ->
  dens y (kick_bands y (kick_phase kick a pts) b1) = Ok (b3, rho2) ->
  setup rho2 b3 = Ok (b4, p) ->
  trajectory P step y numstep b4 rho2 p = (l, r) ->
  let rows := [RtoC 0; RtoC 0; RtoC 0] :: map (fun rho => dipole y pts rho rho0) l in
  dipole_response P setup step y b numstep kick dir write_freq
  = ((if (write_freq =? 1)%Z then [Remove; Save []] else []) ++ saves kick rows 0 (length l),
     match r with
     | Ok b' => Ok (b', if Req_EM_T kick 0 then map Some rows else map (divided kick) rows)
     | Err e => Err e
     end).
Proof.
  intros P setup step y sk sw b numstep kick dir wf a pts b1 rho0 b3 rho2 b4 p l r B O NZ Ha Hpts Lpts Hd Hk Hs Ht rows.
  assert (Pa : parse_axis dir = Some a) by (rewrite Ha; destruct a; reflexivity).
  unfold dipole_response. rewrite Hd, Pa, Hpts. rewrite (dens_again y sk sw b b1 rho0 B O NZ Hd), Hk, Hs.
  assert (Lr : length rho0 = length (gs_cryst sw)).
  { destruct (dens_ok y sk sw b B O) as (r0 & E0 & L0 & _). rewrite E0 in Hd. injection Hd as _ <-. exact L0. }
  set (z := [RtoC 0; RtoC 0; RtoC 0]).
  set (ev0 := if (wf =? 1)%Z then [Remove; Save []] else []).
  assert (E1 : compute_dipole y pts rho0 kick (-1) rho0 wf (repeat z (S numstep), []) = (repeat z (S numstep), ev0)).
  { unfold compute_dipole. change (Z.to_nat (-1 + 1)) with 0. unfold set_row. cbn [firstn app].
    rewrite (dipole_self y sk sw pts rho0 B Lr Lpts). fold z. change (z :: skipn 1 (repeat z (S numstep))) with (repeat z (S numstep)).
    unfold ev0. destruct (Z.eqb_spec wf 1) as [->|Hw]; [reflexivity|].
    destruct (Z.ltb_spec 0 wf) as [Hp|Hp]; cbn [andb]; [|reflexivity].
    assert (M : ((-1) mod wf = wf - 1)%Z) by (symmetry; apply (Z.mod_unique_pos _ _ (-1)); lia).
    rewrite M. destruct (Z.eqb_spec (wf - 1) 0); [lia|reflexivity]. }
  rewrite E1.
  destruct (trajectory_length P step y numstep _ _ _ _ _ Ht) as [Hl Hl'].
  pose proof (loop_spec P step y pts rho0 kick numstep 0 b4 rho2 p (repeat z (S numstep)) ev0 l r ltac:(rewrite repeat_length; lia) Ht) as LS.
  cbv zeta in LS. change (Z.of_nat 0) with 0%Z in LS. cbn [snd]. 
  set (tab := firstn 1 _ ++ _) in LS.
  assert (Et : tab = rows ++ skipn (1 + length l) (repeat z (S numstep))) by reflexivity.
  rewrite LS. rewrite (saves_ext kick tab rows 0 (length l)).
  2: { intros i Hi. rewrite Et. apply firstn_app_le. unfold rows. cbn [length]. rewrite map_length. lia. }
  destruct r as [b'|e]; [|reflexivity].
  assert (tab = rows) as ->; [|reflexivity].
  rewrite Et, skipn_all2; [apply app_nil_r|]. rewrite repeat_length, (Hl' b' eq_refl). lia.
Qed.
Print Assumptions C80_response.

(** C80.  A direction other than "x", "y", "z" is refused with ValueError, without touching the file. *)
Theorem C80_direction_checked : forall (P : Type) (setup : list C -> bands -> res (bands * P)) step y sk sw b numstep kick dir write_freq,
  built y sk sw -> orbitals_ok y sk b ->
  (dir <> "x" /\ dir <> "y" /\ dir <> "z")%string ->
  dipole_response P setup step y b numstep kick dir write_freq = ([], Err ValueError).
Proof.
  intros P setup step y sk sw b n kick dir wf B O (Hx & Hy & Hz). unfold dipole_response.
  destruct (dens_ok y sk sw b B O) as (r0 & E0 & _). rewrite E0. unfold parse_axis.
  rewrite (proj2 (String.eqb_neq _ _) Hx), (proj2 (String.eqb_neq _ _) Hy), (proj2 (String.eqb_neq _ _) Hz). reflexivity.
Qed.
Print Assumptions C80_direction_checked.

(** The file after a sequence of effects. *)
Definition disk (file : option (list (option (list C)))) (ev : list event) : option (list (option (list C))) :=
  fold_left (fun _ e => match e with Remove => None | Save rows => Some rows end) ev file.

Lemma disk_app f a b : disk f (a ++ b) = disk (disk f a) b.
Proof. unfold disk. apply fold_left_app. Qed.
Lemma disk_last f ev e : disk f (ev ++ [e]) = match e with Remove => None | Save rows => Some rows end.
Proof. now rewrite disk_app. Qed.

(** C80, interruption.  Wherever the run is interrupted between two effects on the file, the file is
    the one found at the start (no effect yet), absent, or holds the quotients of the first m
    rows of the history, m at most the number of completed steps. *)
Theorem C80_interrupted_file : forall kick rows n (init : bool) file ev1 ev2,
  n < length rows ->
  (if init then [Remove; Save []] else []) ++ saves kick rows 0 n = ev1 ++ ev2 ->
  (ev1 = [] /\ disk file ev1 = file) \/ disk file ev1 = None \/
  exists m, m <= n /\ disk file ev1 = Some (map (divided kick) (firstn m rows)).
Proof.
  intros kick rows n init file ev1 ev2 Hn E.
  destruct ev1 as [|e ev1 _] using rev_ind; [left; now split|right]. rewrite disk_last. destruct e as [|s]; [now left|right].
  assert (I : In (Save s) ((if init then [Remove; Save []] else []) ++ saves kick rows 0 n)).
  { rewrite E. apply in_or_app. left. apply in_or_app. right. now left. }
  apply in_app_or in I. destruct I as [I|I].
  - destruct init; [|destruct I]. destruct I as [I|[I|[]]]; [discriminate|]. injection I as <-. exists 0. split; [lia|reflexivity].
  - unfold saves in I. apply in_flat_map in I. destruct I as (i & Hi & I). apply in_seq in Hi.
    destruct (Nat.eqb _ 0); [|destruct I]. destruct I as [I|[I|[]]]; [discriminate|]. injection I as <-. exists (S i). split; [lia|reflexivity].
Qed.
Print Assumptions C80_interrupted_file.

(** C80, refuted: "write_freq = 0 means no writing".  Whatever write_freq, the file is written as soon
    as one step has completed, and the two runs differ in nothing else than the empty initial
    save of write_freq = 1. *)
Theorem C80_write_freq_refuted : forall (P : Type) (setup : list C -> bands -> res (bands * P)) step y sk sw b numstep kick dir write_freq
    a pts b1 rho0 b3 rho2 b4 p b5 p5,
  built y sk sw -> orbitals_ok y sk b -> nonzero b ->
  dir = axis_name a -> positions y = Ok pts -> length pts = npts y ->
  dens y b = Ok (b1, rho0) ->
  dens y (kick_bands y (kick_phase kick a pts) b1) = Ok (b3, rho2) ->
  setup rho2 b3 = Ok (b4, p) ->
  step b4 rho2 p = Ok (b5, p5) -> (exists x, dens y b5 = Ok x) ->
  In (Save [divided kick [RtoC 0; RtoC 0; RtoC 0]]) (fst (dipole_response P setup step y b (S numstep) kick dir write_freq)).
Proof.
  intros P setup step y sk sw b n kick dir wf a pts b1 rho0 b3 rho2 b4 p b5 p5 B O NZ Ha Hp Lp Hd Hk Hs Hst ([b6 rho6] & Hx).
  destruct (trajectory P step y (S n) b4 rho2 p) as [l r] eqn:Ht.
  rewrite (C80_response P setup step y sk sw b (S n) kick dir wf a pts b1 rho0 b3 rho2 b4 p l r B O NZ Ha Hp Lp Hd Hk Hs Ht).
  cbn [fst]. apply in_or_app. right. cbn [trajectory] in Ht. rewrite Hst, Hx in Ht.
  destruct (trajectory P step y n b6 rho6 p5) as [l' r']. injection Ht as <- <-.
  cbn [length]. unfold saves. change (seq 0 (S (length l'))) with (0 :: seq 1 (length l')). cbn [flat_map]. right. left. reflexivity.
Qed.
Print Assumptions C80_write_freq_refuted.

(** C80, refuted: the file is not safe against interruption.  Just before every save after the first
    one there is a point at which the previous file is gone. *)
Theorem C80_file_lost_refuted : forall kick row rows n file, 10 < n ->
  exists ev1 ev2, saves kick (row :: rows) 0 n = ev1 ++ Remove :: ev2 /\
    disk file ev1 = Some [divided kick row] /\ disk file (ev1 ++ [Remove]) = None.
Proof.
  intros kick row rows n file Hn.
  exists [Remove; Save [divided kick row]], (Save (map (divided kick) (firstn 11 (row :: rows))) :: saves kick (row :: rows) 11 (n - 11)).
  split; [|split; reflexivity].
  unfold saves at 1. replace n with (11 + (n - 11)) at 1 by lia. rewrite seq_app. rewrite flat_map_app. reflexivity.
Qed.
Print Assumptions C80_file_lost_refuted.

(* ------------------------------------------------------------------ *)
(** The kick *)
Lemma built_k y sk sw : built y sk sw -> forall v, length v = length (gs_cryst sk) ->
  length (snd (full_g2r (y_fk y) v)) = npts y /\
  (forall i j k, i < y_nx y -> j < y_ny y -> k < y_nz y ->
     at_point y (snd (full_g2r (y_fk y) v)) (RtoC 0) i j k = orbital (y_nx y) (y_ny y) (y_nz y) sk v i j k).
Proof.
  intros ((gk & Ek) & _ & (g & h & F) & _) v L. split.
  - rewrite F. set (o := full_run _ _).
    assert (I : full_inv (y_nx y) (y_ny y) (y_nz y) (map Z.to_nat (gs_idxgrid sk)) false o) by (apply full_run_inv; unfold full_init, full_inv; cbn; tauto).
    destruct I as (I1 & I2 & I3 & _). unfold full_g2r. cbn [snd]. unfold store. rewrite map_length, seq_length, I1, I2, I3. reflexivity.
  - intros i j k Hi Hj Hk. unfold at_point. rewrite F.
    rewrite (C13_g2r_is_fourier_sum _ _ _ _ _ false g h v i j k Ek L Hi Hj Hk). unfold orbital. rewrite L. ring.
Qed.

(** C80.  The kick multiplies every orbital on the grid by exp(-i kick r_a) and projects the result back
    on the plane waves of the orbital; the coefficients are not divided by the number of
    grid points (the next density evaluation normalises the orbitals). *)
Theorem C80_kick : forall y sk sw pts kick a b n g,
  built y sk sw -> orbitals_ok y sk b -> length pts = npts y -> n < length b -> g < length (gs_cryst sk) ->
  length (kick_bands y (kick_phase kick a pts) b) = length b /\
  nth g (nth n (kick_bands y (kick_phase kick a pts) b) []) (RtoC 0)
  = over_grid y (fun i j k => orbital (y_nx y) (y_ny y) (y_nz y) sk (nth n b []) i j k
       * cis (- (kick * coordinate a (at_point y pts (V 0 0 0) i j k)))
       * Cconj (plane_wave (y_nx y) (y_ny y) (y_nz y) (nth g (gs_cryst sk) (0, 0, 0)%Z) i j k))%C.
Proof.
  change coordinate with comp.
  intros y sk sw pts kick a b n g B (_ & _ & Hl) Lp Hn Hg. unfold kick_bands. split; [apply map_length|].
  rewrite (nth_map_lt _ []) by exact Hn. set (v := nth n b []).
  assert (Lv : length v = length (gs_cryst sk)) by (apply Hl, nth_In, Hn).
  destruct (built_k y sk sw B v Lv) as [LG AG].
  destruct B as ((gk & Ek) & _ & (g0 & h & F) & _).
  rewrite F at 1. rewrite (C13_r2g_is_projection_on_plane_waves _ _ _ _ _ false g0 h _ g Ek Hg). unfold over_grid.
  apply csum_ext; intros i Hi. apply csum_ext; intros j Hj. apply csum_ext; intros k Hk. f_equal.
  pose proof (point_lt y i j k Hi Hj Hk) as Hp.
  rewrite (zip_with_nth _ _ _ _ (RtoC 0) (RtoC 0)) by (unfold kick_phase; rewrite ?map_length; lia).
  change (nth ((i * y_ny y + j) * y_nz y + k) (snd (full_g2r (y_fk y) v)) (RtoC 0)) with (at_point y (snd (full_g2r (y_fk y) v)) (RtoC 0) i j k).
  rewrite AG by assumption. f_equal. unfold kick_phase. rewrite (nth_map_lt _ (V 0 0 0)) by lia. reflexivity.
Qed.
Print Assumptions C80_kick.

Lemma zip_with_one l m : m = length l -> zip_with Cmult l (repeat (RtoC 1) m) = l.
Proof.
  intros ->. induction l as [|c l IH]; [reflexivity|]. cbn [length repeat zip_with]. rewrite IH. f_equal. ring.
Qed.

(** C80.  A zero kick only multiplies the coefficients by the number of grid points; the density it
    starts the propagation with is the initial one. *)
Theorem C80_zero_kick : forall y sk sw pts a b b1 rho0,
  built y sk sw -> orbitals_ok y sk b -> nonzero b -> length pts = npts y -> dens y b = Ok (b1, rho0) ->
  kick_bands y (kick_phase 0 a pts) b1 = map (scaled (RtoC (INR (npts y)))) b1 /\
  dens y (kick_bands y (kick_phase 0 a pts) b1) = Ok (b1, rho0).
Proof.
  intros y sk sw pts a b b1 rho0 B O NZ Lp Hd.
  destruct (dens_ok y sk sw b B O) as (r & E1 & _). pose proof (dens_again y sk sw b b1 rho0 B O NZ Hd) as Ha. rewrite E1 in Hd. injection Hd as <- <-.
  set (b1 := map unit_vector b) in *. assert (O1 : orbitals_ok y sk b1) by now apply unit_bands_ok.
  assert (K : kick_bands y (kick_phase 0 a pts) b1 = map (scaled (RtoC (INR (npts y)))) b1).
  { unfold kick_bands. apply map_ext_in. intros v Hv. destruct O1 as (_ & _ & Hl). specialize (Hl v Hv).
    destruct (built_k y sk sw B v Hl) as [LG _].
    replace (kick_phase 0 a pts) with (repeat (RtoC 1) (npts y)).
    2: { unfold kick_phase. rewrite <- Lp. clear. induction pts as [|q pts IH]; [reflexivity|]. cbn [length repeat map]. rewrite IH. f_equal.
         rewrite Rmult_0_l, Ropp_0. symmetry. apply cis_0. }
    rewrite zip_with_one by now rewrite LG.
    destruct B as ((gk & Ek) & _ & (g0 & h & F) & _). rewrite F.
    apply (C13_roundtrip_gkspace_scales (y_nx y) (y_ny y) (y_nz y) gk sk g0 h h v Ek Hl). }
  split; [exact K|]. rewrite K, <- Ha. 
  assert (HN : (0 < INR (npts y))%R).
  { apply lt_0_INR. destruct B as (_ & _ & _ & _ & H1 & H2 & H3). unfold npts. revert H1 H2 H3. generalize (y_nx y) (y_ny y) (y_nz y). intros; nia. }
  apply (dens_unit y sk sw); try assumption.
  - destruct O1 as (A1 & A2 & A3). split; [destruct b1; [contradiction|discriminate]|]. split; [now rewrite map_length|].
    intros psi Hp. apply in_map_iff in Hp. destruct Hp as (q & <- & Hq). unfold scaled. rewrite map_length. now apply A3.
  - rewrite map_map. apply map_ext_in. intros v Hv. apply unit_scaled; [exact HN|].
    apply in_map_iff in Hv. destruct Hv as (w & <- & Hw). rewrite unit_norm by now apply NZ. lra.
Qed.
Print Assumptions C80_zero_kick.

(** C80.  Origin.  If the cell holds the same charge in rho and rho0, moving the origin of all positions
    by one vector does not change the dipole. *)
Theorem C80_origin_independent : forall y sk sw pts rho rho0 c,
  built y sk sw -> length rho = length (gs_cryst sw) -> length rho0 = length (gs_cryst sw) -> length pts = npts y ->
  over_grid y (fun i j k => field_at y sw rho i j k - field_at y sw rho0 i j k)%C = RtoC 0 ->
  dipole y (map (vadd c) pts) rho rho0 = dipole y pts rho rho0.
Proof.
  intros y sk sw pts rho rho0 c B L L0 Lp Q.
  assert (Lc : length (map (vadd c) pts) = npts y) by now rewrite map_length.
  assert (Z : forall a, nth (match a with AX => 0 | AY => 1 | AZ => 2 end) (dipole y (map (vadd c) pts) rho rho0) (RtoC 0)
                      = nth (match a with AX => 0 | AY => 1 | AZ => 2 end) (dipole y pts rho rho0) (RtoC 0)).
  { intros a. rewrite !(C80_dipole_is_first_moment y sk sw) by assumption. change coordinate with comp. f_equal.
    rewrite <- (Cplus_0_l (over_grid y (fun i j k => RtoC (comp a (at_point y pts _ i j k)) * _)%C)).
    rewrite <- (Cmult_0_r (RtoC (comp a c))), <- Q. unfold over_grid.
    rewrite <- !csum_scal, <- csum_plus. apply csum_ext; intros i Hi.
    rewrite <- !csum_scal, <- csum_plus. apply csum_ext; intros j Hj.
    rewrite <- !csum_scal, <- csum_plus. apply csum_ext; intros k Hk.
    pose proof (point_lt y i j k Hi Hj Hk) as Hp. unfold at_point. rewrite (nth_map_lt (vadd c) (V 0 0 0)) by lia.
    replace (comp a (vadd c (nth ((i * y_ny y + j) * y_nz y + k) pts (V 0 0 0)))) with (comp a c + comp a (nth ((i * y_ny y + j) * y_nz y + k) pts (V 0 0 0)))%R by (destruct a; reflexivity).
    rewrite RtoC_plus. ring. }
  pose proof (Z AX) as A. pose proof (Z AY) as A2. pose proof (Z AZ) as A3. clear Z. unfold dipole in *. cbn [axes map nth] in *.
  now rewrite A, A2, A3.
Qed.
Print Assumptions C80_origin_independent.

(* ------------------------------------------------------------------ *)
(** C81: the spectrum *)

(** The damping that a call selects: without a factor always the polynomial one. *)
Definition damping (damp_func : option string) (damp_fac : option R) (T t : R) : R :=
  match damp_fac with
  | None => (1 - 3 * (t / T) ^ 2 + 2 * (t / T) ^ 3)%R
  | Some c =>
      match damp_func with
      | Some f => if String.eqb f "poly" then (1 - 3 * (t / T) ^ 2 + 2 * (t / T) ^ 3)%R
                  else if String.eqb f "exp" then exp (- (c * t)) else exp (- (c * t) ^ 2)
      | None => 0%R
      end
  end.
(** The calls that are accepted. *)
Definition accepted (damp_func : option string) (damp_fac : option R) : Prop :=
  match damp_fac with
  | None => True
  | Some c => damp_func = Some "poly"%string \/ (damp_func = Some "exp"%string \/ damp_func = Some "gauss"%string) /\ (0 <= c)%R
  end.

Section Spec81.
  Variable W : list R -> nat -> R.   (* Simpson weights of the abscissae *)

  Lemma select_ok func fac : accepted func fac ->
    exists f, (match (match fac with None => Some "poly"%string | Some _ => func end) with
             | Some f => if (String.eqb f "poly" || String.eqb f "exp" || String.eqb f "gauss")%bool then Ok f else Err ValueError
             | None => Err ValueError end) = Ok f
      /\ (negb (String.eqb f "poly") && (if Rlt_dec (match fac with Some x => x | None => 0%R end) 0 then true else false))%bool = false
      /\ forall T t, weight f (match fac with Some x => x | None => 0%R end) T t = damping func fac T t.
  Proof.
    unfold accepted, damping, weight. destruct fac as [c|]; [|intros _; exists "poly"%string; repeat split; reflexivity].
    intros [->|[[->| ->] Hc]]; [exists "poly"%string|exists "exp"%string|exists "gauss"%string]; repeat split; try reflexivity;
      cbn; destruct (Rlt_dec c 0); try reflexivity; lra.
  Qed.

  Lemma nth_zip_seq {B : Type} (f : list C -> R -> B) dip dt d n : n < length dip -> 0 < length dip ->
    nth n (zip_with f dip (map (fun i => INR i * dt)%R (seq 0 (S (length dip - 1))))) d = f (nth n dip []) (INR n * dt)%R.
  Proof.
    intros Hn H0. rewrite (zip_with_nth _ _ _ _ [] 0%R) by (rewrite ?map_length, ?seq_length; lia). f_equal.
    rewrite (nth_map_lt _ 0) by (rewrite seq_length; lia). rewrite seq_nth by lia. reflexivity.
  Qed.

  (** C81.  For an accepted call the energies are start + k step, and the spectrum at energy E is
      the quadrature of -i sin(E t) * damping(t) * dipole(t) over the time steps, for every
      column. *)
  Theorem C81_spectrum : forall ncol dip dt e0 e1 step func fac,
    0 < length dip -> step <> 0%R -> accepted func fac ->
    let T := (INR (length dip - 1) * dt)%R in
    let times := map (fun i => INR i * dt)%R (seq 0 (length dip)) in
    exists ens sp, dipole_spectrum W ncol dip dt e0 e1 (Some step) func fac = Ok (ens, sp)
    /\ length ens = Z.to_nat (- rfloor (- ((e1 - e0) / step))) /\ length sp = length ens
    /\ forall k, k < length ens -> nth k ens 0%R = (e0 + INR k * step)%R /\ length (nth k sp []) = ncol
    /\ forall j, j < ncol -> nth j (nth k sp []) (RtoC 0)
       = csum (length dip) (fun n => let t := (INR n * dt)%R in
           RtoC (W times n) * (- Ci * RtoC (sin (nth k ens 0%R * t)) * RtoC (damping func fac T t) * nth j (nth n dip []) (RtoC 0)))%C.
  Proof.
    intros ncol dip dt e0 e1 step func fac H0 Hs Hacc T times.
    unfold dipole_spectrum. cbn [bind]. unfold np_arange. destruct (Req_EM_T step 0) as [X|_]; [contradiction|]. cbn [bind].
    destruct (select_ok func fac Hacc) as (f & -> & E2 & E3). cbn [bind]. rewrite E2. fold T.
    replace (S (length dip - 1)) with (length dip) by lia. fold times.
    do 2 eexists. split; [reflexivity|]. rewrite !map_length, seq_length. split; [reflexivity|]. split; [reflexivity|].
    intros k Hk. rewrite (nth_map_lt (fun i => (e0 + INR i * step)%R) 0) by (rewrite seq_length; exact Hk). rewrite seq_nth by exact Hk. cbn [Nat.add].
    split; [reflexivity|]. rewrite (nth_map_lt _ 0%R) by (rewrite map_length, seq_length; exact Hk).
    rewrite (nth_map_lt (fun i => (e0 + INR i * step)%R) 0) by (rewrite seq_length; exact Hk). rewrite seq_nth by exact Hk. cbn [Nat.add].
    split; [now rewrite map_length, seq_length|]. intros j Hj. rewrite (nth_map_lt _ 0) by (rewrite seq_length; exact Hj). rewrite seq_nth by exact Hj. cbn [Nat.add].
    unfold simpson. set (damped := zip_with _ dip times).
    assert (Lt : length times = length dip) by (unfold times; now rewrite map_length, seq_length).
    assert (Ld : length damped = length dip) by (unfold damped; rewrite zip_with_length; lia).
    rewrite zip_with_length, Ld, Lt, Nat.min_id. apply csum_ext. intros n Hn. f_equal.
    rewrite (zip_with_nth _ _ _ _ [] 0%R) by lia. unfold damped. rewrite (zip_with_nth _ _ _ _ [] 0%R) by lia.
    assert (Et : nth n times 0%R = (INR n * dt)%R).
    { unfold times. rewrite (nth_map_lt _ 0) by (rewrite seq_length; exact Hn). now rewrite seq_nth by exact Hn. }
    rewrite Et, E3. destruct (Nat.lt_ge_cases j (length (nth n dip []))) as [Hjn|Hjn].
    - rewrite (nth_map_lt _ (RtoC 0)) by exact Hjn. ring.
    - rewrite !nth_overflow by (rewrite ?map_length; exact Hjn). ring.
  Qed.
End Spec81.
Print Assumptions C81_spectrum.

(** C81.  Refusals: a damping function that is not one of the three, or a negative factor for the
    exponential and Gaussian ones, when a factor is given. *)
Theorem C81_refused : forall W ncol dip dt e0 e1 step func fac, step <> 0%R ->
  ~ accepted func fac -> dipole_spectrum W ncol dip dt e0 e1 (Some step) func fac = Err ValueError.
Proof.
  intros W ncol dip dt e0 e1 step func fac Hs Hn. unfold dipole_spectrum. cbn [bind]. unfold np_arange.
  destruct (Req_EM_T step 0) as [X|_]; [contradiction|]. cbn [bind]. unfold accepted in Hn. destruct fac as [c|]; [|tauto].
  destruct func as [f|]; [|reflexivity].
  destruct (String.eqb_spec f "poly") as [->|N1]; [tauto|].
  destruct (String.eqb_spec f "exp") as [->|N2].
  { cbn [orb bind negb andb]. destruct (Rlt_dec c 0) as [Hc|Hc]; [reflexivity|]. exfalso. apply Hn. right. split; [now left|lra]. }
  destruct (String.eqb_spec f "gauss") as [->|N3]; [|reflexivity].
  cbn [orb bind negb andb]. destruct (Rlt_dec c 0) as [Hc|Hc]; [reflexivity|]. exfalso. apply Hn. right. split; [now right|lra].
Qed.
Print Assumptions C81_refused.

(** C81.  Without a factor the name of the damping function is ignored, valid or not. *)
Theorem C81_name_ignored_without_factor : forall W ncol dip dt e0 e1 step func func',
  dipole_spectrum W ncol dip dt e0 e1 step func None = dipole_spectrum W ncol dip dt e0 e1 step func' None.
Proof. reflexivity. Qed.
Print Assumptions C81_name_ignored_without_factor.

(** C81.  The default energy step is 2 pi / T; a history without a step (T = 0) cannot be given the default. *)
Theorem C81_default_step : forall W ncol dip dt e0 e1 func fac,
  let T := (INR (length dip - 1) * dt)%R in
  (T <> 0%R -> dipole_spectrum W ncol dip dt e0 e1 None func fac = dipole_spectrum W ncol dip dt e0 e1 (Some (2 * PI / T)%R) func fac) /\
  (T = 0%R -> dipole_spectrum W ncol dip dt e0 e1 None func fac = Err ZeroDivisionError).
Proof.
  intros W ncol dip dt e0 e1 func fac T. unfold dipole_spectrum. fold T.
  split; intros H; destruct (Req_EM_T T 0) as [X|X]; try contradiction; reflexivity.
Qed.
Print Assumptions C81_default_step.

(** C81.  The energies, for a positive step, are exactly start + k step below the end. *)
Theorem C81_energies : forall W ncol dip dt e0 e1 step func fac ens sp, (0 < step)%R -> 0 < length dip ->
  dipole_spectrum W ncol dip dt e0 e1 (Some step) func fac = Ok (ens, sp) ->
  forall e, In e ens <-> exists k : nat, e = (e0 + INR k * step)%R /\ (e < e1)%R.
Proof.
  intros W ncol dip dt e0 e1 step func fac ens sp Hs H0 E e.
  assert (Een : ens = map (fun i => e0 + INR i * step)%R (seq 0 (Z.to_nat (- rfloor (- ((e1 - e0) / step)))))).
  { unfold dipole_spectrum in E. cbn [bind] in E. unfold np_arange in E. destruct (Req_EM_T step 0) as [X|_]; [lra|]. cbn [bind] in E.
    destruct (match fac with Some _ => func | None => _ end); [|discriminate]. destruct (_ || _ || _)%bool; [|discriminate]. cbn [bind] in E.
    destruct (_ && _)%bool; [discriminate|]. now injection E as <- _. }
  subst ens. rewrite in_map_iff. clear E.
  assert (K : forall k : nat, (k < Z.to_nat (- rfloor (- ((e1 - e0) / step)))) <-> (e0 + INR k * step < e1)%R).
  { intros k. destruct (rfloor_spec (- ((e1 - e0) / step))) as [F1 F2]. set (m := rfloor _) in *.
    assert (Q : ((e1 - e0) / step * step = e1 - e0)%R) by (field; lra). set (q := ((e1 - e0) / step)%R) in *.
    rewrite INR_IZR_INZ. split.
    - intros Hk. assert (Hz : (Z.of_nat k <= - m - 1)%Z) by lia. apply IZR_le in Hz. rewrite minus_IZR, opp_IZR in Hz.
      assert (IZR (Z.of_nat k) < q)%R by lra. nra.
    - intros Hk. assert (IZR (Z.of_nat k) < q)%R by (apply Rmult_lt_reg_r with step; [exact Hs|lra]).
      assert (Hz : (IZR (Z.of_nat k) < IZR (- m))%R) by (rewrite opp_IZR; lra). apply lt_IZR in Hz. lia. }
  split.
  - intros (k & <- & Hk). apply in_seq in Hk. exists k. split; [reflexivity|]. apply K. lia.
  - intros (k & -> & Hk). exists k. split; [reflexivity|]. apply in_seq. apply K in Hk. lia.
Qed.
Print Assumptions C81_energies.

(** C81.  The polynomial damping is 1 at the start, 0 at the end of the propagation, and decreases in between. *)
Theorem C81_polynomial_damping : forall func T, (0 < T)%R ->
  damping func None T 0 = 1%R /\ damping func None T T = 0%R /\
  (forall s t, (0 <= s)%R -> (s <= t)%R -> (t <= T)%R -> (0 <= damping func None T t <= damping func None T s)%R /\ (damping func None T s <= 1)%R).
Proof.
  intros func T HT. unfold damping. split; [field; lra|]. split; [field; lra|].
  intros s t H0 H1 H2.
  assert (A : (0 <= s / T)%R) by (apply Rmult_le_pos; [lra|apply Rlt_le, Rinv_0_lt_compat; lra]).
  assert (B : (s / T <= t / T)%R) by (apply Rmult_le_compat_r; [apply Rlt_le, Rinv_0_lt_compat; lra|exact H1]).
  assert (D : (t / T <= 1)%R) by (apply Rmult_le_reg_r with T; [lra|]; unfold Rdiv; rewrite Rmult_assoc, Rinv_l; lra).
  revert A B D. generalize (s / T)%R (t / T)%R. intros u v A B D.
  assert (F : forall x, (1 - 3 * x ^ 2 + 2 * x ^ 3 = (1 - x) * (1 - x) * (1 + 2 * x))%R) by (intros; ring).
  split; [split|].
  - rewrite F. apply Rmult_le_pos; [apply Rle_0_sqr|lra].
  - assert (X : ((1 - 3 * u ^ 2 + 2 * u ^ 3) - (1 - 3 * v ^ 2 + 2 * v ^ 3) = (v - u) * (3 * (u + v) - 2 * (u * u + u * v + v * v)))%R) by ring.
    assert (Y : (0 <= 3 * (u + v) - 2 * (u * u + u * v + v * v))%R) by nra.
    assert (Z : (0 <= (v - u) * (3 * (u + v) - 2 * (u * u + u * v + v * v)))%R) by (apply Rmult_le_pos; lra). lra.
  - assert (X : (3 * u ^ 2 - 2 * u ^ 3 = u * u * (3 - 2 * u))%R) by ring.
    assert (Z : (0 <= u * u * (3 - 2 * u))%R) by (apply Rmult_le_pos; nra). lra.
Qed.
Print Assumptions C81_polynomial_damping.

(** C81.  A real dipole history has a purely imaginary spectrum, and the spectrum vanishes at energy zero. *)
Theorem C81_real_dipole : forall W ncol dip dt e0 e1 step func fac ens sp,
  0 < length dip -> step <> 0%R -> accepted func fac ->
  (forall row c, In row dip -> In c row -> snd c = 0%R) ->
  dipole_spectrum W ncol dip dt e0 e1 (Some step) func fac = Ok (ens, sp) ->
  forall k j, k < length ens -> j < ncol ->
    fst (nth j (nth k sp []) (RtoC 0)) = 0%R /\ (nth k ens 0%R = 0%R -> nth j (nth k sp []) (RtoC 0) = RtoC 0).
Proof.
  intros W ncol dip dt e0 e1 step func fac ens sp H0 Hs Ha Hr E k j Hk Hj.
  destruct (C81_spectrum W ncol dip dt e0 e1 step func fac H0 Hs Ha) as (ens' & sp' & E' & _ & _ & D). rewrite E in E'. injection E' as <- <-.
  destruct (D k Hk) as (_ & _ & D2). rewrite (D2 j Hj). clear D D2. split.
  - rewrite csum_re. rewrite (rsum_ext _ _ (fun _ => 0%R)); [rewrite rsum_const; ring|]. intros n Hn.
    assert (Rim : snd (nth j (nth n dip []) (RtoC 0)) = 0%R).
    { destruct (Nat.lt_ge_cases j (length (nth n dip []))) as [A|A]; [|now rewrite nth_overflow by exact A].
      apply (Hr (nth n dip [])); apply nth_In; assumption. }
    assert (G : forall (w s d : R) (c : C), snd c = 0%R -> fst (RtoC w * (- Ci * RtoC s * RtoC d * c))%C = 0%R).
    { intros w s d [p q] Hq. cbn [snd] in Hq. subst q. cbn. ring. }
    apply G. exact Rim.
  - intros X. rewrite X. rewrite csum_zero; [reflexivity|]. intros n Hn. cbv zeta. rewrite Rmult_0_l, sin_0. ring.
Qed.
Print Assumptions C81_real_dipole.

(** C81.  The spectrum is linear in the dipole history. *)
Theorem C81_linear : forall W ncol d1 d2 d3 (a b : C) dt e0 e1 step func fac ens s1 s2 s3,
  0 < length d1 -> length d2 = length d1 -> length d3 = length d1 -> step <> 0%R -> accepted func fac ->
  (forall n j, nth j (nth n d3 []) (RtoC 0) = (a * nth j (nth n d1 []) (RtoC 0) + b * nth j (nth n d2 []) (RtoC 0))%C) ->
  dipole_spectrum W ncol d1 dt e0 e1 (Some step) func fac = Ok (ens, s1) ->
  dipole_spectrum W ncol d2 dt e0 e1 (Some step) func fac = Ok (ens, s2) ->
  dipole_spectrum W ncol d3 dt e0 e1 (Some step) func fac = Ok (ens, s3) ->
  forall k j, k < length ens -> j < ncol ->
    nth j (nth k s3 []) (RtoC 0) = (a * nth j (nth k s1 []) (RtoC 0) + b * nth j (nth k s2 []) (RtoC 0))%C.
Proof.
  intros W ncol d1 d2 d3 a b dt e0 e1 step func fac ens s1 s2 s3 H0 L2 L3 Hs Ha Hl E1 E2 E3 k j Hk Hj.
  assert (H2 : 0 < length d2) by lia. assert (H3 : 0 < length d3) by lia.
  destruct (C81_spectrum W ncol d1 dt e0 e1 step func fac H0 Hs Ha) as (x1 & y1 & F1 & _ & _ & D1). rewrite E1 in F1. injection F1 as <- <-.
  destruct (C81_spectrum W ncol d2 dt e0 e1 step func fac H2 Hs Ha) as (x2 & y2 & F2 & _ & _ & D2). rewrite E2 in F2. injection F2 as <- <-.
  destruct (C81_spectrum W ncol d3 dt e0 e1 step func fac H3 Hs Ha) as (x3 & y3 & F3 & _ & _ & D3). rewrite E3 in F3. injection F3 as <- <-.
  rewrite (proj2 (proj2 (D1 k Hk)) j Hj), (proj2 (proj2 (D2 k Hk)) j Hj), (proj2 (proj2 (D3 k Hk)) j Hj).
  rewrite L2, L3, <- !csum_scal, <- csum_plus. apply csum_ext. intros n Hn. cbv zeta. rewrite Hl. ring.
Qed.
Print Assumptions C81_linear.

(** C81: a call that meets the hypotheses. *)
Example C81_witness : exists ens sp, dipole_spectrum (fun _ _ => 1%R) 3 [[RtoC 0; RtoC 0; RtoC 0]; [RtoC 1; RtoC 2; RtoC 3]] 1 0 1 (Some 1%R)
  (Some "exp"%string) (Some 1%R) = Ok (ens, sp) /\ length ens = 1.
Proof.
  destruct (C81_spectrum (fun _ _ => 1%R) 3 [[RtoC 0; RtoC 0; RtoC 0]; [RtoC 1; RtoC 2; RtoC 3]] 1 0 1 1 (Some "exp"%string) (Some 1%R))
    as (ens & sp & E & L & _); [cbn; lia|lra|right; split; [now left|lra]|].
  exists ens, sp. split; [exact E|]. rewrite L. replace (- ((1 - 0) / 1))%R with (IZR (-1)) by (change (IZR (-1)) with (-1)%R; field).
  rewrite (rfloor_unique (IZR (-1)) (-1)) by lra. reflexivity.
Qed.

(** C80: a system that meets the hypotheses (one helium-like atom at (1/4, 0, 0) of a cubic cell, three
    plane waves, one orbital), kicked along z and propagated by the identity for any number
    of steps. *)
Example C80_witness : exists y sk sw b pts b1 rho0 b3 rho2 L P,
  built y sk sw /\ orbitals_ok y sk b /\ nonzero b /\ length (gs_cryst sk) = 3 /\
  mk_lattice P = Ok L /\ u_lat (cr_lat (y_crystal y)) = L /\
  positions y = Ok pts /\ length pts = npts y /\ dens y b = Ok (b1, rho0) /\
  dens y (kick_bands y (kick_phase (1 / 100) AZ pts) b1) = Ok (b3, rho2) /\
  forall n, exists l b4, trajectory unit (fun b _ _ => Ok (b, tt)) y n b3 rho2 tt = (l, Ok b4) /\ length l = n.
Proof.
  set (gs := [(0, 0, 0); (1, 0, 0); (0, 0, -1)]%Z).
  destruct (GIndexProofs.gspace_base_total (zshape 4 4 4) gs) as [s Hs];
    [reflexivity|reflexivity|unfold gs; repeat constructor; cbn; intuition discriminate|discriminate|].
  assert (HL : length (gs_cryst s) = 3).
  { pose proof (GIndexProofs.gspace_base_spec _ _ _ Hs) as (HP & _). now apply Permutation_length in HP. }
  set (P := Mat (V 1 0 0) (V 0 1 0) (V 0 0 1)).
  assert (D : mdet P <> 0%R) by (unfold mdet, P, vdot, vcross; cbn; lra).
  destruct (proj2 (mk_lattice_iff P) D) as (L & EL & _).
  set (cr := MkCrystal (MkULattice 1 L) [MkSpecies 0 2 PPNone MNone (MkULattice 1 L) [V (1 / 4) 0 0]]).
  set (g := MkWorker zeros zeros zeros).
  set (y := MkSystem cr 4 4 4 (full_init 4 4 4 (map Z.to_nat (gs_idxgrid s)) false g) (full_init 4 4 4 (map Z.to_nat (gs_idxgrid s)) true g) 1 [1%R] 2).
  set (b := [[RtoC 1; RtoC 1; RtoC 0]]).
  assert (B : built y s s).
  { split; [now exists gs|]. split; [now exists gs|]. split; [now exists g, []|]. split; [now exists g, []|]. cbn. lia. }
  assert (O : orbitals_ok y s b).
  { split; [discriminate|]. split; [reflexivity|]. intros psi [<-|[]]. now rewrite HL. }
  destruct (C80_positions y L P EL eq_refl) as (pts & Ep & Lp & _); [cbn; lia..|].
  destruct (dens_ok y s s b B O) as (rho0 & E0 & _).
  assert (O1 : orbitals_ok y s (kick_bands y (kick_phase (1 / 100) AZ pts) (map unit_vector b))).
  { split; [discriminate|]. split; [reflexivity|]. intros psi [<-|[]].
    unfold full_r2g. cbn [snd]. unfold taken. rewrite map_length. cbn [y y_fk full_init f_idx]. rewrite map_length.
    destruct (gspace_idx _ _ _ _ _ Hs) as (_ & _ & HI & _). rewrite map_length in HI. exact HI. }
  destruct (dens_ok y s s _ B O1) as (rho2 & E2 & _).
  do 9 eexists. exists L, P. split; [exact B|]. split; [exact O|]. split; [|split; [exact HL|split; [exact EL|split; [reflexivity|split; [exact Ep|split; [exact Lp|split; [exact E0|split; [exact E2|]]]]]]]].
  - intros psi [<-|[]]. cbn. lra.
  - assert (T : forall n b rho, orbitals_ok y s b -> exists l b4, trajectory unit (fun b _ _ => Ok (b, tt)) y n b rho tt = (l, Ok b4) /\ length l = n).
    { clear - B. induction n as [|n IH]; intros b rho Ob; [exists [], b; now split|]. cbn [trajectory].
      destruct (dens_ok y s s b B Ob) as (r & E & _). rewrite E.
      destruct (IH (map unit_vector b) r (unit_bands_ok y s b Ob)) as (l & b4 & El & Ll). rewrite El. exists (r :: l), b4. split; [reflexivity|]. cbn. now rewrite Ll. }
    intros n. apply T. now apply unit_bands_ok.
Qed.
