(** Property C65: local pseudopotential and superposition of atomic densities. *)
From Coquelicot Require Import Coquelicot.
From Verif Require Import Base GIndexModel GIndexProofs LatModel LatProofs GSphereModel FFTModel FFTSpec FFTProofs FFTProofs2 PotModel PotSpec PotProofs EwaldModel EwaldSpec EwaldProofs LocModel LocSpec LocProofs PropsEwald KSHamProofs CBase.
Open Scope R_scope.

Lemma cubic_panel a b c d (j : nat) (p := fun x => a + b * x + c * (x * x) + d * (x * x * x)) :
  let F := fun x => a * x + b * (x * x) / 2 + c * (x * x * x) / 3 + d * (x * x * x * x) / 4 in
  (p (INR (2 * j)) + 4 * p (INR (2 * j + 1)) + p (INR (2 * j + 2))) / 3 = F (INR (2 * (S j))) - F (INR (2 * j)).
Proof.
  intros F. unfold p, F. rewrite !plus_INR, !mult_INR, (S_INR j). replace (INR 2) with 2 by (cbn; ring). replace (INR 1) with 1 by reflexivity.
  generalize (INR j). intros x. field.
Qed.

(** C65.  The quadrature integrates cubic integrands exactly: over the whole mesh when the
    number of points is odd; when it is even the last interval is left out. *)
Theorem C65_quadrature_exact_on_cubics : forall a b c d m n f rab,
  n = (2 * m + 1)%nat \/ n = (2 * m + 2)%nat ->
  (forall i, (i < n)%nat -> f i * rab i = a + b * INR i + c * INR i ^ 2 + d * INR i ^ 3) ->
  is_RInt (fun x => a + b * x + c * x ^ 2 + d * x ^ 3) 0 (INR (2 * m)) (simpson_old n f rab).
Proof.
  intros a b c d m n f rab Hn Hf.
  assert (E : simpson_old n f rab = composite_simpson m (fun i => f i * rab i)).
  { destruct Hn as [-> | ->]; [apply simpson_odd|apply simpson_even]. }
  set (F := fun x => a * x + b * (x * x) / 2 + c * (x * x * x) / 3 + d * (x * x * x * x) / 4).
  assert (ES : composite_simpson m (fun i => f i * rab i) = F (INR (2 * m)) - F 0).
  { unfold composite_simpson. 
    rewrite (rsum_ext m _ (fun j => F (INR (2 * S j)) - F (INR (2 * j)))).
    - clear. induction m as [|m IH]; [cbn; ring|]. cbn [rsum]. rewrite IH. ring.
    - intros j Hj. assert (HI : (2 * j + 2 < n)%nat) by (destruct Hn; lia).
      rewrite !Hf by lia. etransitivity; [|exact (cubic_panel a b c d j)]. generalize (INR (2 * j)), (INR (2 * j + 1)), (INR (2 * j + 2)). intros. field. }
  rewrite E, ES.
  apply (is_RInt_derive F).
  - intros x _. unfold F. auto_derive; [trivial|]. field.
  - intros x _. apply continuity_pt_filterlim. apply derivable_continuous_pt. 
    exists (b + 2 * c * x + 3 * d * x ^ 2). apply is_derive_Reals. auto_derive; [trivial|]. ring.
Qed.
Print Assumptions C65_quadrature_exact_on_cubics.

(** C65.  On a mesh with an odd number (at least 3) of points the radial transform is the
    composite Simpson sum of j0(g r) f(r) over the mesh, plus a third of the first node's
    contribution, which is counted twice. *)
Theorem C65_radial_transform : forall j0 m r rab f g,
  is_j0 j0 -> (1 <= m)%nat ->
  sph2pw (2 * m + 1) r rab f g
  = composite_simpson m (fun i => j0 (g * r i) * f i * rab i) + j0 (g * r 0%nat) * f 0%nat * rab 0%nat / 3.
Proof. intros. now apply sph2pw_odd. Qed.
Print Assumptions C65_radial_transform.

(** C65.  Hence, when the integrand vanishes at the first node (as r^2 rho does at r = 0), the
    transform is the Simpson sum, and at g = 0 it agrees with the value stored for G = 0. *)
Theorem C65_continuous_at_zero : forall j0 m r rab f,
  is_j0 j0 -> (1 <= m)%nat -> f 0%nat * rab 0%nat = 0 ->
  (forall g, sph2pw (2 * m + 1) r rab f g = composite_simpson m (fun i => j0 (g * r i) * f i * rab i))
  /\ sph2pw (2 * m + 1) r rab f 0 = simpson_old (2 * m + 1) f rab.
Proof.
  intros j0 m r rab f HJ Hm H0.
  assert (E : forall g, sph2pw (2 * m + 1) r rab f g = composite_simpson m (fun i => j0 (g * r i) * f i * rab i)).
  { intros g. rewrite (sph2pw_odd j0) by assumption. rewrite Rmult_assoc, H0. lra. }
  split; [exact E|]. rewrite E, simpson_odd. unfold composite_simpson. apply rsum_ext. intros j _.
  rewrite !Rmult_0_l. destruct HJ as [-> _]. field.
Qed.
Print Assumptions C65_continuous_at_zero.

(** C65, limits of the claim: with a mesh starting at a point where the integrand does not
    vanish the transform is not the Simpson sum (first node counted twice), and with an even
    number of points the values at G = 0 and at G -> 0 use different rules. *)
Theorem C65_radial_transform_any_mesh_refuted :
  (exists m r rab f, (1 <= m)%nat /\ (forall i, 0 < rab i) /\ (forall i, 0 < r i)
     /\ sph2pw (2 * m + 1) r rab f 0 <> composite_simpson m (fun i => f i * rab i))
  /\ (exists n r rab f, Nat.Even n /\ f 0%nat = 0 /\ (forall i, 0 < rab i)
     /\ sph2pw n r rab f 0 <> simpson_old n f rab).
Proof.
  assert (S0 : forall x, sinc (0 * x) = 1).
  { intros x. unfold sinc. rewrite Rmult_0_l. destruct (Req_EM_T 0 0); [reflexivity|contradiction]. }
  split.
  - exists 1%nat, (fun i => INR i + 1), (fun _ => 1), (fun _ => 1). split; [lia|]. split; [intros; lra|].
    split; [intros i; pose proof (pos_INR i); lra|].
    unfold sph2pw, composite_simpson, weight. cbn [rsum Nat.mul Nat.add Nat.sub Nat.ltb Nat.leb Nat.even Nat.eqb].
    rewrite !S0. lra.
  - exists 4%nat, INR, (fun _ => 1), (fun i => if Nat.eqb i 3 then 1 else 0). split; [exists 2%nat; lia|]. split; [reflexivity|].
    split; [intros; lra|].
    unfold sph2pw, simpson_old, len_step2, weight. cbn [rsum Nat.mul Nat.add Nat.sub Nat.div Nat.divmod fst Nat.ltb Nat.leb Nat.even Nat.eqb].
    rewrite !S0. lra.
Qed.
Print Assumptions C65_radial_transform_any_mesh_refuted.

(** C65.  Coefficients of the superposed atomic density: structure factor times radial
    transform over the grid's volume element, and at G = 0 the number of atoms times the
    radial charge. *)
Theorem C65_atomic_density : forall j0 G u m pos k,
  is_j0 j0 -> constructed G -> u_n u = (2 * m + 1)%nat -> (1 <= m)%nat -> u_rhoatom u 0%nat = 0 -> (k < gp_size G)%nat ->
  length (rhoatomic G u pos) = gp_size G
  /\ nth k (rhoatomic G u pos) (RtoC 0)
     = (RtoC (composite_simpson m (fun i => j0 (glen G k * u_r u i) * u_rhoatom u i * u_rab u i)%R)
        * sfac pos (gv G k) / RtoC (gp_dv G))%C.
Proof.
  intros j0 G u m pos k HJ HC Hn Hm H0 Hk. split; [unfold rhoatomic; now rewrite map_length, seq_length|].
  rewrite rhoatomic_nth by assumption. unfold rho_radial.
  destruct (is_zero (gv G k)) eqn:E.
  - rewrite Hn, simpson_odd.
    assert (EG : glen G k = 0).
    { unfold glen, sq_length. apply is_zero_spec in E. rewrite E.
      replace (cryst2cart (gp_lat G) (gvec (0, 0, 0)%Z)) with (V 0 0 0); [unfold vdot; cbn [vx vy vz]; replace (0 * 0 + 0 * 0 + 0 * 0) with 0 by ring; apply sqrt_0|].
      unfold cryst2cart, gvec, mv, vadd, vscale. cbn [vx vy vz]. apply V_ext; ring. }
    rewrite EG. replace (composite_simpson m (fun i => j0 (0 * u_r u i) * u_rhoatom u i * u_rab u i))
      with (composite_simpson m (fun i => u_rhoatom u i * u_rab u i)); [unfold Cdiv; now rewrite Cmult_assoc|].
    unfold composite_simpson. apply rsum_ext. intros j _. rewrite !Rmult_0_l. destruct HJ as [-> _]. field.
  - rewrite Hn, (sph2pw_odd j0) by assumption. rewrite H0.
    change (sqrt (let w := cryst2cart (gp_lat G) (gvec (gv G k)) in vdot w w)) with (glen G k).
    unfold Cdiv at 2. rewrite <- Cmult_assoc. f_equal. f_equal. unfold Rdiv. rewrite Rmult_0_r, !Rmult_0_l. apply Rplus_0_r.
Qed.
Print Assumptions C65_atomic_density.

Lemma g0_position G : constructed G -> In (0, 0, 0)%Z (gs_cryst (gp_gs G)) -> (0 < gp_size G)%nat /\ gv G 0 = (0, 0, 0)%Z.
Proof.
  intros (_ & gs & H) H0. apply gspace_base_spec in H as (P & _ & _ & _ & _ & _ & _ & Hd & _).
  specialize (Hd (Permutation_in _ P H0)). unfold gp_size, gv. destruct (gs_cryst (gp_gs G)) as [|a l]; [discriminate|].
  injection Hd as ->. split; [cbn; lia|reflexivity].
Qed.

(** C65.  The density integrates over the cell to the number of atoms times the radial
    charge (for any mesh with an odd number of points, with no condition at r = 0). *)
Theorem C65_total_charge : forall G g h u m pos,
  constructed G -> In (0, 0, 0)%Z (gs_cryst (gp_gs G)) -> u_n u = (2 * m + 1)%nat ->
  cell_integral G (at_point G (snd (full_g2r (field_fft G g h) (rhoatomic G u pos))))
  = RtoC (INR (length pos) * composite_simpson m (fun i => u_rhoatom u i * u_rab u i)).
Proof.
  intros G g h u m pos HC H0 Hn. destruct (g0_position G HC H0) as (Hs & Hg).
  set (v := rhoatomic G u pos). assert (Lv : length v = gp_size G) by (unfold v, rhoatomic; now rewrite map_length, seq_length).
  pose proof (field_r2g G g h (snd (full_g2r (field_fft G g h) v)) 0 HC Hs) as E.
  rewrite field_roundtrip in E by assumption.
  unfold cell_integral. 
  rewrite (over_grid_ext G _ (fun x y z => at_point G (snd (full_g2r (field_fft G g h) v)) x y z * Cconj (plane_wave (gp_nx G) (gp_ny G) (gp_nz G) (gv G 0) x y z))%C).
  2:{ intros x y z _. rewrite Hg. unfold plane_wave.
      replace (2 * PI * (0 * (INR x / INR (gp_nx G)) + 0 * (INR y / INR (gp_ny G)) + 0 * (INR z / INR (gp_nz G)))) with 0 by ring.
      rewrite cis_0. replace (Cconj 1) with (RtoC 1) by (apply C_ext; cbn; ring). ring. }
  rewrite <- E. unfold v. rewrite rhoatomic_nth by assumption. rewrite Hg, sfac_zero. unfold rho_radial. cbn [is_zero Z.eqb andb].
  rewrite Hn, simpson_odd. rewrite RtoC_mult. field. intros E0. apply RtoC_inj in E0. now apply (gp_dv_neq G HC).
Qed.
Print Assumptions C65_total_charge.

(** C65.  The density is real at every grid point, for every G-space closed under negation
    and every mesh. *)
Theorem C65_real_density : forall G g h u pos x y z,
  constructed G -> symmetric G -> on_grid G x y z ->
  snd (at_point G (snd (full_g2r (field_fft G g h) (rhoatomic G u pos))) x y z) = 0.
Proof.
  intros G g h u pos x y z HC HS HG.
  assert (Lv : length (rhoatomic G u pos) = gp_size G) by (unfold rhoatomic; now rewrite map_length, seq_length).
  rewrite field_g2r by assumption. 
  set (term := fun w : vec3 => (RtoC (rho_radial G u w) * (sfac pos w / RtoC (gp_dv G)) * plane_wave (gp_nx G) (gp_ny G) (gp_nz G) w x y z)%C).
  assert (E : fourier_series G (fun k => nth k (rhoatomic G u pos) (RtoC 0)) x y z = (/ RtoC (INR (gp_n G)) * vsum (gs_cryst (gp_gs G)) term)%C).
  { unfold fourier_series. f_equal. unfold vsum. rewrite (fold_right_csum _ (0, 0, 0)%Z). apply csum_ext. intros k Hk.
    rewrite rhoatomic_nth by assumption. reflexivity. }
  rewrite E. clear E.
  assert (ND : NoDup (gs_cryst (gp_gs G))).
  { destruct HC as (_ & gs & H). apply gspace_base_spec in H as (P & ND & _). eapply Permutation_NoDup; [symmetry; exact P|exact ND]. }
  assert (RC : forall t : R, Cconj (RtoC t) = RtoC t) by (intros; apply C_ext; cbn; ring).
  assert (EV : Cconj (vsum (gs_cryst (gp_gs G)) term) = vsum (gs_cryst (gp_gs G)) term).
  { rewrite vsum_conj. rewrite <- (vsum_perm _ _ term (symmetric_perm _ ND HS)). rewrite vsum_map. apply vsum_ext. intros w _.
    unfold term, Cdiv. rewrite rho_radial_opp, sfac_opp, !Cmult_conj, RC.
    rewrite <- RtoC_inv by (now apply gp_dv_neq). rewrite RC. f_equal.
    destruct w as [[a b] c]. unfold plane_wave, vopp3. rewrite cis_conj. f_equal. rewrite !opp_IZR. ring. }
  assert (EI : snd (vsum (gs_cryst (gp_gs G)) term) = 0).
  { apply (f_equal snd) in EV. cbn [Cconj snd] in EV. lra. }
  rewrite <- RtoC_inv.
  - unfold Cmult, RtoC. cbn [fst snd]. rewrite EI. ring.
  - destruct HC as (_ & gs & H). destruct (gspace_idx _ _ _ gs (gp_gs G) H) as (_ & _ & _ & P1 & P2 & P3 & _).
    apply not_0_INR. unfold gp_n. nia.
Qed.
Print Assumptions C65_real_density.

Definition move (t : rvec) (pos : list rvec) : list rvec := map (fun r => vadd r t) pos.

Lemma pot_as_sfac erf G u pos : constructed G -> u_core u = false ->
  pot_rhocore erf G u pos = Ok
    (map (fun k => (RtoC (if is_zero (gv G k)
            then simpson_old (u_n u) (fun i => u_r u i * (u_r u i * u_vloc u i + u_zval u))%R (u_rab u)
            else sph2pw (u_n u) (u_r u) (u_rab u) (fun i => (u_vloc u i * u_r u i + u_zval u * erf (u_r u i)) * u_r u i)%R (glen G k)
                 - u_zval u * exp (- sq_length G k / 4) / sq_length G k)%R
          * (RtoC (4 * PI / gp_cellvol G)%R * RtoC (INR (gp_n G)) * sfac pos (gv G k)))%C) (seq 0 (gp_size G)),
     map (fun _ => RtoC 0) (seq 0 (gp_size G))).
Proof.
  intros HC Hcore. unfold pot_rhocore. rewrite Hcore. cbn [row_used Nat.eqb].
  f_equal. f_equal.
  - apply map_ext_in. intros k Hk. apply in_seq in Hk. unfold at_g0. rewrite g0_index by (assumption || lia).
    rewrite gnorm_glen, gp_norm2_sq by apply HC. unfold gvec_at. rewrite sp_struct_fac_spec. reflexivity.
  - apply map_ext. intros k. ring.
Qed.

(** C65.  Moving all atoms of the species by t multiplies the coefficient at G by
    e^{-2 pi i G.t}, for the density and the local potential; moving them by a lattice vector
    changes nothing. *)
Theorem C65_translation : forall erf G u pos t k,
  constructed G -> u_core u = false -> (k < gp_size G)%nat ->
  let phase := cis (- (2 * PI * vdot (gvec (gv G k)) t)) in
  nth k (rhoatomic G u (move t pos)) (RtoC 0) = (phase * nth k (rhoatomic G u pos) (RtoC 0))%C
  /\ (exists v v' c, pot_rhocore erf G u pos = Ok (v, c) /\ pot_rhocore erf G u (move t pos) = Ok (v', c)
       /\ nth k v' (RtoC 0) = (phase * nth k v (RtoC 0))%C)
  /\ ((exists n, t = gvec n) -> rhoatomic G u (move t pos) = rhoatomic G u pos
       /\ pot_rhocore erf G u (move t pos) = pot_rhocore erf G u pos).
Proof.
  intros erf G u pos t k HC Hcore Hk phase. split; [|split].
  - rewrite !rhoatomic_nth by assumption. unfold move. rewrite sfac_shift. fold phase. unfold Cdiv. ring.
  - rewrite !pot_as_sfac by assumption. eexists _, _, _. split; [reflexivity|]. split; [reflexivity|].
    rewrite !map_seq_nth by exact Hk. unfold move. rewrite sfac_shift. fold phase. ring.
  - intros [n ->]. split.
    + unfold rhoatomic. apply map_ext. intros j. unfold gvec_at. rewrite !sp_struct_fac_spec. unfold move. now rewrite sfac_lattice_shift.
    + rewrite !pot_as_sfac by assumption. f_equal. f_equal. apply map_ext. intros j. unfold move. now rewrite sfac_lattice_shift.
Qed.
Print Assumptions C65_translation.

(** C65.  The order of the atoms does not matter. *)
Theorem C65_atom_order_irrelevant : forall erf G u pos pos',
  Permutation pos pos' -> rhoatomic G u pos = rhoatomic G u pos' /\ pot_rhocore erf G u pos = pot_rhocore erf G u pos'.
Proof.
  intros erf G u pos pos' HP.
  assert (E : forall k, sp_struct_fac pos (gvec_at G k) = sp_struct_fac pos' (gvec_at G k)).
  { intros k. unfold gvec_at. rewrite !sp_struct_fac_spec. now apply sfac_perm. }
  split.
  - unfold rhoatomic. apply map_ext. intros k. now rewrite E.
  - unfold pot_rhocore. destruct (row_used (if u_core u then 2%nat else 1%nat) (gp_size G)); [|reflexivity].
    f_equal. f_equal; apply map_ext; intros k; now rewrite E.
Qed.
Print Assumptions C65_atom_order_irrelevant.

(** C65.  Local potential without core correction: 4 pi N/V S(G) times the Simpson transform
    of the short-range part r (r v + Z erf r) minus Z e^{-G^2/4}/G^2; at G = 0 the "alpha Z"
    term. The core density is zero. *)
Theorem C65_local_potential : forall j0 erf G u m pos k,
  is_j0 j0 -> constructed G -> u_core u = false -> u_n u = (2 * m + 1)%nat -> (1 <= m)%nat -> u_r u 0%nat = 0 -> (k < gp_size G)%nat ->
  exists v c, pot_rhocore erf G u pos = Ok (v, c) /\ length v = gp_size G /\ length c = gp_size G
  /\ nth k c (RtoC 0) = RtoC 0
  /\ nth k v (RtoC 0) = (RtoC (4 * PI * INR (gp_n G) / gp_cellvol G)%R * sfac pos (gv G k) * RtoC (
       if is_zero (gv G k)
       then composite_simpson m (fun i => u_r u i * (u_r u i * u_vloc u i + u_zval u) * u_rab u i)%R
       else composite_simpson m (fun i => j0 (glen G k * u_r u i) * ((u_vloc u i * u_r u i + u_zval u * erf (u_r u i)) * u_r u i) * u_rab u i)
            - u_zval u * exp (- sq_length G k / 4) / sq_length G k)%R)%C.
Proof.
  intros j0 erf G u m pos k HJ HC Hcore Hn Hm H0 Hk. rewrite pot_as_sfac by assumption. eexists _, _. split; [reflexivity|].
  rewrite !map_length, !seq_length, !map_seq_nth by exact Hk. split; [reflexivity|]. split; [reflexivity|]. split; [reflexivity|].
  rewrite Hn, simpson_odd, (sph2pw_odd j0), H0 by assumption.
  replace (4 * PI * INR (gp_n G) / gp_cellvol G) with (4 * PI / gp_cellvol G * INR (gp_n G)) by (unfold Rdiv; ring).
  rewrite RtoC_mult.
  assert (Z0 : forall s a b c d : R, s + a * (b * 0) * c / 3 - d = s - d) by (intros; field). rewrite Z0.
  match goal with |- (?a * ?b)%C = _ => generalize a; intros end. ring.
Qed.
Print Assumptions C65_local_potential.

(** C65, limit of the claim: no pseudopotential with core correction can be used (unless the
    G-space has exactly two vectors): building the local potential raises ValueError. *)
Theorem C65_core_correction_refuted : forall erf G u pos,
  u_core u = true -> gp_size G <> 2%nat -> pot_rhocore erf G u pos = Err ValueError.
Proof.
  intros erf G u pos Hcore HS. unfold pot_rhocore. rewrite Hcore. unfold row_used.
  destruct (Nat.eqb_spec 2 1); [lia|]. destruct (Nat.eqb_spec 2 (gp_size G)); [lia|]. reflexivity.
Qed.
Print Assumptions C65_core_correction_refuted.

(** Non-vacuity: such a G-space, a mesh with vanishing first integrand, and j0 exist. *)
Example C65_nonvacuous :
  (exists j0, is_j0 j0)
  /\ exists G u, constructed G /\ In (0, 0, 0)%Z (gs_cryst (gp_gs G)) /\ gp_size G = 3%nat /\ gp_size G <> 2%nat
     /\ u_n u = (2 * 2 + 1)%nat /\ u_rhoatom u 0%nat = 0 /\ u_r u 0%nat = 0 /\ u_core u = false
     /\ composite_simpson 2 (fun i => u_rhoatom u i * u_rab u i) = 64 / 3.
Proof.
  split.
  - exists sinc. split; [unfold sinc; destruct (Req_EM_T 0 0); [reflexivity|contradiction]|].
    intros t Ht. unfold sinc. destruct (Req_EM_T t 0); [contradiction|]. field. exact Ht.
  - destruct exists_gspace as (G & HC & H0 & HS).
    exists G, (MkUpf 5 INR (fun _ => 1) (fun i => INR i * INR i) (fun _ => -1) 1 false (fun _ => 0)).
    cbn [u_n u_r u_rab u_rhoatom u_core].
    refine (conj HC (conj H0 (conj HS (conj _ (conj eq_refl (conj _ (conj eq_refl (conj eq_refl _)))))))).
    + rewrite HS. lia.
    + cbn [INR]. lra.
    + unfold composite_simpson. cbn [rsum Nat.mul Nat.add INR]. lra.
Qed.
(** ... and that G-space's vector set can be taken closed under negation. *)
Example C65_symmetric_nonvacuous : exists G, constructed G /\ symmetric G /\ (1 < gp_size G)%nat.
Proof.
  destruct (gspace_base (zshape 3 1 1) [(0, 0, 0); (1, 0, 0); (-1, 0, 0)]%Z) as [s|e] eqn:E; [|vm_compute in E; discriminate].
  assert (EC : gs_cryst s = [(0, 0, 0); (1, 0, 0); (-1, 0, 0)]%Z) by (vm_compute in E; injection E as <-; reflexivity).
  destruct (mk_lattice_of mid) as (L & HL & _); [rewrite mdet_mid; lra|].
  exists (MkGsp L 3 1 1 s). split; [split; [exists mid; exact HL|eexists; exact E]|].
  unfold symmetric, gp_size. cbn [gp_gs]. rewrite EC. split; [|cbn; lia].
  intros g [<-|[<-|[<-|[]]]]; cbn; tauto.
Qed.
