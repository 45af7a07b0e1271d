(** Properties C49 (Hartree term) and C63 (gradient and divergence in G-space). *)
From Verif Require Import Base GIndexModel GIndexProofs LatModel LatProofs GSphereModel BufferModel FFTModel FFTSpec FFTProofs FFTProofs2 KSHamModel KSHamProofs MixProofs PotModel PotSpec PotProofs CBase.
Open Scope nat_scope.

Lemma fold_zip_csum (f : C -> C -> C) a : forall b, length a = length b ->
  fold_right Cplus (RtoC 0) (zip_with f a b) = csum (length a) (fun k => f (nth k a (RtoC 0)) (nth k b (RtoC 0))).
Proof.
  induction a as [|x a IH]; intros [|y b] H; cbn in H; try lia; [reflexivity|].
  cbn [zip_with fold_right length]. rewrite csum_head. cbn [nth]. f_equal. apply IH. lia.
Qed.

(** C49.  The Hartree potential is the Fourier series with coefficients 4 pi rho_G/|G|^2
    (G = 0 dropped), for every density of one or two spin channels and whatever the FFT
    object was used for before; the energy is half the grid integral of rho times v. *)
Theorem C49_hartree_is_the_coulomb_sum : forall G garbage history rho,
  constructed G -> is_density G rho ->
  exists fft' v en, hartree G (field_fft G garbage history) rho = Ok (fft', v, en)
  /\ (forall x y z, on_grid G x y z -> at_point G v x y z = fourier_series G (coulomb G (total rho)) x y z)
  /\ RtoC en = (RtoC (/ 2) * RtoC (gp_dv G) *
       over_grid G (fun x y z => Cconj (fourier_series G (total rho) x y z) * at_point G v x y z))%C
  /\ en = (/ 2 * gp_cellvol G / (INR (gp_n G) * INR (gp_n G)) *
       rsum (gp_size G) (fun k => if is_zero (gv G k) then 0 else
          4 * PI * (Cmod (total rho k) * Cmod (total rho k)) / sq_length G k))%R.
Proof.
  intros G g h rho HC HD. unfold hartree. rewrite (check_rho_ok G rho HD). cbn [bind].
  destruct (spin_sum_ok G rho HD) as [HL HT].
  set (r := spin_sum rho) in *.
  destruct (full_g2r (field_fft G g h) (hartree_vg G r)) as [o' v] eqn:EF.
  eexists o', v, _. split; [reflexivity|].
  assert (LV : length (hartree_vg G r) = gp_size G) by (rewrite hartree_vg_length; exact HL).
  assert (Ev : v = snd (full_g2r (field_fft G g h) (hartree_vg G r))) by now rewrite EF.
  assert (NV : forall k, k < gp_size G -> nth k (hartree_vg G r) (RtoC 0) = coulomb G (total rho) k).
  { intros k Hk. rewrite hartree_vg_nth by assumption. unfold coulomb. rewrite HT by exact Hk. reflexivity. }
  assert (HN : (0 < INR (gp_n G))%R).
  { destruct HC as (_ & gs & H). destruct (gspace_idx _ _ _ gs (gp_gs G) H) as (_ & _ & _ & P1 & P2 & P3 & _).
    apply lt_0_INR. unfold gp_n. nia. }
  assert (ES : fold_right Cplus (RtoC 0) (zip_with (fun a b : C => (Cconj a * b)%C) r (hartree_vg G r))
    = RtoC (rsum (gp_size G) (fun k => if is_zero (gv G k) then 0 else
          4 * PI * (Cmod (total rho k) * Cmod (total rho k)) / sq_length G k))%R).
  { rewrite fold_zip_csum by (rewrite hartree_vg_length; reflexivity). rewrite HL, <- csum_RtoC.
    apply csum_ext. intros k Hk. rewrite NV, HT by exact Hk. unfold coulomb.
    destruct (is_zero (gv G k)) eqn:EZ; [ring|].
    pose proof (sq_length_pos G k (proj1 HC) EZ) as Pos.
    assert (HS : RtoC (sq_length G k) <> RtoC 0) by (intros E; apply RtoC_inj in E; lra).
    assert (EM : (Cmod (total rho k) * Cmod (total rho k) = fst (total rho k) * fst (total rho k) + snd (total rho k) * snd (total rho k))%R).
    { unfold Cmod. rewrite sqrt_sqrt by nra. ring. }
    rewrite EM. unfold Cdiv, Rdiv. rewrite <- RtoC_inv by lra.
    generalize (/ sq_length G k)%R, (4 * PI)%R. intros q p. destruct (total rho k) as [a b]. apply C_ext; cbn; ring. }
  split; [|split].
  - intros x y z Hp. rewrite Ev, field_g2r by assumption. unfold fourier_series. f_equal.
    apply csum_ext. intros k Hk. now rewrite NV.
  - rewrite ES.
    rewrite (over_grid_ext G _ (fun x y z => Cconj (at_point G (snd (full_g2r (field_fft G g h) r)) x y z)
        * at_point G (snd (full_g2r (field_fft G g h) (hartree_vg G r))) x y z)%C).
    2:{ intros x y z Hp. rewrite Ev. f_equal. f_equal. rewrite field_g2r by assumption. unfold fourier_series. f_equal.
        apply csum_ext. intros k Hk. now rewrite HT. }
    rewrite plancherel by assumption.
    rewrite <- HL, <- (fold_zip_csum (fun a b => Cconj a * b)%C) by (rewrite hartree_vg_length; reflexivity).
    rewrite ES. cbn [fst RtoC Cmult]. rewrite <- RtoC_inv by lra. rewrite HL.
    generalize (rsum (gp_size G) (fun k => if is_zero (gv G k) then 0 else
          4 * PI * (Cmod (total rho k) * Cmod (total rho k)) / sq_length G k))%R. intros S.
    apply C_ext; cbn; unfold Rdiv; ring.
  - rewrite ES. cbn [fst RtoC Cmult]. unfold gp_dv, Rdiv.
    generalize (rsum (gp_size G) (fun k => if is_zero (gv G k) then 0 else
          4 * PI * (Cmod (total rho k) * Cmod (total rho k)) * / sq_length G k))%R. intros S.
    cbn. field. lra.
Qed.
Print Assumptions C49_hartree_is_the_coulomb_sum.

Lemma coulomb_lin G a b r1 r2 r3 k : (r3 k = a * r1 k + b * r2 k)%C ->
  coulomb G r3 k = (a * coulomb G r1 k + b * coulomb G r2 k)%C.
Proof. intros H. unfold coulomb. rewrite H. destruct (is_zero (gv G k)); unfold Cdiv; ring. Qed.

(** C49.  Linearity, and dependence on the total density only (take a = 1, b = 0). *)
Theorem C49_potential_is_linear_in_the_total_density : forall G g1 g2 g3 h1 h2 h3 a b rho1 rho2 rho3,
  constructed G -> is_density G rho1 -> is_density G rho2 -> is_density G rho3 ->
  (forall k, k < gp_size G -> total rho3 k = a * total rho1 k + b * total rho2 k)%C ->
  forall f1 v1 e1 f2 v2 e2 f3 v3 e3,
  hartree G (field_fft G g1 h1) rho1 = Ok (f1, v1, e1) ->
  hartree G (field_fft G g2 h2) rho2 = Ok (f2, v2, e2) ->
  hartree G (field_fft G g3 h3) rho3 = Ok (f3, v3, e3) ->
  forall x y z, on_grid G x y z ->
    at_point G v3 x y z = (a * at_point G v1 x y z + b * at_point G v2 x y z)%C.
Proof.
  intros G g1 g2 g3 h1 h2 h3 a b rho1 rho2 rho3 HC D1 D2 D3 HT f1 v1 e1 f2 v2 e2 f3 v3 e3 E1 E2 E3 x y z Hp.
  destruct (C49_hartree_is_the_coulomb_sum G g1 h1 rho1 HC D1) as (? & ? & ? & X1 & P1 & _).
  destruct (C49_hartree_is_the_coulomb_sum G g2 h2 rho2 HC D2) as (? & ? & ? & X2 & P2 & _).
  destruct (C49_hartree_is_the_coulomb_sum G g3 h3 rho3 HC D3) as (? & ? & ? & X3 & P3 & _).
  rewrite E1 in X1; injection X1 as <- <- <-. rewrite E2 in X2; injection X2 as <- <- <-. rewrite E3 in X3; injection X3 as <- <- <-.
  rewrite P1, P2, P3 by exact Hp. unfold fourier_series.
  rewrite (csum_ext _ (fun k => coulomb G (total rho3) k * _)%C
    (fun k => a * (coulomb G (total rho1) k * plane_wave (gp_nx G) (gp_ny G) (gp_nz G) (gv G k) x y z)
            + b * (coulomb G (total rho2) k * plane_wave (gp_nx G) (gp_ny G) (gp_nz G) (gv G k) x y z))%C).
  - rewrite csum_plus, !csum_scal. ring.
  - intros k Hk. rewrite (coulomb_lin G a b (total rho1) (total rho2)) by now apply HT. ring.
Qed.
Print Assumptions C49_potential_is_linear_in_the_total_density.

Lemma rsum_pos_iff n f : (forall k, k < n -> (0 <= f k)%R) -> (rsum n f = 0%R <-> forall k, k < n -> f k = 0%R).
Proof.
  induction n as [|n IH]; intros H; [split; [intros _ k Hk; lia|reflexivity]|].
  cbn [rsum]. assert (H1 : (0 <= rsum n f)%R) by (apply rsum_nonneg; intros; apply H; lia).
  pose proof (H n ltac:(lia)) as H2. split.
  - intros E k Hk. destruct (Nat.eq_dec k n) as [->|]; [lra|]. apply IH; [intros; apply H; lia|lra|lia].
  - intros E. rewrite (proj2 (IH ltac:(intros; apply H; lia))) by (intros; apply E; lia). rewrite E by lia. lra.
Qed.

(** C49.  The energy is non-negative, and zero exactly for densities without any
    component outside G = 0. *)
Theorem C49_energy_nonnegative : forall G garbage history rho fft' v en,
  constructed G -> is_density G rho -> hartree G (field_fft G garbage history) rho = Ok (fft', v, en) ->
  (0 <= en)%R
  /\ (en = 0%R <-> forall k, k < gp_size G -> gv G k <> (0, 0, 0)%Z -> total rho k = RtoC 0).
Proof.
  intros G g h rho f v en HC HD E.
  destruct (C49_hartree_is_the_coulomb_sum G g h rho HC HD) as (? & ? & ? & X & _ & _ & F).
  rewrite E in X. injection X as <- <- <-.
  set (t := fun k => (if is_zero (gv G k) then 0 else 4 * PI * (Cmod (total rho k) * Cmod (total rho k)) / sq_length G k)%R) in *.
  assert (HN : (0 < INR (gp_n G))%R).
  { destruct HC as (_ & gs & H). destruct (gspace_idx _ _ _ gs (gp_gs G) H) as (_ & _ & _ & P1 & P2 & P3 & _).
    apply lt_0_INR. unfold gp_n. nia. }
  assert (HV : (0 < gp_cellvol G)%R).
  { destruct HC as ((P & H) & _). unfold gp_cellvol. pose proof (cellvol_metric P _ H) as (_ & H2 & _).
    pose proof TPI_pos as HT. apply Rdiv_lt_0_compat; [|exact H2]. apply Rmult_lt_0_compat; [apply Rmult_lt_0_compat|]; exact HT. }
  set (c := (/ 2 * gp_cellvol G / (INR (gp_n G) * INR (gp_n G)))%R) in *.
  assert (Pc : (0 < c)%R) by (unfold c; apply Rdiv_lt_0_compat; [lra|nra]).
  assert (TP : forall k, k < gp_size G -> (0 <= t k)%R).
  { intros k Hk. unfold t. destruct (is_zero (gv G k)) eqn:EZ; [lra|].
    pose proof (sq_length_pos G k (proj1 HC) EZ). pose proof PI_RGT_0. pose proof (Cmod_ge_0 (total rho k)).
    apply Rmult_le_pos; [|left; now apply Rinv_0_lt_compat]. nra. }
  rewrite F. split; [apply Rmult_le_pos; [lra|now apply rsum_nonneg]|].
  split.
  - intros Z. intros k Hk Hz.
    assert (S0 : rsum (gp_size G) t = 0%R) by (destruct (Rmult_integral _ _ Z); [lra|assumption]).
    pose proof (proj1 (rsum_pos_iff _ t TP) S0 k Hk) as TZ. unfold t in TZ.
    destruct (is_zero (gv G k)) eqn:EZ; [apply is_zero_spec in EZ; contradiction|].
    pose proof (sq_length_pos G k (proj1 HC) EZ) as Pos. pose proof PI_RGT_0.
    apply Cmod_eq_0. unfold Rdiv in TZ. apply Rmult_integral in TZ as [TZ|TZ].
    + apply Rmult_integral in TZ as [TZ|TZ]; [lra|]. now destruct (Rmult_integral _ _ TZ).
    + pose proof (Rinv_0_lt_compat _ Pos). lra.
  - intros HZ. rewrite (proj2 (rsum_pos_iff _ t TP)); [ring|]. intros k Hk. unfold t.
    destruct (is_zero (gv G k)) eqn:EZ; [reflexivity|].
    rewrite HZ; [rewrite Cmod_0; unfold Rdiv; ring|exact Hk|]. intros E0. apply is_zero_spec in E0. congruence.
Qed.
Print Assumptions C49_energy_nonnegative.

(** C49.  The energy is quadratic: |a|^2 under scaling of the density. *)
Theorem C49_energy_is_quadratic : forall G g1 h1 g2 h2 a rho1 rho2 f1 v1 e1 f2 v2 e2,
  constructed G -> is_density G rho1 -> is_density G rho2 ->
  (forall k, k < gp_size G -> total rho2 k = a * total rho1 k)%C ->
  hartree G (field_fft G g1 h1) rho1 = Ok (f1, v1, e1) ->
  hartree G (field_fft G g2 h2) rho2 = Ok (f2, v2, e2) ->
  e2 = (Cmod a * Cmod a * e1)%R.
Proof.
  intros G g1 h1 g2 h2 a rho1 rho2 f1 v1 e1 f2 v2 e2 HC D1 D2 HT E1 E2.
  destruct (C49_hartree_is_the_coulomb_sum G g1 h1 rho1 HC D1) as (? & ? & ? & X1 & _ & _ & F1).
  destruct (C49_hartree_is_the_coulomb_sum G g2 h2 rho2 HC D2) as (? & ? & ? & X2 & _ & _ & F2).
  rewrite E1 in X1; injection X1 as <- <- <-. rewrite E2 in X2; injection X2 as <- <- <-.
  rewrite F1, F2.
  rewrite (rsum_ext _ (fun k => if is_zero (gv G k) then 0 else
     4 * PI * (Cmod (total rho2 k) * Cmod (total rho2 k)) / sq_length G k)%R
    (fun k => (Cmod a * Cmod a) * (if is_zero (gv G k) then 0 else
     4 * PI * (Cmod (total rho1 k) * Cmod (total rho1 k)) / sq_length G k))%R).
  - rewrite rsum_scal. unfold Rdiv. ring.
  - intros k Hk. rewrite HT by exact Hk. rewrite Cmod_mult. destruct (is_zero (gv G k)); unfold Rdiv; ring.
Qed.
Print Assumptions C49_energy_is_quadratic.

(** C49.  Any other number of spin components is rejected. *)
Theorem C49_other_spin_counts_rejected : forall G fft rho,
  length rho <> 1 -> length rho <> 2 -> hartree G fft rho = Err ValueError.
Proof.
  intros G o rho H1 H2. unfold hartree, check_rho.
  destruct (Nat.eqb_spec (length rho) 1); [contradiction|]. destruct (Nat.eqb_spec (length rho) 2); [contradiction|]. reflexivity.
Qed.
Print Assumptions C49_other_spin_counts_rejected.

(** C49.  The potential averages to zero over the cell. *)
Theorem C49_potential_has_zero_average : forall G garbage history rho fft' v en,
  constructed G -> In (0, 0, 0)%Z (gs_cryst (gp_gs G)) -> is_density G rho ->
  hartree G (field_fft G garbage history) rho = Ok (fft', v, en) ->
  over_grid G (at_point G v) = RtoC 0.
Proof.
  intros G g h rho f v en HC H0 HD E.
  destruct (In_nth _ _ (0, 0, 0)%Z H0) as (k & Hk & Ek'). assert (Ek : gv G k = (0, 0, 0)%Z) by exact Ek'.
  unfold hartree in E. rewrite (check_rho_ok G rho HD) in E. cbn [bind] in E.
  destruct (spin_sum_ok G rho HD) as [HL HT].
  destruct (full_g2r (field_fft G g h) (hartree_vg G (spin_sum rho))) as [o' v'] eqn:EF.
  injection E as <- <- <-.
  assert (Ev : v' = snd (full_g2r (field_fft G g h) (hartree_vg G (spin_sum rho)))) by now rewrite EF.
  rewrite (over_grid_ext G _ (fun x y z => at_point G v' x y z * Cconj (plane_wave (gp_nx G) (gp_ny G) (gp_nz G) (gv G k) x y z))%C).
  - rewrite <- (field_r2g G g h) by assumption. rewrite Ev, field_roundtrip by (try assumption; rewrite hartree_vg_length; exact HL).
    rewrite hartree_vg_nth by assumption. unfold coulomb. rewrite (proj2 (is_zero_spec _) Ek). reflexivity.
  - intros x y z _. rewrite Ek. unfold plane_wave. rewrite !Rmult_0_l, !Rplus_0_r, Rmult_0_r, cis_0.
    apply C_ext; cbn; ring.
Qed.
Print Assumptions C49_potential_has_zero_average.

(** C49.  A real density (coefficients rho_{-G} = conj rho_G on a set closed under G -> -G)
    has a real potential. *)
Theorem C49_real_density_has_real_potential : forall G garbage history rho fft' v en (neg : nat -> nat),
  constructed G -> is_density G rho ->
  (forall k, k < gp_size G -> neg k < gp_size G /\ gv G (neg k) = (let '(a, b, c) := gv G k in (- a, - b, - c)%Z)
                              /\ total rho (neg k) = Cconj (total rho k)) ->
  hartree G (field_fft G garbage history) rho = Ok (fft', v, en) ->
  forall x y z, on_grid G x y z -> snd (at_point G v x y z) = 0%R.
Proof.
  intros G g h rho f v en neg HC HD HN E x y z Hp.
  destruct (C49_hartree_is_the_coulomb_sum G g h rho HC HD) as (? & ? & ? & X & P & _).
  rewrite E in X; injection X as <- <- <-. rewrite P by exact Hp. clear P E.
  set (F := fourier_series G (coulomb G (total rho)) x y z).
  assert (EC : Cconj F = F).
  2:{ clearbody F. apply (f_equal snd) in EC. destruct F. cbn in EC |- *. lra. }
  destruct HC as (HLat & gs & H).
  assert (NDl : NoDup (gs_cryst (gp_gs G))).
  { apply gspace_base_spec in H as (Pm & ND & _). eapply Permutation_NoDup; [apply Permutation_sym, Pm|exact ND]. }
  destruct (gspace_idx _ _ _ gs (gp_gs G) H) as (_ & _ & _ & P1 & P2 & P3 & _).
  unfold F, fourier_series. rewrite Cmult_conj. f_equal.
  { rewrite <- RtoC_inv by (apply not_0_INR; intros EE; apply Nat.eq_mul_0 in EE as [EE|EE]; [apply Nat.eq_mul_0 in EE as [EE|EE]|]; lia). apply C_ext; cbn; ring. }
  rewrite csum_conj.
  rewrite (csum_ext _ _ (fun k => coulomb G (total rho) (neg k) * plane_wave (gp_nx G) (gp_ny G) (gp_nz G) (gv G (neg k)) x y z))%C.
  - apply (csum_perm _ (fun k => coulomb G (total rho) k * plane_wave (gp_nx G) (gp_ny G) (gp_nz G) (gv G k) x y z)%C neg).
    + intros i Hi. now apply HN.
    + intros i j Hi Hj Eij. destruct (HN i Hi) as (_ & Ni & _). destruct (HN j Hj) as (_ & Nj & _).
      rewrite Eij, Nj in Ni. apply (proj1 (NoDup_nth _ (0, 0, 0)%Z) NDl); [exact Hi|exact Hj|].
      change (gv G i = gv G j). destruct (gv G i) as [[a b] c], (gv G j) as [[a' b'] c']. injection Ni as A B D.
      replace a with a' by lia. replace b with b' by lia. replace c with c' by lia. reflexivity.
  - intros k Hk. destruct (HN k Hk) as (Hn & Nk & Tk). rewrite Cmult_conj. f_equal.
    + unfold coulomb, sq_length. rewrite Nk, Tk. destruct (gv G k) as [[a b] c].
      replace (is_zero (- a, - b, - c)%Z) with (is_zero (a, b, c)).
      2:{ unfold is_zero. f_equal; [f_equal|]; apply eq_true_iff_eq; rewrite !Z.eqb_eq; lia. }
      destruct (is_zero (a, b, c)) eqn:EZ; [apply C_ext; cbn; ring|].
      replace (gvec (- a, - b, - c)%Z) with (vscale (-1) (gvec (a, b, c))).
      2:{ unfold gvec, vscale. cbn [vx vy vz]. rewrite !opp_IZR. apply V_ext; ring. }
      unfold cryst2cart. rewrite mv_vscale.
      replace (vdot (vscale (-1) (mv (primvec (gp_lat G)) (gvec (a, b, c)))) (vscale (-1) (mv (primvec (gp_lat G)) (gvec (a, b, c)))))
        with (vdot (mv (primvec (gp_lat G)) (gvec (a, b, c))) (mv (primvec (gp_lat G)) (gvec (a, b, c)))).
      2:{ unfold vdot, vscale. cbn [vx vy vz]. ring. }
      set (q := vdot _ _). unfold Cdiv. destruct (Req_dec q 0) as [->|Hq].
      * rewrite !Cmult_conj. f_equal. { apply C_ext; cbn; ring. } apply C_ext; unfold Cinv, Cconj; cbn; unfold Rdiv; ring.
      * rewrite <- RtoC_inv by exact Hq. apply C_ext; cbn; ring.
    + rewrite Nk. destruct (gv G k) as [[a b] c]. unfold plane_wave. rewrite cis_conj, !opp_IZR. f_equal. ring.
Qed.
Print Assumptions C49_real_density_has_real_potential.

(** A one-dimensional array as an n-dimensional one. *)
Definition nd_of (l : list C) : @nd C := MkNd [length l] (fun js => nth (hd 0 js) l (RtoC 0)).

(** C63.  [fieldg_grad] on a field of any shape appends an axis of length 3 with the
    coefficients i G_c f_G. *)
Theorem C63_gradient_coefficients : forall G sh (f : list nat -> C),
  let a := MkNd (sh ++ [gp_size G]) f in
  shape (fieldg_grad G a) = sh ++ [3; gp_size G]
  /\ forall js c k, length js = length sh -> c < 3 -> k < gp_size G ->
     at_ (fieldg_grad G a) (js ++ [c; k]) = (Ci * RtoC (rcomp (cryst2cart (gp_lat G) (gvec (gv G k))) c) * f (js ++ [k]))%C.
Proof.
  intros G sh f a. unfold fieldg_grad, a. cbn [shape at_]. rewrite removelast_last, last_last.
  split; [reflexivity|]. intros js c k _ _ _.
  replace (js ++ [c; k]) with ((js ++ [c]) ++ [k]) by now rewrite <- app_assoc.
  rewrite last_last, removelast_last, removelast_last, last_last. unfold gp_cart, gv. ring.
Qed.
Print Assumptions C63_gradient_coefficients.

Lemma skipn_app_length (l r : list nat) : skipn (length l) (l ++ r) = r.
Proof. now rewrite skipn_app, skipn_all, Nat.sub_diag. Qed.
Lemma drop_at_app (l : list nat) x r : drop_at (length l) (l ++ x :: r) = l ++ r.
Proof.
  unfold drop_at. rewrite firstn_app, firstn_all, Nat.sub_diag. cbn [firstn]. rewrite app_nil_r. f_equal.
  replace (S (length l)) with (length (l ++ [x])) by (rewrite app_length; cbn; lia).
  replace (l ++ x :: r) with ((l ++ [x]) ++ r) by now rewrite <- app_assoc. apply skipn_app_length.
Qed.
Lemma insert_at_app (l : list nat) i r : insert_at (length l) i (l ++ r) = l ++ i :: r.
Proof.
  unfold insert_at. rewrite firstn_app, firstn_all, Nat.sub_diag. cbn [firstn]. rewrite app_nil_r. f_equal. f_equal.
  apply skipn_app_length.
Qed.

Lemma np_axis_neg n m : 0 < m -> m <= n -> np_axis n (- Z.of_nat m) = Some (n - m).
Proof.
  intros H1 H2. unfold np_axis.
  destruct (Z.leb_spec (- Z.of_nat n) (- Z.of_nat m)); [|lia].
  destruct (Z.ltb_spec (- Z.of_nat m) (Z.of_nat n)); [|lia].
  destruct (Z.ltb_spec (- Z.of_nat m) 0); [|lia]. cbn [andb]. f_equal. lia.
Qed.

(** C63.  [fieldg_div] with its default axis on a vector field of any shape (..., 3, ng):
    the coefficients are sum_c i G_c f_{c,G}. *)
Theorem C63_divergence_coefficients : forall G sh (f : list nat -> C),
  exists d, fieldg_div G (-1) (MkNd (sh ++ [3; gp_size G]) f) = Ok d
  /\ shape d = sh ++ [gp_size G]
  /\ forall js k, length js = length sh -> k < gp_size G ->
     at_ d (js ++ [k]) = csum 3 (fun c => Ci * RtoC (rcomp (cryst2cart (gp_lat G) (gvec (gv G k))) c) * f (js ++ [c; k]))%C.
Proof.
  intros G sh f. unfold fieldg_div. cbn [shape at_].
  assert (LS : length (sh ++ [3; gp_size G]) = S (S (length sh))) by (rewrite app_length; cbn; lia).
  rewrite LS. change (-1)%Z with (- Z.of_nat 1)%Z at 1. rewrite np_axis_neg by lia.
  replace (S (S (length sh)) - 1 - 1) with (length sh) by lia.
  replace (S (S (length sh)) - 2) with (length sh) by lia.
  rewrite !app_nth2, Nat.sub_diag by lia. cbn [nth Nat.eqb negb orb].
  change (-1 - 1)%Z with (- Z.of_nat 2)%Z. rewrite np_axis_neg by lia.
  replace (S (S (length sh)) - 2) with (length sh) by lia.
  replace (last (sh ++ [3; gp_size G]) 0) with (gp_size G).
  2:{ replace (sh ++ [3; gp_size G]) with ((sh ++ [3]) ++ [gp_size G]) by now rewrite <- app_assoc. now rewrite last_last. }
  rewrite firstn_app, firstn_all, Nat.sub_diag. cbn [firstn]. rewrite app_nil_r.
  eexists. split; [reflexivity|]. unfold np_sum_axis. cbn [shape at_].
  rewrite drop_at_app. split; [reflexivity|]. intros js k Hj Hk.
  rewrite app_nth2, Nat.sub_diag by lia. cbn [nth]. apply csum_ext. intros c Hc.
  rewrite <- Hj, insert_at_app.
  replace (js ++ [c; k]) with ((js ++ [c]) ++ [k]) by now rewrite <- app_assoc.
  rewrite last_last, removelast_last, removelast_last, last_last. unfold gp_cart. fold (gv G k).
  rewrite <- app_assoc. cbn [app]. ring.
Qed.
Print Assumptions C63_divergence_coefficients.

(** C63.  div grad multiplies by -|G|^2, for fields of any shape. *)
Theorem C63_div_grad_is_laplacian : forall G sh (f : list nat -> C),
  exists d, fieldg_div G (-1) (fieldg_grad G (MkNd (sh ++ [gp_size G]) f)) = Ok d
  /\ shape d = sh ++ [gp_size G]
  /\ forall js k, length js = length sh -> k < gp_size G ->
     at_ d (js ++ [k]) = (- RtoC (sq_length G k) * f (js ++ [k]))%C.
Proof.
  intros G sh f.
  pose proof (C63_gradient_coefficients G sh f) as [GS GA]. cbv zeta in GS, GA.
  destruct (fieldg_grad G (MkNd (sh ++ [gp_size G]) f)) as [gsh ga]. cbn [shape at_] in GS, GA. subst gsh.
  destruct (C63_divergence_coefficients G sh ga) as (d & E & S & A).
  exists d. split; [exact E|]. split; [exact S|]. intros js k Hj Hk. rewrite A by assumption.
  rewrite (csum_ext 3 _ (fun c => Ci * RtoC (rcomp (cryst2cart (gp_lat G) (gvec (gv G k))) c) *
     (Ci * RtoC (rcomp (cryst2cart (gp_lat G) (gvec (gv G k))) c) * f (js ++ [k])))%C) by (intros c Hc; now rewrite GA).
  unfold sq_length, vdot. set (w := cryst2cart _ _). cbn [csum rcomp].
  destruct (f (js ++ [k])) as [a b]. apply C_ext; cbn; ring.
Qed.
Print Assumptions C63_div_grad_is_laplacian.

(** C49/C63.  Poisson's equation: the Laplacian of the returned potential is -4 pi rho at
    every G other than 0. *)
Theorem C49_poisson_equation : forall G g1 h1 g2 h2 rho fft' v en,
  constructed G -> is_density G rho -> hartree G (field_fft G g1 h1) rho = Ok (fft', v, en) ->
  exists d, fieldg_div G (-1) (fieldg_grad G (nd_of (snd (full_r2g (field_fft G g2 h2) v)))) = Ok d
  /\ forall k, k < gp_size G ->
     at_ d [k] = (if is_zero (gv G k) then RtoC 0 else - RtoC (4 * PI) * total rho k)%C.
Proof.
  intros G g1 h1 g2 h2 rho f v en HC HD E.
  unfold hartree in E. rewrite (check_rho_ok G rho HD) in E. cbn [bind] in E.
  destruct (spin_sum_ok G rho HD) as [HL HT].
  destruct (full_g2r (field_fft G g1 h1) (hartree_vg G (spin_sum rho))) as [o' v'] eqn:EF.
  injection E as <- <- <-.
  assert (Ev : v' = snd (full_g2r (field_fft G g1 h1) (hartree_vg G (spin_sum rho)))) by now rewrite EF.
  rewrite Ev, field_roundtrip by (try assumption; rewrite hartree_vg_length; exact HL).
  unfold nd_of. rewrite hartree_vg_length, HL.
  destruct (C63_div_grad_is_laplacian G [] (fun js => nth (hd 0 js) (hartree_vg G (spin_sum rho)) (RtoC 0))) as (d & E & S & A).
  cbn [app] in E, S. exists d. split; [exact E|]. intros k Hk. pose proof (A [] k eq_refl Hk) as Ak. cbn [app hd] in Ak. rewrite Ak.
  rewrite hartree_vg_nth by assumption. unfold coulomb. rewrite HT by exact Hk.
  destruct (is_zero (gv G k)) eqn:EZ; [ring|]. pose proof (sq_length_pos G k (proj1 HC) EZ).
  field. intros E0. apply RtoC_inj in E0. lra.
Qed.
Print Assumptions C49_poisson_equation.

Lemma derive_ext (f g : R -> R) t d : (forall s, f s = g s) -> derivable_pt_lim f t d -> derivable_pt_lim g t d.
Proof. intros H D e He. destruct (D e He) as [del Hd]. exists del. intros h H0 Hh. rewrite <- !H. now apply Hd. Qed.
Lemma derive_csum n (f : R -> nat -> R) (d : nat -> R) t :
  (forall k, k < n -> derivable_pt_lim (fun s => f s k) t (d k)) ->
  derivable_pt_lim (fun s => rsum n (f s)) t (rsum n d).
Proof.
  induction n as [|n IH]; intros H; cbn [rsum]; [apply derivable_pt_lim_const|].
  apply (derivable_pt_lim_plus (fun s => rsum n (f s)) (fun s => f s n)); [apply IH; intros; apply H; lia|apply H; lia].
Qed.

(** C63.  The gradient coefficients are those of the partial derivatives of the field:
    for every position r, d/dr_c sum_G f_G e^{iG.r} = sum_G (grad f)_{c,G} e^{iG.r}. *)
Theorem C63_gradient_is_the_derivative : forall G (f : nat -> C) c r, c < 3 ->
  partial_derivative (trig_sum G f) c r
    (trig_sum G (fun k => at_ (fieldg_grad G (MkNd [gp_size G] (fun js => f (hd 0 js)))) [c; k]) r).
Proof.
  intros G f c r Hc.
  set (w k := cryst2cart (gp_lat G) (gvec (gv G k))).
  assert (EG : forall k, k < gp_size G -> at_ (fieldg_grad G (MkNd [gp_size G] (fun js => f (hd 0 js)))) [c; k]
     = (Ci * RtoC (rcomp (w k) c) * f k)%C).
  { intros k Hk. exact (proj2 (C63_gradient_coefficients G [] (fun js => f (hd 0 js))) [] c k eq_refl Hc Hk). }
  assert (ED : forall k t, g_dot G k (vadd r (vscale t (unit_axis c))) = (g_dot G k r + rcomp (w k) c * t)%R).
  { intros k t. unfold g_dot. fold (w k). destruct c as [|[|[|c]]]; try lia; cbn [unit_axis rcomp];
    unfold vdot, vadd, vscale; cbn [vx vy vz]; ring. }
  assert (DL : forall a b t, derivable_pt_lim (fun s => a + b * s)%R t b).
  { intros a b t. cut (derivable_pt_lim (fun s => a + b * s)%R t (0 + b * 1)%R); [now rewrite Rplus_0_l, Rmult_1_r|].
    apply (derivable_pt_lim_plus (fun _ => a) (fun s => b * s)%R); [apply derivable_pt_lim_const|].
    apply (derivable_pt_lim_scal id b t 1). apply derivable_pt_lim_id. }
  assert (DC : forall a b, derivable_pt_lim (fun s => cos (a + b * s)%R) 0 (- sin a * b)%R).
  { intros a b. replace (- sin a)%R with (- sin (a + b * 0))%R by (f_equal; f_equal; ring).
    apply (derivable_pt_lim_comp (fun s => a + b * s)%R cos); [apply DL|apply derivable_pt_lim_cos]. }
  assert (DS : forall a b, derivable_pt_lim (fun s => sin (a + b * s)%R) 0 (cos a * b)%R).
  { intros a b. replace (cos a)%R with (cos (a + b * 0))%R by (f_equal; ring).
    apply (derivable_pt_lim_comp (fun s => a + b * s)%R sin); [apply DL|apply derivable_pt_lim_sin]. }
  split; unfold trig_sum.
  - rewrite csum_re.
    apply (derive_ext (fun t => rsum (gp_size G) (fun k => fst (f k) * cos (g_dot G k r + rcomp (w k) c * t) - snd (f k) * sin (g_dot G k r + rcomp (w k) c * t))%R)).
    { intros t. rewrite csum_re. apply rsum_ext. intros k Hk. rewrite ED. reflexivity. }
    apply derive_csum. intros k Hk. rewrite EG by exact Hk.
    match goal with |- derivable_pt_lim _ _ ?d => replace d with (fst (f k) * (- sin (g_dot G k r) * rcomp (w k) c) - snd (f k) * (cos (g_dot G k r) * rcomp (w k) c))%R by (cbn; ring) end.
    apply (derivable_pt_lim_minus (fun s => fst (f k) * cos (g_dot G k r + rcomp (w k) c * s))%R (fun s => snd (f k) * sin (g_dot G k r + rcomp (w k) c * s))%R);
    apply (derivable_pt_lim_scal _ _ 0); [apply DC|apply DS].
  - rewrite csum_im.
    apply (derive_ext (fun t => rsum (gp_size G) (fun k => fst (f k) * sin (g_dot G k r + rcomp (w k) c * t) + snd (f k) * cos (g_dot G k r + rcomp (w k) c * t))%R)).
    { intros t. rewrite csum_im. apply rsum_ext. intros k Hk. rewrite ED. reflexivity. }
    apply derive_csum. intros k Hk. rewrite EG by exact Hk.
    match goal with |- derivable_pt_lim _ _ ?d => replace d with (fst (f k) * (cos (g_dot G k r) * rcomp (w k) c) + snd (f k) * (- sin (g_dot G k r) * rcomp (w k) c))%R by (cbn; ring) end.
    apply (derivable_pt_lim_plus (fun s => fst (f k) * sin (g_dot G k r + rcomp (w k) c * s))%R (fun s => snd (f k) * cos (g_dot G k r + rcomp (w k) c * s))%R);
    apply (derivable_pt_lim_scal _ _ 0); [apply DS|apply DC].
Qed.
Print Assumptions C63_gradient_is_the_derivative.

(** C63, limit of the claim: a non-negative [axis] naming the same axis of a vector field
    does not give the divergence: the sum runs over the G-vectors instead. *)
Theorem C63_nonnegative_axis_refuted : forall G (f : list nat -> C),
  exists d1 d2, fieldg_div G (-1) (MkNd [3; gp_size G] f) = Ok d1 /\ shape d1 = [gp_size G]
  /\ fieldg_div G 0 (MkNd [3; gp_size G] f) = Ok d2 /\ shape d2 = [3]
  /\ forall c, c < 3 -> at_ d2 [c]
     = csum (gp_size G) (fun k => Ci * RtoC (rcomp (cryst2cart (gp_lat G) (gvec (gv G k))) c) * f [c; k])%C.
Proof.
  intros G f. destruct (C63_divergence_coefficients G [] f) as (d1 & E1 & S1 & _).
  exists d1. eexists. split; [exact E1|]. split; [exact S1|].
  split; [reflexivity|]. cbn [np_sum_axis shape at_ firstn app nth Nat.sub length].
  split; [reflexivity|]. intros c Hc. apply csum_ext. intros k Hk.
  match goal with |- context [Z.to_nat ?e] => change (Z.to_nat e) with 1 end.
  cbn [insert_at firstn skipn app last removelast Nat.eqb].
  unfold gp_cart. fold (gv G k). destruct (f [c; k]) as [a b]. apply C_ext; cbn; ring.
Qed.
Print Assumptions C63_nonnegative_axis_refuted.

(** C63, limit of the claim: for a tensor field T_ab and axis = -2 (contract the first
    index) the components are paired with the wrong index: the result at (b, G) is
    i G_b sum_a T_ab, not sum_a i G_a T_ab. *)
Theorem C63_inner_axis_refuted : forall G (f : list nat -> C),
  exists d, fieldg_div G (-2) (MkNd [3; 3; gp_size G] f) = Ok d /\ shape d = [3; gp_size G]
  /\ forall b k, b < 3 -> k < gp_size G ->
     at_ d [b; k] = (Ci * RtoC (rcomp (cryst2cart (gp_lat G) (gvec (gv G k))) b) * csum 3 (fun a => f [a; b; k]))%C.
Proof.
  intros G f. eexists. split; [reflexivity|]. split; [reflexivity|]. intros b k Hb Hk.
  cbn [np_sum_axis at_ shape nth]. rewrite <- csum_scal. apply csum_ext. intros a Ha.
  match goal with |- context [Z.to_nat ?e] => change (Z.to_nat e) with 0 end.
  cbn [insert_at firstn skipn app last removelast Nat.eqb].
  cbn [length Nat.sub Nat.eqb]. unfold gp_cart. fold (gv G k). destruct (f [a; b; k]) as [u v]. apply C_ext; cbn; ring.
Qed.
Print Assumptions C63_inner_axis_refuted.

(** Non-vacuity: a 3x1x1 grid with the vectors 0, b1, -b1 of a cubic cell. *)
Definition ex_lat : lattice := LatModel.MkLattice mid (LatModel.minv mid) (LatModel.mmul (mtrans mid) mid) (Rabs (mdet mid)).
Lemma ex_lat_ok : mk_lattice mid = Ok ex_lat.
Proof.
  unfold mk_lattice. destruct (Req_EM_T (mdet mid) 0) as [E|_]; [|reflexivity].
  rewrite mdet_mid in E. lra.
Qed.
Definition ex_gs : gspace := match gspace_base (zshape 3 1 1) [(0, 0, 0); (1, 0, 0); (-1, 0, 0)]%Z with Ok s => s | Err _ => {| gs_shape := (0, 0, 0)%Z; gs_cryst := []; gs_idxgrid := []; gs_idxsort := []; gs_has_g0 := false |} end.
Definition ex_G : gsp := MkGsp ex_lat 3 1 1 ex_gs.
Lemma ex_cryst : gs_cryst ex_gs = [(0, 0, 0); (1, 0, 0); (-1, 0, 0)]%Z.
Proof. vm_compute. reflexivity. Qed.
Example C49_nonvacuous : constructed ex_G /\ is_density ex_G [[RtoC 2; RtoC 1; RtoC 1]; [RtoC 1; Ci; - Ci]%C]
  /\ In (0, 0, 0)%Z (gs_cryst (gp_gs ex_G))
  /\ (forall k, k < gp_size ex_G -> let neg := fun k => match k with 0 => 0 | 1 => 2 | _ => 1 end in
        neg k < gp_size ex_G /\ gv ex_G (neg k) = (let '(a, b, c) := gv ex_G k in (- a, - b, - c)%Z)
        /\ total [[RtoC 2; RtoC 1; RtoC 1]; [RtoC 1; Ci; - Ci]%C] (neg k) = Cconj (total [[RtoC 2; RtoC 1; RtoC 1]; [RtoC 1; Ci; - Ci]%C] k))
  /\ exists k, k < gp_size ex_G /\ gv ex_G k <> (0, 0, 0)%Z /\ total [[RtoC 2; RtoC 1; RtoC 1]; [RtoC 1; Ci; - Ci]%C] k <> RtoC 0.
Proof.
  assert (HS : gp_size ex_G = 3) by (unfold gp_size; cbn [gp_gs ex_G]; now rewrite ex_cryst).
  rewrite HS. split; [|split; [|split; [|split]]].
  - split; [exists mid; exact ex_lat_ok|]. exists [(0, 0, 0); (1, 0, 0); (-1, 0, 0)]%Z. vm_compute. reflexivity.
  - split; [right; reflexivity|]. rewrite HS. intros r [<-|[<-|[]]]; reflexivity.
  - cbn [gp_gs ex_G]. rewrite ex_cryst. now left.
  - intros k Hk neg. unfold gv. cbn [gp_gs ex_G]. rewrite ex_cryst.
    destruct k as [|[|[|k]]]; [| | |lia]; (split; [cbn; lia|]); (split; [reflexivity|]); apply C_ext; cbn; ring.
  - exists 1. split; [lia|]. unfold gv. cbn [gp_gs ex_G]. rewrite ex_cryst. split; [discriminate|].
    intros E. apply (f_equal fst) in E. cbn in E. lra.
Qed.
