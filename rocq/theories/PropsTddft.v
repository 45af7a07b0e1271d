(** Properties C42 (Taylor propagator), C61 (density of a set of orbitals) and C62 (one
    propagation step advances by one time step). *)
From Verif Require Import Base GIndexModel LatModel GSphereModel CBase FFTModel FFTSpec FFTProofs FFTProofs2 KSHamModel KSHamSpec KSHamProofs PropsKSHam TddftModel TddftSpec TddftProofs TddftProofs2 TddftProofs3.
Open Scope nat_scope.

(** C42.  prop_psi stores, for every band, the sum over p <= order of (-i dt)^p/p! H^p psi in the
    output object, H being the plane-wave Hamiltonian matrix; whatever the work arrays, the FFT
    object and the output object held before, and also when input and output are the same
    object.  No other object changes. *)
Theorem C42_taylor_is_truncated_exponential :
  forall nx ny nz h dt order t garbage history (m : heap) src dst l_in l_out,
  well_formed nx ny nz h ->
  taylor_init h false false dt order = Ok t ->
  (forall psi, In psi (m src) -> length psi = length (gs_cryst (kh_gs h))) ->
  exists fft' m',
    taylor_prop t (used_fft nx ny nz h garbage history) m (src :: l_in) (dst :: l_out) = Ok (fft', m')
    /\ m' dst = map (truncated_exp (length (gs_cryst (kh_gs h))) (hamiltonian nx ny nz h) dt (Z.to_nat order)) (m src)
    /\ forall p, p <> dst -> m' p = m p.
Proof.
  intros nx ny nz h dt order t g hist m src dst l1 l2 WF Ht Hr.
  unfold taylor_init in Ht. destruct (Z.ltb_spec order 1); [discriminate|]. injection Ht as <-.
  destruct (taylor_prop_ok nx ny nz h dt WF (used_fft nx ny nz h g hist) m src dst l1 l2 (Z.to_nat order)
              (used_fft_inv nx ny nz h g hist) Hr) as (o' & E & _).
  exists o'. eexists. split; [exact E|]. unfold mset. split; [now rewrite Nat.eqb_refl|].
  intros p Hp. now destruct (Nat.eqb_spec p dst).
Qed.
Print Assumptions C42_taylor_is_truncated_exponential.

Theorem C42_order_must_be_positive : forall h spin noncolin dt order,
  taylor_init h spin noncolin dt order = Err ValueError <-> (order <= 0)%Z.
Proof.
  intros. unfold taylor_init. destruct (Z.ltb_spec order 1); split; intros; try reflexivity; try discriminate; lia.
Qed.
Print Assumptions C42_order_must_be_positive.

(** C42.  Norm of the propagated state, for real potentials and Hermitian coupling.  First order
    always increases it; the default fourth order decreases it unless dt ||H^4 psi|| is large. *)
Theorem C42_norm_first_order : forall nx ny nz h dt psi,
  self_adjoint_data h -> length psi = length (gs_cryst (kh_gs h)) ->
  let H := hamiltonian nx ny nz h in let n := length (gs_cryst (kh_gs h)) in
  norm2 (truncated_exp n H dt 1 psi) = (norm2 psi + dt ^ 2 * norm2 (mat_vec n H psi))%R.
Proof.
  intros nx ny nz h dt psi SA Hl H n.
  rewrite (norm_order1 n H (hamiltonian_hermitian nx ny nz h SA) dt psi Hl). cbn [mat_pow]. ring.
Qed.
Print Assumptions C42_norm_first_order.

Theorem C42_norm_fourth_order : forall nx ny nz h dt psi,
  self_adjoint_data h -> length psi = length (gs_cryst (kh_gs h)) ->
  let H := hamiltonian nx ny nz h in let n := length (gs_cryst (kh_gs h)) in
  norm2 (truncated_exp n H dt 4 psi)
  = (norm2 psi - dt ^ 6 / 72 * norm2 (mat_pow n H 3 psi) + dt ^ 8 / 576 * norm2 (mat_pow n H 4 psi))%R.
Proof.
  intros nx ny nz h dt psi SA Hl H n.
  exact (norm_order4 n H (hamiltonian_hermitian nx ny nz h SA) dt psi Hl).
Qed.
Print Assumptions C42_norm_fourth_order.

(** C42.  An eigenstate is multiplied by the Taylor polynomial of its phase, which differs from
    the exact phase exp(-i E dt) by at most |E dt|^(order+1)/(order+1)! in each component. *)
Theorem C42_eigenstate_phase_error : forall nx ny nz h dt order lam psi,
  length psi = length (gs_cryst (kh_gs h)) ->
  let H := hamiltonian nx ny nz h in let n := length (gs_cryst (kh_gs h)) in
  mat_vec n H psi = map (Cmult (RtoC lam)) psi ->
  exists phase, truncated_exp n H dt order psi = map (Cmult phase) psi
    /\ (Rabs (fst (phase - cis (- (lam * dt)))%C) <= Rabs (lam * dt) ^ (order + 1) / INR (fact (order + 1)))%R
    /\ (Rabs (snd (phase - cis (- (lam * dt)))%C) <= Rabs (lam * dt) ^ (order + 1) / INR (fact (order + 1)))%R.
Proof.
  intros nx ny nz h dt order lam psi Hl H n He.
  exists (exp_poly order (- Ci * RtoC (lam * dt)))%C. split; [exact (truncated_eigen n H lam dt order psi Hl He)|].
  rewrite Nat.add_1_r. apply phase_error.
Qed.
Print Assumptions C42_eigenstate_phase_error.

(** C42, refuted outside the unpolarised case: with spin polarisation every call raises; in the
    noncollinear case the call returns normally and leaves the output as it was. *)
Theorem C42_spin_polarised_refuted : forall h dt order t o m l_in l_out,
  taylor_init h true false dt order = Ok t -> taylor_prop t o m l_in l_out = Err RuntimeError.
Proof. intros h dt order t o m l1 l2. unfold taylor_init. destruct (order <? 1)%Z; [discriminate|]. now intros [= <-]. Qed.
Print Assumptions C42_spin_polarised_refuted.
Theorem C42_noncollinear_refuted : forall h dt order t o m l_in l_out spin,
  taylor_init h spin true dt order = Ok t -> taylor_prop t o m l_in l_out = Ok (o, m).
Proof. intros h dt order t o m l1 l2 spin. unfold taylor_init. destruct (order <? 1)%Z; [discriminate|]. now intros [= <-]. Qed.
Print Assumptions C42_noncollinear_refuted.

(* ------------------------------------------------------------------ *)
(** The orbital sum_G u_G exp(iG.r) of coefficients [u] at a grid point. *)
Definition orbital (nx ny nz : nat) (s : gspace) (u : list C) (x y z : nat) : C :=
  csum (length (gs_cryst s)) (fun k => nth k u (RtoC 0) * plane_wave nx ny nz (nth k (gs_cryst s) (0, 0, 0)%Z) x y z)%C.
(** The FFT object of a k+G space after any history of transforms. *)
Definition used (nx ny nz : nat) (s : gspace) (garbage : worker) (history : list call) : full :=
  full_run (full_init nx ny nz (map Z.to_nat (gs_idxgrid s)) false garbage) history.
Lemma used_inv nx ny nz s g hist : full_inv nx ny nz (map Z.to_nat (gs_idxgrid s)) false (used nx ny nz s g hist).
Proof. apply full_run_inv. unfold full_init, full_inv. cbn. tauto. Qed.

Lemma rho_at_orbital nx ny nz gs s vol rows occ x y z : gspace_base (zshape nx ny nz) gs = Ok s ->
  rect (length (gs_cryst s)) rows -> x < nx -> y < ny -> z < nz ->
  rho_at nx ny nz s vol rows occ ((x * ny + y) * nz + z)
  = (csum (length rows) (fun b => RtoC (nth b occ 0%R) * (Cconj (orbital nx ny nz s (nth b rows []) x y z) * orbital nx ny nz s (nth b rows []) x y z)) / RtoC vol)%C.
Proof.
  intros HS Hr Hx Hy Hz. unfold rho_at. f_equal. apply csum_ext. intros b Hb.
  rewrite (onr_at nx ny nz gs s HS) by (try assumption; apply Hr, nth_In; exact Hb). reflexivity.
Qed.

Lemma rect_slice n a b evc : rect n evc -> rect n (map unit_vector (firstn (b - a) (skipn a evc))).
Proof.
  intros Hr p Hp. apply in_map_iff in Hp. destruct Hp as (q & <- & Hq). rewrite unit_length. apply Hr.
  rewrite <- (firstn_skipn a evc). apply in_or_app. right.
  rewrite <- (firstn_skipn (b - a) (skipn a evc)). apply in_or_app. now left.
Qed.
Lemma slice_length {A} a b (l : list A) : a <= b -> b <= length l -> length (firstn (b - a) (skipn a l)) = b - a.
Proof. intros. rewrite firstn_length, skipn_length. lia. Qed.
Lemma slice_nth {A} (d : A) a b l i : i < b - a -> nth i (firstn (b - a) (skipn a l)) d = nth (a + i) l d.
Proof.
  intros Hi. rewrite <- (firstn_skipn a l) at 2.
  destruct (Nat.le_gt_cases a (length l)) as [Ha|Ha].
  - rewrite app_nth2; rewrite firstn_length, Nat.min_l by lia; [|lia].
    replace (a + i - a) with i by lia.
    rewrite <- (firstn_skipn (b - a) (skipn a l)) at 2.
    destruct (Nat.lt_ge_cases i (length (firstn (b - a) (skipn a l)))) as [H|H].
    + now rewrite app_nth1.
    + rewrite firstn_length in H. rewrite !nth_overflow; auto; rewrite ?app_length, ?firstn_length, ?skipn_length in *; lia.
  - rewrite skipn_all2 by lia. rewrite firstn_nil, app_nil_r, !nth_overflow; auto; rewrite ?firstn_length; cbn; lia.
Qed.

(** C61.  compute_rho over a slice of bands (the default is all of them): every selected orbital is
    first normalised in place, the others are untouched, and the result is
    sum_b occ_b |phi_b(r)|^2 / volume with phi_b the normalised orbital. *)
Theorem C61_density_of_normalised_orbitals :
  forall nx ny nz gs s vol garbage history evc occ a b,
  gspace_base (zshape nx ny nz) gs = Ok s ->
  length occ = length evc -> (forall psi, In psi evc -> length psi = length (gs_cryst s)) ->
  a < b -> b <= length evc ->
  exists fft' evc' rho,
    compute_rho (nx * ny * nz) vol (used nx ny nz s garbage history) evc occ (Slice a b) = Ok (fft', evc', rho)
    /\ length rho = nx * ny * nz
    /\ (forall i, nth i evc' [] = if (a <=? i) && (i <? b) then unit_vector (nth i evc []) else nth i evc [])
    /\ forall x y z, x < nx -> y < ny -> z < nz ->
       nth ((x * ny + y) * nz + z) rho (RtoC 0)
       = (csum (b - a) (fun i => let phi := orbital nx ny nz s (unit_vector (nth (a + i) evc [])) x y z in
            RtoC (nth (a + i) occ 0%R) * (Cconj phi * phi)) / RtoC vol)%C.
Proof.
  intros nx ny nz gs s vol g hist evc occ a b HS Lo Hr Hab Hb.
  unfold compute_rho. rewrite normalize_eq.
  set (rows := map unit_vector (firstn (b - a) (skipn a evc))).
  assert (Lr : length rows = b - a) by (unfold rows; rewrite map_length; apply slice_length; lia).
  rewrite Lr. destruct (Nat.eqb_spec (b - a) 0); [lia|].
  assert (Rr : rect (length (gs_cryst s)) rows) by now apply rect_slice.
  destruct (rho_zero_ok nx ny nz s rows (firstn (b - a) (skipn a occ)) vol _ (used_inv nx ny nz s g hist)) as (o' & rho & E & _ & L & D).
  { rewrite Lr, slice_length; lia. }
  rewrite E. do 3 eexists. split; [reflexivity|]. split; [exact L|]. split.
  - intros i. unfold set_slice. rewrite Lr.
    assert (Lf : length (firstn a evc) = a) by (rewrite firstn_length; lia).
    destruct (Nat.leb_spec a i); cbn [andb].
    + rewrite app_nth2, Lf by lia. destruct (Nat.ltb_spec i b).
      * rewrite app_nth1 by lia. unfold rows. rewrite (nth_map_lt unit_vector []) by (rewrite slice_length; lia).
        rewrite slice_nth by lia. do 2 f_equal. lia.
      * rewrite app_nth2 by lia. rewrite Lr. rewrite <- (firstn_skipn (a + (b - a)) evc) at 2.
        rewrite app_nth2; rewrite firstn_length, Nat.min_l by lia; [f_equal; lia|lia].
    + rewrite app_nth1 by lia. rewrite <- (firstn_skipn a evc) at 2. rewrite app_nth1 by lia. reflexivity.
  - intros x y z Hx Hy Hz. rewrite D by now apply flat_bound.
    rewrite (rho_at_orbital nx ny nz gs s vol rows _ x y z HS Rr Hx Hy Hz), Lr. f_equal. apply csum_ext. intros i Hi.
    rewrite slice_nth by lia. unfold rows. rewrite (nth_map_lt unit_vector []) by (rewrite slice_length; lia).
    rewrite slice_nth by lia. reflexivity.
Qed.
Print Assumptions C61_density_of_normalised_orbitals.

(** C61.  Consequently the density is real, non-negative for non-negative occupations, and its
    integral over the cell is the sum of the occupations, whatever the norms of the orbitals
    (provided none vanishes). *)
Theorem C61_density_integrates_to_electrons :
  forall nx ny nz gs s vol garbage history evc occ a b fft' evc' rho,
  gspace_base (zshape nx ny nz) gs = Ok s ->
  length occ = length evc -> (forall psi, In psi evc -> length psi = length (gs_cryst s) /\ (0 < norm2 psi)%R) ->
  a < b -> b <= length evc -> (0 < vol)%R -> (forall f, In f occ -> (0 <= f)%R) ->
  compute_rho (nx * ny * nz) vol (used nx ny nz s garbage history) evc occ (Slice a b) = Ok (fft', evc', rho) ->
  (grid_sum rho * RtoC (vol / INR (nx * ny * nz)) = RtoC (rsum (b - a) (fun i => nth (a + i) occ 0%R)))%C
  /\ (forall p, p < nx * ny * nz -> snd (nth p rho (RtoC 0)) = 0%R /\ (0 <= fst (nth p rho (RtoC 0)))%R).
Proof.
  intros nx ny nz gs s vol g hist evc occ a b fft' evc' rho HS Lo Hr Hab Hb Hv Hf.
  unfold compute_rho. rewrite normalize_eq.
  set (rows := map unit_vector (firstn (b - a) (skipn a evc))).
  assert (Lr : length rows = b - a) by (unfold rows; rewrite map_length; apply slice_length; lia).
  rewrite Lr. destruct (Nat.eqb_spec (b - a) 0); [lia|].
  assert (Rr : rect (length (gs_cryst s)) rows) by (apply rect_slice; intros p Hp; now apply Hr).
  assert (Ls : length (firstn (b - a) (skipn a occ)) = b - a) by (rewrite slice_length; lia).
  destruct (rho_zero_ok nx ny nz s rows (firstn (b - a) (skipn a occ)) vol _ (used_inv nx ny nz s g hist)) as (o' & rho' & E & _ & L & D); [congruence|].
  rewrite E. intros [= _ _ <-]. split.
  - rewrite (rho_integral nx ny nz gs s HS vol rows (firstn (b - a) (skipn a occ)) _ ltac:(lra) Rr L D). f_equal.
    rewrite Lr. apply rsum_ext. intros i Hi. rewrite slice_nth by lia. unfold rows.
    rewrite (nth_map_lt unit_vector []) by (rewrite slice_length; lia). rewrite slice_nth by lia.
    rewrite unit_norm; [ring|]. apply Hr, nth_In. lia.
  - intros p Hp. rewrite (D p Hp). apply rho_real_nonneg; try assumption; [|congruence].
    intros f Hin. apply Hf. rewrite <- (firstn_skipn a occ). apply in_or_app. right.
    rewrite <- (firstn_skipn (b - a) (skipn a occ)). apply in_or_app. now left.
Qed.
Print Assumptions C61_density_integrates_to_electrons.

(** C61, refuted for a list of band numbers: fancy indexing normalises a temporary copy, so the
    integral is the sum of occ * norm^2 of the *unnormalised* orbitals. *)
Theorem C61_band_list_not_normalised_refuted :
  forall nx ny nz gs s vol garbage history evc occ l,
  gspace_base (zshape nx ny nz) gs = Ok s ->
  length occ = length evc -> (forall psi, In psi evc -> length psi = length (gs_cryst s)) ->
  (0 < vol)%R -> l <> [] -> (forall i, In i l -> i < length evc) ->
  exists fft' rho,
    compute_rho (nx * ny * nz) vol (used nx ny nz s garbage history) evc occ (Bands l) = Ok (fft', evc, rho)
    /\ (grid_sum rho * RtoC (vol / INR (nx * ny * nz))
        = RtoC (rsum (length l) (fun i => nth (nth i l 0%nat) occ 0 * norm2 (nth (nth i l 0%nat) evc []))%R))%C.
Proof.
  intros nx ny nz gs s vol g hist evc occ l HS Lo Hr Hv Hne Hl. unfold compute_rho.
  assert (F : forallb (fun i => Nat.ltb i (length evc)) l = true).
  { apply forallb_forall. intros i Hi. apply Nat.ltb_lt. now apply Hl. }
  rewrite F. set (rows := map (fun i => nth i evc []) l).
  assert (Lr : length rows = length l) by (unfold rows; apply map_length).
  rewrite Lr. destruct (Nat.eqb_spec (length l) 0) as [X|_]; [destruct l; [contradiction|discriminate]|].
  assert (Rr : rect (length (gs_cryst s)) rows).
  { intros p Hp. apply in_map_iff in Hp. destruct Hp as (i & <- & Hi). apply Hr, nth_In. now apply Hl. }
  destruct (rho_zero_ok nx ny nz s rows (map (fun i => nth i occ 0%R) l) vol _ (used_inv nx ny nz s g hist)) as (o' & rho' & E & _ & L & D).
  { now rewrite Lr, map_length. }
  rewrite E. do 2 eexists. split; [reflexivity|].
  rewrite (rho_integral nx ny nz gs s HS vol rows _ _ ltac:(lra) Rr L D). f_equal. rewrite Lr. apply rsum_ext. intros i Hi.
  rewrite (nth_map_lt (fun i => nth i occ 0%R) 0) by exact Hi. unfold rows. now rewrite (nth_map_lt (fun i => nth i evc []) 0) by exact Hi.
Qed.
Print Assumptions C61_band_list_not_normalised_refuted.

Theorem C61_no_band_raises : forall npts vol o evc occ a b, b <= a ->
  compute_rho npts vol o evc occ (Slice a b) = Err AttributeError.
Proof. intros. unfold compute_rho. replace (b - a) with 0 by lia. reflexivity. Qed.
Print Assumptions C61_no_band_raises.

(* ------------------------------------------------------------------ *)
(** The average of two densities. *)
Definition average (a b : list C) : list C := zip_with (fun x y => (x + y) / RtoC 2)%C a b.

Lemma midpoint_average a b : midpoint a b = average a b.
Proof.
  unfold midpoint, average. revert b. induction a as [|x a IH]; intros [|y b]; cbn [zip_with]; auto.
  f_equal; [|apply IH]. unfold Cdiv. rewrite <- RtoC_inv by lra. ring.
Qed.

Lemma set_vloc_wf nx ny nz h v : well_formed nx ny nz h -> length v = nx * ny * nz -> well_formed nx ny nz (set_vloc h v).
Proof. intros (A & B & D) L. repeat split; assumption. Qed.

(** C62.  One ETRS step with the Taylor operator: the state at time t is propagated once by dt, with the
    Hamiltonian of the average of the density at t and the density predicted at t + dt; the
    intermediate prediction leaves no trace in the result, and no other object changes (the
    scratch copy [prev] apart).  [dens] and [pot] are arbitrary. *)
Theorem C62_etrs_taylor_step : forall nx ny nz h dt order t garbage history dens pot (m : heap) wfn prev,
  well_formed nx ny nz h -> taylor_init h false false dt order = Ok t ->
  (forall psi, In psi (m wfn) -> length psi = length (gs_cryst (kh_gs h))) ->
  (forall rho, length (pot rho) = nx * ny * nz) -> wfn <> prev ->
  let n := length (gs_cryst (kh_gs h)) in
  let propagated v := map (truncated_exp n (hamiltonian nx ny nz (set_vloc h v)) dt (Z.to_nat order)) (m wfn) in
  let rho_now := dens (map unit_vector (m wfn)) in
  let rho_next := dens (map unit_vector (propagated (pot rho_now))) in
  exists fft' m' t',
    etrs_taylor dens pot t (used_fft nx ny nz h garbage history) m wfn prev = Ok (fft', m', t')
    /\ m' wfn = map unit_vector (propagated (pot (average rho_now rho_next)))
    /\ forall p, p <> wfn -> p <> prev -> m' p = m p.
Proof.
  intros nx ny nz h dt order t g hist dens pot m wfn prev WF Ht Hr Hp Hne n propagated rho_now rho_next.
  unfold taylor_init in Ht. destruct (Z.ltb_spec order 1); [discriminate|]. injection Ht as <-.
  unfold etrs_taylor, taylor_update. cbn [te_ham te_dt te_order te_spin te_noncolin].
  set (m1 := mset m prev (m wfn)). set (m2 := mset m1 wfn (normalize (m1 wfn))).
  assert (E1 : m1 wfn = m wfn) by (unfold m1, mset; now destruct (Nat.eqb_spec wfn prev)).
  assert (E2 : m2 wfn = map unit_vector (m wfn)) by (unfold m2, mset; rewrite Nat.eqb_refl, E1; apply normalize_eq).
  assert (E2p : m2 prev = m wfn).
  { unfold m2, mset. destruct (Nat.eqb_spec prev wfn) as [X|_]; [congruence|]. unfold m1, mset. now rewrite Nat.eqb_refl. }
  assert (E2o : forall p, p <> wfn -> p <> prev -> m2 p = m p).
  { intros p A B. unfold m2, m1, mset. destruct (Nat.eqb_spec p wfn); [contradiction|]. now destruct (Nat.eqb_spec p prev). }
  rewrite E2. fold rho_now. clearbody m2. clear m1 E1.
  destruct (taylor_prop_ok nx ny nz (set_vloc h (pot rho_now)) dt (set_vloc_wf _ _ _ _ _ WF (Hp _)) (used_fft nx ny nz h g hist) m2 prev wfn [] [] (Z.to_nat order)) as (o1 & E & I1).
  { exact (used_fft_inv nx ny nz h g hist). }
  { rewrite E2p. exact Hr. }
  rewrite E. cbn [bind]. rewrite E2p. change (kh_gs (set_vloc h (pot rho_now))) with (kh_gs h).
  change (map (truncated_exp _ _ _ _) (m wfn)) with (propagated (pot rho_now)).
  set (m3 := mset m2 wfn (propagated (pot rho_now))). set (m4 := mset m3 wfn (normalize (m3 wfn))).
  assert (E3 : m3 wfn = propagated (pot rho_now)) by (unfold m3, mset; now rewrite Nat.eqb_refl).
  assert (E4 : m4 wfn = map unit_vector (propagated (pot rho_now))) by (unfold m4, mset; rewrite Nat.eqb_refl, E3; apply normalize_eq).
  assert (E4o : forall p, p <> wfn -> m4 p = m2 p).
  { intros p A. unfold m4, m3, mset. now destruct (Nat.eqb_spec p wfn). }
  rewrite E4. fold rho_next. rewrite midpoint_average. clearbody m4. clear m3 E3.
  destruct (taylor_prop_ok nx ny nz (set_vloc h (pot (average rho_now rho_next))) dt (set_vloc_wf _ _ _ _ _ WF (Hp _)) o1 m4 prev wfn [] [] (Z.to_nat order)) as (o2 & E' & _).
  { exact I1. }
  { rewrite E4o by congruence. rewrite E2p. exact Hr. }
  change (set_vloc (set_vloc h (pot rho_now)) (pot (average rho_now rho_next))) with (set_vloc h (pot (average rho_now rho_next))).
  rewrite E'. cbn [bind]. rewrite (E4o prev) by congruence. rewrite E2p.
  do 3 eexists. split; [reflexivity|]. unfold mset. rewrite Nat.eqb_refl. split.
  - rewrite normalize_eq. reflexivity.
  - intros p A B. destruct (Nat.eqb_spec p wfn); [contradiction|]. rewrite E4o by exact A. now apply E2o.
Qed.
Print Assumptions C62_etrs_taylor_step.

(* ------------------------------------------------------------------ *)
Lemma zip_ones l n : length l = n -> zip_with Cmult l (repeat (RtoC 1) n) = l.
Proof. revert n. induction l as [|c l IH]; intros [|n] L; cbn in L; try lia; [reflexivity|]. cbn. rewrite IH by lia. f_equal. ring. Qed.

Section Split.
  Variables nx ny nz : nat.
  Variable h : ksham.
  Variable dt : R.
  Hypothesis WF : well_formed nx ny nz h.
  Let ng := length (gs_cryst (kh_gs h)).
  Let N := nx * ny * nz.
  Let idx := map Z.to_nat (gs_idxgrid (kh_gs h)).

  Lemma wf_pos : 0 < N.
  Proof. destruct WF as ((gs & HS) & _). destruct (gspace_idx nx ny nz gs _ HS) as (_ & _ & _ & P1 & P2 & P3 & _). unfold N. nia. Qed.

  Lemma vloc_free s b : forall o, se_expv s = repeat (RtoC 1) N -> full_inv nx ny nz idx false o -> rect ng b ->
    exists o', oper_vloc s o b = (o', map (map (Cmult (RtoC (INR N)))) b) /\ full_inv nx ny nz idx false o'.
  Proof.
    induction b as [|psi b IH]; intros o Es Ho Hr; cbn [oper_vloc map].
    - exists o. split; [reflexivity|exact Ho].
    - destruct (g2r_onr nx ny nz (kh_gs h) o psi Ho) as (o1 & E1 & Ho1). rewrite E1, Es.
      rewrite zip_ones by (rewrite onr_length; reflexivity).
      change (full_r2g o1 (onr nx ny nz (kh_gs h) psi)) with (full_call o1 (R2G (onr nx ny nz (kh_gs h) psi))).
      pose proof (full_call_fun nx ny nz idx false o1 (R2G (onr nx ny nz (kh_gs h) psi)) Ho1) as E2.
      pose proof (full_call_inv nx ny nz idx false o1 (R2G (onr nx ny nz (kh_gs h) psi)) Ho1) as I2.
      destruct (full_call o1 (R2G (onr nx ny nz (kh_gs h) psi))) as [o2 r]. cbn [fst snd] in E2, I2. subst r.
      destruct (IH o2 Es I2) as (o3 & E3 & I3); [intros p Hp; apply Hr; now right|]. rewrite E3.
      exists o3. split; [|exact I3]. f_equal. f_equal. unfold onr.
      destruct WF as ((gs & HS) & _). destruct (gspace_idx nx ny nz gs _ HS) as (HN & HB & HL & _). cbv zeta in HL.
      unfold idx. rewrite roundtrip; [reflexivity|exact HN|exact HB|]. rewrite HL. apply Hr. now left.
  Qed.

  (** Free propagation by theta multiplies coefficient i by exp(-i theta E_i). *)
  Definition evolved (theta : R) (v : list C) : list C :=
    map (fun i => cis (- (theta * fst (kinetic h i i))) * nth i v (RtoC 0))%C (seq 0 ng).

  Lemma evolved_length th v : length (evolved th v) = ng.
  Proof. unfold evolved. now rewrite map_length, seq_length. Qed.

  Lemma evolved_norm th v : length v = ng -> norm2 (evolved th v) = norm2 v.
  Proof.
    intros L. apply RtoC_inj. rewrite !norm2_csum, evolved_length, L. apply csum_ext. intros i Hi.
    unfold evolved. rewrite nth_map_seq by exact Hi. rewrite Cmult_conj.
    transitivity ((cis (- (th * fst (kinetic h i i))) * Cconj (cis (- (th * fst (kinetic h i i))))) * (nth i v (RtoC 0) * Cconj (nth i v (RtoC 0))))%C; [ring|].
    rewrite cis_norm2. ring.
  Qed.

  Lemma unit_evolved th c v : length v = ng -> (0 < c)%R -> (0 < norm2 v)%R ->
    unit_vector (map (Cmult (RtoC c)) (evolved th v)) = evolved th (unit_vector v).
  Proof using.
    clear WF N.
    intros L Hc Hn. apply (list_ext (RtoC 0)).
    - now rewrite unit_length, map_length, !evolved_length.
    - intros i Hi. rewrite unit_length, map_length, evolved_length in Hi.
      unfold unit_vector at 1. rewrite (nth_map_lt _ (RtoC 0)) by now rewrite map_length, evolved_length.
      rewrite (nth_map_lt _ (RtoC 0)) by now rewrite evolved_length.
      rewrite norm2_scaled, evolved_norm by exact L.
      unfold evolved. rewrite !nth_map_seq by exact Hi. unfold unit_vector. rewrite (nth_map_lt _ (RtoC 0)) by lia.
      cbn [RtoC fst snd]. replace (c * c + 0 * 0)%R with (c * c)%R by ring.
      rewrite sqrt_mult_alt by nra. rewrite sqrt_square by lra. rewrite RtoC_mult.
      assert (Hs : (0 < sqrt (norm2 v))%R) by now apply sqrt_lt_R0.
      field. split; intros X; apply RtoC_inj in X; lra.
  Qed.

  Lemma oper_ke_evolved v e psi : length psi = ng ->
    zip_with Cmult (exp_ke (MkSplit (set_vloc h v) dt e)) psi = evolved (dt / 2) psi.
  Proof.
    intros L. assert (LK : length (exp_ke (MkSplit (set_vloc h v) dt e)) = ng).
    { unfold exp_ke, ke_gk. now rewrite !map_length. }
    apply (list_ext (RtoC 0)).
    - rewrite zip_length, LK by congruence. now rewrite evolved_length.
    - rewrite zip_length, LK by congruence. intros i Hi.
      rewrite (zip_nth _ (RtoC 0) (RtoC 0)) by (rewrite ?LK; congruence).
      unfold evolved. rewrite nth_map_seq by exact Hi. f_equal. unfold exp_ke. cbn [se_dt se_ham].
      assert (LKE : length (ke_gk (set_vloc h v)) = ng) by (unfold ke_gk; now rewrite map_length).
      rewrite (nth_map_lt _ (RtoC 0)) by now rewrite LKE.
      rewrite (ke_nth (set_vloc h v) i i) by (try reflexivity; exact Hi).
      change (kinetic (set_vloc h v) i i) with (kinetic h i i). f_equal. field.
  Qed.

  Lemma evolved_evolved a b c v : length v = ng ->
    evolved a (map (Cmult (RtoC c)) (evolved b v)) = map (Cmult (RtoC c)) (evolved (a + b) v).
  Proof.
    intros L. apply (list_ext (RtoC 0)); [now rewrite map_length, !evolved_length|].
    intros i Hi. rewrite evolved_length in Hi. rewrite (nth_map_lt _ (RtoC 0)) by now rewrite evolved_length.
    unfold evolved at 1. rewrite nth_map_seq by exact Hi. rewrite (nth_map_lt _ (RtoC 0)) by now rewrite evolved_length.
    unfold evolved. rewrite !nth_map_seq by exact Hi.
    replace (- ((a + b) * fst (kinetic h i i)))%R with (- (a * fst (kinetic h i i)) + - (b * fst (kinetic h i i)))%R by ring.
    rewrite cis_plus. ring.
  Qed.

  Lemma split_prop_free v o m obj : v = repeat (RtoC 0) N -> full_inv nx ny nz idx false o -> rect ng (m obj) ->
    exists o', split_prop (split_update N (MkSplit h dt []) v) o m [obj]
      = Ok (o', mset m obj (map (fun psi => map (Cmult (RtoC (INR N))) (evolved dt psi)) (m obj)), [obj])
    /\ full_inv nx ny nz idx false o'.
  Proof.
    intros -> Ho Hr. unfold split_prop, split_update, oper_ke. cbn [se_ham se_dt].
    match goal with |- context [oper_vloc ?S _ _] => set (s := S) end.
    assert (Ee : se_expv s = repeat (RtoC 1) N).
    { unfold s. cbn [se_expv]. generalize (INR N) as q. clear. intros q. induction N as [|k IH]; [reflexivity|].
      cbn [repeat map]. f_equal; [|exact IH]. cbn [fst RtoC]. rewrite Rmult_0_r, Ropp_0, cis_0. reflexivity. }
    match goal with |- context [oper_vloc s o ?B] => set (b1 := B) end.
    assert (B1 : b1 = map (evolved (dt / 2)) (m obj)).
    { unfold b1. apply map_ext_in. intros psi Hp. apply oper_ke_evolved. now apply Hr. }
    destruct (vloc_free s b1 o Ee Ho) as (o' & E & I).
    { intros p Hp. rewrite B1 in Hp. apply in_map_iff in Hp. destruct Hp as (q & <- & _). apply evolved_length. }
    rewrite E. exists o'. split; [|exact I]. do 4 f_equal. rewrite B1, !map_map. apply map_ext_in. intros psi Hp.
    unfold s. rewrite oper_ke_evolved by now rewrite map_length, evolved_length.
    rewrite evolved_evolved by now apply Hr. do 2 f_equal. field.
  Qed.
End Split.

(** C62, refuted for the split operator: prop_psi makes the output list refer to the input
    objects, so the second propagation of an ETRS step starts from the predicted state.  For free
    electrons one step with time step dt leaves in wfn_gamma[0] the state evolved by 2 dt (held by the
    scratch object [prev]), and the object the caller passed is not advanced at all. *)
Theorem C62_etrs_split_step_refuted : forall nx ny nz h dt garbage history dens (m : heap) wfn prev,
  well_formed nx ny nz h -> kh_nloc h = [] -> wfn <> prev ->
  (forall psi, In psi (m wfn) -> length psi = length (gs_cryst (kh_gs h)) /\ (0 < norm2 psi)%R) ->
  exists fft' m' s',
    etrs_split dens (fun _ => repeat (RtoC 0) (nx * ny * nz)) (nx * ny * nz) (MkSplit h dt [])
      (used_fft nx ny nz h garbage history) m wfn prev = Ok (fft', m', [prev], s')
    /\ m' wfn = map unit_vector (m wfn)
    /\ length (m' prev) = length (m wfn)
    /\ forall b i, b < length (m wfn) -> i < length (gs_cryst (kh_gs h)) ->
       nth i (nth b (m' prev) []) (RtoC 0)
       = (cis (- (2 * dt * fst (kinetic h i i))) * nth i (unit_vector (nth b (m wfn) [])) (RtoC 0))%C.
Proof.
  intros nx ny nz h dt g hist dens m wfn prev WF _ Hne Hr.
  set (N := nx * ny * nz). set (ng := length (gs_cryst (kh_gs h))).
  pose proof (wf_pos nx ny nz h WF) as HN. fold N in HN.
  unfold etrs_split. cbn [nth].
  set (m1 := mset m prev (m wfn)). set (m2 := mset m1 wfn (normalize (m1 wfn))).
  assert (E1 : m1 wfn = m wfn) by (unfold m1, mset; now destruct (Nat.eqb_spec wfn prev)).
  assert (E2 : m2 wfn = map unit_vector (m wfn)) by (unfold m2, mset; rewrite Nat.eqb_refl, E1; apply normalize_eq).
  assert (E2p : m2 prev = m wfn).
  { unfold m2, mset. destruct (Nat.eqb_spec prev wfn) as [X|_]; [congruence|]. unfold m1, mset. now rewrite Nat.eqb_refl. }
  clearbody m2. clear m1 E1.
  destruct (split_prop_free nx ny nz h dt WF (repeat (RtoC 0) N) (used_fft nx ny nz h g hist) m2 prev eq_refl (used_fft_inv nx ny nz h g hist)) as (o1 & E & I1).
  { rewrite E2p. intros p Hp. now apply Hr. }
  fold N in E. rewrite E. cbn [bind nth]. rewrite E2p.
  set (m3 := mset m2 prev _).
  assert (E3 : m3 prev = map (fun psi => map (Cmult (RtoC (INR N))) (evolved h dt psi)) (m wfn)) by (unfold m3, mset; now rewrite Nat.eqb_refl).
  assert (E3w : m3 wfn = map unit_vector (m wfn)) by (unfold m3, mset; now destruct (Nat.eqb_spec wfn prev)).
  set (m4 := mset m3 prev (normalize (m3 prev))).
  assert (HNR : (0 < INR N)%R) by now apply lt_0_INR.
  assert (E4 : m4 prev = map (fun psi => evolved h dt (unit_vector psi)) (m wfn)).
  { unfold m4, mset. rewrite Nat.eqb_refl, E3, normalize_eq, map_map. apply map_ext_in. intros psi Hp.
    apply unit_evolved; try exact HNR; now apply Hr. }
  assert (E4w : m4 wfn = map unit_vector (m wfn)) by (unfold m4, mset; now destruct (Nat.eqb_spec wfn prev)).
  clearbody m4. clear m3 E3 E3w.
  destruct (split_prop_free nx ny nz h dt WF (repeat (RtoC 0) N) o1 m4 prev eq_refl I1) as (o2 & E' & _).
  { rewrite E4. intros p Hp. apply in_map_iff in Hp. destruct Hp as (q & <- & _). apply evolved_length. }
  fold N in E'. change (split_update N (split_update N (MkSplit h dt []) (repeat (RtoC 0) N)) (repeat (RtoC 0) N))
    with (split_update N (MkSplit h dt []) (repeat (RtoC 0) N)).
  rewrite E'. cbn [bind nth]. do 3 eexists. split; [reflexivity|].
  unfold mset. rewrite !Nat.eqb_refl. destruct (Nat.eqb_spec wfn prev) as [X|_]; [contradiction|].
  split; [exact E4w|]. rewrite E4, normalize_eq, !map_map. split; [now rewrite map_length|].
  intros b i Hb Hi. rewrite (nth_map_lt _ []) by exact Hb.
  assert (Hin : In (nth b (m wfn) []) (m wfn)) by now apply nth_In.
  destruct (Hr _ Hin) as [L Hn].
  rewrite unit_evolved; try exact HNR; try now rewrite evolved_length.
  2:{ rewrite evolved_norm by now rewrite unit_length. rewrite unit_norm by exact Hn. lra. }
  unfold evolved at 1. rewrite nth_map_seq by exact Hi.
  unfold unit_vector at 1. rewrite (nth_map_lt _ (RtoC 0)) by now rewrite evolved_length.
  rewrite evolved_norm by now rewrite unit_length. rewrite unit_norm by exact Hn. rewrite sqrt_1.
  unfold evolved. rewrite nth_map_seq by exact Hi.
  replace (- (2 * dt * fst (kinetic h i i)))%R with (- (dt * fst (kinetic h i i)) + - (dt * fst (kinetic h i i)))%R by ring.
  rewrite cis_plus. field. intros X. apply RtoC_inj in X. lra.
Qed.
Print Assumptions C62_etrs_split_step_refuted.

(* ------------------------------------------------------------------ *)
(** Non-vacuity: the Hamiltonian of C46_nonvacuous with two unnormalised bands, order 4; and the
    same space with neither potential nor projectors. *)
Definition ex_bands : bands := [[RtoC 1; Ci; RtoC 2]; [RtoC 0; RtoC 3; Ci]].
Definition ex_heap : heap := fun p => if Nat.eqb p 5 then ex_bands else [].
Definition ex_free : ksham := MkKSHam ex_lat (V (/ 4) 0 0) ex_gs (repeat (RtoC 0) 4) [].
Example C42_witness :
  well_formed 2 1 2 ex_h /\ self_adjoint_data ex_h
  /\ taylor_init ex_h false false (/ 10) 4 = Ok (MkTaylor ex_h (/ 10) 4 false false)
  /\ (forall psi, In psi (ex_heap 5) -> length psi = length (gs_cryst (kh_gs ex_h)) /\ (0 < norm2 psi)%R)
  /\ well_formed 2 1 2 ex_free /\ kh_nloc ex_free = []
  /\ (exists gs, gspace_base (zshape 2 1 2) gs = Ok ex_gs)
  /\ norm2 (nth 0 ex_bands []) <> 1%R.
Proof.
  destruct C46_nonvacuous as (A & B & _).
  split; [exact A|]. split; [exact B|]. split; [reflexivity|]. split.
  { intros psi [<-|[<-|[]]]; (split; [reflexivity|cbn; lra]). }
  split.
  { repeat split; [|intros vd v []]. destruct A as (X & _). exact X. }
  split; [reflexivity|]. split; [destruct A as (X & _); exact X|]. cbn. lra.
Qed.

(** An eigenvector for C42_eigenstate_phase_error: the second plane wave of the free space. *)
Example C42_eigen_witness :
  mat_vec 3 (hamiltonian 2 1 2 ex_free) [RtoC 0; RtoC 1; RtoC 0]
  = map (Cmult (RtoC (fst (kinetic ex_free 1 1)))) [RtoC 0; RtoC 1; RtoC 0].
Proof.
  assert (L0 : forall i j, local 2 1 2 ex_free i j = RtoC 0).
  { intros i j. unfold local. apply csum_zero. intros x Hx. apply csum_zero. intros y Hy. apply csum_zero. intros z Hz.
    replace (nth ((x * 1 + y) * 2 + z) (kh_vloc ex_free) (RtoC 0)) with (RtoC 0); [ring|].
    cbn [kh_vloc ex_free]. symmetry. apply nth_repeat. }
  assert (E : forall i j, hamiltonian 2 1 2 ex_free i j = kinetic ex_free i j).
  { intros i j. unfold hamiltonian. rewrite L0. unfold nonlocal. cbn [kh_nloc ex_free fold_right]. ring. }
  unfold mat_vec. cbn [seq map csum nth]. rewrite !E.
  assert (K : forall i j, i <> j -> kinetic ex_free i j = RtoC 0).
  { intros i j H. unfold kinetic. now destruct (Nat.eqb_spec i j). }
  rewrite (K 0 1), (K 2 1) by lia.
  assert (R1 : kinetic ex_free 1 1 = RtoC (fst (kinetic ex_free 1 1))) by reflexivity.
  rewrite <- R1. repeat (apply f_equal2 || apply f_equal); try reflexivity; ring_simplify; try reflexivity; ring.
Qed.
