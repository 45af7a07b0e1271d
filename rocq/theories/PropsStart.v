(** C85: starting density of an SCF calculation.  C86: energies reported by it. *)
From Coquelicot Require Import Coquelicot.
From Verif Require Import Base GIndexModel GIndexProofs LatModel LatProofs GSphereModel FFTModel FFTSpec FFTProofs FFTProofs2 PotModel PotSpec PotProofs EwaldModel EwaldSpec EwaldProofs LocModel LocSpec LocProofs PropsEwald KSHamModel KSHamProofs PropsPot PropsLoc GwProofs2 StartModel CBase.
Open Scope R_scope.

(* ------------------------------------------------------------------ *)
(** Specification vocabulary. *)

(** Sum over a list of species, or of (species, magnetisation) pairs. *)
Definition sum_over {A} (l : list A) (f : A -> C) : C := fold_right (fun s acc => f s + acc)%C (RtoC 0) l.
Definition real_sum {A} (l : list A) (f : A -> R) : R := fold_right (fun s acc => f s + acc) 0 l.

(** Coefficient [k] of a field, and of the atomic density of a species. *)
Definition at_k (f : list C) (k : nat) : C := nth k f (RtoC 0).
Definition atomic (G : gsp) (k : nat) (s : species) : C := at_k (rhoatomic G (fst s) (snd s)) k.

(** Integral over the cell of the field with coefficients [f]. *)
Definition charge (G : gsp) (garbage : worker) (history : list call) (f : list C) : C :=
  cell_integral G (at_point G (snd (full_g2r (field_fft G garbage history) f))).

(** Charge of a species: number of its atoms times its radial charge (mesh with [2m+1]
    points, composite Simpson rule). *)
Definition species_charge (s : species) : R :=
  INR (length (snd s)) * composite_simpson ((u_n (fst s) - 1) / 2) (fun i => u_rhoatom (fst s) i * u_rab (fst s) i).
Definition odd_mesh (s : species) : Prop := exists m, u_n (fst s) = (2 * m + 1)%nat.

(* ------------------------------------------------------------------ *)
Lemma rhoatomic_len G u pos : length (rhoatomic G u pos) = gp_size G.
Proof. unfold rhoatomic. now rewrite map_length, seq_length. Qed.

Lemma add_scaled_len rho a f n : length rho = n -> length f = n -> length (add_scaled rho a f) = n.
Proof. intros H1 H2. unfold add_scaled. rewrite zip_with_length, map_length; lia. Qed.

Lemma add_scaled_at rho a f n k : length rho = n -> length f = n -> (k < n)%nat ->
  at_k (add_scaled rho a f) k = (at_k rho k + RtoC a * at_k f k)%C.
Proof.
  intros H1 H2 Hk. unfold add_scaled, at_k.
  rewrite (zip_with_nth _ _ _ _ (RtoC 0) (RtoC a * RtoC 0)%C (RtoC 0)) by (rewrite ?map_length; lia).
  now rewrite (map_nth (fun c => (RtoC a * c)%C)).
Qed.

Lemma sum_over_ext {A} (l : list A) f g : (forall x, In x l -> f x = g x) -> sum_over l f = sum_over l g.
Proof.
  induction l as [|x l IH]; intros H; [reflexivity|]. cbn. rewrite H by now left.
  f_equal. apply IH. intros y Hy. apply H. now right.
Qed.
Lemma sum_over_plus {A} (l : list A) f g : sum_over l (fun x => f x + g x)%C = (sum_over l f + sum_over l g)%C.
Proof. induction l as [|x l IH]; cbn; [ring|]. unfold sum_over in IH. rewrite IH. ring. Qed.
Lemma sum_over_minus {A} (l : list A) f g : sum_over l (fun x => f x - g x)%C = (sum_over l f - sum_over l g)%C.
Proof. induction l as [|x l IH]; cbn; [ring|]. unfold sum_over in IH. rewrite IH. ring. Qed.
Lemma sum_over_scal {A} (l : list A) c f : sum_over l (fun x => c * f x)%C = (c * sum_over l f)%C.
Proof. induction l as [|x l IH]; cbn; [ring|]. unfold sum_over in IH. rewrite IH. ring. Qed.
Lemma sum_over_RtoC {A} (l : list A) f : sum_over l (fun x => RtoC (f x)) = RtoC (real_sum l f).
Proof. induction l as [|x l IH]; cbn; [reflexivity|]. unfold sum_over in IH. rewrite IH, RtoC_plus. reflexivity. Qed.
Lemma sum_over_combine {A B} (l : list A) (m : list B) f : (length l <= length m)%nat ->
  sum_over (combine l m) (fun p => f (fst p)) = sum_over l f.
Proof.
  revert m. induction l as [|x l IH]; intros [|y m] H; cbn in *; try lia; try reflexivity.
  f_equal. apply IH. lia.
Qed.

(** Both channels, coefficient by coefficient, for any lengths of the two lists. *)
Lemma start_spin_spec G sps mags : 
  length (fst (start_spin G sps mags)) = gp_size G /\ length (snd (start_spin G sps mags)) = gp_size G
  /\ forall k, (k < gp_size G)%nat ->
     at_k (fst (start_spin G sps mags)) k
       = sum_over (combine sps mags) (fun p => RtoC ((1 + clamp_mag (snd p)) / 2) * atomic G k (fst p))%C
     /\ at_k (snd (start_spin G sps mags)) k
       = sum_over (combine sps mags) (fun p => RtoC ((1 - clamp_mag (snd p)) / 2) * atomic G k (fst p))%C.
Proof.
  unfold start_spin. set (l := combine sps mags).
  match goal with |- context [fold_left ?F l _] => set (f := F) end.
  assert (H : forall l st, length (fst st) = gp_size G -> length (snd st) = gp_size G ->
    length (fst (fold_left f l st)) = gp_size G /\ length (snd (fold_left f l st)) = gp_size G
    /\ forall k, (k < gp_size G)%nat ->
      at_k (fst (fold_left f l st)) k
        = (at_k (fst st) k + sum_over l (fun p => RtoC ((1 + clamp_mag (snd p)) / 2) * atomic G k (fst p)))%C
      /\ at_k (snd (fold_left f l st)) k
        = (at_k (snd st) k + sum_over l (fun p => RtoC ((1 - clamp_mag (snd p)) / 2) * atomic G k (fst p)))%C).
  { clear. induction l as [|p l IH]; intros st H1 H2.
    - cbn [fold_left sum_over fold_right]. repeat split; try assumption; ring.
    - cbn [fold_left].
      assert (L1 : length (fst (f st p)) = gp_size G) by (apply add_scaled_len; [exact H1|apply rhoatomic_len]).
      assert (L2 : length (snd (f st p)) = gp_size G) by (apply add_scaled_len; [exact H2|apply rhoatomic_len]).
      destruct (IH (f st p) L1 L2) as (E1 & E2 & E3). split; [exact E1|]. split; [exact E2|].
      intros k Hk. destruct (E3 k Hk) as [F1 F2]. rewrite F1, F2. unfold f. cbn [fst snd].
      rewrite !(add_scaled_at _ _ _ (gp_size G)) by (try assumption; apply rhoatomic_len).
      unfold sum_over. cbn [fold_right]. unfold atomic at 2 5.
      split; rewrite Cplus_assoc; reflexivity. }
  destruct (H l (repeat (RtoC 0) (gp_size G), repeat (RtoC 0) (gp_size G))) as (A & B & D); cbn [fst snd]; try apply repeat_length.
  split; [exact A|]. split; [exact B|]. intros k Hk. destruct (D k Hk) as [D1 D2]. cbn [fst snd] in D1, D2.
  assert (Z0 : at_k (repeat (RtoC 0) (gp_size G)) k = RtoC 0) by (unfold at_k; apply nth_repeat).
  rewrite D1, D2, Z0, !Cplus_0_l. split; reflexivity.
Qed.

(** C85.  With one starting magnetisation per species (more are ignored) the two channels of
    a polarised start add up to the superposition of the atomic densities, and differ by that
    superposition weighted with the magnetisations, clipped to [-1, 1]. *)
Theorem C85_polarised_start : forall G sps mags,
  (length sps <= length mags)%nat ->
  exists up down, start_density G sps true (Mags mags) = Ok [up; down]
  /\ length up = gp_size G /\ length down = gp_size G
  /\ forall k, (k < gp_size G)%nat ->
     (at_k up k + at_k down k)%C = sum_over sps (atomic G k)
     /\ (at_k up k - at_k down k)%C
        = sum_over (combine sps mags) (fun p => RtoC (clamp_mag (snd p)) * atomic G k (fst p))%C.
Proof.
  intros G sps mags Hl. unfold start_density. eexists. eexists. split; [reflexivity|].
  destruct (start_spin_spec G sps mags) as (A & B & D). split; [exact A|]. split; [exact B|].
  intros k Hk. destruct (D k Hk) as [-> ->].
  rewrite <- sum_over_plus, <- sum_over_minus. split.
  - rewrite <- (sum_over_combine sps mags (atomic G k) Hl). apply sum_over_ext. intros p _.
    rewrite <- Cmult_plus_distr_r, <- RtoC_plus. replace ((1 + clamp_mag (snd p)) / 2 + (1 - clamp_mag (snd p)) / 2) with 1 by field. ring.
  - apply sum_over_ext. intros p _.
    replace (clamp_mag (snd p)) with ((1 + clamp_mag (snd p)) / 2 - (1 - clamp_mag (snd p)) / 2) at 3 by field.
    rewrite RtoC_minus. ring.
Qed.
Print Assumptions C85_polarised_start.

(** C85.  Clipping: values in [-1, 1] are used as given, others are moved to the nearer end. *)
Theorem C85_clipping : forall m,
  -1 <= clamp_mag m <= 1
  /\ (-1 <= m <= 1 -> clamp_mag m = m) /\ (1 <= m -> clamp_mag m = 1) /\ (m <= -1 -> clamp_mag m = -1).
Proof.
  intros m. unfold clamp_mag, Rmax, Rmin. destruct (Rle_dec m 1); repeat destruct (Rle_dec _ _); repeat split; intros; lra.
Qed.
Print Assumptions C85_clipping.

(** C85.  A shorter list of magnetisations silently removes the remaining species from the
    start: it is the start of the crystal consisting of the first species only. *)
Theorem C85_short_magnetisations_refuted : forall G sps mags,
  (length mags <= length sps)%nat ->
  start_density G sps true (Mags mags) = start_density G (firstn (length mags) sps) true (Mags mags).
Proof.
  intros G sps mags Hl. unfold start_density, start_spin.
  replace (combine sps mags) with (combine (firstn (length mags) sps) mags); [reflexivity|].
  clear. revert sps. induction mags as [|m mags IH]; intros [|s sps]; cbn; try reflexivity. now rewrite IH.
Qed.
Print Assumptions C85_short_magnetisations_refuted.

(** C85.  An unpolarised start is the superposition of the atomic densities; a polarised one
    without magnetisations, and a crystal without species, are refused. *)
Theorem C85_unpolarised_start : forall G sps a, sps <> [] ->
  exists rho, start_density G sps false a = Ok [rho] /\ length rho = gp_size G
  /\ forall k, (k < gp_size G)%nat -> at_k rho k = sum_over sps (atomic G k).
Proof.
  intros G [|s sps] a Hn; [now destruct Hn|]. unfold start_density, start_plain. cbn [bind].
  eexists. split; [reflexivity|].
  set (f := fun (acc : list C) (s : species) => zip_with Cplus acc (rhoatomic G (fst s) (snd s))).
  assert (H : forall l acc, length acc = gp_size G -> length (fold_left f l acc) = gp_size G
     /\ forall k, (k < gp_size G)%nat -> at_k (fold_left f l acc) k = (at_k acc k + sum_over l (atomic G k))%C).
  { clear. induction l as [|s l IH]; intros acc HA.
    - cbn [fold_left sum_over fold_right]. split; [exact HA|]. intros. ring.
    - cbn [fold_left]. assert (L : length (f acc s) = gp_size G) by (unfold f; rewrite zip_with_length, rhoatomic_len; lia).
      destruct (IH (f acc s) L) as [E1 E2]. split; [exact E1|]. intros k Hk. rewrite E2 by exact Hk.
      unfold sum_over. cbn [fold_right]. rewrite Cplus_assoc. f_equal.
      unfold f, at_k, atomic. rewrite (zip_with_nth _ _ _ _ (RtoC 0) (RtoC 0) (RtoC 0)) by (rewrite ?rhoatomic_len; lia). reflexivity. }
  destruct (H sps (map (fun c => RtoC 0 + c)%C (rhoatomic G (fst s) (snd s)))) as [E1 E2].
  - now rewrite map_length, rhoatomic_len.
  - split; [exact E1|]. intros k Hk. rewrite E2 by exact Hk. unfold sum_over at 2. cbn [fold_right]. f_equal.
    unfold at_k, atomic. rewrite (nth_indep _ (RtoC 0) (RtoC 0 + RtoC 0)%C) by (rewrite map_length, rhoatomic_len; exact Hk).
    rewrite (map_nth (fun c => (RtoC 0 + c)%C)). apply Cplus_0_l.
Qed.
Print Assumptions C85_unpolarised_start.

Theorem C85_refusals : forall G sps a,
  start_density G sps true NoStart = Err ValueError /\ start_density G [] false a = Err AttributeError.
Proof. intros. split; reflexivity. Qed.
Print Assumptions C85_refusals.

(* ------------------------------------------------------------------ *)
(** The integral of a field over the cell is its G = 0 coefficient times the volume element. *)
Lemma charge_g0 G g h v : constructed G -> In (0, 0, 0)%Z (gs_cryst (gp_gs G)) -> length v = gp_size G ->
  charge G g h v = (at_k v 0 * RtoC (gp_dv G))%C.
Proof.
  intros HC H0 Lv. destruct (g0_position G HC H0) as (Hs & Hg).
  pose proof (field_r2g G g h (snd (full_g2r (field_fft G g h) v)) 0 HC Hs) as E.
  rewrite field_roundtrip in E by assumption.
  unfold charge, cell_integral.
  rewrite (over_grid_ext G _ (fun x y z => at_point G (snd (full_g2r (field_fft G g h) v)) x y z * Cconj (plane_wave (gp_nx G) (gp_ny G) (gp_nz G) (gv G 0) x y z))%C).
  2:{ intros x y z _. rewrite Hg. unfold plane_wave.
      replace (2 * PI * (0 * (INR x / INR (gp_nx G)) + 0 * (INR y / INR (gp_ny G)) + 0 * (INR z / INR (gp_nz G)))) with 0 by ring.
      rewrite cis_0. replace (Cconj 1) with (RtoC 1) by (apply C_ext; cbn; ring). ring. }
  rewrite <- E. reflexivity.
Qed.

Lemma g0_sum rho : forall acc, fold_left (fun a r => a + nth 0 r (RtoC 0))%C rho acc = (acc + sum_over rho (fun r => at_k r 0))%C.
Proof. induction rho as [|r rho IH]; intros acc; cbn [fold_left sum_over fold_right]; [ring|]. rewrite IH. unfold at_k, sum_over. ring. Qed.

(** C85.  Normalisation: every coefficient of every channel is multiplied by one and the same
    number, and afterwards the channels together integrate to the number of electrons —
    provided they integrated to something nonzero. *)
Theorem C85_normalised_charge : forall G g h numel rho,
  constructed G -> In (0, 0, 0)%Z (gs_cryst (gp_gs G)) -> Forall (fun r => length r = gp_size G) rho ->
  sum_over rho (charge G g h) <> RtoC 0 ->
  sum_over (normalize_rho G numel rho) (charge G g h) = RtoC numel
  /\ normalize_rho G numel rho
     = map (map (fun c => c * (RtoC numel / sum_over rho (charge G g h)))%C) rho.
Proof.
  intros G g h numel rho HC H0 HL Hq.
  assert (HS : sum_over rho (charge G g h) = (sum_over rho (fun r => at_k r 0) * RtoC (gp_dv G))%C).
  { rewrite Cmult_comm, <- sum_over_scal. apply sum_over_ext. intros r Hr.
    rewrite charge_g0; try assumption; [apply Cmult_comm|]. now apply (proj1 (Forall_forall _ _) HL). }
  assert (HN : normalize_rho G numel rho = map (map (fun c => c * (RtoC numel / sum_over rho (charge G g h)))%C) rho).
  { unfold normalize_rho. rewrite g0_sum, HS, Cplus_0_l. reflexivity. }
  split; [|exact HN]. rewrite HN. set (a := (RtoC numel / sum_over rho (charge G g h))%C).
  assert (HM : sum_over (map (map (fun c => (c * a)%C)) rho) (charge G g h) = (a * sum_over rho (charge G g h))%C).
  { clear Hq HS HN. generalize a. clear a. intros a. induction HL as [|r rho Hr HL IH]; [cbn; ring|].
    unfold sum_over. cbn [map fold_right]. fold (sum_over (map (map (fun c => (c * a)%C)) rho) (charge G g h)).
    rewrite IH. rewrite !charge_g0; try assumption; [|now rewrite map_length].
    unfold at_k. destruct (g0_position G HC H0) as (Hs & _).
    rewrite (nth_indep (map _ r) (RtoC 0) (RtoC 0 * a)%C) by (rewrite map_length; lia).
    rewrite (map_nth (fun c => (c * a)%C)).
    unfold sum_over. ring. }
  rewrite HM. unfold a. field. exact Hq.
Qed.
Print Assumptions C85_normalised_charge.

Lemma atomic_charge G s : constructed G -> In (0, 0, 0)%Z (gs_cryst (gp_gs G)) -> odd_mesh s ->
  (atomic G 0 s * RtoC (gp_dv G))%C = RtoC (species_charge s).
Proof.
  intros HC H0 (m & Hm).
  pose proof (charge_g0 G (let z := (fun _ => RtoC 0) in MkWorker z z z) [] (rhoatomic G (fst s) (snd s)) HC H0 (rhoatomic_len _ _ _)) as E.
  unfold charge in E. rewrite (C65_total_charge G _ _ _ m) in E by assumption.
  unfold atomic. rewrite <- E. unfold species_charge. rewrite Hm.
  replace ((2 * m + 1 - 1) / 2)%nat with m; [reflexivity|].
  replace (2 * m + 1 - 1)%nat with (m * 2)%nat by lia. now rewrite Nat.div_mul.
Qed.

(** C85.  Total charge and magnetic moment of a normalised polarised start: the channels
    integrate together to the number of electrons, and their difference to that number times
    the charge-weighted mean of the clipped magnetisations. *)
Theorem C85_moment : forall G g h numel sps mags,
  constructed G -> In (0, 0, 0)%Z (gs_cryst (gp_gs G)) -> Forall odd_mesh sps ->
  (length sps <= length mags)%nat -> real_sum sps species_charge <> 0 ->
  exists up down up' down',
    start_density G sps true (Mags mags) = Ok [up; down]
    /\ normalize_rho G numel [up; down] = [up'; down']
    /\ (charge G g h up' + charge G g h down')%C = RtoC numel
    /\ (charge G g h up' - charge G g h down')%C
       = RtoC (numel * real_sum (combine sps mags) (fun p => clamp_mag (snd p) * species_charge (fst p))
               / real_sum sps species_charge).
Proof.
  intros G g h numel sps mags HC H0 Hodd Hl Hq.
  destruct (C85_polarised_start G sps mags Hl) as (up & down & E & L1 & L2 & HK).
  destruct (g0_position G HC H0) as (Hs & _). destruct (HK 0%nat Hs) as [K1 K2].
  assert (Hodd' : forall s, In s sps -> odd_mesh s) by (intros s; apply (proj1 (Forall_forall _ _) Hodd)).
  assert (Q : (charge G g h up + charge G g h down)%C = RtoC (real_sum sps species_charge)).
  { rewrite !charge_g0 by assumption. rewrite <- Cmult_plus_distr_r, K1, Cmult_comm, <- sum_over_scal, <- sum_over_RtoC.
    apply sum_over_ext. intros s Hi. rewrite Cmult_comm. now apply atomic_charge, Hodd'. }
  assert (M : (charge G g h up - charge G g h down)%C
     = RtoC (real_sum (combine sps mags) (fun p => clamp_mag (snd p) * species_charge (fst p)))).
  { rewrite !charge_g0 by assumption.
    replace (at_k up 0 * RtoC (gp_dv G) - at_k down 0 * RtoC (gp_dv G))%C with (RtoC (gp_dv G) * (at_k up 0 - at_k down 0))%C by ring.
    rewrite K2, <- sum_over_scal, <- sum_over_RtoC.
    apply sum_over_ext. intros [s m] Hi. cbn [fst snd]. apply in_combine_l in Hi.
    rewrite RtoC_mult, <- (atomic_charge G s HC H0 (Hodd' s Hi)). ring. }
  assert (S0 : sum_over [up; down] (charge G g h) = RtoC (real_sum sps species_charge)).
  { rewrite <- Q. unfold sum_over. cbn [fold_right]. ring. }
  destruct (C85_normalised_charge G g h numel [up; down] HC H0) as [N1 N2].
  - repeat constructor; assumption.
  - rewrite S0. intros Ez. apply RtoC_inj in Ez. contradiction.
  - exists up, down. eexists. eexists. split; [exact E|]. split; [exact N2|]. rewrite N2 in N1.
    assert (T : forall a b, (charge G g h a + charge G g h b)%C = sum_over [a; b] (charge G g h)).
    { intros a b. unfold sum_over. cbn [fold_right]. ring. }
    split; [rewrite T; exact N1|].
    rewrite !charge_g0; try assumption; try (now rewrite map_length).
    rewrite S0. set (a := (RtoC numel / RtoC (real_sum sps species_charge))%C).
    unfold at_k. rewrite (nth_indep _ (RtoC 0) (RtoC 0 * a)%C) by (rewrite map_length; lia).
    rewrite (nth_indep (map _ down) (RtoC 0) (RtoC 0 * a)%C) by (rewrite map_length; lia).
    rewrite !(map_nth (fun c => (c * a)%C)).
    rewrite !charge_g0 in M by assumption. unfold at_k in M.
    transitivity (a * RtoC (real_sum (combine sps mags) (fun p => (clamp_mag (snd p) * species_charge (fst p))%R)))%C.
    + rewrite <- M. ring.
    + unfold a. rewrite <- RtoC_div by exact Hq. rewrite <- RtoC_mult. f_equal. field. exact Hq.
Qed.
Print Assumptions C85_moment.

(* ------------------------------------------------------------------ *)
(** C86: vocabulary.  The integral over the cell of sum_s v_s(r) rho_s(r) for fields given on
    the [n] grid points. *)
Definition grid_integral (dv : R) (n : nat) (v rho : list (list C)) : C :=
  (RtoC dv * csum n (fun i => sum_over (combine v rho) (fun p => at_k (fst p) i * at_k (snd p) i)))%C.
(** Band energy: sum of weight * eigenvalue * occupation over all levels. *)
Definition level_energy (w : ks_levels) : R :=
  lv_weight w * real_sum (combine (lv_evl w) (lv_occ w)) (fun p => fst p * snd p).
Definition smear_part (s : option R) : R := match s with Some x => x | None => 0 end.

Lemma fold_right_csum l : fold_right Cplus (RtoC 0) l = csum (length l) (at_k l).
Proof.
  induction l as [|x l IH] using rev_ind; [reflexivity|].
  rewrite app_length, Nat.add_1_r. cbn [csum].
  assert (E : fold_right Cplus (RtoC 0) (l ++ [x]) = (fold_right Cplus (RtoC 0) l + x)%C).
  { clear. induction l as [|y l IH]; cbn [app fold_right]; [ring|]. rewrite IH. ring. }
  rewrite E, IH. f_equal.
  - apply csum_ext. intros i Hi. unfold at_k. now rewrite app_nth1.
  - unfold at_k. rewrite app_nth2, Nat.sub_diag by lia. reflexivity.
Qed.

Lemma spin_sum_gen n l : l <> [] -> Forall (fun a => length a = n) l ->
  length (spin_sum l) = n /\ forall k, (k < n)%nat -> at_k (spin_sum l) k = sum_over l (fun a => at_k a k).
Proof.
  intros Hne HF. destruct l as [|a l]; [now destruct Hne|]. inversion HF as [|? ? Ha HF']; subst.
  assert (H : forall l acc, length acc = length a -> Forall (fun b => length b = length a) l ->
     length (fold_left (fun acc b => zip_with Cplus acc b) l acc) = length a
     /\ forall k, (k < length a)%nat -> at_k (fold_left (fun acc b => zip_with Cplus acc b) l acc) k
          = (at_k acc k + sum_over l (fun b => at_k b k))%C).
  { clear. induction l as [|b l IH]; intros acc HA HL.
    - cbn [fold_left sum_over fold_right]. split; [exact HA|]. intros. ring.
    - inversion HL as [|? ? Hb HL']; subst. cbn [fold_left].
      destruct (IH (zip_with Cplus acc b)) as [E1 E2]; [rewrite zip_with_length; lia|exact HL'|].
      split; [exact E1|]. intros k Hk. rewrite E2 by exact Hk. unfold sum_over. cbn [fold_right].
      rewrite Cplus_assoc. f_equal. unfold at_k.
      rewrite (zip_with_nth _ _ _ _ (RtoC 0) (RtoC 0) (RtoC 0)) by lia. reflexivity. }
  destruct (H l (map (fun c => RtoC 0 + c)%C a)) as [E1 E2]; [now rewrite map_length|exact HF'|].
  split; [exact E1|]. intros k Hk. cbn [spin_sum]. rewrite E2 by exact Hk.
  unfold sum_over at 2. cbn [fold_right]. f_equal. unfold at_k.
  rewrite (nth_indep _ (RtoC 0) (RtoC 0 + RtoC 0)%C) by (rewrite map_length; exact Hk).
  rewrite (map_nth (fun c => (RtoC 0 + c)%C)). apply Cplus_0_l.
Qed.

Lemma zip_with_map_combine {A B D} (f : A -> B -> D) a : forall b,
  zip_with f a b = map (fun p => f (fst p) (snd p)) (combine a b).
Proof. induction a as [|x a IH]; intros [|y b]; cbn; try reflexivity. now rewrite IH. Qed.

Lemma sum_over_map {A B} (g : A -> B) l f : sum_over (map g l) f = sum_over l (fun x => f (g x)).
Proof. unfold sum_over. induction l as [|x l IH]; cbn; [reflexivity|]. now rewrite IH. Qed.

Lemma integral_spec dv n v rho : v <> [] -> length v = length rho ->
  Forall (fun a => length a = n) v -> Forall (fun a => length a = n) rho ->
  integral_v_rho dv v rho = grid_integral dv n v rho.
Proof.
  intros Hne HL Hv Hr. unfold integral_v_rho, grid_integral. rewrite Cmult_comm. f_equal.
  rewrite zip_with_map_combine, fold_right_csum.
  assert (HIn : forall p, In p (combine v rho) -> length (fst p) = n /\ length (snd p) = n).
  { intros [a b] Hp. split; [apply in_combine_l in Hp; apply (proj1 (Forall_forall _ _) Hv a Hp)
                            |apply in_combine_r in Hp; apply (proj1 (Forall_forall _ _) Hr b Hp)]. }
  destruct (spin_sum_gen n (map (fun p => zip_with Cmult (fst p) (snd p)) (combine v rho))) as [E1 E2].
  - destruct v as [|a v]; [now destruct Hne|]. destruct rho as [|b rho]; [discriminate|]. discriminate.
  - apply Forall_forall. intros x Hx. apply in_map_iff in Hx. destruct Hx as (p & <- & Hp).
    destruct (HIn p Hp). rewrite zip_with_length. lia.
  - rewrite E1. apply csum_ext. intros i Hi. rewrite E2 by exact Hi. rewrite sum_over_map.
    apply sum_over_ext. intros p Hp. destruct (HIn p Hp). unfold at_k.
    rewrite (zip_with_nth _ _ _ _ (RtoC 0) (RtoC 0) (RtoC 0)) by lia. reflexivity.
Qed.

(** C86.  The band energy does not depend on how the k-points are divided over k-groups: it is
    the sum over all levels of weight * eigenvalue * occupation. *)
Theorem C86_band_energy : forall groups,
  total_eigen groups = real_sum (concat (concat groups)) level_energy.
Proof.
  assert (RA : forall A (a b : list A) f, real_sum (a ++ b) f = real_sum a f + real_sum b f).
  { intros A a b f. unfold real_sum. induction a as [|x a IH]; cbn; [lra|]. rewrite IH. lra. }
  assert (HB : forall w, lv_weight w * band_sum (zip_with Rmult (lv_evl w) (lv_occ w)) = level_energy w).
  { intros w. unfold level_energy, band_sum, real_sum. f_equal. rewrite zip_with_map_combine.
    induction (combine _ _) as [|p l IH]; cbn; [reflexivity|]. now rewrite IH. }
  assert (HK : forall wk, band_sum (map (fun w => lv_weight w * band_sum (zip_with Rmult (lv_evl w) (lv_occ w))) wk) = real_sum wk level_energy).
  { intros wk. unfold band_sum at 1, real_sum. induction wk as [|w wk IH]; cbn [map fold_right]; [reflexivity|]. now rewrite IH, HB. }
  assert (HG : forall g acc, fold_left (fun e wk => e + band_sum (map (fun w => lv_weight w * band_sum (zip_with Rmult (lv_evl w) (lv_occ w))) wk)) g acc
     = acc + real_sum (concat g) level_energy).
  { induction g as [|wk g IH]; intros acc; [unfold real_sum; cbn; lra|].
    cbn [fold_left concat]. rewrite IH, HK, RA. lra. }
  intros groups. unfold total_eigen. induction groups as [|g groups IH]; [reflexivity|].
  cbn [map band_sum fold_right concat]. unfold band_sum in IH. rewrite IH.
  rewrite concat_app, RA. f_equal. unfold group_eigen. rewrite HG. lra.
Qed.
Print Assumptions C86_band_energy.

Lemma v_hxc_ok n vh vxc : length vh = n -> Forall (fun a => length a = n) vxc ->
  Forall (fun a => length a = n) (v_hxc vh vxc).
Proof.
  intros H1 H2. unfold v_hxc. apply Forall_forall. intros x Hx. apply in_map_iff in Hx.
  destruct Hx as (a & <- & Ha). rewrite zip_with_length. apply (proj1 (Forall_forall _ _) H2) in Ha. lia.
Qed.

(** C86.  The total energy and the Harris-Weinert-Foulkes estimate of an iteration differ by
    the integral of the Hartree and exchange-correlation potential with the difference
    between input and output density. *)
Theorem C86_total_minus_hwf : forall dv n e_eigen e_ewald e_h e_xc smear vh vxc rho_in rho_out,
  vxc <> [] -> length rho_in = length vxc -> length rho_out = length vxc ->
  length vh = n -> Forall (fun a => length a = n) vxc ->
  Forall (fun a => length a = n) rho_in -> Forall (fun a => length a = n) rho_out ->
  let en := compute_en dv e_eigen e_ewald e_h e_xc smear vh vxc rho_in rho_out in
  en_total en - en_hwf en
  = fst (grid_integral dv n (v_hxc vh vxc) rho_in - grid_integral dv n (v_hxc vh vxc) rho_out)%C.
Proof.
  intros dv n e_eigen e_ewald e_h e_xc smear vh vxc rho_in rho_out Hne L1 L2 Hh Hx Hi Ho en.
  assert (Hne' : v_hxc vh vxc <> []) by (destruct vxc; [now destruct Hne|discriminate]).
  assert (HLv : length (v_hxc vh vxc) = length vxc) by (unfold v_hxc; now rewrite map_length).
  unfold en, compute_en.
  rewrite (integral_spec dv n _ rho_out), (integral_spec dv n _ rho_in); try assumption; try congruence; try now apply v_hxc_ok.
  destruct smear; cbn [en_total en_hwf]; cbn; ring.
Qed.
Print Assumptions C86_total_minus_hwf.

(** C86.  In the energies left by a converged iteration the total energy and the
    Harris-Weinert-Foulkes estimate coincide, whatever output density the iteration had
    produced; with smearing, the internal energy is the total energy without the smearing
    term. *)
Theorem C86_converged_energies : forall dv e_eigen e_ewald e_h e_xc smear vh vxc rho_in rho_out,
  let en := iteration_energies dv e_eigen e_ewald e_h e_xc smear vh vxc rho_in rho_out true in
  en_total en = en_hwf en
  /\ en = iteration_energies dv e_eigen e_ewald e_h e_xc smear vh vxc rho_in rho_in true
  /\ en_total en = en_one_el en + e_ewald + e_h + e_xc + smear_part smear
  /\ en_internal en = match smear with Some s => Some (en_total en - s) | None => None end.
Proof.
  intros. unfold en, iteration_energies, compute_en. destruct smear; cbn [en_total en_hwf en_one_el en_internal smear_part];
    (split; [cbn; ring|]); (split; [reflexivity|]); split; try reflexivity; ring.
Qed.
Print Assumptions C86_converged_energies.

Lemma flat_grid G f : csum (gp_n G) f = over_grid G (fun x y z => f ((x * gp_ny G + y) * gp_nz G + z)%nat).
Proof.
  unfold over_grid, gp_n. rewrite <- Nat.mul_assoc, csum_prod. apply csum_ext. intros x _.
  rewrite csum_prod. apply csum_ext. intros y _. apply csum_ext. intros z _. f_equal. lia.
Qed.

Lemma g2r_len G g h v : length (snd (full_g2r (field_fft G g h) v)) = gp_n G.
Proof.
  unfold field_fft. change (full_g2r ?o v) with (full_call o (G2R v)). rewrite full_stateless.
  rewrite GwProofs2.full_fun_g2r_length. unfold gp_n. lia.
Qed.

Lemma sum_over_combine_gen {A B} (l : list A) (m : list B) f : length l = length m ->
  sum_over (combine l m) (fun p => f (snd p)) = sum_over m f.
Proof.
  revert m. induction l as [|x l IH]; intros [|y m] H; cbn in *; try lia; try reflexivity.
  f_equal. apply IH. lia.
Qed.

(** C86.  Double counting.  If the density is real, the total energy of a converged iteration
    is band energy - Hartree energy + exchange-correlation energy - integral of v_xc rho +
    Ewald energy (+ smearing term), where the Hartree term is the one computed from the same
    density. *)
Theorem C86_double_counting : forall G g h g' h' rho fft' vh e_h vxc e_eigen e_ewald e_xc smear rho_out,
  constructed G -> is_density G rho -> length vxc = length rho -> Forall (fun a => length a = gp_n G) vxc ->
  (forall x y z, on_grid G x y z -> snd (fourier_series G (total rho) x y z) = 0) ->
  hartree G (field_fft G g h) rho = Ok (fft', vh, e_h) ->
  let rho_r := map (fun r => snd (full_g2r (field_fft G g' h') r)) rho in
  en_total (iteration_energies (gp_dv G) e_eigen e_ewald e_h e_xc smear vh vxc rho_r rho_out true)
  = e_eigen - e_h + e_xc - fst (grid_integral (gp_dv G) (gp_n G) vxc rho_r) + e_ewald + smear_part smear.
Proof.
  intros G g h g' h' rho fft' vh e_h vxc e_eigen e_ewald e_xc smear rho_out HC HD Lx Hx Hreal HH rho_r.
  destruct (C49_hartree_is_the_coulomb_sum G g h rho HC HD) as (f2 & v2 & e2 & X & Hv & Hen & _).
  rewrite HH in X. injection X as <- <- <-.
  assert (Lvh : length vh = gp_n G).
  { revert HH. unfold hartree. destruct (check_rho rho); cbn [bind]; [|discriminate].
    destruct (full_g2r (field_fft G g h) (hartree_vg G (spin_sum rho))) as [o vr] eqn:EF. intros E. injection E as _ <- _.
    pose proof (g2r_len G g h (hartree_vg G (spin_sum rho))) as L. rewrite EF in L. exact L. }
  assert (Hlen : length rho_r = length rho) by (unfold rho_r; now rewrite map_length).
  assert (HFr : Forall (fun a => length a = gp_n G) rho_r).
  { apply Forall_forall. intros x Hin. unfold rho_r in Hin. apply in_map_iff in Hin. destruct Hin as (r & <- & _). apply g2r_len. }
  assert (Hne : rho <> []) by (destruct rho; [destruct HD as [[H|H] _]; discriminate|discriminate]).
  assert (Hvne : vxc <> []) by (destruct vxc; [destruct rho; [now destruct Hne|discriminate]|discriminate]).
  assert (HI : integral_v_rho (gp_dv G) (v_hxc vh vxc) rho_r
     = (RtoC (2 * e_h) + grid_integral (gp_dv G) (gp_n G) vxc rho_r)%C).
  { rewrite (integral_spec _ (gp_n G)).
    2:{ destruct vxc; [now destruct Hvne|discriminate]. }
    2:{ unfold v_hxc. rewrite map_length. congruence. }
    2:{ now apply v_hxc_ok. }
    2:{ exact HFr. }
    unfold grid_integral.
    transitivity (RtoC (gp_dv G) * csum (gp_n G) (fun i => at_k vh i * sum_over rho_r (fun r => at_k r i)
                   + sum_over (combine vxc rho_r) (fun p => at_k (fst p) i * at_k (snd p) i)))%C.
    - f_equal. apply csum_ext. intros i Hi. unfold v_hxc.
      assert (HG : forall vx rr, length vx = length rr -> Forall (fun a => length a = gp_n G) vx ->
         sum_over (combine (map (fun v => zip_with Cplus vh v) vx) rr) (fun p => at_k (fst p) i * at_k (snd p) i)%C
         = (at_k vh i * sum_over rr (fun r => at_k r i) + sum_over (combine vx rr) (fun p => at_k (fst p) i * at_k (snd p) i))%C).
      { induction vx as [|v vx IH]; intros [|r rr] HL HFv; try discriminate HL; unfold sum_over; cbn [map combine fold_right fst snd]; [ring|].
        inversion HFv as [|? ? Hv1 HFv']; subst. unfold sum_over in IH. rewrite IH by (try assumption; now injection HL).
        assert (E : at_k (zip_with Cplus vh v) i = (at_k vh i + at_k v i)%C).
        { unfold at_k. rewrite (zip_with_nth _ _ _ _ (RtoC 0) (RtoC 0) (RtoC 0)) by lia. reflexivity. }
        rewrite E. ring. }
      apply HG; [congruence|assumption].
    - rewrite csum_plus, Cmult_plus_distr_l. f_equal.
      rewrite RtoC_mult, Hen, flat_grid.
      rewrite (over_grid_ext G _ (fun x y z => Cconj (fourier_series G (total rho) x y z) * at_point G vh x y z)%C).
      + generalize (over_grid G (fun x y z => (Cconj (fourier_series G (total rho) x y z) * at_point G vh x y z)%C)).
        intros S. apply C_ext; cbn; field.
      + intros x y z Hp. change (at_k vh ((x * gp_ny G + y) * gp_nz G + z)) with (at_point G vh x y z).
        rewrite Cmult_comm. f_equal.
        transitivity (fourier_series G (total rho) x y z).
        * unfold rho_r. rewrite sum_over_map.
          rewrite (sum_over_ext rho _ (fun r => fourier_series G (at_k r) x y z)).
          2:{ intros r Hr. change (at_k ?w ((x * gp_ny G + y) * gp_nz G + z)) with (at_point G w x y z).
              rewrite field_g2r; try assumption; [reflexivity|]. now apply (proj2 HD). }
          unfold fourier_series. rewrite sum_over_scal. f_equal.
          clear. induction rho as [|r rho IH].
          -- unfold sum_over. cbn [fold_right]. symmetry. apply csum_zero. intros i _. unfold total. cbn [fold_right]. ring.
          -- unfold sum_over. cbn [fold_right]. unfold sum_over in IH. rewrite IH, <- csum_plus. apply csum_ext. intros i _.
             unfold total. cbn [fold_right]. unfold at_k. ring.
        * specialize (Hreal x y z Hp). destruct (fourier_series G (total rho) x y z) as [a b]. cbn in Hreal. subst b.
          apply C_ext; cbn; ring. }
  unfold iteration_energies, compute_en. rewrite HI.
  destruct smear; cbn [en_total smear_part]; cbn; ring.
Qed.
Print Assumptions C86_double_counting.

(** Non-vacuity: two species (one atom and two atoms) with magnetisations 2 (clipped) and
    -1/2, of total charge 64; and a real one-channel density for C86. *)
Example C85_nonvacuous :
  exists G sps mags, constructed G /\ In (0, 0, 0)%Z (gs_cryst (gp_gs G)) /\ Forall odd_mesh sps
  /\ (length sps <= length mags)%nat /\ real_sum sps species_charge = 64
  /\ real_sum (combine sps mags) (fun p => clamp_mag (snd p) * species_charge (fst p)) = 0.
Proof.
  destruct exists_gspace as (G & HC & H0 & HS).
  set (u := MkUpf 5 INR (fun _ => 1) (fun i => INR i * INR i) (fun _ => -1) 1 false (fun _ => 0)).
  assert (Hu : composite_simpson 2 (fun i => u_rhoatom u i * u_rab u i) = 64 / 3)
    by (unfold composite_simpson; cbn; lra).
  exists G, [(u, [V 0 0 0]); (u, [V 0 0 0; V (1 / 2) 0 0])], [2; -1 / 2].
  split; [exact HC|]. split; [exact H0|]. split; [repeat constructor; exists 2%nat; reflexivity|].
  split; [cbn; lia|].
  assert (Q : forall pos, species_charge (u, pos) = INR (length pos) * (64 / 3)) by (intros pos; rewrite <- Hu; reflexivity).
  destruct (C85_clipping 2) as (_ & _ & C2 & _). destruct (C85_clipping (-1 / 2)) as (_ & C1 & _).
  unfold real_sum. cbn [fold_right combine fst snd]. rewrite !Q, C2, C1 by lra. cbn [length INR]. split; lra.
Qed.

Example C86_nonvacuous :
  constructed ex_G /\ is_density ex_G [[RtoC 3; RtoC 0; RtoC 0]]
  /\ (forall x y z, on_grid ex_G x y z -> snd (fourier_series ex_G (total [[RtoC 3; RtoC 0; RtoC 0]]) x y z) = 0)
  /\ (exists r, hartree ex_G (field_fft ex_G (MkWorker (fun _ => RtoC 0) (fun _ => RtoC 0) (fun _ => RtoC 0)) []) [[RtoC 3; RtoC 0; RtoC 0]] = Ok r)
  /\ total_eigen [[[MkLevels 2 [1; 2] [1; 0]]]; [[MkLevels 1 [3; 4] [1; 1 / 2]]]] = 7.
Proof.
  assert (HS : gp_size ex_G = 3%nat) by (unfold gp_size; cbn [gp_gs ex_G]; now rewrite ex_cryst).
  destruct C49_nonvacuous as (HC & _). split; [exact HC|].
  assert (HD : is_density ex_G [[RtoC 3; RtoC 0; RtoC 0]]).
  { split; [left; reflexivity|]. rewrite HS. intros r [<-|[]]; reflexivity. }
  split; [exact HD|]. split; [|split].
  - intros x y z _. unfold fourier_series. rewrite HS. cbn [csum].
    unfold plane_wave, gv, total. cbn [gp_gs ex_G]. rewrite ex_cryst. cbn [fold_right nth].
    match goal with |- context [cis (2 * PI * ?t)] => replace (2 * PI * t) with 0 by ring end.
    rewrite cis_0. repeat match goal with |- context [cis ?t] => generalize (cis t); intros [? ?] end.
    rewrite <- RtoC_inv; [cbn; ring|]. cbn. lra.
  - destruct (C49_hartree_is_the_coulomb_sum ex_G (MkWorker (fun _ => RtoC 0) (fun _ => RtoC 0) (fun _ => RtoC 0)) [] _ HC HD) as (a & b & c & E & _).
    eexists. exact E.
  - unfold total_eigen, group_eigen, band_sum. cbn. lra.
Qed.
