(** Lemmas about XcModel. *)
From Coquelicot Require Import Coquelicot.
From Verif Require Import Base GIndexModel GIndexProofs LatModel LatProofs GSphereModel FFTModel FFTSpec FFTProofs FFTProofs2 PotModel PotSpec PotProofs EwaldModel EwaldSpec EwaldProofs LocModel LocSpec LocProofs KSHamProofs XcModel XcSpec CBase.
Open Scope R_scope.

(** *** The grid as a flat index *)
Definition flat (G : gsp) (x y z : nat) : nat := ((x * gp_ny G + y) * gp_nz G + z)%nat.
Lemma over_grid_flat G F : over_grid G (fun x y z => F (flat G x y z)) = csum (gp_n G) F.
Proof.
  unfold over_grid, gp_n, flat. rewrite csum_prod.
  rewrite (csum_prod (gp_nx G) (gp_ny G) (fun i => csum (gp_nz G) (fun j => F (i * gp_nz G + j)%nat))). reflexivity.
Qed.
Lemma unflat G p : (p < gp_n G)%nat -> exists x y z, on_grid G x y z /\ p = flat G x y z.
Proof.
  intros H. unfold gp_n in H.
  assert (0 < gp_ny G)%nat by (destruct (gp_ny G); lia). assert (0 < gp_nz G)%nat by (destruct (gp_nz G); lia).
  exists (p / gp_nz G / gp_ny G)%nat, ((p / gp_nz G) mod gp_ny G)%nat, (p mod gp_nz G)%nat. split; [split; [|split]|].
  - apply Nat.div_lt_upper_bound; [lia|]. apply Nat.div_lt_upper_bound; [lia|]. nia.
  - apply Nat.mod_upper_bound. lia.
  - apply Nat.mod_upper_bound. lia.
  - unfold flat. rewrite (Nat.div_mod p (gp_nz G)) at 1 by lia. rewrite (Nat.div_mod (p / gp_nz G) (gp_ny G)) at 1 by lia.
    rewrite (Nat.mul_comm (gp_ny G)). rewrite (Nat.mul_comm (gp_nz G)). reflexivity.
Qed.

(** *** Lengths *)
Lemma grad1_length G v c : length (grad1 G v c) = length v.
Proof. unfold grad1. now rewrite map_length, seq_length. Qed.
Lemma div1_length G h : length (div1 G h) = gp_size G.
Proof. unfold div1. now rewrite map_length, seq_length. Qed.

(** *** Values at grid points *)
Lemma to_r_value G g h v x y z : constructed G -> length v = gp_size G -> on_grid G x y z ->
  nth (flat G x y z) (to_r (field_fft G g h) v) (RtoC 0) = value G v x y z.
Proof. intros. unfold to_r. now apply field_g2r. Qed.
Lemma grad_r_value G g h v c x y z : constructed G -> length v = gp_size G -> on_grid G x y z ->
  nth (flat G x y z) (grad_r G (field_fft G g h) v c) (RtoC 0) = gradient G v c x y z.
Proof.
  intros HC Hl Hp. unfold grad_r. rewrite to_r_value by (rewrite ?grad1_length; assumption).
  unfold value, gradient, fourier_series. f_equal. apply csum_ext. intros k Hk. f_equal.
  unfold grad1. rewrite map_seq_nth by congruence. unfold gp_cart, gv. ring.
Qed.

(** *** Index of a G-vector *)
Lemma vec3_dec (a b : vec3) : {a = b} + {a <> b}.
Proof. repeat decide equality. Qed.
Fixpoint index_of (g : vec3) (l : list vec3) : nat :=
  match l with [] => 0%nat | a :: r => if vec3_dec a g then 0%nat else S (index_of g r) end.
Lemma index_of_in g l d : In g l -> (index_of g l < length l)%nat /\ nth (index_of g l) l d = g.
Proof.
  induction l as [|a l IH]; [easy|]. intros H. cbn [index_of length]. destruct (vec3_dec a g) as [->|N]; [split; [lia|reflexivity]|].
  destruct H as [->|H]; [contradiction|]. destruct (IH H) as [A B]. split; [lia|exact B].
Qed.
Lemma index_of_nth l k d : NoDup l -> (k < length l)%nat -> index_of (nth k l d) l = k.
Proof.
  intros ND H. assert (HI : In (nth k l d) l) by now apply nth_In.
  destruct (index_of_in _ _ d HI) as [A B]. apply (proj1 (NoDup_nth l d) ND); assumption.
Qed.
Lemma gs_nodup G : constructed G -> NoDup (gs_cryst (gp_gs G)).
Proof.
  intros (_ & gs & H). apply gspace_base_spec in H as (P & ND & _). eapply Permutation_NoDup; [symmetry; exact P|exact ND].
Qed.

(** A Fourier series with conjugate coefficients at G and -G is real. *)
Lemma series_real G (f : nat -> C) x y z : constructed G -> symmetric G ->
  (forall k k', (k < gp_size G)%nat -> (k' < gp_size G)%nat -> gv G k' = vopp3 (gv G k) -> f k' = Cconj (f k)) ->
  snd (fourier_series G f x y z) = 0.
Proof.
  intros HC HS HF. pose proof (gs_nodup G HC) as ND.
  set (term := fun w : vec3 => (f (index_of w (gs_cryst (gp_gs G))) * plane_wave (gp_nx G) (gp_ny G) (gp_nz G) w x y z)%C).
  assert (E : fourier_series G f x y z = (/ RtoC (INR (gp_n G)) * vsum (gs_cryst (gp_gs G)) term)%C).
  { unfold fourier_series. f_equal. unfold vsum. rewrite (fold_right_csum _ (0, 0, 0)%Z). apply csum_ext. intros k Hk.
    unfold term. rewrite index_of_nth by assumption. reflexivity. }
  rewrite E. clear E.
  assert (EV : Cconj (vsum (gs_cryst (gp_gs G)) term) = vsum (gs_cryst (gp_gs G)) term).
  { rewrite vsum_conj. rewrite <- (vsum_perm _ _ term (symmetric_perm _ ND HS)). rewrite vsum_map. apply vsum_ext. intros w Hw.
    unfold term. rewrite Cmult_conj. f_equal.
    - symmetry. destruct (index_of_in w _ (0, 0, 0)%Z Hw) as [A B]. destruct (index_of_in (vopp3 w) _ (0, 0, 0)%Z (HS w Hw)) as [A' B'].
      apply HF; [exact A|exact A'|]. unfold gv. now rewrite B, B'.
    - destruct w as [[a b] c]. unfold plane_wave, vopp3. rewrite cis_conj. f_equal. rewrite !opp_IZR. ring. }
  assert (EI : snd (vsum (gs_cryst (gp_gs G)) term) = 0).
  { apply (f_equal snd) in EV. cbn [Cconj snd] in EV. lra. }
  rewrite <- RtoC_inv.
  - unfold Cmult, RtoC. cbn [fst snd]. rewrite EI. ring.
  - destruct HC as (_ & gs & H). destruct (gspace_idx _ _ _ gs (gp_gs G) H) as (_ & _ & _ & P1 & P2 & P3 & _).
    apply not_0_INR. unfold gp_n. nia.
Qed.
Lemma cart_opp L g : cryst2cart L (gvec (vopp3 g)) = vscale (-1) (cryst2cart L (gvec g)).
Proof.
  destruct g as [[a b] c]. unfold cryst2cart, vopp3, gvec, mv, vadd, vscale. cbn [vx vy vz]. rewrite !opp_IZR. apply V_ext; ring.
Qed.
Lemma rcomp_scale t v c : rcomp (vscale t v) c = t * rcomp v c.
Proof. unfold rcomp, vscale. destruct c as [|[|c]]; reflexivity. Qed.
Lemma value_real G v x y z : constructed G -> symmetric G -> hermitian G v -> snd (value G v x y z) = 0.
Proof. intros HC HS HV. apply series_real; assumption. Qed.
Lemma gradient_real G v c x y z : constructed G -> symmetric G -> hermitian G v -> snd (gradient G v c x y z) = 0.
Proof.
  intros HC HS HV. apply series_real; try assumption. intros k k' Hk Hk' E. rewrite (HV k k' Hk Hk' E), E, cart_opp, rcomp_scale, !Cmult_conj.
  replace (-1 * rcomp (cryst2cart (gp_lat G) (gvec (gv G k))) c) with (- rcomp (cryst2cart (gp_lat G) (gvec (gv G k))) c) by ring.
  generalize (rcomp (cryst2cart (gp_lat G) (gvec (gv G k))) c). intros t. f_equal. apply C_ext; cbn; ring.
Qed.

(** *** Linearity *)
Lemma series_lin G f1 f2 t x y z :
  fourier_series G (fun k => f1 k + RtoC t * f2 k)%C x y z = (fourier_series G f1 x y z + RtoC t * fourier_series G f2 x y z)%C.
Proof.
  unfold fourier_series. 
  rewrite (csum_ext _ _ (fun k => f1 k * plane_wave (gp_nx G) (gp_ny G) (gp_nz G) (gv G k) x y z
     + RtoC t * (f2 k * plane_wave (gp_nx G) (gp_ny G) (gp_nz G) (gv G k) x y z))%C) by (intros; ring).
  rewrite csum_plus, csum_scal. ring.
Qed.
Lemma perturbed_nth rho d t s k : (s < length rho)%nat -> (k < length (nth s rho []))%nat ->
  nth k (nth s (perturbed rho d t) []) (RtoC 0) = (nth k (nth s rho []) (RtoC 0) + RtoC t * nth k (nth s d []) (RtoC 0))%C.
Proof. intros Hs Hk. unfold perturbed. rewrite map_seq_nth by exact Hs. rewrite map_seq_nth by exact Hk. reflexivity. Qed.
Lemma perturbed_length rho d t : length (perturbed rho d t) = length rho.
Proof. unfold perturbed. now rewrite map_length, seq_length. Qed.
Lemma perturbed_channels G rho d t : channels G rho -> channels G (perturbed rho d t).
Proof.
  intros [HL HE]. split; [rewrite perturbed_length; exact HL|].
  intros r Hr. unfold perturbed in Hr. apply in_map_iff in Hr as (s & <- & Hs). apply in_seq in Hs.
  rewrite map_length, seq_length. apply HE. apply nth_In. lia.
Qed.
Lemma channels_len G rho s : channels G rho -> (s < length rho)%nat -> length (nth s rho []) = gp_size G.
Proof. intros [_ H] Hs. apply H. now apply nth_In. Qed.
Lemma perturbed_value G rho d t s x y z : channels G rho -> (s < length rho)%nat ->
  value G (nth s (perturbed rho d t) []) x y z = (value G (nth s rho []) x y z + RtoC t * value G (nth s d []) x y z)%C.
Proof.
  intros HR Hs. unfold value. rewrite <- series_lin. unfold fourier_series. f_equal. apply csum_ext. intros k Hk. f_equal.
  apply perturbed_nth; [exact Hs|]. now rewrite (channels_len G).
Qed.
Lemma perturbed_gradient G rho d t s c x y z : channels G rho -> (s < length rho)%nat ->
  gradient G (nth s (perturbed rho d t) []) c x y z = (gradient G (nth s rho []) c x y z + RtoC t * gradient G (nth s d []) c x y z)%C.
Proof.
  intros HR Hs. unfold gradient. rewrite <- series_lin. unfold fourier_series. f_equal. apply csum_ext. intros k Hk. f_equal.
  rewrite perturbed_nth; [ring|exact Hs|]. now rewrite (channels_len G).
Qed.

(** *** Integration by parts *)
Lemma inner_grid G g h (f : list C) (w : nat -> C) : constructed G ->
  over_grid G (fun x y z => at_point G f x y z * Cconj (fourier_series G w x y z))%C
  = (/ RtoC (INR (gp_n G)) * csum (gp_size G) (fun k => nth k (to_g (field_fft G g h) f) (RtoC 0) * Cconj (w k)))%C.
Proof.
  intros HC.
  assert (HN : INR (gp_n G) <> 0).
  { destruct HC as (_ & gs & H). destruct (gspace_idx _ _ _ gs (gp_gs G) H) as (_ & _ & _ & P1 & P2 & P3 & _).
    apply not_0_INR. unfold gp_n. nia. }
  rewrite (over_grid_ext G _ (fun x y z => / RtoC (INR (gp_n G)) * csum (gp_size G) (fun k => Cconj (w k) *
     (at_point G f x y z * Cconj (plane_wave (gp_nx G) (gp_ny G) (gp_nz G) (gv G k) x y z))))%C).
  2:{ intros x y z _. unfold fourier_series. fold (gp_n G). rewrite Cmult_conj, csum_conj.
      replace (Cconj (/ RtoC (INR (gp_n G)))%C) with (/ RtoC (INR (gp_n G)))%C.
      2:{ rewrite <- RtoC_inv by exact HN. apply C_ext; cbn; ring. }
      rewrite (csum_ext _ (fun k => Cconj (w k) * (at_point G f x y z * Cconj (plane_wave (gp_nx G) (gp_ny G) (gp_nz G) (gv G k) x y z)))%C
        (fun k => at_point G f x y z * Cconj (w k * plane_wave (gp_nx G) (gp_ny G) (gp_nz G) (gv G k) x y z))%C) by (intros; rewrite Cmult_conj; ring).
      rewrite csum_scal. ring. }
  rewrite over_grid_scal, over_grid_csum. f_equal. apply csum_ext. intros k Hk.
  rewrite over_grid_scal, <- (field_r2g G g h) by assumption. unfold to_g. ring.
Qed.
Lemma by_parts G g h (hf : nat -> list C) d : constructed G -> length d = gp_size G ->
  over_grid G (fun x y z => csum 3 (fun c => at_point G (hf c) x y z * Cconj (gradient G d c x y z)))%C
  = (- over_grid G (fun x y z => at_point G (to_r (field_fft G g h) (div1 G (fun c => to_g (field_fft G g h) (hf c)))) x y z * Cconj (value G d x y z)))%C.
Proof.
  intros HC Hd. rewrite over_grid_csum.
  rewrite (csum_ext 3 _ (fun c => / RtoC (INR (gp_n G)) * csum (gp_size G) (fun k => nth k (to_g (field_fft G g h) (hf c)) (RtoC 0)
     * Cconj (Ci * RtoC (rcomp (cryst2cart (gp_lat G) (gvec (gv G k))) c) * nth k d (RtoC 0))))%C).
  2:{ intros c _. unfold gradient. now apply inner_grid. }
  unfold value. rewrite (inner_grid G g h) by exact HC. rewrite csum_scal, csum_swap.
  unfold to_g at 2, to_r. rewrite field_roundtrip by (try assumption; apply div1_length).
  assert (OPP : forall a b : C, (- (a * b) = a * (- b))%C) by (intros; ring).
  rewrite OPP. f_equal.
  assert (E : forall n f, (- csum n f = csum n (fun k => - f k))%C) by (intros n f; induction n as [|n IH]; cbn [csum]; [ring|rewrite <- IH; ring]).
  rewrite E. apply csum_ext. intros k Hk. unfold div1. rewrite map_seq_nth by exact Hk.
  rewrite OPP, <- csum_scal_r. apply csum_ext. intros c _. unfold gp_cart, gv. rewrite !Cmult_conj.
  generalize (rcomp (cryst2cart (gp_lat G) (gvec (nth k (gs_cryst (gp_gs G)) (0, 0, 0)%Z))) c). intros r.
  replace (Cconj Ci) with (- Ci)%C by (apply C_ext; cbn; ring). replace (Cconj (RtoC r)) with (RtoC r) by (apply C_ext; cbn; ring). ring.
Qed.

(** *** Derivatives *)
Lemma derivable_pt_lim_local f1 f2 l eps : 0 < eps -> (forall t, Rabs t < eps -> f1 t = f2 t) ->
  derivable_pt_lim f1 0 l -> derivable_pt_lim f2 0 l.
Proof.
  intros He HE HD e He'. destruct (HD e He') as [del Hdel].
  assert (P : 0 < Rmin del eps) by (apply Rmin_pos; [apply cond_pos|exact He]).
  exists (mkposreal _ P). intros t Ht Hlt. cbn [pos] in Hlt.
  rewrite <- !HE.
  - apply Hdel; [exact Ht|]. eapply Rlt_le_trans; [exact Hlt|apply Rmin_l].
  - rewrite Rabs_R0. exact He.
  - rewrite Rplus_0_l. eapply Rlt_le_trans; [exact Hlt|apply Rmin_r].
Qed.
Lemma derivable_pt_lim_rsum n (f : nat -> R -> R) (f' : nat -> R) :
  (forall i, (i < n)%nat -> derivable_pt_lim (f i) 0 (f' i)) -> derivable_pt_lim (fun t => rsum n (fun i => f i t)) 0 (rsum n f').
Proof.
  induction n as [|n IH]; intros H; cbn [rsum].
  - apply derivable_pt_lim_const.
  - apply (derivable_pt_lim_plus (fun t => rsum n (fun i => f i t)) (f n)); [apply IH; intros; apply H; lia|apply H; lia].
Qed.
Lemma derivable_pt_lim_eq f1 f2 x l : (forall t, f1 t = f2 t) -> derivable_pt_lim f1 x l -> derivable_pt_lim f2 x l.
Proof. intros E H e He. destruct (H e He) as [d Hd]. exists d. intros t. rewrite <- !E. apply Hd. Qed.
Lemma derive_affine a b : derivable_pt_lim (fun t => a + t * b) 0 b.
Proof. apply is_derive_Reals. auto_derive; [trivial|ring]. Qed.
Lemma derive_quad a b c : derivable_pt_lim (fun t => a + t * b + t * t * c) 0 b.
Proof. apply is_derive_Reals. auto_derive; [trivial|ring]. Qed.
Lemma positive_near a b : 0 < a -> exists eps, 0 < eps /\ forall t, Rabs t < eps -> 0 < a + t * b.
Proof.
  intros Ha. exists (a / (Rabs b + 1)). pose proof (Rabs_pos b).
  split; [apply Rdiv_lt_0_compat; lra|]. intros t Ht.
  assert (Rabs (t * b) < a).
  { rewrite Rabs_mult. apply Rle_lt_trans with (Rabs t * (Rabs b + 1)); [pose proof (Rabs_pos t); nra|].
    apply Rmult_lt_reg_r with (/ (Rabs b + 1)); [apply Rinv_0_lt_compat; lra|]. rewrite Rmult_assoc, Rinv_r by lra. unfold Rdiv in Ht. lra. }
  apply Rabs_def2 in H0. lra.
Qed.
Lemma Cmod_real (c : C) : snd c = 0 -> Cmod c = Rabs (fst c).
Proof. intros H. destruct c as [a b]. cbn [snd] in H. subst b. apply Cmod_R. Qed.
