(** Lemmas about LocModel. *)
From Verif Require Import Base GIndexModel GIndexProofs LatModel LatProofs GSphereModel FFTModel FFTSpec FFTProofs FFTProofs2 PotModel PotSpec PotProofs EwaldModel EwaldSpec EwaldProofs LocModel LocSpec CBase.
Open Scope R_scope.

Lemma len_odd m : len_step2 0 (2 * m + 1 - 2) = m.
Proof. unfold len_step2. replace (2 * m + 1 - 2 - 0 + 1)%nat with (if Nat.eqb m 0 then 1 else m * 2)%nat. 2:{ destruct (Nat.eqb_spec m 0); lia. }
  destruct (Nat.eqb_spec m 0); [subst; reflexivity|]. now rewrite Nat.div_mul. Qed.
Lemma len_even m : len_step2 0 (2 * m + 2 - 2) = m.
Proof. unfold len_step2. replace (2 * m + 2 - 2 - 0 + 1)%nat with (1 + m * 2)%nat by lia. rewrite Nat.div_add by lia. reflexivity. Qed.

Lemma simpson_odd m f rab : simpson_old (2 * m + 1) f rab = composite_simpson m (fun i => f i * rab i).
Proof. unfold simpson_old, composite_simpson. rewrite len_odd, <- rsum_scal. apply rsum_ext. intros. field. Qed.
Lemma simpson_even m f rab : simpson_old (2 * m + 2) f rab = composite_simpson m (fun i => f i * rab i).
Proof. unfold simpson_old, composite_simpson. rewrite len_even, <- rsum_scal. apply rsum_ext. intros. field. Qed.

Lemma sinc_j0 j0 t : is_j0 j0 -> sinc t = j0 t.
Proof.
  intros [H0 H]. unfold sinc. destruct (Req_EM_T t 0) as [->|N]; [now symmetry|].
  rewrite <- (H t N). field. exact N.
Qed.

(** Summing with Simpson weights over 0 .. 2m. *)
Lemma even_double j : Nat.even (2 * j) = true.
Proof. apply Nat.even_spec. now exists j. Qed.
Lemma even_double1 j : Nat.even (2 * j + 1) = false.
Proof. rewrite Nat.even_add, even_double. reflexivity. Qed.
Lemma rsum_two m f : rsum (2 * m + 1) f = f 0%nat + rsum m (fun j => f (2 * j + 1)%nat + f (2 * j + 2)%nat).
Proof.
  induction m as [|m IH]; [cbn; ring|]. replace (2 * S m + 1)%nat with (S (S (2 * m + 1))) by lia.
  cbn [rsum]. rewrite IH. replace (S (2 * m + 1)) with (2 * m + 2)%nat by lia. ring.
Qed.
Definition simpson_weight (m i : nat) : R :=
  if Nat.eqb i 0 then 1 / 3 else if Nat.eqb i (2 * m) then 1 / 3 else if Nat.even i then 2 / 3 else 4 / 3.
Lemma rsum_shift2 m (y : nat -> R) : rsum m (fun j => y (2 * j)%nat) + y (2 * m)%nat = y 0%nat + rsum m (fun j => y (2 * j + 2)%nat).
Proof.
  induction m as [|m IH]; [cbn; ring|]. cbn [rsum]. replace (2 * S m)%nat with (2 * m + 2)%nat by lia. lra.
Qed.
Lemma composite_weights m y : composite_simpson m y = rsum (2 * m + 1) (fun i => y i * simpson_weight m i) - (if Nat.eqb m 0 then y 0%nat / 3 else 0).
Proof.
  destruct m as [|m].
  - cbn. unfold simpson_weight. cbn. lra.
  - replace (Nat.eqb (S m) 0) with false by reflexivity. rewrite Rminus_0_r.
    rewrite rsum_two. unfold composite_simpson.
    rewrite (rsum_ext (S m) _ (fun j => (1 / 3 * y (2 * j)%nat + 4 / 3 * y (2 * j + 1)%nat) + 1 / 3 * y (2 * j + 2)%nat)) by (intros; field).
    rewrite !rsum_plus, !rsum_scal.
    pose proof (rsum_shift2 (S m) y) as E.
    assert (E1 : rsum (S m) (fun j => y (2 * j + 1)%nat * simpson_weight (S m) (2 * j + 1)) = 4 / 3 * rsum (S m) (fun j => y (2 * j + 1)%nat)).
    { rewrite <- rsum_scal. apply rsum_ext. intros j Hj. unfold simpson_weight.
      destruct (Nat.eqb_spec (2 * j + 1) 0); [lia|]. destruct (Nat.eqb_spec (2 * j + 1) (2 * S m)); [lia|]. rewrite even_double1. ring. }
    assert (E2 : rsum (S m) (fun j => y (2 * j + 2)%nat * simpson_weight (S m) (2 * j + 2)) = 2 / 3 * rsum m (fun j => y (2 * j + 2)%nat) + 1 / 3 * y (2 * m + 2)%nat).
    { cbn [rsum]. f_equal.
      - rewrite <- rsum_scal. apply rsum_ext. intros j Hj. unfold simpson_weight.
        destruct (Nat.eqb_spec (2 * j + 2) 0); [lia|]. destruct (Nat.eqb_spec (2 * j + 2) (2 * S m)); [lia|].
        replace (2 * j + 2)%nat with (2 * (j + 1))%nat by lia. rewrite even_double. ring.
      - unfold simpson_weight. destruct (Nat.eqb_spec (2 * m + 2) 0); [lia|]. destruct (Nat.eqb_spec (2 * m + 2) (2 * S m)); [|lia]. ring. }
    rewrite E1, E2. assert (EW : simpson_weight (S m) 0 = 1 / 3) by reflexivity. rewrite EW.
    change (rsum (S m) (fun j => y (2 * j + 2)%nat)) with (rsum m (fun j => y (2 * j + 2)%nat) + y (2 * m + 2)%nat) in *.
    replace (2 * S m)%nat with (2 * m + 2)%nat in E by lia. lra.
Qed.

Lemma weight_odd m rab i : (1 <= m)%nat -> (i < 2 * m + 1)%nat -> weight (2 * m + 1) rab i = rab i * simpson_weight m i.
Proof.
  intros Hm Hi. unfold weight, simpson_weight. replace (2 * m + 1 - 1)%nat with (2 * m)%nat by lia.
  destruct (Nat.ltb_spec i (2 * m)).
  - destruct (Nat.eqb_spec i 0) as [->|]; [cbn; field|]. destruct (Nat.eqb_spec i (2 * m)); [lia|].
    destruct (Nat.even i); field.
  - assert (i = (2 * m)%nat) as -> by lia. destruct (Nat.eqb_spec (2 * m) 0); [lia|]. rewrite Nat.eqb_refl. field.
Qed.

Lemma sph2pw_odd j0 m r rab f g : is_j0 j0 -> (1 <= m)%nat ->
  sph2pw (2 * m + 1) r rab f g
  = composite_simpson m (fun i => j0 (g * r i) * f i * rab i) + j0 (g * r 0%nat) * f 0%nat * rab 0%nat / 3.
Proof.
  intros HJ Hm. unfold sph2pw. rewrite composite_weights. destruct (Nat.eqb_spec m 0); [lia|].
  rewrite (rsum_ext (2 * m + 1) _ (fun i => j0 (g * r i) * f i * rab i * simpson_weight m i)).
  2:{ intros i Hi. rewrite weight_odd, (sinc_j0 j0) by assumption. ring. }
  rewrite weight_odd, (sinc_j0 j0) by (assumption || lia). unfold simpson_weight at 1. cbn [Nat.eqb]. lra.
Qed.

(** *** Structure factor *)
Lemma conj_plus (a b : C) : Cconj (a + b)%C = (Cconj a + Cconj b)%C.
Proof. apply C_ext; cbn; ring. Qed.
Lemma sp_struct_fac_spec pos g : sp_struct_fac pos (gvec g) = sfac pos g.
Proof.
  unfold sp_struct_fac, sfac.
  assert (H : forall acc, fold_left (fun a r => a + cis (-2 * PI * vdot r (gvec g)))%C pos acc
     = (acc + fold_right (fun r a => cis (- (2 * PI * vdot (gvec g) r)) + a)%C (RtoC 0) pos)%C).
  { induction pos as [|r pos IH]; intros acc; [cbn [fold_left fold_right]; ring|]. cbn [fold_left fold_right]. rewrite IH.
    replace (-2 * PI * vdot r (gvec g)) with (- (2 * PI * vdot (gvec g) r)) by (unfold vdot; ring). ring. }
  rewrite H. ring.
Qed.
Lemma sfac_perm pos pos' g : Permutation pos pos' -> sfac pos g = sfac pos' g.
Proof.
  unfold sfac. induction 1; cbn [fold_right]; [reflexivity| | |].
  - now rewrite IHPermutation.
  - ring.
  - congruence.
Qed.
Lemma sfac_shift t pos g : sfac (map (fun r => vadd r t) pos) g = (cis (- (2 * PI * vdot (gvec g) t)) * sfac pos g)%C.
Proof.
  unfold sfac. induction pos as [|r pos IH]; [cbn [map fold_right]; ring|]. cbn [map fold_right]. rewrite IH.
  replace (- (2 * PI * vdot (gvec g) (vadd r t))) with (- (2 * PI * vdot (gvec g) t) + - (2 * PI * vdot (gvec g) r)).
  - rewrite cis_plus. ring.
  - unfold vdot, vadd. cbn [vx vy vz]. ring.
Qed.
Lemma sfac_zero pos : sfac pos (0, 0, 0)%Z = RtoC (INR (length pos)).
Proof.
  unfold sfac. induction pos as [|r pos IH]; [reflexivity|]. cbn [fold_right length]. rewrite IH, S_INR.
  replace (- (2 * PI * vdot (gvec (0, 0, 0)%Z) r)) with 0 by (unfold vdot, gvec; cbn [vx vy vz]; ring).
  rewrite cis_0, RtoC_plus. ring.
Qed.
Lemma sfac_opp pos g : sfac pos (vopp3 g) = Cconj (sfac pos g).
Proof.
  unfold sfac. induction pos as [|r pos IH]; cbn [fold_right]; [apply C_ext; cbn; ring|]. rewrite IH, conj_plus, cis_conj. f_equal. f_equal.
  destruct g as [[a b] c]. unfold vopp3, vdot, gvec. cbn [vx vy vz]. rewrite !opp_IZR. ring.
Qed.
Lemma sfac_lattice_shift n pos g : sfac (map (fun r => vadd r (gvec n)) pos) g = sfac pos g.
Proof.
  rewrite sfac_shift. destruct g as [[a b] c], n as [[n1 n2] n3].
  replace (- (2 * PI * vdot (gvec (a, b, c)) (gvec (n1, n2, n3)))) with (2 * PI * IZR (- (a * n1 + b * n2 + c * n3))).
  - rewrite cis_2PI_Z. ring.
  - unfold vdot, gvec. cbn [vx vy vz]. rewrite opp_IZR, !plus_IZR, !mult_IZR. ring.
Qed.

Lemma gnorm_glen G k : (exists P, mk_lattice P = Ok (gp_lat G)) -> gnorm G k = glen G k.
Proof. intros H. unfold gnorm, glen. now rewrite gp_norm2_sq. Qed.

Lemma map_seq_nth {A} n (f : nat -> A) d k : (k < n)%nat -> nth k (map f (seq 0 n)) d = f k.
Proof.
  intros H. rewrite (nth_indep _ _ (f 0%nat)) by (rewrite map_length, seq_length; exact H).
  rewrite (map_nth f), seq_nth by exact H. reflexivity.
Qed.

(** The radial factor of the superposed atomic density, as a function of the G-vector. *)
Definition rho_radial (G : gsp) (u : upf) (g : vec3) : R :=
  if is_zero g then simpson_old (u_n u) (u_rhoatom u) (u_rab u)
  else sph2pw (u_n u) (u_r u) (u_rab u) (u_rhoatom u) (sqrt (let w := cryst2cart (gp_lat G) (gvec g) in vdot w w)).
Lemma rhoatomic_nth G u pos k : constructed G -> (k < gp_size G)%nat ->
  nth k (rhoatomic G u pos) (RtoC 0) = (RtoC (rho_radial G u (gv G k)) * (sfac pos (gv G k) / RtoC (gp_dv G)))%C.
Proof.
  intros HC Hk. unfold rhoatomic. rewrite map_seq_nth by exact Hk.
  unfold at_g0. rewrite g0_index by assumption. rewrite gnorm_glen by apply HC.
  unfold gvec_at. rewrite sp_struct_fac_spec. reflexivity.
Qed.
Lemma vopp3_zero g : is_zero (vopp3 g) = is_zero g.
Proof. destruct g as [[a b] c]. unfold is_zero, vopp3. f_equal; [f_equal|]; lia. Qed.
Lemma rho_radial_opp G u g : rho_radial G u (vopp3 g) = rho_radial G u g.
Proof.
  unfold rho_radial. rewrite vopp3_zero. destruct (is_zero g); [reflexivity|]. f_equal. f_equal.
  destruct g as [[a b] c]. unfold cryst2cart, vopp3, gvec, mv, vadd, vscale, vdot. cbv zeta. cbn [vx vy vz]. rewrite !opp_IZR. ring.
Qed.
Lemma gp_dv_neq G : constructed G -> gp_dv G <> 0.
Proof.
  intros ([P HL] & gs & H). destruct (gspace_idx _ _ _ gs (gp_gs G) H) as (_ & _ & _ & P1 & P2 & P3 & _).
  unfold gp_dv, gp_cellvol. pose proof PI_RGT_0.
  assert (0 < INR (gp_n G)) by (apply lt_0_INR; unfold gp_n; nia).
  assert (0 < cellvol (gp_lat G)) by apply (cellvol_metric P _ HL).
  apply Rgt_not_eq. unfold TPI. apply Rdiv_lt_0_compat; [apply Rdiv_lt_0_compat|]; try assumption.
  assert (0 < 2 * PI) by lra. generalize dependent (2 * PI). intros t Ht. apply Rmult_lt_0_compat; [apply Rmult_lt_0_compat|]; exact Ht.
Qed.

(** The sum of a function over a set of G-vectors closed under negation. *)
Definition vsum (l : list vec3) (f : vec3 -> C) : C := fold_right (fun g acc => f g + acc)%C (RtoC 0) l.
Lemma vsum_perm l l' f : Permutation l l' -> vsum l f = vsum l' f.
Proof. unfold vsum. induction 1; cbn [fold_right]; [reflexivity|now rewrite IHPermutation|ring|congruence]. Qed.
Lemma vsum_map h l f : vsum (map h l) f = vsum l (fun g => f (h g)).
Proof. unfold vsum. induction l as [|x l IH]; [reflexivity|]. cbn [map fold_right]. now rewrite IH. Qed.
Lemma vsum_conj l f : Cconj (vsum l f) = vsum l (fun g => Cconj (f g)).
Proof. unfold vsum. induction l as [|x l IH]; cbn [fold_right]; [apply C_ext; cbn; ring|]. now rewrite conj_plus, IH. Qed.
Lemma vsum_ext l f g : (forall x, In x l -> f x = g x) -> vsum l f = vsum l g.
Proof. unfold vsum. induction l as [|x l IH]; intros H; cbn [fold_right]; [reflexivity|]. rewrite (H x) by now left. f_equal. apply IH. intros y Hy. apply H. now right. Qed.
Lemma vopp3_invol g : vopp3 (vopp3 g) = g.
Proof. destruct g as [[a b] c]. cbn. now rewrite !Z.opp_involutive. Qed.
Lemma symmetric_perm (l : list vec3) : NoDup l -> (forall g, In g l -> In (vopp3 g) l) -> Permutation (map vopp3 l) l.
Proof.
  intros ND H. apply NoDup_Permutation.
  - apply FinFun.Injective_map_NoDup; [|exact ND]. intros a b E. rewrite <- (vopp3_invol a), <- (vopp3_invol b). now rewrite E.
  - exact ND.
  - intros g. rewrite in_map_iff. split; [intros (x & <- & Hx); now apply H|].
    intros Hg. exists (vopp3 g). split; [apply vopp3_invol|now apply H].
Qed.
