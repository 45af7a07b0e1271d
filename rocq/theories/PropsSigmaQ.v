(** Properties of the plane-wave matrix elements and the -q bookkeeping of gw/sigma.py. *)
From Coq Require Import Reals Lra Lia Permutation.
From Coquelicot Require Import Coquelicot.
From Verif Require Import Base SortModel SortProofs LatModel LatProofs GIndexModel GIndexProofs FFTModel FFTSpec FFTProofs FFTProofs2 GwModel GwSpec GwProofs GwProofs2 NlocSpec NlocProofs WfnIOProofs PropsUpf PropsGw PropsVcoul SigmaModel SigmaProofs PropsSigma CBase.
Open Scope R_scope.

(** ================= C77: matrix elements and the map to -q ================= *)
Lemma vnrm_nonneg v : 0 <= vnrm v. Proof. apply sqrt_pos. Qed.
Lemma vnrm_zero v : vnrm v = 0 -> v = V 0 0 0.
Proof.
  unfold vnrm, vdot. destruct v as [a b c]. cbn [vx vy vz]. intros H. apply sqrt_eq_0 in H; [|nra]. assert (a * a = 0 /\ b * b = 0 /\ c * c = 0) as (A & B & D) by (repeat split; nra).
  f_equal; nra.
Qed.
Lemma vnrm_0 : vnrm (V 0 0 0) = 0.
Proof. unfold vnrm, vdot. cbn [vx vy vz]. replace (0 * 0 + 0 * 0 + 0 * 0) with 0 by ring. apply sqrt_0. Qed.
Lemma vsub_zero a b : vsub a b = V 0 0 0 -> a = b.
Proof. destruct a, b. unfold vsub. cbn. intros H. injection H as H1 H2 H3. f_equal; lra. Qed.
Lemma vsub_self a : vsub a a = V 0 0 0.
Proof. destruct a. unfold vsub. cbn. f_equal; ring. Qed.
(** The nearest element is the target itself when the target is in the list; it is its first occurrence. *)
Lemma nearest_exact {A} (f : A -> rvec) (l : list A) (t : rvec) k : argmin (map (fun x => vnrm (vsub (f x) t)) l) = Ok k ->
  (exists x, In x l /\ f x = t) ->
  exists x, nth_error l k = Some x /\ f x = t /\ forall i y, (i < k)%nat -> nth_error l i = Some y -> f y <> t.
Proof.
  intros H (x & Hx & Ex). apply argmin_spec in H as (H1 & H2 & H3). rewrite map_length in H1, H2.
  apply In_nth_error in Hx as (i & Hi). assert (Li : (i < length l)%nat) by (apply nth_error_Some; congruence).
  assert (Nth : forall i y, nth_error l i = Some y -> nth i (map (fun x => vnrm (vsub (f x) t)) l) 0 = vnrm (vsub (f y) t)).
  { intros i' y Hy. apply nth_error_nth. now apply (map_nth_error (fun x => vnrm (vsub (f x) t))). }
  destruct (nth_error l k) as [y|] eqn:Ek; [|apply nth_error_None in Ek; lia].
  specialize (H2 i Li). rewrite (Nth k y Ek), (Nth i x Hi), Ex, vsub_self, vnrm_0 in H2. assert (vnrm (vsub (f y) t) = 0) by (assert (N := vnrm_nonneg (vsub (f y) t)); lra).
  assert (Ey : f y = t) by now apply vsub_zero, vnrm_zero. exists y. split; [reflexivity|]. split; [exact Ey|].
  intros j z Hj Hz Ez. specialize (H3 j Hj). rewrite (Nth k y Ek), (Nth j z Hz), Ey, Ez in H3. lra.
Qed.
Lemma argmin_total {A} (f : A -> R) (l : list A) : l <> [] -> exists k, argmin (map f l) = Ok k.
Proof.
  induction l as [|a l IH]; [easy|]. intros _. cbn [map argmin]. destruct l as [|b l]; [cbn; eexists; reflexivity|].
  destruct IH as [k IH]; [easy|]. rewrite IH. destruct (rltb _ _); eexists; reflexivity.
Qed.
(** [x] is zero or larger than the tolerance: the components a q-point of a mesh coarser than 1e5 has. *)
Definition clean (x : R) : Prop := x = 0 \/ / 10 ^ 5 < Rabs x.
Definition is_integer (x : R) : Prop := exists n : Z, x = IZR n.
Lemma tol_pos : 0 < tol. Proof. unfold tol. apply Rinv_0_lt_compat. lra. Qed.
(** A q-point whose opposite, brought back into the unit cell, is in the list: the method returns the first position where the
    opposite stands, and the two points add up to a reciprocal lattice vector. *)
Theorem C77_minus_q_found : forall qs iq0 i q, nth_error qs i = Some q -> i <> iq0 -> / 10 ^ 5 <= vnrm q ->
  clean (vx q) -> clean (vy q) -> clean (vz q) ->
  (exists q', In q' qs /\ forall x y, In (x, y) [(vx q, vx q'); (vy q, vy q'); (vz q, vz q')] -> y = (if Req_EM_T x 0 then 0 else 1 - x)) ->
  exists k q', index_minusq qs iq0 i = Ok k /\ nth_error qs k = Some q' /\
    is_integer (vx q + vx q') /\ is_integer (vy q + vy q') /\ is_integer (vz q + vz q') /\
    forall j, (j < k)%nat -> nth_error qs j <> Some q'.
Proof.
  intros qs iq0 i q Hi Hn Hq Cx Cy Cz (q' & Iq & Eq).
  assert (M : forall x, clean x -> minus1 x = if Req_EM_T x 0 then 0 else 1 - x).
  { intros x Hx. unfold minus1. destruct (Req_EM_T x 0) as [->|N].
    - replace (rltb tol (Rabs 0)) with false; [reflexivity|]. symmetry. apply not_true_iff_false. rewrite rltb_iff, Rabs_R0. assert (T := tol_pos). lra.
    - replace (rltb tol (Rabs x)) with true; [reflexivity|]. symmetry. apply rltb_iff. unfold tol. destruct Hx; [contradiction|assumption]. }
  assert (Et : q' = minusq_target q).
  { unfold minusq_target. rewrite !M by assumption. destruct q' as [a b c]. cbn [vx vy vz] in Eq. f_equal; apply Eq; cbn; auto. }
  unfold index_minusq, item. rewrite Hi. cbn [bind]. replace (rltb (vnrm q) tol) with false.
  2:{ symmetry. apply not_true_iff_false. rewrite rltb_iff. unfold tol. lra. }
  replace ((iq0 =? i)%nat) with false by (symmetry; apply Nat.eqb_neq; auto). cbn [orb].
  destruct (argmin_total (fun l => vnrm (vsub l (minusq_target q))) qs) as [k Hk]; [intros ->; destruct i; discriminate|].
  exists k, q'. split; [exact Hk|].
  destruct (nearest_exact (fun x => x) qs (minusq_target q) k Hk) as (x & E1 & E2 & E3); [exists q'; auto|]. cbn in E2. subst x. rewrite Et. split; [exact E1|].
  assert (I : forall x, clean x -> is_integer (x + minus1 x)).
  { intros x Hx. rewrite (M x Hx). destruct (Req_EM_T x 0) as [->|]; [exists 0%Z|exists 1%Z]; lra. }
  unfold minusq_target at 1 2 3. cbn [vx vy vz]. repeat split; auto. intros j Hj Ej. now apply (E3 j _ Hj Ej).
Qed.
Print Assumptions C77_minus_q_found.
Lemma rltb_f a b : b <= a -> rltb a b = false.
Proof. intros H. apply not_true_iff_false. rewrite rltb_iff. lra. Qed.
Lemma rltb_t a b : a < b -> rltb a b = true.
Proof. apply rltb_iff. Qed.

(** REFUTED for q-points given in [-1/2, 1/2): on the line 0, 1/4, -1/2, -1/4 the opposite of 1/4 is in the list, but the
    method returns the position of 1/4 itself. *)
Definition line4 : list rvec := [V 0 0 0; V (1 / 4) 0 0; V (- 1 / 2) 0 0; V (- 1 / 4) 0 0].
Lemma vnrm_x x : vnrm (V x 0 0) = Rabs x.
Proof. unfold vnrm, vdot. cbn [vx vy vz]. replace (x * x + 0 * 0 + 0 * 0) with (Rsqr x) by (unfold Rsqr; ring). apply sqrt_Rsqr_abs. Qed.
Theorem C77_minus_q_wrapped_refuted : index_minusq line4 0 1 = Ok 1%nat /\ nth_error line4 1 = Some (V (1 / 4) 0 0) /\ In (V (- (1 / 4)) 0 0) line4.
Proof.
  assert (T : tol < 1 / 10) by (unfold tol; apply Rmult_lt_reg_r with (10 ^ 5); [lra|]; rewrite Rinv_l by lra; lra). assert (T0 := tol_pos).
  split; [|split; [reflexivity|right; right; right; left; f_equal; lra]].
  unfold index_minusq, item, line4. cbn [nth_error bind]. rewrite vnrm_x. rewrite rltb_f by (rewrite Rabs_right; lra). cbn [Nat.eqb orb].
  unfold minusq_target, minus1. cbn [vx vy vz]. rewrite (rltb_t tol (Rabs (1 / 4))) by (rewrite Rabs_right; lra). rewrite !(rltb_f tol (Rabs 0)) by (rewrite Rabs_R0; lra).
  cbn [map]. unfold vsub. cbn [vx vy vz]. replace (0 - 0) with 0 by ring. rewrite !vnrm_x.
  replace (Rabs (0 - (1 - 1 / 4))) with (3 / 4) by (rewrite Rabs_left; lra). replace (Rabs (1 / 4 - (1 - 1 / 4))) with (1 / 2) by (rewrite Rabs_left; lra).
  replace (Rabs (- 1 / 2 - (1 - 1 / 4))) with (5 / 4) by (rewrite Rabs_left; lra). replace (Rabs (- 1 / 4 - (1 - 1 / 4))) with 1 by (rewrite Rabs_left; lra).
  cbn [argmin nth]. rewrite (rltb_t 1 (5 / 4)) by lra. cbn [nth]. rewrite (rltb_f 1 (1 / 2)) by lra. cbn [nth]. rewrite (rltb_t (1 / 2) (3 / 4)) by lra. reflexivity.
Qed.
Print Assumptions C77_minus_q_wrapped_refuted.

(** The map of G-vectors: when the two lists are the complete spheres of q and of its opposite (for any even size function
    -- here |q+G|^2 in the metric of the crystal), the map sends each G to the one position where -(q+G) stands: it is a permutation. *)
Definition sphere (size : rvec -> R) (cut : R) (q : rvec) (gs : list vec3) : Prop :=
  NoDup gs /\ forall g, In g gs <-> size (vadd (zvec g) q) <= cut.
Lemma zr_zvec g : zr g = zvec g. Proof. destruct g as [[a b] c]. reflexivity. Qed.
Lemma zvec_inj g h : zvec g = zvec h -> g = h.
Proof. destruct g as [[a b] c], h as [[a' b'] c']. cbn. intros H. injection H as H1 H2 H3. apply eq_IZR in H1, H2, H3. now subst. Qed.
Theorem C77_g_map_is_a_permutation : forall size cut q mq gs gs',
  (forall v, size (vopp v) = size v) -> is_integer (vx q + vx mq) -> is_integer (vy q + vy mq) -> is_integer (vz q + vz mq) ->
  sphere size cut q gs -> sphere size cut mq gs' ->
  exists m, map_g_to_g_minusq gs gs' q mq = Ok m /\ Permutation m (seq 0 (length gs')) /\
  forall i g, nth_error gs i = Some g -> exists k h, nth_error m i = Some k /\ nth_error gs' k = Some h /\
    vadd (zvec h) mq = vopp (vadd (zvec g) q).
Proof.
  intros size cut q mq gs gs' Hs (n1 & I1) (n2 & I2) (n3 & I3) [N1 S1] [N2 S2].
  pose (opp := fun (n : Z * Z * Z) (g : vec3) => let '(a, b, c) := g in let '(x, y, z) := n in (- x - a, - y - b, - z - c)%Z : vec3).
  set (n := (n1, n2, n3)) in *.
  assert (O1 : forall g, vadd (zvec (opp n g)) mq = vopp (vadd (zvec g) q)).
  { intros [[a b] c]. unfold opp, n, zvec, vadd, vopp. cbn [vx vy vz]. rewrite !minus_IZR, !opp_IZR. f_equal; lra. }
  assert (O2 : forall g, vadd (zvec (opp n g)) q = vopp (vadd (zvec g) mq)).
  { intros [[a b] c]. unfold opp, n, zvec, vadd, vopp. cbn [vx vy vz]. rewrite !minus_IZR, !opp_IZR. f_equal; lra. }
  assert (OO : forall g, opp n (opp n g) = g).
  { intros [[a b] c]. unfold opp, n. f_equal; [f_equal|]; lia. }
  assert (In1 : forall g, In g gs -> In (opp n g) gs').
  { intros g Hg. apply S2. rewrite O1, Hs. now apply S1. }
  assert (In2 : forall g, In g gs' -> In (opp n g) gs).
  { intros g Hg. apply S1. rewrite O2, Hs. now apply S2. }
  assert (Inj : forall h a, vadd (zvec h) mq = vadd (zvec a) mq -> h = a).
  { intros h a H. apply zvec_inj. destruct (zvec h), (zvec a). unfold vadd in H. cbn in H. injection H as H1' H2' H3'. f_equal; lra. }
  assert (One : forall g, In g gs -> exists k, map_one gs' q mq g = Ok k /\ nth_error gs' k = Some (opp n g)).
  { intros g Hg. unfold map_one. destruct (argmin_total (fun h => vnrm (vsub (vadd (zr h) mq) (vopp (vadd (zr g) q)))) gs') as [k Hk].
    - intros E. specialize (In1 g Hg). rewrite E in In1. easy.
    - exists k. split; [exact Hk|]. destruct (nearest_exact (fun h => vadd (zr h) mq) gs' (vopp (vadd (zr g) q)) k Hk) as (x & E1 & E2 & _).
      + exists (opp n g). split; [now apply In1|]. rewrite !zr_zvec. apply O1.
      + rewrite E1. f_equal. apply Inj. rewrite <- (zr_zvec x). rewrite E2, zr_zvec. symmetry. apply O1. }
  assert (All : forall l, (forall g, In g l -> In g gs) -> exists m, map_g_to_g_minusq l gs' q mq = Ok m /\ Forall2 (fun g k => nth_error gs' k = Some (opp n g)) l m).
  { induction l as [|g l IH]; intros Hl; [exists []; split; [reflexivity|constructor]|]. destruct (One g) as (k & K1 & K2); [apply Hl; now left|].
    destruct IH as (m & M1 & M2); [intros; apply Hl; now right|]. exists (k :: m). split; [|now constructor]. unfold map_g_to_g_minusq in *. cbn [map sequence]. rewrite K1. cbn [bind]. now rewrite M1. }
  destruct (All gs (fun g H => H)) as (m & M1 & M2). exists m. split; [exact M1|].
  assert (F : forall i g, nth_error gs i = Some g -> exists k, nth_error m i = Some k /\ nth_error gs' k = Some (opp n g)).
  { clear -M2. induction M2 as [|g k l m H M IH]; intros [|i] g' E; try discriminate; [injection E as <-; exists k; auto|]. now apply IH. }
  split.
  - assert (NM : NoDup m).
    { clear -M2 N1 OO. induction M2 as [|g k l m H M IH]; [constructor|]. inversion_clear N1 as [|? ? A B]. constructor; [|auto]. intros Hk. apply A.
      clear -M Hk H OO. induction M as [|g' k' l m H' M IH]; [easy|]. destruct Hk as [->|Hk]; [|right; auto]. left. rewrite H in H'. injection H' as H'. rewrite <- (OO g), <- (OO g'), H'. reflexivity. }
    apply NoDup_Permutation; [exact NM|apply seq_NoDup|]. intros k. rewrite in_seq. split.
    + intros Hk. assert (exists g, nth_error gs' k = Some g) as (g & E).
      { clear -M2 Hk. induction M2 as [|g k' l m H M IH]; [easy|]. destruct Hk as [->|Hk]; eauto. }
      assert (k < length gs')%nat by (apply nth_error_Some; congruence). lia.
    + intros [_ Hk]. destruct (nth_error gs' k) as [h|] eqn:Eh; [|apply nth_error_None in Eh; lia].
      assert (Ih : In h gs') by now apply nth_error_In in Eh. specialize (In2 h Ih). apply In_nth_error in In2 as (i & Ei). destruct (F i _ Ei) as (k' & K1 & K2). rewrite OO in K2.
      assert (k' = k) as ->; [|now apply nth_error_In in K1]. apply (proj1 (NoDup_nth_error gs') N2); [apply nth_error_Some; congruence|congruence].
  - intros i g Hg. destruct (F i g Hg) as (k & K1 & K2). exists k, (opp n g). repeat split; auto.
Qed.
Print Assumptions C77_g_map_is_a_permutation.

Lemma r2g_scaled nx ny nz gs f c k : (0 < nx)%nat -> (0 < ny)%nat -> (0 < nz)%nat ->
  (forall g, In g gs -> g_ok (zshape nx ny nz) g = true) -> (k < length gs)%nat -> length f = (nx * ny * nz)%nat ->
  nth k (full_fun nx ny nz (map Z.to_nat (map (gidx (zshape nx ny nz)) gs)) false (R2G (map (fun z => c * z)%C f))) (RtoC 0)
  = (c * nth k (full_fun nx ny nz (map Z.to_nat (map (gidx (zshape nx ny nz)) gs)) false (R2G f)) (RtoC 0))%C.
Proof.
  intros P1 P2 P3 HG Hk Lf. rewrite !r2g_list by assumption.
  rewrite <- csum_scal. apply csum_ext; intros x Hx. rewrite <- csum_scal. apply csum_ext; intros y Hy. rewrite <- csum_scal. apply csum_ext; intros z Hz.
  rewrite (nth_map_lt _ f _ (RtoC 0)) by (rewrite Lf; now apply flat_bound). now rewrite Cmult_assoc.
Qed.
Lemma combine_scaled (c : C) (a b : list C) :
  map (fun p => (Cconj (fst p) * snd p)%C) (combine (map (fun z => (z * c)%C) a) (map (fun z => (z * c)%C) b))
  = map (fun z => (Cconj c * c) * z)%C (map (fun p => (Cconj (fst p) * snd p)%C) (combine a b)).
Proof.
  revert b. induction a as [|x a IH]; intros [|y b]; [reflexivity|reflexivity|reflexivity|]. cbn [map combine]. rewrite IH. f_equal. cbn [fst snd].
  destruct x, y, c. apply injective_projections; cbn; ring.
Qed.
(** The matrix element of the ket band [bk] at k-point [kk] with the bra band [bb] at the k-point [kb] is, for every transferred G-vector, the
    sum of conj(c_ket(G1)) c_bra(G2) over exactly the pairs of plane waves for which (k' + G2) - (k + G1) is q + G modulo what the FFT grid cannot
    resolve, k' = k + q + umklapp being the folded vector; at q0 the transfer is G and the bra is taken from the shifted set. *)
Theorem C77_momentum_conserved : forall E kb bb kk bk M gsk gsb,
  let wk := kp_wfn (kp E kk) in let wb := if e_isq0 E then kp_wfnq (kp E kb) else kp_wfn (kp E kb) in
  let ck := nth bk (w_evc wk) [] in let cb := nth bb (w_evc wb) [] in
  gspace_base (e_shape E) gsk = Ok (w_gk wk) -> gspace_base (e_shape E) gsb = Ok (w_gk wb) ->
  length ck = length (gs_cryst (w_gk wk)) -> length cb = length (gs_cryst (w_gk wb)) ->
  mel E kb bb kk bk = Ok M ->
  let k := kp_cryst (kp E kk) in
  let G1 i := nth i (gs_cryst (w_gk wk)) (0, 0, 0)%Z in
  let G2 j := nth j (gs_cryst (w_gk wb)) (0, 0, 0)%Z in
  length M = length (e_gq E) /\
  forall g, (g < length (e_gq E))%nat ->
  exists sel : nat -> nat -> bool,
    (forall i j, sel i j = true <-> exists t1 t2 t3 : Z,
        vsub (vadd (l_kplusq E k) (zvec (G2 j))) (vadd k (zvec (G1 i)))
        = vadd (vadd (if e_isq0 E then V 0 0 0 else e_q E) (zvec (nth g (e_gq E) (0, 0, 0)%Z)))
               (V (IZR t1 * INR (e_nx E)) (IZR t2 * INR (e_ny E)) (IZR t3 * INR (e_nz E)))) /\
    nth g M (RtoC 0)
     = csum (length ck) (fun i => csum (length cb) (fun j =>
         if sel i j then Cconj (nth i ck (RtoC 0)) * nth j cb (RtoC 0) else RtoC 0))%C.
Proof.
  intros E kb bb kk bk M gsk gsb wk wb ck cb Hk Hb Lk Lb HE k G1 G2.
  unfold mel in HE. destruct (driver_idx E kk) as [idx|e] eqn:HD; [|discriminate]. cbn [bind] in HE.
  apply bind_ok in HE as (? & _ & HE). apply bind_ok in HE as (? & _ & HE). apply ok_inj in HE. change (wfn_v E kb) with wb in HE. fold wk in HE. subst M.
  unfold driver_idx in HD. fold k in HD. set (u := umklapp E k) in *. set (gs := map (fun g => zsub3 g u) (e_gq E)) in *.
  destruct (cryst2idxgrid (e_shape E) gs) as [idx0|] eqn:HI; [|discriminate]. cbn [bind] in HD.
  destruct (check_g_idxgrid (e_shape E) idx0); [|discriminate]. cbn [bind] in HD. injection HD as <-.
  change (e_shape E) with (zshape (e_nx E) (e_ny E) (e_nz E)) in *.
  destruct (driver_inv _ _ _ _ _ HI) as (P1 & P2 & P3 & -> & HG).
  assert (FF : forall idx c, snd (full_call (fft E idx) c) = full_fun (e_nx E) (e_ny E) (e_nz E) idx false c).
  { intros idx c. unfold fft. apply (full_stateless (e_nx E) (e_ny E) (e_nz E) idx false _ []). }
  assert (Fg : forall idx v, snd (full_g2r (fft E idx) v) = full_fun (e_nx E) (e_ny E) (e_nz E) idx false (G2R v)) by (intros; apply (FF idx (G2R v))).
  assert (Fr : forall idx v, snd (full_r2g (fft E idx) v) = full_fun (e_nx E) (e_ny E) (e_nz E) idx false (R2G v)) by (intros; apply (FF idx (R2G v))).
  unfold phi. rewrite Fr, !Fg. fold ck cb.
  set (N := (e_nx E * e_ny E * e_nz E)%nat). assert (PN : (0 < N)%nat) by (unfold N; nia).
  assert (PNR : INR N <> 0) by (apply not_0_INR; lia).
  split.
  { rewrite map_length. cbn [full_fun]. unfold taken. rewrite !map_length. unfold gs. apply map_length. }
  intros g Hgl. assert (Lg : length gs = length (e_gq E)) by apply map_length. assert (Hgs : (g < length gs)%nat) by exact (eq_ind_r (fun m => (g < m)%nat) Hgl Lg).
  exists (fun i j => zero3b (e_nx E) (e_ny E) (e_nz E) (zadd3 (zadd3 (G2 j) (zneg3 (G1 i))) (zneg3 (nth g gs (0, 0, 0)%Z)))).
  split.
  - intros i j. rewrite zero3b_iff by assumption.
    replace (nth g gs (0, 0, 0)%Z) with (zsub3 (nth g (e_gq E) (0, 0, 0)%Z) u).
    2:{ unfold gs. symmetry. rewrite (nth_map_lt (fun g => zsub3 g u) (e_gq E) g (0, 0, 0)%Z) by exact Hgl. reflexivity. }
    rewrite C52_shift_is_a_lattice_vector. fold u.
    destruct (G2 j) as [[x1 x2] x3], (G1 i) as [[y1 y2] y3], (nth g (e_gq E) (0, 0, 0)%Z) as [[z1 z2] z3], u as [[u1 u2] u3].
    cbn [zadd3 zneg3 zsub3 zvec]. set (tr := if e_isq0 E then V 0 0 0 else e_q E).
    unfold vsub, vadd. cbn [vx vy vz]. rewrite !INR_IZR_INZ.
    split; intros (t1 & t2 & t3 & H); exists t1, t2, t3.
    + injection H as H1 H2 H3. apply (f_equal IZR) in H1, H2, H3.
      rewrite ?mult_IZR, ?plus_IZR, ?opp_IZR, ?minus_IZR in *. f_equal; lra.
    + injection H as H1 H2 H3. rewrite <- ?mult_IZR in *.
      assert (Q : forall a b : Z, IZR a = IZR b -> a = b) by (intros; now apply eq_IZR).
      f_equal; [f_equal|]; apply Q; rewrite ?plus_IZR, ?opp_IZR, ?minus_IZR in *; lra.
  - rewrite (nth_map_lt _ _ g (RtoC 0)).
    + set (c := (/ RtoC (INR N))%C).
      change (fun z : C => (z / RtoC (INR N))%C) with (fun z : C => (z * c)%C).
      rewrite combine_scaled, r2g_scaled; try assumption.
      * rewrite (overlap_sum _ _ _ gsk gsb (w_gk wk) (w_gk wb) ck cb gs g) by assumption.
        fold N. set (S_ := csum (length ck) _).
        change (csum (length ck) (fun i => csum (length cb) (fun j => if zero3b (e_nx E) (e_ny E) (e_nz E) (zadd3 (zadd3 (G2 j) (zneg3 (G1 i))) (zneg3 (nth g gs (0, 0, 0)%Z))) then Cconj (nth i ck (RtoC 0)) * nth j cb (RtoC 0) else RtoC 0)))%C with S_.
        assert (Ec : c = RtoC (/ INR N)) by (unfold c; now rewrite RtoC_inv). rewrite Ec. destruct S_ as [s1 s2]. apply injective_projections; cbn; field; exact PNR.
      * rewrite map_length, combine_length, !full_fun_g2r_length. apply Nat.min_id.
    + cbn [full_fun]. unfold taken. rewrite !map_length. exact Hgs.
Qed.
Print Assumptions C77_momentum_conserved.

(** ---- a concrete self-energy: one k-point, an occupied and an empty band, q0 only ---- *)
Definition one : sigma_obj := MkSig 1 1 1 [MkKpt (V 0 0 0) occ2 occ2] [0%nat] 2 0 2 [V 0 0 0] (Some [true]) 0 [[(0, 0, 0)%Z]] [[2]] [[[RtoC (- 1 / 2)]]] 1.
Lemma one_at : at_q one 0 = copies 1. Proof. reflexivity. Qed.
Lemma one_mel kb bb bk : (kb = 0)%nat -> (bb < 2)%nat -> (bk < 2)%nat -> mel (copies 1) kb bb 0 bk = Ok [RtoC 1].
Proof.
  intros -> Hb Hk. assert (EX : exists M, mel (copies 1) 0 bb 0 bk = Ok M).
  { unfold mel. rewrite copies_driver by lia. cbn [bind]. unfold has_band. replace (bb <? _)%nat with true by (symmetry; apply Nat.ltb_lt; exact Hb). replace (bk <? _)%nat with true by (symmetry; apply Nat.ltb_lt; exact Hk). cbn [bind]. eexists. reflexivity. }
  destruct EX as [M EM]. rewrite EM. 
  assert (E0 : forall b, (b < 2)%nat -> nth b (w_evc occ2) [] = [RtoC 1]) by (intros [|[|b]] Hb'; [reflexivity|reflexivity|lia]).
  pose proof (C77_momentum_conserved (copies 1) 0 bb 0 bk M [(0, 0, 0)%Z] [(0, 0, 0)%Z]) as T. cbv zeta in T.
  change (e_isq0 (copies 1)) with true in T. rewrite !(copies_kp 1 0) in T by lia. cbn [kp_wfn kp_wfnq kp_cryst] in T. rewrite !E0 in T by assumption.
  destruct T as (LM & T); [reflexivity|reflexivity|reflexivity|reflexivity|exact EM|].
  change (length (e_gq (copies 1))) with 1%nat in LM, T.
  destruct (T 0%nat ltac:(lia)) as (sel & Hs & V_).
  assert (S0 : sel 0%nat 0%nat = true).
  { apply Hs. exists 0%Z, 0%Z, 0%Z. rewrite (proj1 (copies_kq 1)). cbn [occ2 w_gk gs_cryst nth e_gq copies zvec].
    unfold vsub, vadd. cbn [vx vy vz]. f_equal; ring. }
  cbn [length] in V_. cbn [csum] in V_. rewrite S0 in V_.
  destruct M as [|m [|? ?]]; [discriminate| |discriminate]. cbn [nth] in V_.
  assert (E1 : m = RtoC 1); [|now rewrite E1]. rewrite V_. apply C_ext; cbn; ring.
Qed.
Lemma close8_refl : close8_3 (V 0 0 0) (V 0 0 0) = true.
Proof.
  assert (X : close8 0 0 = true) by (unfold close8; apply rleb_iff; replace (0 - 0) with 0 by ring; rewrite Rabs_R0, Rmult_0_r, Rplus_0_r; left; apply Rinv_0_lt_compat; lra).
  unfold close8_3. cbn [vx vy vz]. now rewrite X.
Qed.
Lemma one_bra : bra_of (copies 1) 0 = Ok 0%nat.
Proof.
  unfold bra_of. change (length (e_kpts (copies 1))) with 1%nat. cbn [seq filter]. rewrite (copies_kp 1 0) by lia. cbn [kp_cryst]. rewrite (proj1 (copies_kq 1)), close8_refl. reflexivity.
Qed.
Lemma one_elements all : exists M, matrix_elements one 0 all = Ok (repeat M (if all then 2 else 1)%nat) /\ forall j, (j < 2)%nat -> M 0%nat j = [RtoC 1].
Proof.
  unfold matrix_elements. rewrite one_at. unfold n_v_max, n_c_beg, l_i_v, l_i_c. rewrite (copies_states 1 1 0), (copies_states 1 0 1) by auto.
  cbn [seq map snd list_max_res list_min_res fold_right rmap bind]. unfold mel_pairs. change (g_lk one) with [0%nat]. cbn [map]. rewrite one_bra. cbn [bind sequence fold_res].
  assert (R : forall bb, (bb < 2)%nat -> fill_row one (copies 1) bb (fun _ _ => map (fun _ => RtoC 0) (e_gq (copies 1))) (0%nat, 0%nat)
     = Ok (fun i j => if (i =? 0)%nat && (j <? 2)%nat then nth j [[RtoC 1]; [RtoC 1]] [] else map (fun _ => RtoC 0) (e_gq (copies 1)))).
  { intros bb Hb. unfold fill_row. change (g_nket one) with 2%nat. change (g_b0 one) with 0%nat. cbn [seq map fst snd Nat.add]. rewrite !one_mel by lia. reflexivity. }
  exists (fun i j => if (i =? 0)%nat && (j <? 2)%nat then nth j [[RtoC 1]; [RtoC 1]] [] else map (fun _ => RtoC 0) (e_gq (copies 1))). split.
  - destruct all; cbn [seq map]; rewrite ?R by lia; [change (g_nbands one) with 2%nat|]; cbn [seq map]; rewrite ?R by lia; reflexivity.
  - intros [|[|j]] Hj; [reflexivity|reflexivity|lia].
Qed.
Lemma one_prepare : prepare one 0 = Ok (0%nat, [0%nat]).
Proof.
  unfold prepare. unfold index_minusq, item. cbn [g_q one nth_error bind g_iq0 Nat.eqb]. rewrite orb_true_r. cbn [bind]. reflexivity.
Qed.
(** The theorems of C76 apply to it: exchange -2 per level, screening correction 1, Coulomb hole -1, screening as required. *)
Example C76_instance : screening one /\ exists sx ch x,
  sigma_x None true one = Ok x /\ sigma_sx_static (Some 3%nat) false one = Ok sx /\ sigma_ch_static (Some 2%nat) true one = Ok ch /\
  x 0%nat 1%nat = RtoC (-2) /\ sx 0%nat 1%nat = RtoC 1 /\ ch 0%nat 1%nat = RtoC (-1).
Proof.
  assert (EX : forall p y all c (f : nat -> res (list cmat)), f 0%nat = w_q one all 0 -> procs_ok p -> exists m, (do m <- run p y (RtoC 1) f 1; Ok (scaled c m)) = Ok m /\ m 0%nat 1%nat = RtoC (- (if all then 2 else 1) * c)).
  { intros p y all c f Hf Hp. destruct (one_elements all) as (M & EM & VM). assert (W : w_q one all 0 = Ok (map (w_term [2] [[RtoC (- 1 / 2)]] [0%nat]) (repeat M (if all then 2 else 1)%nat))).
    { unfold w_q. rewrite one_prepare. cbn [bind fst snd item g_eps g_v one nth_error]. rewrite EM. reflexivity. }
    assert (A := run_sum p y (RtoC 1) f 1 Hp). cbn [seq map sequence] in A. rewrite Hf, W in A. cbn [bind summed rmap concat List.app] in A. rewrite app_nil_r in A.
    unfold agree in A. destruct (run p y (RtoC 1) f 1) as [m|]; [|easy]. exists (scaled c m). split; [reflexivity|]. unfold scaled. rewrite A.
    assert (WT : w_term [2] [[RtoC (- 1 / 2)]] [0%nat] M 0%nat 1%nat = RtoC (-1)).
    { unfold w_term. cbn zeta. rewrite (VM 1%nat) by lia. unfold pick, ent. cbn [map nth length csum]. apply C_ext; cbn; field. }
    destruct all; cbn [repeat map]; unfold tot; cbn [fold_right]; rewrite WT; apply C_ext; cbn; ring. }
  assert (SX : sx_q one 0 = w_q one false 0) by (unfold sx_q; rewrite one_prepare; reflexivity).
  split.
  - intros i v e Hv He. destruct i as [|[|i]]; try discriminate. injection Hv as <-. injection He as <-. split.
    + intros [|i] [|j] Hi Hj; cbn in Hi, Hj; try lia. unfold wmat. cbn [nth]. apply C_ext; cbn; lra.
    + intros x. unfold quad, wmat. cbn [length csum nth]. destruct (x 0%nat) as [a b]. cbn. nra.
  - destruct (EX (Some 3%nat) false false (-1 * 1) (sx_q one) SX) as (sx & E1 & V1); [cbn; lia|]. destruct (EX (Some 2%nat) true true (1 / 2 * 1) (w_q one true) eq_refl) as (ch & E2 & V2); [cbn; lia|].
    destruct (one_elements false) as (M & EM & VM).
    assert (XQ : x_q one 0 = Ok [x_term [2] [0%nat] M]) by (unfold x_q; rewrite one_prepare; cbn [bind fst snd item g_v one nth_error]; rewrite EM; reflexivity).
    exists sx, ch. eexists. split.
    + unfold sigma_x. cbn [run g_q one length seq]. unfold over_q. cbn [fold_res]. rewrite XQ. cbn [bind]. reflexivity.
    + split; [exact E1|]. split; [exact E2|]. split; [|split].
      * unfold scaled, accumulate. cbn [fold_left]. unfold x_term. cbn zeta. rewrite (VM 1%nat) by lia. cbn [length csum pick map nth g_factor one]. apply C_ext; cbn; ring.
      * rewrite V1. f_equal. ring.
      * rewrite V2. f_equal. field.
Qed.

(** Together: in the sums of C76 the factor of (q, G) multiplies the matrix elements whose momentum transfer is -(q+G) (with q0 taken as 0), provided the
    flags mark exactly the q0 point and the G-lists are complete spheres of q and -q. *)
Theorem C77_transfer_is_minus_q : forall S i im m size cut flags,
  prepare S i = Ok (im, m) -> g_isq0 S = Some flags -> (forall n, nth n flags false = (n =? g_iq0 S)%nat) ->
  (forall v, size (vopp v) = size v) ->
  let q n := if (n =? g_iq0 S)%nat then V 0 0 0 else nth n (g_q S) (V 0 0 0) in
  is_integer (vx (q i) + vx (q im)) -> is_integer (vy (q i) + vy (q im)) -> is_integer (vz (q i) + vz (q im)) ->
  sphere size cut (q i) (nth i (g_gq S) []) -> sphere size cut (q im) (nth im (g_gq S) []) ->
  let E := at_q S im in
  length m = length (nth i (g_gq S) []) /\ Permutation m (seq 0 (length (e_gq E))) /\
  forall g, (g < length m)%nat ->
    vadd (if e_isq0 E then V 0 0 0 else e_q E) (zvec (nth (nth g m O) (e_gq E) (0, 0, 0)%Z))
    = vopp (vadd (q i) (zvec (nth g (nth i (g_gq S) []) (0, 0, 0)%Z))).
Proof.
  intros S i im m size cut flags HP HF Hfl Hs q I1 I2 I3 S1 S2 E.
  unfold prepare in HP. apply bind_ok in HP as (im' & Him & HP). apply bind_ok in HP as (qi & Hqi & HP). apply bind_ok in HP as (qm & Hqm & HP).
  apply bind_ok in HP as (g & Hg & HP). apply bind_ok in HP as (g' & Hg' & HP). apply bind_ok in HP as (m' & Hm & HP). apply ok_inj in HP. injection HP as -> ->.
  assert (Z : forall n x, item (zeroed S) n = Ok x -> x = q n).
  { intros n x Hx. apply item_nth in Hx. unfold zeroed in Hx. rewrite nth_error_map in Hx. destruct (nth_error (combine (seq 0 (length (g_q S))) (g_q S)) n) as [[a b]|] eqn:En; [|discriminate]. cbn [option_map] in Hx. injection Hx as <-.
    assert (Ln : (n < length (g_q S))%nat).
    { assert (X : (n < length (combine (seq 0 (length (g_q S))) (g_q S)))%nat) by (apply nth_error_Some; congruence). rewrite combine_length, seq_length in X. lia. }
    apply (nth_error_nth _ _ (0%nat, V 0 0 0)) in En. rewrite combine_nth in En by apply seq_length. rewrite seq_nth in En by exact Ln. cbn [Nat.add] in En. injection En as <- <-. cbn [fst snd].
    unfold q. destruct (n =? g_iq0 S)%nat; [|reflexivity]. destruct (nth n (g_q S) (V 0 0 0)). unfold vscale. cbn. f_equal; ring. }
  apply Z in Hqi, Hqm. subst qi qm. apply item_nth in Hg, Hg'.
  apply (nth_error_nth _ _ (@nil vec3)) in Hg, Hg'. subst g g'.
  destruct (C77_g_map_is_a_permutation size cut (q i) (q im) _ _ Hs I1 I2 I3 S1 S2) as (m0 & E1 & E2 & E3). rewrite Hm in E1. apply ok_inj in E1. subst m0.
  assert (Lm : length m = length (nth i (g_gq S) [])).
  { unfold map_g_to_g_minusq in Hm. apply sequence_ok in Hm. apply (f_equal (@length _)) in Hm. rewrite !map_length in Hm. now symmetry. }
  change (e_gq E) with (nth im (g_gq S) []). split; [exact Lm|]. split; [exact E2|]. intros k Hk. rewrite Lm in Hk.
  destruct (nth_error (nth i (g_gq S) []) k) as [gk|] eqn:Ek; [|apply nth_error_None in Ek; lia]. destruct (E3 k gk Ek) as (p & h & Q1 & Q2 & Q3).
  pose proof (nth_error_nth _ _ O Q1) as R1. pose proof (nth_error_nth _ _ (0, 0, 0)%Z Q2) as R2. pose proof (nth_error_nth _ _ (0, 0, 0)%Z Ek) as R3. unfold vec3 in *. rewrite R1, R2, R3.
  assert (Eq : (if e_isq0 E then V 0 0 0 else e_q E) = q im).
  { unfold E, at_q. cbn [e_isq0 e_q]. rewrite HF, Hfl. reflexivity. }
  rewrite Eq. replace (vadd (q im) (zvec h)) with (vadd (zvec h) (q im)) by (unfold vadd; f_equal; ring). rewrite Q3. f_equal. unfold vadd. f_equal; ring.
Qed.
Print Assumptions C77_transfer_is_minus_q.

(** REFUTED: every k-point asked for gets its self-energy.  Of a k-point listed more than once only the first row is filled;
    all later ones are zero. *)
Lemma position_first k l : In k l -> nth_error l (position k l) = Some k /\ forall i, (i < position k l)%nat -> nth_error l i <> Some k.
Proof.
  induction l as [|x l IH]; [easy|]. cbn [position]. destruct (Nat.eqb_spec x k) as [->|N]; intros H; [split; [reflexivity|lia]|].
  destruct H as [H|H]; [contradiction|]. destruct (IH H) as [A B]. split; [exact A|]. intros [|i] Hi; cbn; [congruence|]. apply B. lia.
Qed.
Theorem C76_repeated_kpoint_refuted : forall S p y sig i i', procs_ok p -> sigma_x p y S = Ok sig ->
  (i' < i)%nat -> (i < length (g_lk S))%nat -> nth_error (g_lk S) i' = nth_error (g_lk S) i -> forall j, sig i j = RtoC 0.
Proof.
  intros S p y sig i i' Hp H Hi Li Ei j. destruct (C76_exchange_formula S p y sig Hp H) as (ds & D & ->). f_equal.
  assert (Z : lrsum ds (fun d => let '(_, m, v, Ms) := d in lrsum Ms (fun M => band_exchange v m M i j)) = 0); [|rewrite Z; ring].
  assert (L0 : forall (B : Type) (l : list B) f, (forall a, In a l -> f a = 0) -> lrsum l f = 0).
  { intros B l f Hl. induction l as [|a l IH]; [reflexivity|]. cbn [lrsum fold_right]. rewrite (Hl a) by now left. fold (lrsum l f). rewrite IH; [ring|]. intros; apply Hl; now right. }
  apply L0. intros [[[im m] v] Ms] Hd. apply (forall2_in_r _ _ _ _ D) in Hd as (q & _ & _ & _ & HM & _). apply L0. intros M HMs.
  assert (Z : exists n, M i j = map (fun _ : vec3 => RtoC 0) n).
  { unfold matrix_elements in HM. apply bind_ok in HM as (nv & _ & HM). apply bind_ok in HM as (cb & _ & HM). apply bind_ok in HM as (ps & HPS & HM).
    exists (e_gq (at_q S im)). apply sequence_ok in HM. assert (IM : In (Ok M) (map Ok Ms)) by now apply in_map. rewrite <- HM in IM. apply in_map_iff in IM as (bb & IM & _).
    assert (PS : forall q', In q' ps -> In (fst q') (g_lk S)).
    { unfold mel_pairs in HPS. apply sequence_ok in HPS. intros q' Hq'. assert (I : In (Ok q') (map Ok ps)) by now apply in_map. rewrite <- HPS in I. apply in_map_iff in I as (kk & I & J).
      apply bind_ok in I as (kb & _ & I). apply ok_inj in I. subst q'. exact J. }
    assert (F : forall l M0 M1, (forall q', In q' l -> In (fst q') (g_lk S)) -> fold_res (fill_row S (at_q S im) bb) M0 l = Ok M1 -> M1 i j = M0 i j).
    { induction l as [|q' l IH]; intros M0 M1 Hl K; cbn [fold_res] in K; [apply ok_inj in K; now subst|]. apply bind_ok in K as (M2 & K1 & K). rewrite (IH M2 M1) by (auto; intros; apply Hl; now right).
      unfold fill_row in K1. apply bind_ok in K1 as (row & _ & K1). apply ok_inj in K1. subst M2.
      destruct (Nat.eqb_spec i (position (fst q') (g_lk S))) as [->|]; [|reflexivity]. exfalso.
      destruct (position_first (fst q') (g_lk S)) as [A B]; [apply Hl; now left|]. apply (B i' Hi). now rewrite Ei. }
    now apply (F ps _ M PS IM). }
  destruct Z as (n & Z). unfold band_exchange. transitivity (rsum (length m) (fun _ => 0)); [|rewrite rsum_const; ring]. apply rsum_ext. intros g _. rewrite Z.
  assert (N : forall k, nth k (map (fun _ : vec3 => RtoC 0) n) (RtoC 0) = RtoC 0).
  { clear. induction n as [|x n IH]; intros [|k]; try reflexivity. apply IH. }
  rewrite N. unfold sq. cbn. ring.
Qed.
Print Assumptions C76_repeated_kpoint_refuted.

Definition occupied (S : sigma_obj) (b : nat) : Prop :=
  (b < g_nbands S)%nat /\ exists k, (k < length (g_kpts S))%nat /\ nth b (w_occ (kp_wfn (nth k (g_kpts S) k0))) 0 = 1.
Lemma occupied_iff S q b : occupied S b <-> exists k, In (k, b) (l_i_v (at_q S q)).
Proof.
  unfold occupied, l_i_v, states_with. split.
  - intros (Hb & k & Hk & Ho). exists k. apply in_flat_map. exists k. split; [apply in_seq; change (length (e_kpts (at_q S q))) with (length (g_kpts S)); lia|].
    apply in_map_iff. exists b. split; [reflexivity|]. apply filter_In. split; [|now apply reqb_iff]. apply in_seq. change (e_nbands (at_q S q)) with (g_nbands S). change (kp (at_q S q) k) with (nth k (g_kpts S) k0).
    destruct (Nat.lt_ge_cases b (length (w_occ (kp_wfn (nth k (g_kpts S) k0))))) as [Q|Q]; [lia|]. rewrite nth_overflow in Ho by exact Q. lra.
  - intros (k & I). apply in_flat_map in I as (k' & I1 & I). apply in_map_iff in I as (b' & I & K). injection I as -> ->. apply filter_In in K as [K1 K2]. apply in_seq in K1, I1. apply reqb_iff in K2.
    change (e_nbands (at_q S q)) with (g_nbands S) in K1. change (length (e_kpts (at_q S q))) with (length (g_kpts S)) in I1. split; [lia|]. exists k. split; [lia|exact K2].
Qed.
Lemma list_max_spec l m : list_max_res l = Ok m -> In m l /\ forall x, In x l -> (x <= m)%nat.
Proof.
  destruct l as [|x t]; cbn [list_max_res]; [discriminate|]. intros H. apply ok_inj in H. subst m. induction t as [|y t [I1 I2]]; cbn [fold_right].
  - split; [now left|]. intros z [->|[]]. lia.
  - split.
    + destruct (Nat.max_dec y (fold_right Nat.max x t)) as [->| ->]; [right; now left|]. destruct I1 as [<-|I1]; [now left|right; now right].
    + intros z [->|[->|Hz]]; [|lia|]; [specialize (I2 z (or_introl eq_refl)); lia|specialize (I2 z (or_intror Hz)); lia].
Qed.
Theorem C77_element_labels : forall S q all Ms i j b, matrix_elements S q all = Ok Ms -> NoDup (g_lk S) ->
  (i < length (g_lk S))%nat -> (j < g_nket S)%nat -> (b < length Ms)%nat ->
  let E := at_q S q in let k := nth i (g_lk S) O in
  (if all then length Ms = g_nbands S else occupied S (length Ms - 1) /\ forall b', occupied S b' -> (b' < length Ms)%nat) /\
  exists kb, bra_of E k = Ok kb /\ mel E kb b k (g_b0 S + j) = Ok (nth b Ms (fun _ _ => []) i j).
Proof.
  intros S q all Ms i j b HM ND Hi Hj Hb E k. unfold matrix_elements in HM. fold E in HM.
  apply bind_ok in HM as (nv & HN & HM). apply bind_ok in HM as (cb & _ & HM). apply bind_ok in HM as (ps & HPS & HM).
  apply sequence_ok in HM. assert (L := f_equal (@length _) HM). rewrite !map_length, seq_length in L.
  split.
  { destruct all; [now symmetry|]. subst nv. unfold n_v_max in HN. destruct (list_max_res (map snd (l_i_v E))) as [mx|] eqn:EM; [|discriminate]. cbn [rmap] in HN. apply ok_inj in HN.
    apply list_max_spec in EM as [M1 M2]. split.
    - apply (occupied_iff S q). apply in_map_iff in M1 as ([k' b'] & <- & M1). exists k'. replace (length Ms - 1)%nat with b' by (cbn in HN; lia). exact M1.
    - intros b' (k' & M3)%(occupied_iff S q). assert (X : (b' <= mx)%nat) by (apply M2, in_map_iff; now exists (k', b')). lia. }
  assert (Hk : In k (g_lk S)) by now apply nth_In.
  assert (PSf : Forall2 (fun kk p => fst p = kk /\ bra_of E kk = Ok (snd p)) (g_lk S) ps).
  { unfold mel_pairs in HPS. apply PropsParseInp.sequence_forall2 in HPS. clear - HPS. induction HPS as [|a p l ps H _ IH]; constructor; [|exact IH].
    apply bind_ok in H as (kb & H1 & H). apply ok_inj in H. subst p. split; [reflexivity|exact H1]. }
  assert (EB : fold_res (fill_row S E b) (fun _ _ => map (fun _ => RtoC 0) (e_gq E)) ps = Ok (nth b Ms (fun _ _ => []))).
  { assert (Q := f_equal (fun l => nth_error l b) HM). cbv beta in Q. rewrite !nth_error_map in Q. rewrite (nth_error_nth' (seq 0 _) O) in Q by (rewrite seq_length; lia).
    rewrite seq_nth in Q by lia. cbn [option_map Nat.add] in Q. rewrite (nth_error_nth' Ms (fun _ _ => []) Hb) in Q. cbn [option_map] in Q. now apply some_inj in Q. }
  assert (Pos : forall n, (n < length (g_lk S))%nat -> position (nth n (g_lk S) O) (g_lk S) = n).
  { intros n Hn. destruct (position_first (nth n (g_lk S) O) (g_lk S)) as [Q1 Q2]; [now apply nth_In|]. assert (Q3 : nth_error (g_lk S) n = Some (nth n (g_lk S) O)) by now apply nth_error_nth'.
    apply (proj1 (NoDup_nth_error _) ND); [apply nth_error_Some; congruence|congruence]. }
  (* the pair of k is the i-th one; later pairs do not touch row i *)
  assert (F : forall l s M0 M1, (forall n p, nth_error l n = Some p -> (s + n < length (g_lk S))%nat /\ fst p = nth (s + n) (g_lk S) O) ->
     fold_res (fill_row S E b) M0 l = Ok M1 ->
     ((i < s)%nat -> M1 i j = M0 i j) /\ (forall p, (s <= i)%nat -> nth_error l (i - s) = Some p -> mel E (snd p) b (fst p) (j + g_b0 S) = Ok (M1 i j))).
  { induction l as [|p l IH]; intros s M0 M1 HL K; cbn [fold_res] in K; [apply ok_inj in K; subst; split; [reflexivity|intros p _ X; destruct (i - s)%nat; discriminate X]|].
    apply bind_ok in K as (M2 & K1 & K). destruct (IH (Datatypes.S s) M2 M1) as [I1 I2]; [|exact K|].
    { intros n p' Hn. destruct (HL (Datatypes.S n) p' Hn) as [X1 X2]. replace (Datatypes.S s + n)%nat with (s + Datatypes.S n)%nat by lia. now split. }
    destruct (HL 0%nat p eq_refl) as [X1 X2]. rewrite Nat.add_0_r in X1, X2. unfold fill_row in K1. apply bind_ok in K1 as (row & R & K1). apply ok_inj in K1. rewrite X2, (Pos s X1) in K1.
    split.
    - intros Hs. rewrite I1 by lia. subst M2. destruct (Nat.eqb_spec i s); [lia|reflexivity].
    - intros p' Hs Hp. destruct (Nat.eq_dec i s) as [->|Ne].
      + rewrite Nat.sub_diag in Hp. cbn in Hp. apply some_inj in Hp. subst p'. rewrite I1 by lia. subst M2. rewrite Nat.eqb_refl. replace (j <? g_nket S)%nat with true by (symmetry; now apply Nat.ltb_lt). cbn [andb].
        apply sequence_ok in R. apply (f_equal (fun l => nth_error l j)) in R. rewrite !nth_error_map in R. rewrite (nth_error_nth' (seq 0 (g_nket S)) O) in R by (rewrite seq_length; exact Hj). rewrite seq_nth in R by exact Hj. cbn [option_map Nat.add] in R.
        destruct (nth_error row j) as [x|] eqn:EX; [|discriminate]. cbn [option_map] in R. apply some_inj in R. rewrite (nth_error_nth _ _ _ EX). exact R.
      + apply I2; [lia|]. replace (i - s)%nat with (Datatypes.S (i - Datatypes.S s)) in Hp by lia. exact Hp. }
  assert (HL : forall n p, nth_error ps n = Some p -> (0 + n < length (g_lk S))%nat /\ fst p = nth (0 + n) (g_lk S) O).
  { intros n p Hn. cbn [Nat.add]. clear - PSf Hn. revert n Hn. induction PSf as [|a p' l ps [H1 H2] _ IH]; intros [|n] Hn; try discriminate Hn; cbn in Hn.
    - apply some_inj in Hn. subst p'. cbn. split; [lia|exact H1].
    - destruct (IH n Hn). cbn. split; [lia|assumption]. }
  destruct (F ps 0%nat _ _ HL EB) as [_ F2].
  destruct (nth_error ps i) as [p|] eqn:EP.
  2:{ exfalso. apply nth_error_None in EP. assert (X : length (g_lk S) = length ps) by (clear - PSf; induction PSf; cbn; congruence). lia. }
  rewrite Nat.sub_0_r in F2. specialize (F2 p (Nat.le_0_l _) EP).
  assert (X : fst p = k /\ bra_of E k = Ok (snd p)).
  { unfold k. clear - PSf EP. revert i EP. induction PSf as [|a p' l ps [H1 H2] _ IH]; intros [|i] EP; try discriminate EP; cbn in EP.
    - apply some_inj in EP. subst p'. cbn. now split.
    - cbn. now apply IH. }
  destruct X as [X1 X2]. exists (snd p). split; [exact X2|]. rewrite X1 in F2. rewrite Nat.add_comm. exact F2.
Qed.
Print Assumptions C77_element_labels.

(** C77: which k-point the element is taken at.  Two coordinates match when they differ by at most 1e-8 + 1e-5 |target|;
    the bra is the FIRST listed k-point all of whose coordinates match k + q (brought back by an umklapp vector), and the
    call fails with AssertionError exactly when none does. *)
Definition matches (a b : R) : Prop := Rabs (a - b) <= / 10 ^ 8 + / 10 ^ 5 * Rabs b.
Definition matches3 (a b : rvec) : Prop := matches (vx a) (vx b) /\ matches (vy a) (vy b) /\ matches (vz a) (vz b).
Lemma close8_iff a b : close8 a b = true <-> matches a b.
Proof. unfold close8, matches, tol, rleb. destruct (Rle_dec _ _); split; intros H; try easy. Qed.
Lemma close8_3_iff a b : close8_3 a b = true <-> matches3 a b.
Proof. unfold close8_3, matches3. rewrite !andb_true_iff, !close8_iff. tauto. Qed.
Theorem C77_bra_kpoint : forall E kk, let target := l_kplusq E (kp_cryst (kp E kk)) in
  match bra_of E kk with
  | Ok kb => (kb < length (e_kpts E))%nat /\ matches3 (kp_cryst (kp E kb)) target /\
             (forall k, (k < kb)%nat -> ~ matches3 (kp_cryst (kp E k)) target)
  | Err e => e = AssertionError /\ forall k, (k < length (e_kpts E))%nat -> ~ matches3 (kp_cryst (kp E k)) target
  end.
Proof.
  intros E kk target. unfold bra_of. fold target.
  set (f := fun kb => close8_3 (kp_cryst (kp E kb)) target).
  assert (G : forall n a, match filter f (seq a n) with
      | [] => forall k, (a <= k < a + n)%nat -> f k = false
      | kb :: _ => (a <= kb < a + n)%nat /\ f kb = true /\ forall k, (a <= k < kb)%nat -> f k = false end).
  { induction n as [|n IH]; intros a; cbn [seq filter]; [intros; lia|].
    destruct (f a) eqn:Ef.
    - split; [lia|]. split; [exact Ef|]. intros; lia.
    - specialize (IH (S a)). destruct (filter f (seq (S a) n)) as [|kb t].
      + intros k Hk. destruct (Nat.eq_dec k a) as [->|]; [exact Ef|]. apply IH. lia.
      + destruct IH as (I1 & I2 & I3). split; [lia|]. split; [exact I2|]. intros k Hk. destruct (Nat.eq_dec k a) as [->|]; [exact Ef|]. apply I3. lia. }
  specialize (G (length (e_kpts E)) 0%nat). destruct (filter f _) as [|kb t].
  - split; [reflexivity|]. intros k Hk M. apply close8_3_iff in M. specialize (G k). unfold f in G. rewrite M in G. assert (true = false) by (apply G; lia). discriminate.
  - destruct G as (G1 & G2 & G3). split; [lia|]. split; [now apply close8_3_iff|]. intros k Hk M. apply close8_3_iff in M. specialize (G3 k). unfold f in G3. rewrite M in G3. assert (true = false) by (apply G3; lia). discriminate.
Qed.
Print Assumptions C77_bra_kpoint.
Example C77_bra_kpoint_ex : bra_of (copies 1) 0 = Ok 0%nat. Proof. exact one_bra. Qed.
