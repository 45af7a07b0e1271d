(** C71, C72: closed-form Coulomb averages, their distribution over processes, and fixwings. *)
From Coq Require Import Reals Lra Lia List Bool Arith ZArith Permutation.
From Coquelicot Require Import Coquelicot.
From Verif Require Import Base SortModel SortProofs LatModel LatProofs GIndexModel GwModel GwSpec GwProofs PropsGw CBase.
Import ListNotations.
Open Scope R_scope.

(** ================= C71 ================= *)
(** Specification.  A ball of radius [r0] centred at distance [d] from the origin meets the sphere of
    radius [r] about the origin in a cap of area 2 pi r^2 (1 - cos t), where
    cos t = (r^2 + d^2 - r0^2) / (2 r d); a centred ball contains the whole sphere. *)
Definition cap_area (r0 d r : R) : R := 2 * PI * r ^ 2 * (1 - (r ^ 2 + d ^ 2 - r0 ^ 2) / (2 * r * d)).
Definition ball_volume (r0 : R) : R := 4 / 3 * PI * r0 ^ 3.
(** Average of a radial function over a ball at the origin, and over a ball that does not contain it. *)
Definition ball_average (r0 : R) (f : R -> R) : R := RInt (fun r => 4 * PI * r ^ 2 * f r) 0 r0 / ball_volume r0.
Definition shifted_average (r0 d : R) (f : R -> R) : R := RInt (fun r => cap_area r0 d r * f r) (d - r0) (d + r0) / ball_volume r0.

Lemma rint_of f g a b : a <= b -> (forall x, a <= x <= b -> is_derive f x (g x)) ->
  (forall x, a <= x <= b -> continuous g x) -> RInt g a b = f b - f a.
Proof.
  intros H D K. apply is_RInt_unique. apply (is_RInt_derive (V := R_CompleteNormedModule) f g); intros x Hx;
  rewrite Rmin_left, Rmax_right in Hx by lra; auto.
Qed.
(** Sanity of the specification: the average of a constant is the constant. *)
Theorem C71_averages_are_averages : forall r0 d c, 0 < r0 < d ->
  ball_average r0 (fun _ => c) = c /\ shifted_average r0 d (fun _ => c) = c.
Proof.
  intros r0 d c H. pose proof PI_RGT_0. assert (P3 : 0 < r0 ^ 3) by (apply pow_lt; lra).
  unfold ball_average, shifted_average, ball_volume. split.
  - rewrite (rint_of (fun r => 4 / 3 * PI * c * r ^ 3)); [field; lra|lra| |].
    + intros x _. auto_derive; [easy|]. field.
    + intros x _. apply (ex_derive_continuous (K := R_AbsRing) (V := R_NormedModule)). auto_derive. easy.
  - rewrite (rint_of (fun r => c * (2 * PI) * (r ^ 3 / 3 - r ^ 4 / (8 * d) - (d ^ 2 - r0 ^ 2) * r ^ 2 / (4 * d)))); [field; lra|lra| |].
    + intros x Hx. auto_derive; [easy|]. unfold cap_area. field. lra.
    + intros x Hx. apply (ex_derive_continuous (K := R_AbsRing) (V := R_NormedModule)). unfold cap_area. auto_derive. nra.
Qed.
Print Assumptions C71_averages_are_averages.

(** The sphere used has the volume of one q-cell. *)
Theorem C71_cell_volume : forall recvol nq, 0 < recvol -> (0 < nq)%nat ->
  0 < q_cutoff recvol nq /\ ball_volume (q_cutoff recvol nq) = recvol / INR nq.
Proof.
  intros v n Hv Hn. pose proof PI_RGT_0. assert (P : 0 < INR n) by now apply lt_0_INR.
  set (x := v / INR n * 3 / (4 * PI)). assert (Px : 0 < x).
  { unfold x. apply Rdiv_lt_0_compat; [|lra]. apply Rmult_lt_0_compat; [|lra]. now apply Rdiv_lt_0_compat. }
  unfold q_cutoff. fold x. split; [apply exp_pos|]. unfold ball_volume.
  rewrite <- (Rpower_pow 3) by apply exp_pos. rewrite Rpower_mult.
  replace (1 / 3 * INR 3) with 1 by (cbn; field). rewrite Rpower_1 by exact Px. unfold x. field. lra.
Qed.
Print Assumptions C71_cell_volume.
Theorem C71_sphere_average : forall recvol nq, 0 < recvol -> (0 < nq)%nat ->
  v_minibz_sphere recvol nq = ball_average (q_cutoff recvol nq) (fun q => 8 * PI / q ^ 2).
Proof.
  intros v n Hv Hn. destruct (C71_cell_volume v n Hv Hn) as [P _]. set (r := q_cutoff v n) in *. pose proof PI_RGT_0.
  unfold v_minibz_sphere, ball_average, ball_volume. fold r.
  rewrite (RInt_ext _ (fun _ => 32 * PI ^ 2)).
  - rewrite (rint_of (fun x => 32 * PI ^ 2 * x)); [field; lra|lra| |].
    + intros x _. auto_derive; [easy|]. field.
    + intros x _. apply (ex_derive_continuous (K := R_AbsRing) (V := R_NormedModule)). auto_derive. easy.
  - intros x Hx. rewrite Rmin_left in Hx by lra. match goal with |- ?a = ?b => change (@eq R a b) end. field. lra.
Qed.
Print Assumptions C71_sphere_average.
Theorem C71_oneoverq_average : forall r0, 0 < r0 ->
  oneoverq_minibz_sphere r0 = ball_average r0 (fun q => 8 * PI / q).
Proof.
  intros r P. pose proof PI_RGT_0. unfold oneoverq_minibz_sphere, ball_average, ball_volume.
  rewrite (RInt_ext _ (fun x => 32 * PI ^ 2 * x)).
  - rewrite (rint_of (fun x => 16 * PI ^ 2 * x ^ 2)); [field; lra|lra| |].
    + intros x _. auto_derive; [easy|]. field.
    + intros x _. apply (ex_derive_continuous (K := R_AbsRing) (V := R_NormedModule)). auto_derive. easy.
  - intros x Hx. rewrite Rmin_left in Hx by lra. match goal with |- ?a = ?b => change (@eq R a b) end. field. lra.
Qed.
Print Assumptions C71_oneoverq_average.
Theorem C71_shifted_sphere_average : forall r0 d, 0 < r0 < d ->
  v_minibz_sphere_shifted r0 d = Some (shifted_average r0 d (fun q => 8 * PI / q ^ 2)).
Proof.
  intros r d H. pose proof PI_RGT_0. assert (P3 : 0 < r ^ 3) by (apply pow_lt; lra).
  unfold v_minibz_sphere_shifted. unfold reqb. destruct (Req_EM_T d 0) as [|Hd]; [lra|]. f_equal.
  unfold shifted_average, ball_volume.
  rewrite (rint_of (fun x => 16 * PI ^ 2 * (x - x ^ 2 / (4 * d) - (d ^ 2 - r ^ 2) / (2 * d) * ln x))).
  - unfold arctanh. replace ((1 + r / d) / (1 - r / d)) with ((d + r) / (d - r)) by (field; lra).
    rewrite ln_div by lra. field. lra.
  - lra.
  - intros x Hx. auto_derive; [lra|]. unfold cap_area. field. lra.
  - intros x Hx. apply (ex_derive_continuous (K := R_AbsRing) (V := R_NormedModule)). unfold cap_area. auto_derive.
    repeat split; try easy; nra.
Qed.
Print Assumptions C71_shifted_sphere_average.
(** At the origin the shifted formula returns inf. *)
Theorem C71_shifted_at_origin : forall r0, v_minibz_sphere_shifted r0 0 = None.
Proof. intros r0. unfold v_minibz_sphere_shifted, reqb. destruct (Req_EM_T 0 0); [easy|congruence]. Qed.
Print Assumptions C71_shifted_at_origin.

(** Parallel = serial, and each process gets a contiguous block whose size differs by at most one. *)
Lemma split_concat {A} sizes (l : list A) : length l = list_sum sizes -> concat (split_sizes sizes l) = l.
Proof.
  revert l; induction sizes as [|s t IH]; intros l H; cbn in *; [now destruct l|].
  rewrite IH; [apply firstn_skipn|]. rewrite skipn_length. unfold list_sum. lia.
Qed.
Lemma split_sum n p : (0 < p)%nat -> list_sum (array_split_sizes n p) = n.
Proof.
  intros Hp. unfold array_split_sizes.
  set (q := (n / p)%nat). set (r := (n mod p)%nat).
  assert (D : n = (p * q + r)%nat) by (apply Nat.div_mod; lia). assert (R_ : (r < p)%nat) by (apply Nat.mod_upper_bound; lia).
  clearbody q r. subst n.
  assert (G : forall m, list_sum (map (fun i => if (i <? r)%nat then S q else q) (seq 0 m)) = (m * q + Nat.min m r)%nat).
  { induction m as [|m IH]; [easy|]. rewrite seq_S, map_app. rewrite list_sum_app, IH. cbn [map list_sum fold_right].
    change (0 + m)%nat with m. destruct (m <? r)%nat eqn:E; [apply Nat.ltb_lt in E|apply Nat.ltb_ge in E]; nia. }
  rewrite G. lia.
Qed.
Theorem C71_parallel_equals_serial : forall (A : Type) (numq p : nat) (single : nat -> A), (0 < p)%nat ->
  vcoul_parallel numq p single = vcoul_serial numq single.
Proof.
  intros A n p f Hp. unfold vcoul_parallel, vcoul_serial. 
  transitivity (map f (concat (array_split (seq 0 n) p))).
  - rewrite concat_map. reflexivity.
  - f_equal. unfold array_split. apply split_concat. rewrite seq_length. symmetry. now apply split_sum.
Qed.
Print Assumptions C71_parallel_equals_serial.
Example C71_instance : 0 < q_cutoff 8 4 /\ vcoul_parallel 5 3 (fun i => (i * i)%nat) = [0; 1; 4; 9; 16]%nat.
Proof. split; [apply C71_cell_volume; [lra|lia]|reflexivity]. Qed.

(** ================= C72 ================= *)
(** Entries with G, G' both different from zero never change. *)
Theorem C72_body_unchanged : forall q0flag ooq v qlen w0 i0 epsinv i j, i <> i0 -> j <> i0 ->
  fixwings q0flag ooq v qlen w0 i0 epsinv i j = epsinv i j.
Proof.
  intros. unfold fixwings. replace (i =? i0)%nat with false by (symmetry; now apply Nat.eqb_neq).
  replace (j =? i0)%nat with false by (symmetry; now apply Nat.eqb_neq). reflexivity.
Qed.
Print Assumptions C72_body_unchanged.
(** At q0 the head becomes wcoul0 / vcoul and the wings vanish, so that head times vcoul is wcoul0. *)
Theorem C72_q0 : forall ooq v qlen w0 i0 epsinv, v <> 0 ->
  let m := fixwings true ooq v qlen w0 i0 epsinv in
  m i0 i0 = RtoC (w0 / v) /\ (m i0 i0 * RtoC v)%C = RtoC w0 /\
  forall i, i <> i0 -> m i i0 = RtoC 0 /\ m i0 i = RtoC 0.
Proof.
  intros ooq v qlen w0 i0 e Hv m.
  assert (H0 : m i0 i0 = RtoC (w0 / v)).
  { unfold m, fixwings. rewrite Nat.eqb_refl. cbn [andb fixwing]. rewrite Cdiv_R by easy. apply C_ext; cbn; field; easy. }
  split; [exact H0|]. split; [rewrite H0; apply C_ext; cbn; field; easy|].
  intros i Hi. unfold m, fixwings. rewrite Nat.eqb_refl. replace (i =? i0)%nat with false by (symmetry; now apply Nat.eqb_neq).
  cbn [andb fixwing]. generalize (e i i0), (e i0 i). intros a b. split; apply C_ext; cbn; ring.
Qed.
Print Assumptions C72_q0.
(** Elsewhere the head is kept, the column G' = 0 is scaled by oneoverq |q| / 8 pi and the row G = 0 by
    oneoverq / (vcoul |q|). *)
Theorem C72_nonq0 : forall ooq v qlen w0 i0 epsinv, v * qlen <> 0 ->
  let m := fixwings false ooq v qlen w0 i0 epsinv in
  m i0 i0 = epsinv i0 i0 /\
  forall i, i <> i0 -> m i i0 = (RtoC (ooq * qlen / (8 * PI)) * epsinv i i0)%C /\
                       m i0 i = (RtoC (ooq / (v * qlen)) * epsinv i0 i)%C.
Proof.
  intros ooq v qlen w0 i0 e Hv m. pose proof PI_RGT_0. split.
  - unfold m, fixwings. rewrite Nat.eqb_refl. reflexivity.
  - intros i Hi. unfold m, fixwings. rewrite Nat.eqb_refl. replace (i =? i0)%nat with false by (symmetry; now apply Nat.eqb_neq).
    cbn [andb fixwing]. rewrite !Cdiv_R by (easy || lra). unfold Rdiv.
    generalize (e i i0), (e i0 i), (/ (v * qlen)), (/ (8 * PI)). intros a b x y. split; apply C_ext; cbn; ring.
Qed.
Print Assumptions C72_nonq0.
(** With the bare averages 8 pi/|q| and 8 pi/|q|^2 nothing changes at all. *)
Theorem C72_bare_identity : forall qlen w0 i0 epsinv, 0 < qlen ->
  forall i j, fixwings false (8 * PI / qlen) (8 * PI / qlen ^ 2) qlen w0 i0 epsinv i j = epsinv i j.
Proof.
  intros qlen w0 i0 e Hq i j. pose proof PI_RGT_0.
  assert (P2 : 0 < 8 * PI / qlen ^ 2) by (apply Rdiv_lt_0_compat; [lra|nra]).
  assert (N : 8 * PI / qlen ^ 2 * qlen <> 0) by nra.
  destruct (C72_nonq0 (8 * PI / qlen) (8 * PI / qlen ^ 2) qlen w0 i0 e N) as [H0 H1].
  destruct (Nat.eq_dec i i0) as [->|Hi], (Nat.eq_dec j i0) as [->|Hj].
  - exact H0.
  - destruct (H1 j Hj) as [_ ->]. replace (8 * PI / qlen / (8 * PI / qlen ^ 2 * qlen)) with 1 by (field; lra).
    generalize (e i0 j). intros a. apply C_ext; cbn; ring.
  - destruct (H1 i Hi) as [-> _]. replace (8 * PI / qlen * qlen / (8 * PI)) with 1 by (field; lra).
    generalize (e i i0). intros a. apply C_ext; cbn; ring.
  - now apply C72_body_unchanged.
Qed.
Print Assumptions C72_bare_identity.

(** calculate_fixedeps at a q-point other than q0, bare averages.  If |q|^2 is the smallest |q+G|^2 by more
    than 1e-10, the matrix is returned unchanged. *)
Definition bare_v (n2 : list R) : list R := map (fun x => 8 * PI / x) n2.
Theorem C72_fixedeps_nonq0 : forall gs gk n2 g0 epsinv,
  length gs = length n2 -> length gk = length n2 -> (g0 < length n2)%nat ->
  (forall i, (i < length n2)%nat -> (nth i gs (0, 0, 0)%Z = (0, 0, 0)%Z <-> i = g0)) ->
  0 < nth g0 n2 0 ->
  (forall i, (i < length n2)%nat -> i <> g0 -> nth g0 n2 0 + / 10 ^ 10 < nth i n2 0) ->
  exists m, fixedeps_nonq0 gs gk n2 (bare_v n2) (8 * PI / sqrt (nth g0 n2 0)) (sqrt (nth g0 n2 0)) epsinv = Ok m /\
    forall i j, m i j = epsinv i j.
Proof.
  intros gs gk n2 g0 e L1 L2 Hg Hz Hp Hs.
  destruct (proj2 (C48_lengths gk n2) L2) as [order HO].
  destruct (C48_sorted_permutation _ _ _ HO) as (HP & _).
  assert (Lo : length order = length n2) by (rewrite (Permutation_length HP), seq_length; exact L2).
  assert (Bo : forall k, (k < length n2)%nat -> (nth k order O < length n2)%nat).
  { intros k Hk. assert (I : In (nth k order O) order) by (apply nth_In; lia). apply (Permutation_in _ HP), in_seq in I. lia. }
  assert (No : NoDup order) by (eapply Permutation_NoDup; [symmetry; exact HP|apply seq_NoDup]).
  assert (O0 : nth 0 order O = g0).
  { assert (I : In g0 order) by (apply (Permutation_in _ (Permutation_sym HP)), in_seq; lia).
    apply (In_nth _ _ O) in I as (k & Hk & Ek). destruct k as [|k]; [exact Ek|].
    destruct (Nat.eq_dec (nth 0 order O) g0) as [|N]; [easy|]. exfalso.
    pose proof (C48_separated_keys _ _ _ 0 (S k) HO ltac:(lia)) as X. rewrite Ek in X.
    specialize (Hs (nth 0 order O) (Bo 0%nat ltac:(lia)) N). lra. }
  destruct order as [|o order]; [cbn in Lo; lia|]. cbn [nth] in O0. subst o.
  unfold fixedeps_nonq0, index_G0. rewrite HO. cbn [bind].
  assert (A0 : argmin (map g_norm2 (take (0, 0, 0)%Z gs (g0 :: order))) = Ok 0%nat).
  { assert (Gz : nth g0 gs (0, 0, 0)%Z = (0, 0, 0)%Z) by (now apply Hz).
    unfold take. cbn [map]. unfold vec3 in *. rewrite Gz. apply argmin_spec. split; [cbn; lia|]. split; [|intros; lia].
    intros [|i] Hi; cbn [nth]; [lra|]. cbn [length] in Hi. rewrite !map_length in Hi.
    assert (GN : forall g, 0 <= g_norm2 g) by (intros [[a b] c]; cbn; apply IZR_le; nia).
    rewrite (nth_map_lt g_norm2 _ i (0, 0, 0)%Z) by (rewrite map_length; lia). cbn. apply GN. }
  rewrite A0. cbn [bind]. unfold bare_v. rewrite (item_ok 0) by (rewrite map_length; lia). cbn [bind].
  eexists. split; [reflexivity|]. intros i j. rewrite (nth_map_lt _ n2 g0 0) by lia.
  assert (Q : 0 < sqrt (nth g0 n2 0)) by (now apply sqrt_lt_R0).
  replace (8 * PI / nth g0 n2 0) with (8 * PI / (sqrt (nth g0 n2 0)) ^ 2).
  - now apply C72_bare_identity.
  - f_equal. cbn [pow]. rewrite Rmult_1_r. apply sqrt_sqrt. lra.
Qed.
Print Assumptions C72_fixedeps_nonq0.
(** Otherwise the Coulomb factor of the wrong vector is used: at q = 3/4 of a lattice with unit
    reciprocal vectors, G = -1 gives the shorter vector and a wing is scaled by 1/9 although all
    averages are bare. *)
Theorem C72_fixedeps_nonq0_refuted : exists gs gk n2 epsinv m,
  length gs = 2%nat /\ gk = [V (3 / 4) 0 0; V (- (1 / 4)) 0 0] /\
  nth 0 gs (0, 0, 0)%Z = (0, 0, 0)%Z /\ n2 = map (fun v => vdot v v) gk /\
  fixedeps_nonq0 gs gk n2 (bare_v n2) (8 * PI / sqrt (nth 0 n2 0)) (sqrt (nth 0 n2 0)) epsinv = Ok m /\
  epsinv 1%nat 0%nat = RtoC 1 /\ m 1%nat 0%nat = RtoC (1 / 9).
Proof.
  set (gk := [V (3 / 4) 0 0; V (- (1 / 4)) 0 0]). set (n2 := map (fun v => vdot v v) gk).
  set (gs := [(0, 0, 0)%Z; (-1, 0, 0)%Z]).
  destruct (proj2 (C48_lengths gk n2) eq_refl) as [order HO].
  destruct (C48_sorted_permutation _ _ _ HO) as (HP & _).
  assert (EO : order = [1; 0]%nat).
  { cbn in HP. apply Permutation_sym, Permutation_length_2_inv in HP as [->| ->]; [|easy]. exfalso.
    pose proof (C48_separated_keys _ _ _ 0 1 HO ltac:(cbn; lia)) as X.
    unfold n2, gk, vdot in X. cbn [nth map vx vy vz] in X. lra. }
  assert (S0 : sqrt (nth 0 n2 0) = 3 / 4).
  { replace (nth 0 n2 0) with ((3 / 4) * (3 / 4)) by (cbn; unfold vdot; cbn; field). apply sqrt_square. lra. }
  subst order. pose proof PI_RGT_0.
  assert (A0 : index_G0 gs gk n2 = Ok 1%nat).
  { unfold index_G0. rewrite HO. cbn [bind]. apply argmin_spec. cbn. split; [lia|]. split.
    - intros [|[|i]] Hi; [| |lia]; cbn; lra.
    - intros [|i] Hi; [|lia]. cbn. lra. }
  exists gs, gk, n2, (fun _ _ => RtoC 1). unfold fixedeps_nonq0. rewrite HO, A0. cbn [bind].
  eexists. split; [reflexivity|]. split; [reflexivity|]. split; [reflexivity|]. split; [reflexivity|]. split; [reflexivity|].
  split; [reflexivity|]. rewrite S0.
  match goal with |- fixwings false ?a ?v ?q ?w ?i ?e ?x ?y = _ => pose proof (C72_nonq0 a v q w i e) as T; set (vv := v) in * end.
  assert (EV : vv = 128 * PI) by (unfold vv, vdot; cbn; field).
  destruct T as [_ T]; [rewrite EV; nra|]. destruct (T 0%nat ltac:(lia)) as [_ ->]. rewrite EV.
  replace (8 * PI / (3 / 4) / (128 * PI * (3 / 4))) with (1 / 9) by (field; lra). apply C_ext; cbn; ring.
Qed.
Print Assumptions C72_fixedeps_nonq0_refuted.

(** The q0 index: the first flagged q-point, or without flags the first of minimal length; an error when
    no q-point is flagged or there is none. *)
Theorem C72_index_q0 : forall flags norms k,
  (index_q0 (Some flags) norms = Ok k <->
     (k < length flags)%nat /\ nth k flags false = true /\ forall i, (i < k)%nat -> nth i flags false = false) /\
  (index_q0 None norms = Ok k <->
     (k < length norms)%nat /\ (forall i, (i < length norms)%nat -> nth k norms 0 <= nth i norms 0) /\
     forall i, (i < k)%nat -> nth k norms 0 < nth i norms 0).
Proof. intros. split; [apply first_true_spec|apply argmin_spec]. Qed.
Print Assumptions C72_index_q0.
Theorem C72_index_q0_errors : forall flags norms,
  (index_q0 (Some flags) norms = Err IndexError <-> ~ In true flags) /\
  (index_q0 None norms = Err ValueError <-> norms = []).
Proof.
  intros flags norms. split; unfold index_q0.
  - induction flags as [|[|] t IH]; cbn [first_true In].
    + split; [intros _ []|reflexivity].
    + split; [discriminate|intros H; exfalso; apply H; now left].
    + split.
      * intros H [X|X]; [discriminate|]. destruct (first_true t); [discriminate|]. cbn in H. injection H as ->. apply IH; [reflexivity|exact X].
      * intros H. rewrite (proj2 IH); [reflexivity|]. intros X. apply H. now right.
  - destruct norms as [|x t]; [easy|]. cbn [argmin]. split; [|discriminate]. destruct (argmin t); [destruct (rltb _ _)|]; discriminate.
Qed.
Print Assumptions C72_index_q0_errors.
Example C72_instance : index_q0 (Some [false; true; true]) [] = Ok 1%nat /\
  exists m, fixedeps_nonq0 [(0, 0, 0)%Z; (1, 0, 0)%Z] [V (1 / 4) 0 0; V (5 / 4) 0 0] [1 / 16; 25 / 16] (bare_v [1 / 16; 25 / 16])
     (8 * PI / sqrt (1 / 16)) (sqrt (1 / 16)) (fun i j => RtoC (INR (i + 2 * j))) = Ok m /\ m 1%nat 0%nat = RtoC 1.
Proof.
  split; [reflexivity|].
  destruct (C72_fixedeps_nonq0 [(0, 0, 0)%Z; (1, 0, 0)%Z] [V (1 / 4) 0 0; V (5 / 4) 0 0] [1 / 16; 25 / 16] 0 (fun i j => RtoC (INR (i + 2 * j)))) as (m & Hm & Em);
  try reflexivity.
  - cbn; lia.
  - intros [|[|i]] Hi; cbn in *; [easy| |lia]. split; discriminate.
  - cbn. lra.
  - intros [|[|i]] Hi Hn; cbn in *; [easy|lra|lia].
  - exists m. split; [exact Hm|]. rewrite Em. cbn. reflexivity.
Qed.
