(** Matrix elements as momentum-conserving sums; folding of k+q. *)
From Coq Require Import Reals Lra.
From Coquelicot Require Import Coquelicot.
From Verif Require Import Base SortModel SortProofs LatModel LatProofs GIndexModel GIndexProofs GSphereProofs FFTModel FFTSpec FFTProofs FFTProofs2 GwModel GwSpec GwProofs NlocSpec NlocProofs WfnIOProofs CBase.
Open Scope R_scope.

Lemma assert_true b u : assert_ b = Ok u -> b = true.
Proof. destruct b; easy. Qed.
Lemma driver_inv nx ny nz gs idx : cryst2idxgrid (zshape nx ny nz) gs = Ok idx ->
  (0 < nx)%nat /\ (0 < ny)%nat /\ (0 < nz)%nat /\ idx = map (gidx (zshape nx ny nz)) gs /\
  forall g, In g gs -> g_ok (zshape nx ny nz) g = true.
Proof.
  unfold cryst2idxgrid, check_g_cryst. intros H.
  destruct (assert_ (shape_ok (zshape nx ny nz))) as [u|] eqn:E1; [|discriminate]. cbn [bind] in H.
  destruct (assert_ (forallb _ gs)) as [u'|] eqn:E2; [|discriminate]. cbn [bind] in H. injection H as <-.
  apply assert_true in E1, E2. unfold zshape, shape_ok in E1.
  rewrite !andb_true_iff, !Z.ltb_lt in E1. repeat split; try lia.
  now apply forallb_forall.
Qed.
(** Forward transform at the positions of an arbitrary list of vectors. *)
Lemma r2g_list nx ny nz gs norm f k : (0 < nx)%nat -> (0 < ny)%nat -> (0 < nz)%nat ->
  (forall g, In g gs -> g_ok (zshape nx ny nz) g = true) -> (k < length gs)%nat ->
  nth k (full_fun nx ny nz (map Z.to_nat (map (gidx (zshape nx ny nz)) gs)) norm (R2G f)) (RtoC 0)
  = csum nx (fun x => csum ny (fun y => csum nz (fun z =>
      nth ((x * ny + y) * nz + z) f (RtoC 0)
      * Cconj (plane_wave nx ny nz (nth k gs (0, 0, 0)%Z) x y z))))%C.
Proof.
  intros P1 P2 P3 HG Hk. cbn [full_fun]. unfold taken. rewrite !map_map.
  rewrite (nth_map_lt _ gs k (0, 0, 0)%Z) by exact Hk.
  pose proof (HG _ (nth_In gs (0, 0, 0)%Z Hk)) as Hg.
  destruct (nth k gs (0, 0, 0)%Z) as [[g1 g2] g3].
  assert (Hsh : shape_ok (zshape nx ny nz) = true) by (unfold shape_ok, zshape; rewrite !andb_true_iff, !Z.ltb_lt; lia).
  pose proof (gidx_unravel _ _ _ _ _ _ Hsh Hg) as [HU HB].
  unfold zshape in *. rewrite nat_unravel in HU by tauto.
  apply pair_equal_spec in HU as [HU U3]. apply pair_equal_spec in HU as [U1 U2].
  unfold g_ok in Hg. apply andb_true_iff in Hg as [Hg G3]. apply andb_true_iff in Hg as [G1 G2].
  unfold dft_xyz. set (i := Z.to_nat (gidx _ _)) in *.
  assert (E1 : (i / (ny * nz))%nat = Z.to_nat (fold1 (Z.of_nat nx) g1)) by (rewrite <- U1; now rewrite Nat2Z.id).
  assert (E2 : ((i / nz) mod ny)%nat = Z.to_nat (fold1 (Z.of_nat ny) g2)) by (rewrite <- U2; now rewrite Nat2Z.id).
  assert (E3 : (i mod nz)%nat = Z.to_nat (fold1 (Z.of_nat nz) g3)) by (rewrite <- U3; now rewrite Nat2Z.id).
  rewrite E1, E2, E3.
  apply csum_ext. intros x Hx. apply csum_ext. intros y Hy. apply csum_ext. intros z Hz.
  f_equal. rewrite plane_wave_roots.
  assert (KK : forall n i t, (0 < n)%nat -> dim_ok (Z.of_nat n) i = true ->
     kern (-1) n t (Z.to_nat (fold1 (Z.of_nat n) i)) = Cconj (root n (i * Z.of_nat t))).
  { intros n j t Hn Hj. rewrite <- kern_cryst by assumption. unfold kern. rewrite root_conj. f_equal. ring. }
  rewrite !KK by assumption. apply C_ext; cbn; ring.
Qed.

Definition zadd3 (a b : Z * Z * Z) : Z * Z * Z :=
  let '(a1, a2, a3) := a in let '(b1, b2, b3) := b in (a1 + b1, a2 + b2, a3 + b3)%Z.
Lemma pw_prod nx ny nz a b x y z :
  (plane_wave nx ny nz a x y z * plane_wave nx ny nz b x y z)%C = plane_wave nx ny nz (zadd3 a b) x y z.
Proof.
  destruct a as [[a1 a2] a3], b as [[b1 b2] b3]. cbn [zadd3]. rewrite !plane_wave_roots, !Z.mul_add_distr_r, !root_add.
  apply C_ext; cbn; ring.
Qed.
Definition zneg3 (a : Z * Z * Z) : Z * Z * Z := let '(a1, a2, a3) := a in (- a1, - a2, - a3)%Z.
Lemma pw_conj nx ny nz a x y z : Cconj (plane_wave nx ny nz a x y z) = plane_wave nx ny nz (zneg3 a) x y z.
Proof.
  destruct a as [[a1 a2] a3]. cbn [zneg3]. rewrite !plane_wave_roots, !Z.mul_opp_l, <- !root_conj. apply C_ext; cbn; ring.
Qed.
Definition zero3b (nx ny nz : nat) (a : Z * Z * Z) : bool :=
  let '(a1, a2, a3) := a in
  (a1 mod Z.of_nat nx =? 0)%Z && (a2 mod Z.of_nat ny =? 0)%Z && (a3 mod Z.of_nat nz =? 0)%Z.
Lemma pw_sum nx ny nz a : (0 < nx)%nat -> (0 < ny)%nat -> (0 < nz)%nat ->
  csum nx (fun x => csum ny (fun y => csum nz (fun z => plane_wave nx ny nz a x y z)))
  = if zero3b nx ny nz a then RtoC (INR (nx * ny * nz)) else RtoC 0.
Proof.
  intros H1 H2 H3. destruct a as [[a1 a2] a3].
  transitivity (csum nx (fun x => root nx (Z.of_nat x * a1)) *
    (csum ny (fun y => root ny (Z.of_nat y * a2)) * csum nz (fun z => root nz (Z.of_nat z * a3))))%C.
  - rewrite <- csum_scal_r. apply csum_ext. intros x _. rewrite csum_mult, <- csum_scal. apply csum_ext. intros y _.
    rewrite <- csum_scal. apply csum_ext. intros z _. rewrite plane_wave_roots, !(Z.mul_comm _ (Z.of_nat _)). reflexivity.
  - rewrite !root_orthogonal by easy. unfold zero3b. rewrite !mult_INR.
    destruct (a1 mod Z.of_nat nx =? 0)%Z, (a2 mod Z.of_nat ny =? 0)%Z, (a3 mod Z.of_nat nz =? 0)%Z; cbn [andb];
      apply C_ext; cbn; ring.
Qed.

Lemma combine_nth_map {A} (f : C * C -> A) (a b : list C) i d : length a = length b -> (i < length a)%nat ->
  nth i (map f (combine a b)) d = f (nth i a (RtoC 0), nth i b (RtoC 0)).
Proof.
  intros H Hi. rewrite (nth_map_lt f _ i (RtoC 0, RtoC 0)) by (rewrite combine_length; lia).
  rewrite combine_nth by exact H. reflexivity.
Qed.
Lemma full_fun_g2r_length nx ny nz idx norm v : length (full_fun nx ny nz idx norm (G2R v)) = (nx * ny * nz)%nat.
Proof. cbn [full_fun]. apply store_length. Qed.

(** Raw projection of conj(phi_c) phi_v on one shifted plane wave. *)
Lemma overlap_sum nx ny nz gs_c gs_v (sc sv : gspace) cc cv (gs : list (Z * Z * Z)) k :
  gspace_base (zshape nx ny nz) gs_c = Ok sc -> gspace_base (zshape nx ny nz) gs_v = Ok sv ->
  length cc = length (gs_cryst sc) -> length cv = length (gs_cryst sv) ->
  (0 < nx)%nat -> (0 < ny)%nat -> (0 < nz)%nat ->
  (forall g, In g gs -> g_ok (zshape nx ny nz) g = true) -> (k < length gs)%nat ->
  let fc := full_fun nx ny nz (map Z.to_nat (gs_idxgrid sc)) false (G2R cc) in
  let fv := full_fun nx ny nz (map Z.to_nat (gs_idxgrid sv)) false (G2R cv) in
  nth k (full_fun nx ny nz (map Z.to_nat (map (gidx (zshape nx ny nz)) gs)) false
    (R2G (map (fun p => (Cconj (fst p) * snd p)%C) (combine fc fv)))) (RtoC 0)
  = (RtoC (INR (nx * ny * nz)) * csum (length cc) (fun i => csum (length cv) (fun j =>
      if zero3b nx ny nz (zadd3 (zadd3 (nth j (gs_cryst sv) (0, 0, 0)%Z) (zneg3 (nth i (gs_cryst sc) (0, 0, 0)%Z))) (zneg3 (nth k gs (0, 0, 0)%Z)))
      then Cconj (nth i cc (RtoC 0)) * nth j cv (RtoC 0) else RtoC 0)))%C.
Proof.
  intros Hc Hv Lc Lv P1 P2 P3 HG Hk fc fv.
  rewrite r2g_list by assumption.
  set (gk := nth k gs (0, 0, 0)%Z).
  set (Gc := fun i => nth i (gs_cryst sc) (0, 0, 0)%Z). set (Gv := fun j => nth j (gs_cryst sv) (0, 0, 0)%Z).
  transitivity (csum nx (fun x => csum ny (fun y => csum nz (fun z =>
     csum (length cc) (fun i => csum (length cv) (fun j =>
       (Cconj (nth i cc (RtoC 0)) * nth j cv (RtoC 0)) * plane_wave nx ny nz (zadd3 (zadd3 (Gv j) (zneg3 (Gc i))) (zneg3 gk)) x y z)%C))))).
  - apply csum_ext. intros x Hx. apply csum_ext. intros y Hy. apply csum_ext. intros z Hz.
    assert (HB : ((x * ny + y) * nz + z < nx * ny * nz)%nat).
    { now apply flat_bound. }
    rewrite combine_nth_map by (unfold fc, fv; rewrite ?full_fun_g2r_length; easy). cbn [fst snd].
    unfold fc, fv. rewrite (g2r_gspace nx ny nz gs_c sc false cc x y z) by assumption.
    rewrite (g2r_gspace nx ny nz gs_v sv false cv x y z) by assumption. cbn [nfac].
    rewrite csum_conj, csum_mult, <- csum_scal_r. apply csum_ext. intros i _. rewrite <- csum_scal_r. apply csum_ext. intros j _.
    rewrite <- pw_prod, <- pw_prod, <- !pw_conj. fold (Gc i) (Gv j).
    change (plane_wave nx ny nz (@nth vec3 k gs (0, 0, 0)%Z) x y z) with (plane_wave nx ny nz gk x y z).
    generalize (plane_wave nx ny nz (Gc i) x y z) (plane_wave nx ny nz (Gv j) x y z) (plane_wave nx ny nz gk x y z)
      (nth i cc (RtoC 0)) (nth j cv (RtoC 0)).
    intros p1 p2 p3 a b. apply C_ext; cbn; ring.
  - transitivity (csum (length cc) (fun i => csum (length cv) (fun j =>
       (Cconj (nth i cc (RtoC 0)) * nth j cv (RtoC 0)) * csum nx (fun x => csum ny (fun y => csum nz (fun z =>
          plane_wave nx ny nz (zadd3 (zadd3 (Gv j) (zneg3 (Gc i))) (zneg3 gk)) x y z))))%C)).
    + symmetry. transitivity (csum (length cc) (fun i => csum (length cv) (fun j => csum nx (fun x => csum ny (fun y => csum nz (fun z =>
          (Cconj (nth i cc (RtoC 0)) * nth j cv (RtoC 0)) * plane_wave nx ny nz (zadd3 (zadd3 (Gv j) (zneg3 (Gc i))) (zneg3 gk)) x y z)%C))))).
      { apply csum_ext; intros i _. apply csum_ext; intros j _. rewrite <- csum_scal. apply csum_ext; intros x _.
        rewrite <- csum_scal. apply csum_ext; intros y _. now rewrite <- csum_scal. }
      rewrite (csum_ext _ _ _ (fun i _ => csum_swap _ _ _)). rewrite csum_swap. apply csum_ext; intros x _.
      rewrite (csum_ext _ _ _ (fun i _ => csum_swap _ _ _)). rewrite csum_swap. apply csum_ext; intros y _.
      rewrite (csum_ext _ _ _ (fun i _ => csum_swap _ _ _)). rewrite csum_swap. reflexivity.
    + rewrite <- csum_scal. apply csum_ext; intros i _. rewrite <- csum_scal. apply csum_ext; intros j _.
      rewrite pw_sum by assumption. unfold Gc, Gv. destruct (zero3b _ _ _ _); apply C_ext; cbn; ring.
Qed.

Lemma zero3b_iff nx ny nz a : (0 < nx)%nat -> (0 < ny)%nat -> (0 < nz)%nat ->
  zero3b nx ny nz a = true <-> exists t1 t2 t3, a = (t1 * Z.of_nat nx, t2 * Z.of_nat ny, t3 * Z.of_nat nz)%Z.
Proof.
  intros H1 H2 H3. destruct a as [[a1 a2] a3]. unfold zero3b. rewrite !andb_true_iff, !Z.eqb_eq.
  rewrite !Z.mod_divide by lia. unfold Z.divide. split.
  - intros [[[k1 ->] [k2 ->]] [k3 ->]]. now exists k1, k2, k3.
  - intros (t1 & t2 & t3 & [= -> -> ->]). repeat split; eexists; reflexivity.
Qed.

(** ---- folding ---- *)
Lemma around5 x : exists m : Z, np_around 5 x = IZR m / 10 ^ 5 /\ Rabs (x - IZR m / 10 ^ 5) <= / 10 ^ 5 / 2.
Proof. destruct (around_spec 5 x) as [[m E] H]. exists m. rewrite E in H. split; [exact E|exact H]. Qed.
Lemma ten5 : 10 ^ 5 = IZR 100000. Proof. rewrite pow_IZR. reflexivity. Qed.
Lemma fold_range x : - (/ 10 ^ 5 / 2) <= x + IZR (umklapp1 x) <= 1 - / 10 ^ 5 / 2.
Proof.
  destruct (around5 x) as (m & E & H). unfold umklapp1. rewrite E. apply Rabs_le_between in H.
  assert (F : rfloor (IZR m / 10 ^ 5) = (m / 100000)%Z).
  { apply rfloor_unique. rewrite ten5. pose proof (Z.div_mod m 100000 ltac:(lia)) as D.
    pose proof (Z.mod_pos_bound m 100000 ltac:(lia)) as B.
    set (q := (m / 100000)%Z) in *. set (r := (m mod 100000)%Z) in *. rewrite D, plus_IZR, mult_IZR.
    destruct B as [B1 B2]. apply IZR_le in B1. apply IZR_lt in B2. lra. }
  rewrite F, opp_IZR.
  assert (B : 0 <= IZR m / 10 ^ 5 - IZR (m / 100000) <= 1 - / 10 ^ 5).
  { rewrite ten5. pose proof (Z.div_mod m 100000 ltac:(lia)) as D.
    pose proof (Z.mod_pos_bound m 100000 ltac:(lia)) as B.
    set (q := (m / 100000)%Z) in *. set (r := (m mod 100000)%Z) in *. rewrite D, plus_IZR, mult_IZR.
    destruct B as [B1 B2]. assert (B3 : (r <= 99999)%Z) by lia. apply IZR_le in B1. apply IZR_le in B3. lra. }
  lra.
Qed.
(** The folded value is the representative in [-5e-6, 1 - 5e-6]; when some integer shift
    brings x into [0, 1 - 5e-6) it is that one. *)
Lemma fold_unique x (z : Z) : 0 <= x + IZR z < 1 - / 10 ^ 5 / 2 -> umklapp1 x = z.
Proof.
  intros H. pose proof (fold_range x) as R.
  assert (A : -1 < IZR (umklapp1 x - z) < 1) by (rewrite minus_IZR; lra).
  change (-1) with (IZR (-1)) in A. destruct A as [A1 A2]. apply lt_IZR in A1. apply (lt_IZR _ 1) in A2. lia.
Qed.
Lemma isclose_iff a b : isclose a b = true <-> Rabs (a - b) <= / 10 ^ 5 + / 10 ^ 5 * Rabs b.
Proof. unfold isclose. apply rleb_iff. Qed.
Lemma isclose_refl a : isclose a a = true.
Proof. apply isclose_iff. replace (a - a) with 0 by ring. rewrite Rabs_R0. pose proof (Rabs_pos a). lra. Qed.

(** ---- accumulation versus assignment ---- *)
Definition gval (l m : nat) (o : option (list C)) : C := match o with Some r => outer r l m | None => RtoC 0 end.
Lemma all_some_gval rs rows l m : all_some rs = Some rows -> lsum rows (fun r => outer r l m) = lsum rs (gval l m).
Proof. intros H. apply all_some_inv in H. subst. rewrite lsum_map. reflexivity. Qed.
Definition t3eqb (a b : nat * nat * nat) : bool :=
  let '(a1, a2, a3) := a in let '(b1, b2, b3) := b in ((a1 =? b1) && (a2 =? b2) && (a3 =? b3))%nat.
Lemma t3eqb_eq a b : t3eqb a b = true <-> a = b.
Proof.
  destruct a as [[a1 a2] a3], b as [[b1 b2] b3]. unfold t3eqb. rewrite !andb_true_iff, !Nat.eqb_eq. split; [intros [[-> ->] ->]; easy|intros [= -> -> ->]; easy].
Qed.
Definition get3 (M : marray) (i : nat * nat * nat) := let '(a, b, c) := i in M a b c.
Definition assign3 (M : marray) (p : (nat * nat * nat) * option (list C)) : marray :=
  let '(a, b, c) := fst p in massign M a b c (snd p).
Lemma get_assign M k v i : get3 (assign3 M (k, v)) i = if t3eqb i k then v else get3 M i.
Proof. destruct k as [[k1 k2] k3], i as [[i1 i2] i3]. reflexivity. Qed.
Lemma assign_sum (L : list ((nat * nat * nat) * option (list C))) M0 ax (f : option (list C) -> C) :
  NoDup ax -> NoDup (map fst L) -> (forall p, In p L -> In (fst p) ax) ->
  (forall i, f (get3 M0 i) = RtoC 0) ->
  lsum ax (fun i => f (get3 (fold_left assign3 L M0) i)) = lsum L (fun p => f (snd p)).
Proof.
  intros Nax. induction L as [|[k v] L IH] using rev_ind; intros NL HI H0.
  - cbn. apply lsum_zero. intros i _. apply H0.
  - rewrite fold_left_app. cbn [fold_left]. set (M := fold_left assign3 L M0).
    rewrite map_app in NL. cbn [map] in NL.
    pose proof (NoDup_remove_2 _ _ _ NL) as Nk. pose proof (NoDup_remove_1 _ _ _ NL) as NL'. rewrite app_nil_r in Nk, NL'.
    assert (Mk : f (get3 M k) = RtoC 0).
    { unfold M. clear -Nk H0. induction L as [|[k' v'] L IH] using rev_ind; [apply H0|].
      rewrite fold_left_app. cbn [fold_left]. rewrite get_assign.
      destruct (t3eqb k k') eqn:E; [apply t3eqb_eq in E; subst; exfalso; apply Nk; rewrite map_app; apply in_or_app; right; now left|].
      apply IH. intros HH. apply Nk. rewrite map_app. apply in_or_app. now left. }
    rewrite lsum_app, <- IH; [|exact NL'|intros p Hp; apply HI, in_or_app; now left|exact H0]. fold M.
    rewrite lsum_cons, lsum_nil. cbn [snd].
    transitivity (lsum ax (fun i => (f (get3 M i) + (if t3eqb i k then f v else RtoC 0))%C)).
    + apply lsum_ext. intros i _. rewrite get_assign. destruct (t3eqb i k) eqn:E; [apply t3eqb_eq in E; subst; rewrite Mk|]; apply C_ext; cbn; ring.
    + rewrite lsum_plus. f_equal.
      assert (Hin : In k ax) by (apply (HI (k, v)), in_or_app; right; now left).
      clear -Nax Hin. induction ax as [|a t IH]; [easy|]. rewrite lsum_cons. inversion_clear Nax as [|? ? Na Nt].
      destruct Hin as [->|Hin].
      * replace (t3eqb k k) with true by (symmetry; now apply t3eqb_eq).
        rewrite lsum_zero; [apply C_ext; cbn; ring|]. intros b Hb. destruct (t3eqb b k) eqn:E; [apply t3eqb_eq in E; subst; easy|easy].
      * destruct (t3eqb a k) eqn:E; [apply t3eqb_eq in E; subst; easy|]. rewrite IH by easy. apply C_ext; cbn; ring.
Qed.
Lemma assign_none L M0 ax : NoDup (map fst L) -> (forall p, In p L -> In (fst p) ax) ->
  (forall i, get3 M0 i <> None) ->
  (In None (map (get3 (fold_left assign3 L M0)) ax) <-> In None (map snd L)).
Proof.
  intros NL HI H0.
  assert (G : forall i, get3 (fold_left assign3 L M0) i = None <-> In (i, None) L).
  { clear HI. induction L as [|[k v] L IH] using rev_ind; intros i; [cbn; split; [intros H; now apply H0 in H|easy]|].
    rewrite map_app in NL. cbn [map] in NL.
    pose proof (NoDup_remove_2 _ _ _ NL) as Nk. pose proof (NoDup_remove_1 _ _ _ NL) as NL'. rewrite app_nil_r in Nk, NL'.
    rewrite fold_left_app. cbn [fold_left]. rewrite get_assign, in_app_iff.
    destruct (t3eqb i k) eqn:E.
    - apply t3eqb_eq in E. subst. split; [intros ->; right; now left|]. intros [H|[H|[]]]; [|congruence].
      exfalso. apply Nk. apply (in_map fst) in H. exact H.
    - rewrite IH by exact NL'. split; [now left|]. intros [H|[H|[]]]; [easy|]. injection H as -> ->.
      assert (t3eqb i i = true) by (now apply t3eqb_eq). congruence. }
  rewrite !in_map_iff. split.
  - intros (i & H & _). apply G in H. now exists (i, None).
  - intros ([i o] & E & H). cbn [snd] in *. subst o. exists i. split; [now apply G|]. now apply (HI (i, None)).
Qed.
Lemma all_some_none {A} (l : list (option A)) : all_some l = None <-> In None l.
Proof.
  induction l as [|[a|] t IH]; cbn; [easy| |]; [|split; auto].
  destruct (all_some t); cbn; split; try easy.
  - intros [H|H]; [discriminate|]. apply IH in H. discriminate.
  - intros _. right. now apply IH.
Qed.

(** ---- states and transitions ---- *)
Lemma in_states E x k b : In (k, b) (states_with E x) <->
  (k < length (e_kpts E))%nat /\ (b < e_nbands E)%nat /\ (b < length (w_occ (kp_wfn (kp E k))))%nat /\ occ_of E k b = x.
Proof.
  unfold states_with. rewrite in_flat_map. split.
  - intros (k' & Hk & H). apply in_seq in Hk. apply in_map_iff in H as (b' & [= <- <-] & H).
    apply filter_In in H as [H1 H2]. apply in_seq in H1. apply reqb_iff in H2. repeat split; try lia. exact H2.
  - intros (H1 & H2 & H3 & H4). exists k. split; [apply in_seq; lia|]. apply in_map_iff. exists b. split; [easy|].
    apply filter_In. split; [apply in_seq; lia|]. now apply reqb_iff.
Qed.
Lemma states_NoDup E x : NoDup (states_with E x).
Proof.
  unfold states_with. generalize (seq_NoDup (length (e_kpts E)) 0). generalize (seq 0 (length (e_kpts E))) as l.
  induction l as [|k t IH]; intros H; [constructor|]. inversion_clear H as [|? ? Hk Ht]. cbn [flat_map].
  apply NoDup_app_intro.
  - apply FinFun.Injective_map_NoDup; [intros a b [= ->]; easy|]. apply NoDup_filter, seq_NoDup.
  - now apply IH.
  - intros p Hp Hq. apply in_map_iff in Hp as (b & <- & _). apply in_flat_map in Hq as (k' & Hk' & Hq).
    apply in_map_iff in Hq as (b' & [= <- <-] & _). easy.
Qed.
Lemma in_transitions E c v : In (c, v) (transitions E) <-> In c (l_i_c E) /\ In v (matches E (fst c)).
Proof.
  unfold transitions. rewrite in_flat_map. split.
  - intros (c' & Hc & H). apply in_map_iff in H as (v' & [= <- <-] & H). easy.
  - intros [H1 H2]. exists c. split; [easy|]. apply in_map_iff. now exists v.
Qed.
Lemma transitions_NoDup E : NoDup (transitions E).
Proof.
  unfold transitions. generalize (states_NoDup E 0). fold (l_i_c E). generalize (l_i_c E) as l.
  induction l as [|c t IH]; intros H; [constructor|]. inversion_clear H as [|? ? Hk Ht]. cbn [flat_map].
  apply NoDup_app_intro.
  - apply FinFun.Injective_map_NoDup; [intros a b [= ->]; easy|]. apply NoDup_filter, states_NoDup.
  - now apply IH.
  - intros p Hp Hq. apply in_map_iff in Hp as (b & <- & _). apply in_flat_map in Hq as (k' & Hk' & Hq).
    apply in_map_iff in Hq as (b' & [= <- <-] & _). easy.
Qed.
Lemma fold_max_ge t x : forall y, In y (x :: t) -> (y <= fold_right Nat.max x t)%nat.
Proof. induction t as [|a t IH]; intros y; cbn; [intros [->|[]]; lia|]. intros [->|[->|H]]; [specialize (IH y (or_introl eq_refl)); lia|lia|specialize (IH y (or_intror H)); lia]. Qed.
Lemma fold_min_le t x : forall y, In y (x :: t) -> (fold_right Nat.min x t <= y)%nat.
Proof. induction t as [|a t IH]; intros y; cbn; [intros [->|[]]; lia|]. intros [->|[->|H]]; [specialize (IH y (or_introl eq_refl)); lia|lia|specialize (IH y (or_intror H)); lia]. Qed.
Lemma list_max_ge l m : list_max_res l = Ok m -> forall y, In y l -> (y <= m)%nat.
Proof. destruct l as [|x t]; [discriminate|]. intros [= <-]. apply fold_max_ge. Qed.
Lemma list_min_le l m : list_min_res l = Ok m -> forall y, In y l -> (m <= y)%nat.
Proof. destruct l as [|x t]; [discriminate|]. intros [= <-]. apply fold_min_le. Qed.
Lemma in_axes3 n1 n2 n3 a b c : In (a, b, c) (axes3 n1 n2 n3) <-> (a < n1 /\ b < n2 /\ c < n3)%nat.
Proof.
  unfold axes3. rewrite in_flat_map. split.
  - intros (a' & Ha & H). apply in_flat_map in H as (b' & Hb & H). apply in_map_iff in H as (c' & [= <- <- <-] & Hc).
    apply in_seq in Ha, Hb, Hc. lia.
  - intros (H1 & H2 & H3). exists a. split; [apply in_seq; lia|]. apply in_flat_map. exists b. split; [apply in_seq; lia|].
    apply in_map_iff. exists c. split; [easy|]. apply in_seq; lia.
Qed.
Lemma axes3_NoDup n1 n2 n3 : NoDup (axes3 n1 n2 n3).
Proof.
  unfold axes3. generalize (seq_NoDup n1 0). generalize (seq 0 n1) as l.
  induction l as [|k t IH]; intros H; [constructor|]. inversion_clear H as [|? ? Hk Ht]. cbn [flat_map].
  apply NoDup_app_intro; [|now apply IH|].
  - generalize (seq_NoDup n2 0). generalize (seq 0 n2) as l2. induction l2 as [|b l2 IH2]; intros H2; [constructor|].
    inversion_clear H2 as [|? ? Hb Hl]. cbn [flat_map]. apply NoDup_app_intro; [|now apply IH2|].
    + apply FinFun.Injective_map_NoDup; [intros x y [= ->]; easy|apply seq_NoDup].
    + intros p Hp Hq. apply in_map_iff in Hp as (c & <- & _). apply in_flat_map in Hq as (b' & Hb' & Hq).
      apply in_map_iff in Hq as (c' & [= <- <-] & _). easy.
  - intros p Hp Hq. apply in_flat_map in Hp as (b & _ & Hp). apply in_map_iff in Hp as (c & <- & _).
    apply in_flat_map in Hq as (k' & Hk' & Hq). apply in_flat_map in Hq as (b' & _ & Hq).
    apply in_map_iff in Hq as (c' & [= <- _ _] & _). easy.
Qed.
Lemma sequence_length {A} (l : list (res A)) r : sequence l = Ok r -> length r = length l.
Proof.
  revert r; induction l as [|[a|e] t IH]; intros r; cbn; [intros [= <-]; easy| |discriminate].
  destruct (sequence t) as [r'|]; [|discriminate]. cbn. intros [= <-]. cbn. f_equal. now apply IH.
Qed.
