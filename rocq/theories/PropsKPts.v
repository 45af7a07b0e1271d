(** Properties C23, C24, C55: k-point meshes. *)
From Verif Require Import Base LatModel LatProofs CrystalModel CrystalProofs KPtsModel KPtsSpec KPtsProofs.
From Coq Require Import Lra.
Open Scope R_scope.

(** C23.  Without reduction the mesh has exactly n1*n2*n3 points, pairwise
    inequivalent, each equivalent to a point of the full mesh and covering it, with
    equal weights summing to 1. *)
Theorem C23_mesh_uniform : forall n1 n2 n3 s1 s2 s3, (0 < n1)%Z -> (0 < n2)%Z -> (0 < n3)%Z ->
  exists l, gen_monkhorst_pack_grid [n1; n2; n3] [s1; s2; s3] None false = Ok l
   /\ Z.of_nat (length l) = (n1 * n2 * n3)%Z
   /\ (forall k w, In (k, w) l -> w = 1 / IZR (n1 * n2 * n3))
   /\ fold_right Rplus 0 (map snd l) = 1
   /\ (forall a b d, (a < length l)%nat -> (b < length l)%nat ->
         equivk (fst (nth a l d)) (fst (nth b l d)) -> a = b)
   /\ (forall k w, In (k, w) l -> exists m, mesh_point n1 n2 n3 s1 s2 s3 m /\ equivk m k)
   /\ (forall m, mesh_point n1 n2 n3 s1 s2 s3 m -> exists k w, In (k, w) l /\ equivk m k).
Proof.
  intros n1 n2 n3 s1 s2 s3 H1 H2 H3.
  set (T := prod3 (zrange (lo n1) (lo n1 + n1)) (zrange (lo n2) (lo n2 + n2)) (zrange (lo n3) (lo n3 + n3))).
  assert (LT : Z.of_nat (length T) = (n1 * n2 * n3)%Z).
  { unfold T. rewrite prod3_length, !zrange_length. rewrite !Nat2Z.inj_mul, !Z2Nat.id by lia. ring. }
  set (p := mp_point n1 n2 n3 s1 s2 s3).
  assert (Pos : (0 < n1 * n2 * n3)%Z) by (repeat apply Z.mul_pos_pos; assumption).
  assert (NE : map p T <> []).
  { intros E. apply (f_equal (@length _)) in E. rewrite map_length in E. cbn in E. rewrite E in LT. cbn in LT. lia. }
  set (w0 := 1 / IZR (n1 * n2 * n3)).
  exists (map (fun k => (k, w0)) (map p T)).
  assert (EN : INR (length T) = IZR (n1 * n2 * n3)) by (rewrite INR_IZR_INZ; now rewrite LT).
  split; [|split; [|split; [|split; [|split; [|split]]]]].
  - unfold gen_monkhorst_pack_grid. cbn [forallb].
    replace ((0 <? n1) && ((0 <? n2) && ((0 <? n3) && true)))%Z with true by lia. cbn [negb].
    rewrite !mp_axis_full, mesh3_map. fold T. fold p. cbv zeta.
    rewrite (sanitize_const _ NE). cbn [bind]. f_equal. rewrite combine_const. apply map_ext. intros k. unfold w0.
    now rewrite map_length, EN.
  - rewrite !map_length. exact LT.
  - intros k w H. apply in_map_iff in H as (k' & E & _). injection E as _ <-. reflexivity.
  - rewrite map_map. cbn [snd]. change (rsum (map (fun _ => w0) (map p T)) = 1). rewrite rsum_const, map_length, EN.
    unfold w0. field. apply IZR_neq. lia.
  - intros a b d Ha Hb E. rewrite !map_length in Ha, Hb.
    assert (K : forall a, (a < length T)%nat -> fst (nth a (map (fun k => (k, w0)) (map p T)) d) = p (nth a T (0, 0, 0)%Z)).
    { intros c Hc. rewrite (nth_indep _ d ((fun k => (k, w0)) (p (0, 0, 0)%Z))) by now rewrite !map_length.
      rewrite (map_nth (fun k => (k, w0))), map_nth. reflexivity. }
    rewrite (K a Ha), (K b Hb) in E. apply mp_point_equiv in E; try assumption; try (apply nth_In; assumption).
    apply (proj1 (NoDup_nth T (0, 0, 0)%Z)); try assumption. apply prod3_NoDup; apply zrange_NoDup.
  - intros k w H. apply in_map_iff in H as (k' & E & H). injection E as <- <-. apply in_map_iff in H as ([[i j] l] & <- & H).
    exists (V ((IZR (i mod n1) + (if s1 then 1 else 0) / 2) / IZR n1)
              ((IZR (j mod n2) + (if s2 then 1 else 0) / 2) / IZR n2)
              ((IZR (l mod n3) + (if s3 then 1 else 0) / 2) / IZR n3)). split.
    + exists (i mod n1)%Z, (j mod n2)%Z, (l mod n3)%Z. split; [|reflexivity].
      split; [|split]; apply Z.mod_pos_bound; assumption.
    + exists (i / n1)%Z, (j / n2)%Z, (l / n3)%Z. cbn [vx vy vz].
      rewrite <- !axis_to_base by assumption. reflexivity.
  - intros m (i & j & l & (Hi & Hj & Hl) & ->).
    destruct (axis_from_base n1 s1 i H1 Hi) as (i' & a & Hi' & Ei).
    destruct (axis_from_base n2 s2 j H2 Hj) as (j' & b & Hj' & Ej).
    destruct (axis_from_base n3 s3 l H3 Hl) as (l' & c & Hl' & El).
    exists (p (i', j', l')), w0. split.
    + apply (in_map (fun k => (k, w0))), in_map. apply prod3_in. rewrite !in_zrange. tauto.
    + exists a, b, c. cbn [vx vy vz]. rewrite <- Ei, <- Ej, <- El. reflexivity.
Qed.
Print Assumptions C23_mesh_uniform.

(** C23.  Malformed requests are refused: a non-positive division with
    AssertionError (not the intended TypeError), too few shifts with TypeError. *)
Theorem C23_bad_request_refused : forall grid shifts symm tr,
  ((exists n, In n grid /\ (n <= 0)%Z) \/ length grid <> 3%nat ->
     gen_monkhorst_pack_grid grid shifts symm tr = Err AssertionError)
  /\ (length grid = 3%nat -> Forall (fun n => (0 < n)%Z) grid -> length shifts <> 3%nat ->
     gen_monkhorst_pack_grid grid shifts symm tr = Err TypeError).
Proof.
  intros grid shifts symm tr. split.
  - intros H. unfold gen_monkhorst_pack_grid.
    destruct (forallb (fun n => (0 <? n)%Z) grid) eqn:F; cbn [negb]; [|reflexivity].
    destruct H as [(n & Hn & Hn')|H].
    + rewrite forallb_forall in F. specialize (F n Hn). lia.
    + destruct grid as [|a [|b [|c [|d g]]]]; try reflexivity. cbn in H. congruence.
  - intros Hl HF Hs. unfold gen_monkhorst_pack_grid.
    replace (forallb (fun n => (0 <? n)%Z) grid) with true.
    2:{ symmetry. apply forallb_forall. rewrite Forall_forall in HF. intros x Hx. specialize (HF x Hx). lia. }
    cbn [negb]. destruct grid as [|a [|b [|c [|d g]]]]; try discriminate.
    destruct shifts as [|s1 [|s2 [|s3 [|s4 s]]]]; try reflexivity. cbn in Hs. congruence.
Qed.
Print Assumptions C23_bad_request_refused.

(** C23 fails for KList.mpgrid of klist.py: the indices are not divided by the
    divisions, so ALL points of the list are one and the same k-point up to a
    reciprocal lattice vector. *)
Theorem C23_klist_mpgrid_refuted : forall n1 n2 n3 s1 s2 s3 tr l, 
  mpgrid_old n1 n2 n3 s1 s2 s3 tr = Ok l ->
  forall k w k' w', In (k, w) l -> In (k', w') l -> equivk k k'.
Proof.
  intros n1 n2 n3 s1 s2 s3 tr l E k w k' w' Hk Hk'. unfold mpgrid_old in E.
  destruct (sanitize_weights _) as [ws|e]; cbn [bind] in E; [|discriminate]. injection E as <-.
  apply in_combine_l in Hk. apply in_combine_l in Hk'.
  assert (K : forall x, In x (mesh3 (mp_axis_old tr n1 s1) (mp_axis_old tr n2 s2) (mp_axis_old tr n3 s3)) ->
     exists a b c, x = V (IZR a + / 2 * IZR (b2z s1) / IZR n1) (IZR b + / 2 * IZR (b2z s2) / IZR n2)
                         (IZR c + / 2 * IZR (b2z s3) / IZR n3)).
  { intros x Hx. unfold mesh3 in Hx. apply in_flat_map in Hx as (a & Ha & Hx). apply in_flat_map in Hx as (b & Hb & Hx).
    apply in_map_iff in Hx as (c & <- & Hc). unfold mp_axis_old in *.
    apply in_map_iff in Ha as (i & <- & _). apply in_map_iff in Hb as (j & <- & _). apply in_map_iff in Hc as (m & <- & _).
    now exists i, j, m. }
  destruct (K k Hk) as (a & b & c & ->). destruct (K k' Hk') as (a' & b' & c' & ->).
  exists (a' - a)%Z, (b' - b)%Z, (c' - c)%Z. cbn [vx vy vz]. rewrite !minus_IZR. f_equal; ring.
Qed.
Print Assumptions C23_klist_mpgrid_refuted.

(** C24, symmetry path.  Given an irreducible mesh as spglib returns it - every mesh
    point listed once, each mapped to a listed representative - the weights sum to 1
    and for every periodic function that takes the same value on a mesh point and on
    its representative the weighted sum equals the average over the full mesh. *)
Theorem C24_irreducible_sampling : forall n1 n2 n3 (s1 s2 s3 : bool) tr ir (f : rvec -> R),
  (0 < n1)%Z -> (0 < n2)%Z -> (0 < n3)%Z ->
  let N := Z.to_nat (n1 * n2 * n3) in
  let pt (g : Z * Z * Z) : rvec := let '(a, b, c) := g in
     V ((IZR a + (if s1 then 1 else 0) / 2) / IZR n1) ((IZR b + (if s2 then 1 else 0) / 2) / IZR n2)
       ((IZR c + (if s3 then 1 else 0) / 2) / IZR n3) in
  length (ir_mapping ir) = N ->
  Permutation (map (fun g => let '(a, b, c) := g in (a mod n1, b mod n2, c mod n3))%Z (ir_grid ir))
    (flat_map (fun i => flat_map (fun j => map (fun l => (i, j, l)) (zrange 0 n3)) (zrange 0 n2)) (zrange 0 n1)) ->
  (forall k k', equivk k k' -> f k = f k') ->
  (forall i, (i < N)%nat -> f (pt (nth (nth i (ir_mapping ir) 0%nat) (ir_grid ir) (0, 0, 0)%Z))
                         = f (pt (nth i (ir_grid ir) (0, 0, 0)%Z))) ->
  exists l, gen_monkhorst_pack_grid [n1; n2; n3] [s1; s2; s3] (Some ir) tr = Ok l
    /\ fold_right Rplus 0 (map snd l) = 1
    /\ zone_avg l f = mesh_avg n1 n2 n3 s1 s2 s3 f.
Proof.
  intros n1 n2 n3 s1 s2 s3 tr ir f H1 H2 H3 N pt Hlen Hperm Hper Hmap.
  assert (Pos : (0 < n1 * n2 * n3)%Z) by (repeat apply Z.mul_pos_pos; assumption).
  set (m := ir_mapping ir) in *. set (u := np_unique m).
  assert (SumC : rsum (map INR (np_counts m)) = INR N).
  { unfold np_counts. rewrite map_map. fold u.
    rewrite (rsum_ext _ (fun j => INR (count_occ Nat.eq_dec m j) * 1)) by (intros; ring).
    rewrite (sum_by_class m (fun _ => 1) u); [|apply np_unique_NoDup|intros; now apply np_unique_in].
    rewrite rsum_const, Hlen. ring. }
  assert (EN : INR N = IZR (n1 * n2 * n3)) by (rewrite INR_IZR_INZ; unfold N; now rewrite Z2Nat.id by lia).
  assert (NZ : INR N <> 0) by (rewrite EN; apply IZR_neq; lia).
  assert (EP : forall g, mp_point n1 n2 n3 s1 s2 s3 g = pt g).
  { intros [[a b] c]. unfold mp_point, pt. destruct s1, s2, s3; cbn [b2z]; f_equal; f_equal; f_equal; lra. }
  eexists. split; [|split].
  - unfold gen_monkhorst_pack_grid. cbn [forallb].
    replace ((0 <? n1) && ((0 <? n2) && ((0 <? n3) && true)))%Z with true by lia. cbn [negb]. cbv zeta. fold m. fold u.
    unfold sanitize_weights. rewrite SumC.
    replace (existsb _ _) with false.
    2:{ symmetry. apply Bool.not_true_is_false. intros E. apply existsb_exists in E as (x & Hx & E).
        apply in_map_iff in Hx as (y & <- & _). destruct (Rlt_dec _ 0) as [L|]; [|discriminate].
        pose proof (pos_INR y). lra. }
    cbn [bind]. unfold np_counts. fold u. rewrite !map_map. reflexivity.
  - assert (EC : forall (A B : Type) (g : nat -> A) (h : nat -> B) (l : list nat), combine (map g l) (map h l) = map (fun x => (g x, h x)) l).
    { clear. intros A B g h l. induction l as [|x l IH]; [reflexivity|]. cbn. now rewrite IH. }
    rewrite EC, map_map. cbn [snd]. fold (rsum (map (fun x => INR (count_occ Nat.eq_dec m x) / INR N) u)).
    rewrite rsum_div. unfold np_counts in SumC. rewrite map_map in SumC. fold u in SumC. rewrite SumC. field. exact NZ.
  - assert (EC : forall (A B : Type) (g : nat -> A) (h : nat -> B) (l : list nat), combine (map g l) (map h l) = map (fun x => (g x, h x)) l).
    { clear. intros A B g h l. induction l as [|x l IH]; [reflexivity|]. cbn. now rewrite IH. }
    rewrite EC. unfold zone_avg. rewrite map_map. cbn [fst snd].
    match goal with |- fold_right Rplus 0 ?l = _ => change (rsum l = mesh_avg n1 n2 n3 s1 s2 s3 f) end.
    set (F := fun i : nat => f (pt (nth i (ir_grid ir) (0, 0, 0)%Z))).
    rewrite (rsum_ext _ (fun j => (INR (count_occ Nat.eq_dec m j) * F j) / INR N)).
    2:{ intros j _. rewrite EP. unfold F, Rdiv. ring. }
    rewrite rsum_div. rewrite (sum_by_class m F u); [|apply np_unique_NoDup|intros; now apply np_unique_in].
    unfold mesh_avg. rewrite <- EN. f_equal. 
    assert (Lg : length (ir_grid ir) = N).
    { apply Permutation_length in Hperm. rewrite map_length in Hperm. rewrite Hperm.
      change (length (prod3 (zrange 0 n1) (zrange 0 n2) (zrange 0 n3)) = N).
      rewrite prod3_length, !zrange_length. unfold N. lia. }
    transitivity (rsum (map f (map pt (ir_grid ir)))).
    + transitivity (rsum (map F (seq 0 N))).
      * rewrite <- Hlen. f_equal.
        transitivity (map (fun i => F (nth i m 0%nat)) (seq 0 (length m))).
        { rewrite <- (map_map (fun i => nth i m 0%nat) F). f_equal.
          clear. induction m as [|x m IH]; [reflexivity|]. cbn [length seq map nth]. f_equal.
          rewrite <- seq_shift, map_map. exact IH. }
        apply map_ext_in. intros i Hi. apply in_seq in Hi. unfold F. apply Hmap. lia.
      * f_equal. rewrite map_map. unfold F. rewrite <- Lg. 
        rewrite <- (map_map (fun i => nth i (ir_grid ir) (0, 0, 0)%Z) (fun g => f (pt g))). f_equal.
        clear. generalize (ir_grid ir) as g. intros g. induction g as [|x g IH]; [reflexivity|]. cbn [length seq map nth]. f_equal.
        rewrite <- seq_shift, map_map. exact IH.
    + unfold full_mesh.
      replace (flat_map _ (zrange 0 n1)) with (map pt (prod3 (zrange 0 n1) (zrange 0 n2) (zrange 0 n3))).
      2:{ unfold prod3. rewrite flat_map_concat_map, concat_map, map_map, <- flat_map_concat_map.
          apply flat_map_ext. intros i. rewrite flat_map_concat_map, concat_map, map_map, <- flat_map_concat_map.
          apply flat_map_ext. intros j. rewrite map_map. reflexivity. }
      fold (rsum (map f (map pt (prod3 (zrange 0 n1) (zrange 0 n2) (zrange 0 n3))))).
      fold (prod3 (zrange 0 n1) (zrange 0 n2) (zrange 0 n3)) in Hperm.
      set (red := fun g : Z * Z * Z => let '(a, b, c) := g in (a mod n1, b mod n2, c mod n3)%Z) in *.
      transitivity (rsum (map f (map pt (map red (ir_grid ir))))).
      * f_equal. rewrite !map_map. apply map_ext. intros [[a b] c]. symmetry. apply Hper. unfold pt, red.
        exists (a / n1)%Z, (b / n2)%Z, (c / n3)%Z. cbn [vx vy vz].
        rewrite <- !axis_to_base by assumption. unfold axis_pt.
        destruct s1, s2, s3; cbn [b2z]; f_equal; f_equal; f_equal; lra.
      * assert (PR : forall l l', Permutation l l' -> rsum l = rsum l').
        { clear. intros l l' H. unfold rsum. induction H; cbn; lra. }
        apply PR. now do 2 apply Permutation_map.
Qed.
Print Assumptions C24_irreducible_sampling.

(** C24 fails without symmetry: for the 3x3x1 mesh the time-reversal list contains
    neither the mesh point (1/3, 2/3, 0) nor its negative, even up to reciprocal
    lattice vectors. *)
Theorem C24_time_reversal_loses_points_refuted :
  exists l k0, gen_monkhorst_pack_grid [3; 3; 1]%Z [false; false; false] None true = Ok l
    /\ mesh_point 3 3 1 false false false k0
    /\ forall k w, In (k, w) l -> ~ equivk k k0 /\ ~ equivk k (negk k0).
Proof.
  set (A := mp_axis true 3 false). set (C := mp_axis true 1 false).
  exists (map (fun k => (k, 1 / INR (length (mesh3 A A C)))) (mesh3 A A C)), (V (1 / 3) (2 / 3) 0).
  split; [|split].
  - unfold gen_monkhorst_pack_grid. cbn [forallb]. cbv zeta. fold A. fold C.
    replace (negb _) with false by reflexivity. rewrite sanitize_const.
    + cbn [bind]. now rewrite combine_const.
    + unfold mesh3, A, C, mp_axis, zrange. cbn. discriminate.
  - exists 1%Z, 2%Z, 0%Z. split; [lia|]. f_equal; lra.
  - intros k w H. apply in_map_iff in H as (k' & E & H). injection E as -> <-.
    unfold mesh3 in H. apply in_flat_map in H as (x & Hx & H). apply in_flat_map in H as (y & Hy & H).
    apply in_map_iff in H as (z & <- & Hz).
    assert (KA : forall x, In x A -> x = 0 \/ x = 1 / 3).
    { intros t Ht. unfold A, mp_axis in Ht. apply in_map_iff in Ht as (i & <- & Hi). apply in_zrange in Hi.
      assert (i = 0 \/ i = 1)%Z as [-> | ->] by lia; cbn [b2z]; [left|right]; lra. }
    apply KA in Hx. apply KA in Hy.
    assert (ZT : forall a b : Z, IZR a = IZR b / 3 -> (3 * a = b)%Z) by (intros a b E; apply eq_IZR; rewrite mult_IZR; lra).
    split; intros (a & b & c & E); unfold negk in E; cbn [vx vy vz] in E; injection E as E1 E2 _;
      destruct Hx as [-> | ->], Hy as [-> | ->].
    + assert (3 * a = 1)%Z by (apply ZT; lra). lia.
    + assert (3 * a = 1)%Z by (apply ZT; lra). lia.
    + assert (3 * b = 2)%Z by (apply ZT; lra). lia.
    + assert (3 * b = 1)%Z by (apply ZT; lra). lia.
    + assert (3 * a = -1)%Z by (apply ZT; lra). lia.
    + assert (3 * a = -1)%Z by (apply ZT; lra). lia.
    + assert (3 * a = -2)%Z by (apply ZT; lra). lia.
    + assert (3 * a = -2)%Z by (apply ZT; lra). lia.
Qed.
Print Assumptions C24_time_reversal_loses_points_refuted.

(** C24, the exact result with time reversal only: the points (i_a + s_a/2)/n_a with 0 <= i_a <= n_a/2
    on every axis (one octant), each once, all with the same weight. *)
Theorem C24_time_reversal_keeps_octant : forall n1 n2 n3 s1 s2 s3, (0 < n1)%Z -> (0 < n2)%Z -> (0 < n3)%Z ->
  exists l, gen_monkhorst_pack_grid [n1; n2; n3] [s1; s2; s3] None true = Ok l
   /\ Z.of_nat (length l) = ((n1 / 2 + 1) * (n2 / 2 + 1) * (n3 / 2 + 1))%Z
   /\ (forall k w, In (k, w) l <-> w = 1 / IZR ((n1 / 2 + 1) * (n2 / 2 + 1) * (n3 / 2 + 1))
         /\ exists i j m : Z, (0 <= i <= n1 / 2 /\ 0 <= j <= n2 / 2 /\ 0 <= m <= n3 / 2)%Z
            /\ k = V ((IZR i + (if s1 then 1 else 0) / 2) / IZR n1) ((IZR j + (if s2 then 1 else 0) / 2) / IZR n2)
                     ((IZR m + (if s3 then 1 else 0) / 2) / IZR n3)).
Proof.
  intros n1 n2 n3 s1 s2 s3 H1 H2 H3.
  assert (Q : forall n, (0 < n)%Z -> (0 <= n / 2)%Z) by (intros; apply Z.div_pos; lia).
  pose proof (Q n1 H1) as Q1. pose proof (Q n2 H2) as Q2. pose proof (Q n3 H3) as Q3. clear Q.
  unfold gen_monkhorst_pack_grid. cbn [forallb].
  replace ((0 <? n1) && ((0 <? n2) && ((0 <? n3) && true)))%Z with true by (clear Q1 Q2 Q3; lia). cbn [negb].
  unfold mp_axis. generalize dependent (n1 / 2)%Z. intros h1 Q1. generalize dependent (n2 / 2)%Z. intros h2 Q2. generalize dependent (n3 / 2)%Z. intros h3 Q3.
  change (map (fun i => (IZR i + / 2 * IZR (b2z s1)) / IZR n1)) with (map (axis_pt n1 s1)).
  change (map (fun i => (IZR i + / 2 * IZR (b2z s2)) / IZR n2)) with (map (axis_pt n2 s2)).
  change (map (fun i => (IZR i + / 2 * IZR (b2z s3)) / IZR n3)) with (map (axis_pt n3 s3)).
  rewrite mesh3_map. set (T := prod3 _ _ _). set (p := mp_point n1 n2 n3 s1 s2 s3).
  assert (LT : Z.of_nat (length T) = ((h1 + 1) * (h2 + 1) * (h3 + 1))%Z).
  { unfold T. rewrite prod3_length, !zrange_length. rewrite !Nat2Z.inj_mul, !Z2Nat.id by lia. ring. }
  assert (Pos : (0 < (h1 + 1) * (h2 + 1) * (h3 + 1))%Z) by (repeat apply Z.mul_pos_pos; lia).
  assert (NE : map p T <> []).
  { intros E. apply (f_equal (@length _)) in E. rewrite map_length in E. cbn in E. rewrite E in LT. cbn in LT. lia. }
  rewrite (sanitize_const _ NE). cbn [bind]. rewrite combine_const. eexists. split; [reflexivity|].
  rewrite !map_length. split; [exact LT|]. rewrite INR_IZR_INZ, LT.
  intros k w. rewrite in_map_iff. split.
  - intros (k' & E & Hk). injection E as -> <-. split; [reflexivity|]. apply in_map_iff in Hk. destruct Hk as ([[i j] m] & <- & Hin).
    unfold T in Hin. apply prod3_in in Hin. rewrite !in_zrange in Hin. exists i, j, m. split; [lia|].
    unfold p, mp_point. destruct s1, s2, s3; cbn [b2z]; f_equal; f_equal; lra.
  - intros (-> & i & j & m & Hr & ->). exists (p (i, j, m)). split.
    + f_equal. unfold p, mp_point. destruct s1, s2, s3; cbn [b2z]; f_equal; f_equal; lra.
    + apply in_map. unfold T. apply prod3_in. rewrite !in_zrange. lia.
Qed.
Print Assumptions C24_time_reversal_keeps_octant.

(** C24 fails on every unshifted mesh with at least three divisions along two axes: the point
    (1/n1, -1/n2, 0) and its negative are both missing. *)
Theorem C24_time_reversal_loses_points_general_refuted : forall n1 n2 n3, (3 <= n1)%Z -> (3 <= n2)%Z -> (0 < n3)%Z ->
  let k0 := V (1 / IZR n1) (IZR (n2 - 1) / IZR n2) 0 in
  mesh_point n1 n2 n3 false false false k0 /\
  forall l k w, gen_monkhorst_pack_grid [n1; n2; n3] [false; false; false] None true = Ok l -> In (k, w) l ->
    ~ equivk k k0 /\ ~ equivk k (negk k0).
Proof.
  intros n1 n2 n3 H1 H2 H3 k0. split.
  - exists 1%Z, (n2 - 1)%Z, 0%Z. split; [lia|]. unfold k0. assert (IZR n3 <> 0) by (apply IZR_neq; lia). f_equal; unfold Rdiv; try ring.
  - intros l k w E Hk. destruct (C24_time_reversal_keeps_octant n1 n2 n3 false false false) as (l' & E' & _ & D); [lia..|].
    rewrite E in E'. injection E' as <-. apply D in Hk. destruct Hk as (_ & i & j & m & (Hi & Hj & _) & ->). clear D E.
    assert (G1 : (2 * (n1 / 2) <= n1)%Z) by (apply Z.mul_div_le; lia).
    assert (G2 : (2 * (n2 / 2) <= n2)%Z) by (apply Z.mul_div_le; lia).
    generalize dependent (n1 / 2)%Z. intros h1 Hi G1. generalize dependent (n2 / 2)%Z. intros h2 Hj G2.
    assert (N1 : IZR n1 <> 0) by (apply IZR_neq; lia). assert (N2 : IZR n2 <> 0) by (apply IZR_neq; lia).
    assert (ZT : forall n x y a : Z, IZR n <> 0 -> IZR y / IZR n = (IZR x + 0 / 2) / IZR n + IZR a -> (y = x + n * a)%Z).
    { intros n x y a Hn E. apply eq_IZR. rewrite plus_IZR, mult_IZR.
      transitivity (IZR y / IZR n * IZR n); [field; exact Hn|]. rewrite E. field. exact Hn. }
    split; intros (a & b & c & E); unfold k0, negk in E; cbn [vx vy vz] in E; injection E as E1 E2 _.
    + apply (ZT n2 j (n2 - 1)%Z b N2) in E2.
      assert (b = 0 \/ 1 <= b \/ b <= -1)%Z as [X|[X|X]] by lia; [subst b; lia| |]; nia.
    + assert (E1' : IZR (- (1)) / IZR n1 = (IZR i + 0 / 2) / IZR n1 + IZR a) by (rewrite <- E1, opp_IZR; field; exact N1).
      apply (ZT n1 i (-1)%Z a N1) in E1'.
      assert (a = 0 \/ 1 <= a \/ a = -1 \/ a <= -2)%Z as [X|[X|[X|X]]] by lia; subst; nia.
Qed.
Print Assumptions C24_time_reversal_loses_points_general_refuted.

(** C24 also fails on the weights: on the one-dimensional mesh with four divisions
    the three points kept get weight 1/3 each instead of 1/4, 1/2, 1/4. *)
Theorem C24_time_reversal_weights_refuted :
  exists l, gen_monkhorst_pack_grid [4; 1; 1]%Z [false; false; false] None true = Ok l
    /\ map fst l = [V 0 0 0; V (1 / 4) 0 0; V (1 / 2) 0 0] /\ map snd l = [1 / 3; 1 / 3; 1 / 3].
Proof.
  set (A := mp_axis true 4 false). set (C := mp_axis true 1 false).
  exists (map (fun k => (k, 1 / INR (length (mesh3 A C C)))) (mesh3 A C C)).
  assert (EA : A = [0; 1 / 4; 1 / 2]).
  { unfold A, mp_axis. change (zrange 0 (4 / 2 + 1)) with [0; 1; 2]%Z. cbn [map b2z]. f_equal; [lra|f_equal; [lra|f_equal; lra]]. }
  assert (EC : C = [0]).
  { unfold C, mp_axis. change (zrange 0 (1 / 2 + 1)) with [0]%Z. cbn [map b2z]. f_equal; lra. }
  split; [|rewrite EA, EC; cbn; split; [reflexivity|f_equal; [lra|f_equal; [lra|f_equal; lra]]]].
  unfold gen_monkhorst_pack_grid. cbn [forallb]. cbv zeta. fold A. fold C.
  replace (negb _) with false by reflexivity. rewrite sanitize_const.
  - cbn [bind]. now rewrite combine_const.
  - rewrite EA, EC. cbn. discriminate.
Qed.
Print Assumptions C24_time_reversal_weights_refuted.

(** C55 fails: the k-list's tpiba coordinates can be read only for lists of exactly
    three points ... *)
Theorem C55_k_tpiba_refused_refuted : forall U k, length k <> 3%nat -> k_tpiba U k = Err AssertionError.
Proof.
  intros U k H. unfold k_tpiba. destruct k as [|a [|b [|c [|d k]]]]; try reflexivity. cbn in H. congruence.
Qed.
Print Assumptions C55_k_tpiba_refused_refuted.

(** ... and then they are not the Cartesian coordinates divided by the unit: in the
    cell with axes (1,0,0), (0,1,0), (1,1,1) the first listed point (0,0,1) is
    reported at (0, 0, 1) instead of (1, 1, 1). *)
Theorem C55_k_tpiba_wrong_refuted : exists U P k l,
  mk_ulattice 1 P = Ok U /\ length k = 3%nat /\ k_tpiba U k = Ok l
  /\ l <> map (vscale (/ u_unit U)) (k_cart U k).
Proof.
  set (P := Mat (V 1 0 0) (V 0 1 0) (V 1 1 1)).
  destruct (mk_lattice_iff P) as [_ K]. destruct K as (L & EL & EP).
  { unfold mdet, P, vdot, vcross. cbn. lra. }
  exists (MkULattice 1 L), P, [(V 0 0 1, 1); (V 0 0 0, 1); (V 0 0 0, 1)].
  eexists. split; [unfold mk_ulattice; rewrite EL; reflexivity|]. split; [reflexivity|]. split; [reflexivity|].
  unfold k_cart, cryst2unit, cryst2cart. cbn [u_lat u_unit map fst]. rewrite EP. unfold P. cbn.
  intros E. injection E as E1 _. lra.
Qed.
Print Assumptions C55_k_tpiba_wrong_refuted.

(** Exactly: with three listed points a, b, c and lattice axes p1, p2, p3, the i-th
    reported vector is the combination of the three POINTS with the i-th Cartesian
    components of the axes as coefficients, divided by the unit. *)
Theorem C55_k_tpiba_exact : forall unit_ P U a b c wa wb wc,
  mk_ulattice unit_ P = Ok U ->
  k_tpiba U [(a, wa); (b, wb); (c, wc)]
  = Ok (map (fun x : rvec -> R => vscale (/ unit_)
          (vadd (vadd (vscale (x (c1 P)) a) (vscale (x (c2 P)) b)) (vscale (x (c3 P)) c))) [vx; vy; vz]).
Proof.
  intros u P U a b c wa wb wc H. unfold mk_ulattice in H. destruct (mk_lattice P) as [L|] eqn:EL; [|discriminate].
  cbn in H. injection H as <-.
  assert (EP : primvec L = P) by (unfold mk_lattice in EL; destruct (Req_EM_T _ _); [discriminate|]; injection EL as <-; reflexivity).
  unfold k_tpiba. cbn [map fst]. unfold cryst2unit, cryst2cart. cbn [u_unit u_lat]. rewrite EP.
  destruct P as [[p1 p2 p3] [q1 q2 q3] [r1 r2 r3]], a, b, c. cbn. f_equal.
  unfold vscale, vadd; cbn. repeat (f_equal; try ring).
Qed.
Print Assumptions C55_k_tpiba_exact.

(** Non-vacuity of C24: the 2x1x1 mesh folded by the identity mapping table [0; 1]
    and the 3x1x1 mesh whose point 2 is mapped to point 1. *)
Example C24_nonvacuous : let ir := MkIrMesh [0; 1; 1]%nat [(0, 0, 0); (1, 0, 0); (-1, 0, 0)]%Z in
  length (ir_mapping ir) = Z.to_nat (3 * 1 * 1)
  /\ Permutation (map (fun g => let '(a, b, c) := g in (a mod 3, b mod 1, c mod 1))%Z (ir_grid ir))
    (flat_map (fun i => flat_map (fun j => map (fun l => (i, j, l)) (zrange 0 1)) (zrange 0 1)) (zrange 0 3))
  /\ np_unique (ir_mapping ir) = [0; 1]%nat /\ np_counts (ir_mapping ir) = [1; 2]%nat.
Proof. cbn. repeat split; reflexivity. Qed.
