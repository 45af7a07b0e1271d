(** C69: the radial transforms of the non-local projectors. *)
From Coq Require Import Reals Lra Lia List Sorted.
From Verif Require Import Base LatModel NlocModel BesselSpec BesselProofs.
Open Scope R_scope.

(** The true functions exist and are unique, for every order. *)
Theorem C69_bessel_well_defined (n : nat) (x : R) : x <> 0 ->
  exists j, is_spherical_bessel n x j /\ forall j', is_spherical_bessel n x j' -> j' = j.
Proof.
  intros Hx. destruct (bessel_exists n x Hx) as (j & Hj). exists j. split; [exact Hj|].
  intros j' Hj'. now apply (uniqueness_sum (jn_term n x)).
Qed.

(** [spherical_jn] on an ascending array of non-negative numbers: same length, each
    entry is the spherical Bessel function up to the first dropped term of its series
    (and exactly, above the threshold). *)
Theorem C69_spherical_jn_accuracy (n : nat) (xs : list R) :
  (n <= 6)%nat -> StronglySorted Rle xs -> (forall x, In x xs -> 0 <= x) ->
  exists ys, spherical_jn n xs = Some ys /\ length ys = length xs /\
    forall i j, (i < length xs)%nat ->
      let x := nth i xs 0 in
      is_spherical_bessel n x j ->
      (small_x_thr n < x -> nth i ys 0 = j) /\
      (x <= small_x_thr n ->
         0 <= nth i ys 0 - j <= x ^ (n + 10) / (2 ^ 5 * INR (fact 5) * odd_fact (n + 5))).
Proof.
  intros Hn Hs Hp. unfold spherical_jn. replace (6 <? n)%nat with false by (symmetry; apply Nat.ltb_ge; lia).
  destruct (split_sorted (small_x_thr n) xs Hs) as [S1 S2].
  set (k := length (filter (le_thr (small_x_thr n)) xs)) in *.
  assert (Hk : (k <= length xs)%nat).
  { unfold k. clear. induction xs as [|a t IH]; [cbn; lia|]. cbn [filter]. destruct (le_thr _ a); cbn [length]; lia. }
  destruct (thr_range n Hn) as [T1 T2].
  eexists. split; [reflexivity|]. split.
  { rewrite app_length, !map_length, firstn_length, skipn_length. lia. }
  intros i j Hi. cbv zeta. intros Hj.
  assert (L1 : length (firstn k xs) = k) by (rewrite firstn_length; lia).
  destruct (Nat.lt_ge_cases i k) as [Hlt|Hge].
  - rewrite app_nth1 by (rewrite map_length, L1; exact Hlt).
    rewrite (nth_indep (map (jn_series n) (firstn k xs)) _ (jn_series n 0)) by (rewrite map_length, L1; exact Hlt).
    rewrite map_nth.
    assert (E : nth i (firstn k xs) 0 = nth i xs 0).
    { rewrite <- (firstn_skipn k xs) at 2. rewrite app_nth1; [reflexivity|]. rewrite L1. exact Hlt. }
    rewrite E.
    assert (Hle : nth i xs 0 <= small_x_thr n).
    { apply S1. rewrite <- E. apply nth_In. rewrite L1. exact Hlt. }
    assert (H0 : 0 <= nth i xs 0) by (apply Hp, nth_In; lia).
    split; [intros; lra|]. intros _.
    assert (H6 : nth i xs 0 ^ 2 <= 6).
    { apply Rle_trans with (small_x_thr n ^ 2); [|exact T2]. apply pow_incr. lra. }
    exact (series_error n (nth i xs 0) j H0 H6 Hj).
  - assert (E : nth (i - k) (skipn k xs) 0 = nth i xs 0).
    { rewrite <- (firstn_skipn k xs) at 2. rewrite app_nth2; [|rewrite L1; lia]. now rewrite L1. }
    assert (Hlen : (i - k < length (skipn k xs))%nat) by (rewrite skipn_length; lia).
    assert (Hgt : small_x_thr n < nth i xs 0) by (rewrite <- E; apply S2, nth_In, Hlen).
    split; [intros _|intros; lra].
    rewrite app_nth2 by (rewrite map_length, L1; lia). rewrite map_length, L1.
    set (f := fun x => match jn_closed n x with Some y => y | None => 0 end).
    rewrite (nth_indep (map f (skipn k xs)) _ (f 0)) by (rewrite map_length; exact Hlen).
    rewrite (map_nth f), E. unfold f.
    destruct (closed_forms n (nth i xs 0) ltac:(lra) Hn) as (y & Ey & By). rewrite Ey.
    now apply (uniqueness_sum (jn_term n (nth i xs 0))).
Qed.

(** Above l = 6 no array comes back: NotImplemented is returned, not raised. *)
Theorem C69_order_limit (n : nat) (xs : list R) : (6 < n)%nat -> spherical_jn n xs = None.
Proof. intros H. unfold spherical_jn. now replace (6 <? n)%nat with true by (symmetry; apply Nat.ltb_lt; lia). Qed.

Example C69_accuracy_case : StronglySorted Rle [0; / 100; 3] /\ (forall x, In x [0; / 100; 3] -> 0 <= x)
  /\ small_x_thr 2 < 3 /\ / 100 <= small_x_thr 2.
Proof.
  repeat split.
  - repeat constructor; lra.
  - intros x Hx. cbn in Hx. destruct Hx as [<-|[<-|[<-|[]]]]; lra.
  - unfold small_x_thr. cbn. lra.
  - unfold small_x_thr. cbn. lra.
Qed.

(** The radial integral on a mesh with an odd number of points is exact for integrands
    that are cubic in the mesh index; on an even number of points nothing fails (as the
    source comment expects): the last interval is left out of the integral. *)
Theorem C69_simpson_odd_mesh (m : nat) (a0 a1 a2 a3 : R) :
  simpson (2 * m + 1) (fun i => cubic a0 a1 a2 a3 (INR i))
  = quartic a0 a1 a2 a3 (INR (2 * m)) - quartic a0 a1 a2 a3 0.
Proof.
  unfold simpson. replace ((2 * m + 1 - 1) / 2)%nat with m.
  - rewrite simpson_sum. unfold quartic. field.
  - replace (2 * m + 1 - 1)%nat with (m * 2)%nat by lia. now rewrite Nat.div_mul by lia.
Qed.
Theorem C69_simpson_even_mesh_refuted (m : nat) (f : nat -> R) :
  simpson (2 * m + 2) f = simpson (2 * m + 1) f.
Proof.
  unfold simpson. replace ((2 * m + 2 - 1) / 2)%nat with ((2 * m + 1 - 1) / 2)%nat; [reflexivity|].
  replace (2 * m + 1 - 1)%nat with (m * 2)%nat by lia. rewrite Nat.div_mul by lia.
  apply (Nat.div_unique _ 2 m 1); lia.
Qed.
(** [quartic] is the integral: its derivative is [cubic]. *)
Theorem C69_quartic_is_integral (a0 a1 a2 a3 t : R) :
  derivable_pt_lim (quartic a0 a1 a2 a3) t (cubic a0 a1 a2 a3 t).
Proof.
  unfold quartic, cubic.
  replace (a0 + a1 * t + a2 * t ^ 2 + a3 * t ^ 3)
    with (a0 * 1 + a1 / 2 * (INR 2 * t ^ Nat.pred 2) + a2 / 3 * (INR 3 * t ^ Nat.pred 3) + a3 / 4 * (INR 4 * t ^ Nat.pred 4)).
  - repeat apply (derivable_pt_lim_plus _ _).
    + apply (derivable_pt_lim_scal id). apply derivable_pt_lim_id.
    + apply (derivable_pt_lim_scal (fun t => t ^ 2)). apply derivable_pt_lim_pow.
    + apply (derivable_pt_lim_scal (fun t => t ^ 3)). apply derivable_pt_lim_pow.
    + apply (derivable_pt_lim_scal (fun t => t ^ 4)). apply derivable_pt_lim_pow.
  - cbn. field.
Qed.

Print Assumptions C69_bessel_well_defined.
Print Assumptions C69_spherical_jn_accuracy.
Print Assumptions C69_order_limit.
Print Assumptions C69_simpson_odd_mesh.
Print Assumptions C69_simpson_even_mesh_refuted.
Print Assumptions C69_quartic_is_integral.
