(** C97: the Monte Carlo Coulomb averages. *)
From Coq Require Import Reals Lra Lia List Bool Arith ZArith.
From Coquelicot Require Import Coquelicot.
From Verif Require Import Base SortModel LatModel LatProofs GwModel GwProofs PropsVcoul McVcoulModel McVcoulProofs.
Import ListNotations.
Open Scope R_scope.

(** Specification. *)
Definition norm (v : rvec) : R := sqrt (vx v ^ 2 + vy v ^ 2 + vz v ^ 2).
(** The q-points of the list, the q0 entry standing for zero; their copies with any pattern of
    signs, in Cartesian coordinates. *)
Definition listed (qpts : list rvec) (iq0 : nat) (q : rvec) : Prop :=
  exists i, (i < length qpts)%nat /\ q = if (i =? iq0)%nat then V 0 0 0 else nth i qpts (V 0 0 0).
Definition pm (x : R) : Prop := x = 1 \/ x = -1.
Definition copy (B : mat) (qpts : list rvec) (iq0 : nat) (g : rvec) : Prop :=
  exists a b c q, pm a /\ pm b /\ pm c /\ listed qpts iq0 q /\ g = mv B (V (a * vx q) (b * vy q) (c * vz q)).
(** A nearest-point search, whatever it does with ties. *)
Definition nearest (pick : list rvec -> rvec -> rvec) : Prop :=
  forall l p, l <> [] -> In (pick l p) l /\ forall g, In g l -> norm (vsub p (pick l p)) <= norm (vsub p g).
(** [p] is [x] minus a nearest copy within four diameters of the inscribed sphere (radius [q]). *)
Definition reduced (B : mat) (qpts : list rvec) (iq0 : nat) (q : R) (x p : rvec) : Prop :=
  exists g, copy B qpts iq0 g /\ norm g <= 8 * q /\ p = vsub x g
            /\ forall h, copy B qpts iq0 h -> norm h <= 8 * q -> norm p <= norm (vsub x h).
(** The first [n] points of the stream in the box of side [side] (crystal coordinates). *)
Definition box_points (B : mat) (side : R) (words : list R) (n : nat) : list rvec :=
  map (fun i => mv B (V (side * (nth (3 * i) words 0 / 2 ^ 32))
                        (side * (nth (3 * i + 1) words 0 / 2 ^ 32))
                        (side * (nth (3 * i + 2) words 0 / 2 ^ 32)))) (seq 0 n).
Definition sum_over (l : list rvec) (f : rvec -> R) : R := fold_right (fun p a => f p + a) 0 l.

Lemma norm_len v : norm v = len v.
Proof. unfold norm, len, len2, vdot. f_equal. ring. Qed.
Lemma nth_set_nth {A} (l : list A) : forall i x j d, (j < length l)%nat -> nth j (set_nth i x l) d = if (j =? i)%nat then x else nth j l d.
Proof.
  induction l as [|y l IH]; intros i x j d H; [cbn in H; lia|]. destruct i, j; cbn [set_nth nth]; try reflexivity. cbn in H. rewrite IH by lia. reflexivity.
Qed.
Lemma length_set_nth {A} (l : list A) : forall i x, length (set_nth i x l) = length l.
Proof. induction l as [|y l IH]; intros [|i] x; cbn; congruence. Qed.
Lemma listed_iff qpts iq0 q : listed qpts iq0 q <-> In q (set_nth iq0 (V 0 0 0) qpts).
Proof.
  split.
  - intros (i & Hi & ->). rewrite <- (nth_set_nth qpts iq0 (V 0 0 0) i (V 0 0 0)) by assumption. apply nth_In. now rewrite length_set_nth.
  - intros H. apply (In_nth _ _ (V 0 0 0)) in H as (i & Hi & <-). rewrite length_set_nth in Hi. exists i. split; [assumption|]. now apply nth_set_nth.
Qed.
Lemma pm_signs a b c : pm a -> pm b -> pm c -> In (V a b c) signs.
Proof. rewrite signs_list. intros [-> | ->] [-> | ->] [-> | ->]; cbn; tauto. Qed.
Lemma signs_pm s : In s signs -> pm (vx s) /\ pm (vy s) /\ pm (vz s).
Proof.
  rewrite signs_list. unfold In, pm. intros H.
  repeat (destruct H as [H|H]; [rewrite <- H; cbn [vx vy vz]; tauto|]). destruct H.
Qed.
Lemma copy_iff B qpts iq0 g : copy B qpts iq0 g <-> In g (map (mv B) (full_qpts qpts iq0)).
Proof.
  split.
  - intros (a & b & c & q & Ha & Hb & Hc & Hq & ->). apply in_map. apply in_flat_map. exists (V a b c). split; [now apply pm_signs|].
    apply in_map_iff. exists q. split; [reflexivity|now apply listed_iff].
  - intros H. apply in_map_iff in H as (x & <- & Hx). apply in_flat_map in Hx as (s & Hs & Hx). apply in_map_iff in Hx as (q & <- & Hq).
    apply signs_pm in Hs as (Ha & Hb & Hc). exists (vx s), (vy s), (vz s), q. repeat split; try assumption. now apply listed_iff.
Qed.

(** The neighbourhood: q_cut is half the length of the shortest copy that is not zero within the
    tolerance; the list returned consists exactly of the copies within 8 q_cut, contains zero and
    is closed under inversion; the ball of radius q_cut is in the cell of zero: no copy is
    nearer to one of its points than zero (up to copies within the tolerance of zero). *)
Theorem C97_neighbourhood : forall B qpts iq0 q nb, (iq0 < length qpts)%nat -> gamma_nbhd B qpts iq0 = Ok (q, nb) ->
  (exists g, copy B qpts iq0 g /\ 1 / 100000 < norm g ^ 2 /\ q = norm g / 2)
  /\ (forall g, copy B qpts iq0 g -> 1 / 100000 < norm g ^ 2 -> q <= norm g / 2)
  /\ (forall g, In g nb <-> copy B qpts iq0 g /\ norm g <= 8 * q)
  /\ In (V 0 0 0) nb
  /\ (forall g, In g nb -> In (vscale (-1) g) nb)
  /\ (forall p g, norm p <= q -> copy B qpts iq0 g -> 1 / 100000 < norm g ^ 2 -> norm p <= norm (vsub p g)).
Proof.
  intros B qpts iq0 q nb H0 H. destruct (nbhd_ok _ _ _ _ _ H) as (Q & (g & Ig & Tg & Lg) & M & F).
  assert (F' : forall g, In g nb <-> copy B qpts iq0 g /\ norm g <= 8 * q) by (intros h; rewrite F, copy_iff, norm_len; tauto).
  assert (M' : forall g, copy B qpts iq0 g -> 1 / 100000 < norm g ^ 2 -> 2 * q <= len g).
  { intros h Hh. rewrite norm_len, len_sq. intros T. apply M; [now apply copy_iff|exact T]. }
  split; [|split; [|split; [|split; [|split]]]].
  - exists g. split; [now apply copy_iff|]. rewrite norm_len, len_sq. split; [exact Tg|]. rewrite Lg. field.
  - intros h Hh T. specialize (M' h Hh T). rewrite norm_len. lra.
  - exact F'.
  - apply F. split; [now apply full_zero|]. unfold len. rewrite len2_zero, sqrt_0. lra.
  - intros h Hh. apply F in Hh as (A & K). apply F. split; [now apply full_neg|]. unfold len in *. now rewrite len2_neg.
  - intros p h Hp Hh T. rewrite !norm_len in *. apply (inscribed p h q); [assumption|]. apply M'; [assumption|]. now rewrite norm_len.
Qed.
Print Assumptions C97_neighbourhood.
(** It exists exactly when the list has a vector that is not zero within the tolerance; a list
    consisting of the q0 point alone always fails, and with it every average. *)
Theorem C97_no_neighbour_refused : forall B qpts iq0,
  ((forall g, copy B qpts iq0 g -> norm g ^ 2 <= 1 / 100000) <-> gamma_nbhd B qpts iq0 = Err ValueError)
  /\ ((exists g, copy B qpts iq0 g /\ 1 / 100000 < norm g ^ 2) <-> exists q nb, gamma_nbhd B qpts iq0 = Ok (q, nb))
  /\ (forall cellvol nmax ncoarse words pick q0 s, 
        montecarlo_hybrid B cellvol [q0] 0 nmax ncoarse words pick s = Err ValueError
        /\ oneoverq_montecarlo B [q0] 0 nmax ncoarse words pick s = Err ValueError).
Proof.
  intros B qpts iq0.
  assert (X : (exists g, copy B qpts iq0 g /\ 1 / 100000 < norm g ^ 2) <-> exists q nb, gamma_nbhd B qpts iq0 = Ok (q, nb)).
  { split.
    - intros (g & Hg & T). rewrite norm_len, len_sq in T. apply (nbhd_exists B qpts iq0 g); [now apply copy_iff|exact T].
    - intros (q & nb & H). destruct (nbhd_ok _ _ _ _ _ H) as (Q & (g & Ig & Tg & Lg) & _). exists g. split; [now apply copy_iff|]. rewrite norm_len, len_sq. exact Tg. }
  assert (Y : (forall g, copy B qpts iq0 g -> norm g ^ 2 <= 1 / 100000) -> gamma_nbhd B qpts iq0 = Err ValueError).
  { intros H. apply nbhd_err. intros g Hg. rewrite <- len_sq, <- norm_len. apply H. now apply copy_iff. }
  split; [|split; [exact X|]].
  - split; [exact Y|]. intros H g Hg. apply Rnot_lt_le. intros T. destruct (proj1 X) as (q & nb & E); [now exists g|]. rewrite E in H. discriminate.
  - intros cellvol nmax ncoarse words pick q0 s.
    assert (E : gamma_nbhd B [q0] 0 = Err ValueError).
    { apply nbhd_err. intros g Hg. apply copy_iff in Hg as (a & b & c & q & _ & _ & _ & (i & Hi & ->) & ->). cbn in Hi.
      replace i with O by lia. cbn [Nat.eqb vx vy vz]. replace (V (a * 0) (b * 0) (c * 0)) with (V 0 0 0) by (f_equal; ring).
      rewrite mv_zero, len2_zero. pose proof tol_pos. lra. }
    unfold montecarlo_hybrid, oneoverq_montecarlo. now rewrite E.
Qed.
Print Assumptions C97_no_neighbour_refused.

Lemma triples_points n : forall w, (3 * n <= length w)%nat ->
  triples n w = map (fun i => V (nth (3 * i) w 0) (nth (3 * i + 1) w 0) (nth (3 * i + 2) w 0)) (seq 0 n).
Proof.
  induction n as [|n IH]; intros w H; [reflexivity|]. destruct w as [|a [|b [|c w]]]; cbn in H; try lia.
  cbn [triples seq map]. f_equal. rewrite IH by lia. rewrite <- seq_shift, map_map. apply map_ext. intros i.
  replace (3 * S i)%nat with (3 + 3 * i)%nat by lia. cbn [Nat.add]. reflexivity.
Qed.
Definition side_of (numq : nat) : R := Rpower (INR numq) (- (1 / 3)).
Lemma samples_box B numq n words : (3 * n <= length words)%nat -> samples B numq n words = box_points B (side_of numq) words n.
Proof.
  intros H. unfold samples, box_points. rewrite triples_points by assumption. rewrite map_map. apply map_ext. intros i. f_equal.
  assert (E : sample_factor numq = side_of numq / 2 ^ 32).
  { unfold sample_factor, side_of. rewrite Rpower_Ropp. pose proof (exp_pos (1 / 3 * ln (INR numq))) as P. fold (Rpower (INR numq) (1 / 3)) in P. field. lra. }
  unfold vscale. cbn [vx vy vz]. rewrite E. f_equal; field.
Qed.
Lemma folded_reduced B qpts iq0 q nb pick pts : (iq0 < length qpts)%nat -> gamma_nbhd B qpts iq0 = Ok (q, nb) -> nearest pick ->
  Forall2 (reduced B qpts iq0 q) pts (folded pick nb pts).
Proof.
  intros H0 H N. destruct (C97_neighbourhood _ _ _ _ _ H0 H) as (_ & _ & F & Z0 & _).
  induction pts as [|p pts IH]; [constructor|]. constructor; [|assumption].
  destruct (N nb p) as (A & D); [intros ->; destruct Z0|]. apply F in A as (A1 & A2).
  exists (pick nb p). repeat split; try assumption. intros h Hh Lh. apply D. apply F. now split.
Qed.
Lemma osum_map {A} (f : A -> option R) (g : A -> R) l : (forall x, In x l -> f x = Some (g x)) -> osum (map f l) = Some (fold_right (fun x a => g x + a) 0 l).
Proof.
  induction l as [|x l IH]; intros H; cbn [map osum fold_right]; [reflexivity|]. rewrite (H x) by now left.
  fold (osum (map f l)). rewrite IH; [reflexivity|]. intros y Hy. apply H. now right.
Qed.
Lemma osum_none {A} (f : A -> option R) l x : In x l -> f x = None -> osum (map f l) = None.
Proof.
  induction l as [|y l IH]; intros H E; [easy|]. cbn [map osum fold_right]. destruct H as [ ->|H]; [now rewrite E|].
  fold (osum (map f l)). rewrite IH by assumption. now destruct (f y).
Qed.
Lemma recip_zero : recip (len (V 0 0 0)) = None.
Proof.
  rewrite <- norm_len. unfold norm. cbn [vx vy vz]. replace (0 ^ 2 + 0 ^ 2 + 0 ^ 2) with 0 by ring. rewrite sqrt_0.
  unfold recip. now rewrite (proj2 (reqb_iff 0 0) eq_refl).
Qed.
Lemma recip_len v : v <> V 0 0 0 -> recip (len v) = Some (1 / norm v).
Proof. intros H. rewrite norm_len, recip_some by now apply len_pos_iff. f_equal. unfold Rdiv. ring. Qed.
Lemma norm_triangle_zero p s : norm p <> norm s -> vadd p s <> V 0 0 0.
Proof.
  intros H E. apply H. unfold vadd in E. injection E as E1 E2 E3. unfold norm. f_equal.
  replace (vx p) with (- vx s) by lra. replace (vy p) with (- vy s) by lra. replace (vz p) with (- vz s) by lra. ring.
Qed.

(** Zero shift (a vector shorter than 1e-5 counts as zero): the integral of 8 pi / r^2 over the
    inscribed ball divided by the volume of a q-cell, (2 pi)^3 / (cellvol numq), plus 8 pi / N
    times the sum of 1/|p + s|^2 over the samples outside the ball.  Never nan, and positive. *)
Theorem C97_gamma_value : forall B cellvol qpts iq0 nmax ncoarse words pick s q nb,
  0 < cellvol -> (iq0 < length qpts)%nat -> (0 < nmax)%nat -> (3 * nmax <= length words)%nat -> nearest pick ->
  gamma_nbhd B qpts iq0 = Ok (q, nb) -> norm (mv B s) < 1 / 100000 ->
  exists pts o, Forall2 (reduced B qpts iq0 q) (box_points B (side_of (length qpts)) words nmax) pts
    /\ let v := RInt (fun r => 4 * PI * r ^ 2 * (8 * PI / r ^ 2)) 0 q / ((2 * PI) ^ 3 / (cellvol * INR (length qpts)))
                + 8 * PI / INR nmax * sum_over (filter (fun p => if Rlt_dec q (norm p) then true else false) pts)
                                               (fun p => 1 / norm (vadd p (mv B s)) ^ 2) in
       montecarlo_hybrid B cellvol qpts iq0 nmax ncoarse words pick s = Ok (Some v, o) /\ 0 < v.
Proof.
  intros B cellvol qpts iq0 nmax ncoarse words pick s q nb Hc H0 Hn Hw N E T.
  pose proof (folded_reduced B qpts iq0 q nb pick (samples B (length qpts) nmax words) H0 E N) as FR.
  rewrite samples_box in FR by assumption.
  set (pts := folded pick nb (box_points B (side_of (length qpts)) words nmax)) in *.
  destruct (nbhd_ok _ _ _ _ _ E) as (Q & (g & Ig & Tg & Lg) & _).
  assert (QT : 1 / 100000 < q). { rewrite <- len_sq, Lg in Tg. unfold TOL_SMALL in Tg. nra. }
  pose proof PI_RGT_0 as PP. assert (NP : 0 < INR nmax) by now apply lt_0_INR. assert (LP : 0 < INR (length qpts)) by (apply lt_0_INR; lia).
  exists pts. eexists. split; [exact FR|]. cbn zeta.
  assert (FE : forall l, filter (fun p => rltb q (len p)) l = filter (fun p => if Rlt_dec q (norm p) then true else false) l).
  { intros l. apply filter_ext. intros p. rewrite norm_len. reflexivity. }
  split.
  - unfold montecarlo_hybrid. rewrite E. cbn [bind fst snd]. fold (len (mv B s)) in *. rewrite <- norm_len.
    replace (rltb (norm (mv B s)) TOL_SMALL) with true by (symmetry; now apply rltb_true).
    unfold numq. rewrite samples_box by assumption. fold pts. rewrite FE.
    rewrite (osum_map _ (fun p => 1 / norm (vadd p (mv B s)) ^ 2)).
    2:{ intros p Hp. apply filter_In in Hp as (_ & Hp). destruct (Rlt_dec q (norm p)) as [Hq|]; [|discriminate].
        rewrite recip_len by (apply norm_triangle_zero; lra). cbn [option_map]. f_equal.
        assert (norm (vadd p (mv B s)) <> 0) by (rewrite norm_len; apply len_pos_iff; apply norm_triangle_zero; lra). field. assumption. }
    f_equal. f_equal. f_equal. fold (sum_over (filter (fun p => if Rlt_dec q (norm p) then true else false) pts) (fun p => 1 / norm (vadd p (mv B s)) ^ 2)).
    rewrite (RInt_ext _ (fun _ => 32 * PI ^ 2)).
    2:{ intros x Hx. rewrite Rmin_left in Hx by lra. match goal with |- ?a = ?b => change (@eq R a b) end. field. lra. }
    rewrite RInt_const. unfold scal. cbn [AbelianGroup.sort]. unfold mult. cbn. field. repeat split; lra.
  - rewrite (RInt_ext _ (fun _ => 32 * PI ^ 2)).
    2:{ intros x Hx. rewrite Rmin_left in Hx by lra. match goal with |- ?a = ?b => change (@eq R a b) end. field. lra. }
    rewrite RInt_const. match goal with |- context [scal (q - 0) ?z] => change (scal (q - 0) z) with ((q - 0) * z) end.
    assert (S0 : 0 <= sum_over (filter (fun p => if Rlt_dec q (norm p) then true else false) pts) (fun p => 1 / norm (vadd p (mv B s)) ^ 2)).
    { unfold sum_over. clear - QT T. induction (filter (fun p => if Rlt_dec q (norm p) then true else false) pts) as [|p l IH]; cbn [fold_right]; [lra|].
      assert (0 <= 1 / norm (vadd p (mv B s)) ^ 2); [|lra]. unfold Rdiv. rewrite Rmult_1_l.
      destruct (Req_dec (norm (vadd p (mv B s))) 0) as [->|Z1]; [rewrite pow_i by lia; rewrite Rinv_0; lra|].
      left. apply Rinv_0_lt_compat. apply pow2_gt_0. assumption. }
    assert (V1 : 0 < (q - 0) * (32 * PI ^ 2) / ((2 * PI) ^ 3 / (cellvol * INR (length qpts)))).
    { apply Rdiv_lt_0_compat; [|apply Rdiv_lt_0_compat]; [| |now apply Rmult_lt_0_compat].
      - apply Rmult_lt_0_compat; [lra|]. apply Rmult_lt_0_compat; [lra|]. apply pow_lt. lra.
      - apply pow_lt. lra. }
    assert (0 < 8 * PI / INR nmax) by (apply Rdiv_lt_0_compat; lra).
    pose proof (Rmult_le_pos _ _ (Rlt_le _ _ H) S0). lra.
Qed.
Print Assumptions C97_gamma_value.

(** Other shifts: the number of samples is the integer nearest to ncoarse (2 q_cut / |s|)^2,
    clamped to 1..nmax. *)
Theorem C97_sample_count : forall nmax ncoarse q d, (0 < nmax)%nat -> 0 < d ->
  let n := nsamples_for nmax ncoarse q d in
  let x := INR ncoarse * (2 * q / d) ^ 2 in
  (1 <= n <= nmax)%nat
  /\ (1 <= x <= INR nmax -> Rabs (x - INR n) <= 1 / 2)
  /\ (x <= 1 -> n = 1%nat) /\ (INR nmax <= x -> n = nmax).
Proof.
  intros nmax ncoarse q d Hn Hd. cbn zeta.
  unfold nsamples_for. replace (INR ncoarse * 4 * q ^ 2 / d ^ 2) with (INR ncoarse * (2 * q / d) ^ 2) by (field; lra).
  set (x := INR ncoarse * (2 * q / d) ^ 2). pose proof (rint_close x) as RC. apply Rabs_le_between in RC.
  set (r := rint x) in *. repeat split.
  - lia.
  - lia.
  - intros (H1 & H2). assert (1 <= r)%Z. { apply Z.lt_succ_r. apply lt_IZR. rewrite succ_IZR. lra. }
    assert (r <= Z.of_nat nmax)%Z. { apply Z.lt_succ_r. apply lt_IZR. rewrite succ_IZR, <- INR_IZR_INZ. lra. }
    rewrite Z.min_r, Z.max_r by lia. rewrite INR_IZR_INZ, Z2Nat.id by lia. apply Rabs_le. lra.
  - intros H1. assert (r <= 1)%Z. { apply Z.lt_succ_r. apply lt_IZR. rewrite succ_IZR. lra. } lia.
  - intros H1. assert (Z.of_nat nmax <= r)%Z. { apply Z.lt_succ_r. apply lt_IZR. rewrite succ_IZR, <- INR_IZR_INZ. lra. } lia.
Qed.
Print Assumptions C97_sample_count.

Lemma filter_count {A} (f : A -> bool) l : (length (filter f l) + length (filter (fun x => negb (f x)) l) = length l)%nat.
Proof. induction l as [|x l IH]; cbn; [reflexivity|]. destruct (f x); cbn; lia. Qed.
Lemma box_length B side words n : length (box_points B side words n) = n.
Proof. unfold box_points. now rewrite map_length, seq_length. Qed.
Lemma Forall2_len {A B'} (P : A -> B' -> Prop) l l' : Forall2 P l l' -> length l = length l'.
Proof. induction 1; cbn; congruence. Qed.

Definition is_zero (p : rvec) : bool := if Rlt_dec 0 (norm p) then false else true.
(** A shift longer than the radius of the inscribed ball: 8 pi / n times the sum of 1/|p + s|^2
    over the samples that are not grid points, the others counting with the average of 8 pi / r^2
    over the ball around s; so for samples none of which is a grid point, the plain mean.  A sample
    at -s makes all three nan or inf. *)
Theorem C97_shifted_value : forall B cellvol qpts iq0 nmax ncoarse words pick s q nb,
  (iq0 < length qpts)%nat -> (0 < nmax)%nat -> (3 * nmax <= length words)%nat -> nearest pick ->
  gamma_nbhd B qpts iq0 = Ok (q, nb) -> 1 / 100000 <= norm (mv B s) -> q < norm (mv B s) ->
  let n := nsamples_for nmax ncoarse q (norm (mv B s)) in
  exists pts, Forall2 (reduced B qpts iq0 q) (box_points B (side_of (length qpts)) words n) pts
    /\ ((forall p, In p pts -> vadd p (mv B s) <> V 0 0 0) ->
        montecarlo_hybrid B cellvol qpts iq0 nmax ncoarse words pick s
        = Ok (Some (INR (length (filter is_zero pts)) / INR n * shifted_average q (norm (mv B s)) (fun r => 8 * PI / r ^ 2)
                    + 8 * PI / INR n * sum_over (filter (fun p => negb (is_zero p)) pts) (fun p => 1 / norm (vadd p (mv B s)) ^ 2)),
              Some (8 * PI / INR n * sum_over pts (fun p => 1 / norm (vadd p (mv B s)))))
        /\ oneoverq_montecarlo B qpts iq0 nmax ncoarse words pick s
           = Ok (Some (8 * PI / INR n * sum_over pts (fun p => 1 / norm (vadd p (mv B s))))))
    /\ ((exists p, In p pts /\ vadd p (mv B s) = V 0 0 0) ->
        montecarlo_hybrid B cellvol qpts iq0 nmax ncoarse words pick s = Ok (None, None)
        /\ oneoverq_montecarlo B qpts iq0 nmax ncoarse words pick s = Ok None).
Proof.
  intros B cellvol qpts iq0 nmax ncoarse words pick s q nb H0 Hn Hw N E T D. cbn zeta.
  assert (DP : 0 < norm (mv B s)) by lra.
  destruct (C97_sample_count nmax ncoarse q (norm (mv B s)) Hn DP) as (NB & _).
  set (n := nsamples_for nmax ncoarse q (norm (mv B s))) in *.
  pose proof (folded_reduced B qpts iq0 q nb pick (samples B (length qpts) n words) H0 E N) as FR.
  rewrite samples_box in FR by lia.
  set (pts := folded pick nb (box_points B (side_of (length qpts)) words n)) in *.
  destruct (nbhd_ok _ _ _ _ _ E) as (Q & _).
  assert (NP : 0 < INR n) by (apply lt_0_INR; lia).
  exists pts. split; [exact FR|]. split.
  2:{ intros (p & Ip & Ep).
      assert (RN : recip (len (vadd p (mv B s))) = None).
      { rewrite Ep. apply recip_zero. }
      assert (PN : norm p <> 0).
      { intros HN. destruct (Req_dec (norm p) (norm (mv B s))) as [HE|HE]; [lra|]. now apply norm_triangle_zero in HE. }
      assert (PP : 0 < norm p). { assert (0 <= norm p) by (unfold norm; apply sqrt_pos). lra. }
      assert (S1 : osum (map (fun p => recip (len (vadd p (mv B s)))) pts) = None) by (apply (osum_none _ _ p); assumption).
      split.
      - unfold montecarlo_hybrid. rewrite E. cbn [bind fst snd]. rewrite <- norm_len.
        replace (rltb (norm (mv B s)) TOL_SMALL) with false by (symmetry; now apply rltb_false). fold n.
        unfold numq. rewrite samples_box by lia. fold pts. rewrite S1.
        rewrite (osum_none (fun p => option_map (fun x => x ^ 2) (recip (len (vadd p (mv B s))))) _ p).
        + cbn [option_map]. now destruct (sphere_shifted q (norm (mv B s))).
        + apply filter_In. split; [assumption|]. rewrite <- norm_len. now apply rltb_true.
        + now rewrite RN.
      - unfold oneoverq_montecarlo. rewrite E. cbn [bind fst snd]. rewrite <- norm_len.
        replace (rltb 0 (norm (mv B s))) with true by (symmetry; now apply rltb_true). fold n. unfold numq. rewrite samples_box by lia. fold pts. now rewrite S1. }
  intros NZ.
  assert (LPts : length pts = n) by (rewrite <- (Forall2_len _ _ _ FR); apply box_length).
  assert (S1 : osum (map (fun p => recip (len (vadd p (mv B s)))) pts) = Some (sum_over pts (fun p => 1 / norm (vadd p (mv B s))))).
  { apply (osum_map _ (fun p => 1 / norm (vadd p (mv B s)))). intros p Hp. apply recip_len. now apply NZ. }
  assert (FE : forall l, filter (fun p => rltb 0 (len p)) l = filter (fun p => negb (is_zero p)) l).
  { intros l. apply filter_ext. intros p. unfold is_zero, rltb. rewrite <- norm_len. destruct (Rlt_dec 0 (norm p)); reflexivity. }
  split.
  - unfold montecarlo_hybrid. rewrite E. cbn [bind fst snd]. rewrite <- norm_len.
    replace (rltb (norm (mv B s)) TOL_SMALL) with false by (symmetry; now apply rltb_false). fold n.
    unfold numq. rewrite samples_box by lia. fold pts. rewrite FE, S1.
    rewrite (osum_map _ (fun p => 1 / norm (vadd p (mv B s)) ^ 2)).
    2:{ intros p Hp. apply filter_In in Hp as (Hp & _). apply NZ in Hp. rewrite recip_len by assumption. cbn [option_map]. f_equal.
        assert (norm (vadd p (mv B s)) <> 0) by (rewrite norm_len; now apply len_pos_iff). field. assumption. }
    unfold sphere_shifted. replace (reqb (norm (mv B s)) 0) with false by (symmetry; apply not_true_is_false; rewrite reqb_iff; lra).
    replace (rleb (norm (mv B s)) q) with false by (symmetry; apply not_true_is_false; rewrite rleb_iff; lra).
    rewrite C71_shifted_sphere_average by lra. cbn [option_map].
    pose proof (filter_count is_zero pts) as FC. rewrite LPts in FC.
    assert (FI : INR (length (filter is_zero pts)) + INR (length (filter (fun p => negb (is_zero p)) pts)) = INR n) by (rewrite <- plus_INR; f_equal; exact FC).
    f_equal. f_equal; [|f_equal; unfold Rdiv; ring]. f_equal. fold (sum_over (filter (fun p => negb (is_zero p)) pts) (fun p => 1 / norm (vadd p (mv B s)) ^ 2)).
    rewrite <- FI at 1 3. rewrite FI. replace (INR (length (filter is_zero pts))) with (INR n - INR (length (filter (fun p => negb (is_zero p)) pts))) by lra. field. lra.
  - unfold oneoverq_montecarlo. rewrite E. cbn [bind fst snd]. rewrite <- norm_len.
    replace (rltb 0 (norm (mv B s))) with true by (symmetry; now apply rltb_true). fold n. unfold numq. rewrite samples_box by lia. fold pts. rewrite S1.
    cbn [option_map]. f_equal. f_equal. unfold Rdiv. ring.
Qed.
Print Assumptions C97_shifted_value.

(** A shift of at least 1e-5 that is not longer than the radius of the inscribed ball gives nan,
    although nothing is singular there for samples away from -s. *)
Theorem C97_short_shift_refuted : forall B cellvol qpts iq0 nmax ncoarse words pick s q nb,
  gamma_nbhd B qpts iq0 = Ok (q, nb) -> 1 / 100000 <= norm (mv B s) <= q ->
  exists o, montecarlo_hybrid B cellvol qpts iq0 nmax ncoarse words pick s = Ok (None, o).
Proof.
  intros B cellvol qpts iq0 nmax ncoarse words pick s q nb E (T & D). eexists.
  unfold montecarlo_hybrid. rewrite E. cbn [bind fst snd]. rewrite <- norm_len.
  replace (rltb (norm (mv B s)) TOL_SMALL) with false by (symmetry; now apply rltb_false).
  unfold sphere_shifted. replace (rleb (norm (mv B s)) q) with true by (symmetry; now apply rleb_iff).
  destruct (reqb _ 0); reflexivity.
Qed.
Print Assumptions C97_short_shift_refuted.

(** The box of the samples has the volume of a q-cell (in units of the reciprocal cell); it is a
    cell of the n1 x n2 x n3 grid only when n1 = n2 = n3. *)
Lemma cube_inj a b : 0 < a -> 0 < b -> a ^ 3 = b ^ 3 -> a = b.
Proof.
  intros Ha Hb H. assert (P : (a - b) * (a ^ 2 + a * b + b ^ 2) = 0) by (ring_simplify; lra).
  apply Rmult_integral in P as [P|P]; [lra|]. nra.
Qed.
Theorem C97_box : forall n1 n2 n3 : nat, (0 < n1)%nat -> (0 < n2)%nat -> (0 < n3)%nat ->
  let side := side_of (n1 * n2 * n3) in
  side ^ 3 = 1 / INR (n1 * n2 * n3)
  /\ ((side = 1 / INR n1 /\ side = 1 / INR n2 /\ side = 1 / INR n3) <-> n1 = n2 /\ n2 = n3).
Proof.
  intros n1 n2 n3 H1 H2 H3. cbn zeta.
  assert (P : 0 < INR (n1 * n2 * n3)). { apply lt_0_INR. nia. }
  assert (SP : 0 < side_of (n1 * n2 * n3)) by apply exp_pos.
  assert (S3 : side_of (n1 * n2 * n3) ^ 3 = 1 / INR (n1 * n2 * n3)).
  { unfold side_of. rewrite <- (Rpower_pow 3) by apply exp_pos. rewrite Rpower_mult.
    replace (- (1 / 3) * INR 3) with (- (1)) by (cbn; field). rewrite Rpower_Ropp, Rpower_1 by exact P. field. lra. }
  assert (P1 : 0 < INR n1) by now apply lt_0_INR. assert (P2 : 0 < INR n2) by now apply lt_0_INR. assert (P3 : 0 < INR n3) by now apply lt_0_INR.
  split; [exact S3|]. split.
  - intros (A & B' & C'). split; apply INR_eq.
    + apply (Rmult_eq_reg_l (side_of (n1 * n2 * n3))); [|lra]. rewrite A at 1. rewrite B'. field. lra.
    + apply (Rmult_eq_reg_l (side_of (n1 * n2 * n3))); [|lra]. rewrite B' at 1. rewrite C'. field. lra.
  - intros (-> & ->). assert (E : side_of (n3 * n3 * n3) = 1 / INR n3); [|auto].
    apply cube_inj; [exact SP|apply Rdiv_lt_0_compat; lra|]. rewrite S3, !mult_INR. field. lra.
Qed.
Print Assumptions C97_box.

(** The driver for one q-point: bare factors are those of q + G itself (nan where q + G = 0), with
    8 pi / |q| except at the q0 point (nan there); averaged factors are taken at G alone for the q0 point. *)
Theorem C97_single_point : forall B cellvol qpts iq0 nmax ncoarse words pick iq gs,
  (iq < length qpts)%nat ->
  let q := if (iq =? iq0)%nat then V 0 0 0 else nth iq qpts (V 0 0 0) in
  (exists l o, single_qpt B cellvol qpts iq0 nmax ncoarse words pick Bare iq gs = Ok (l, o)
     /\ length l = length gs
     /\ (forall i, (i < length gs)%nat ->
           let k := mv B (vadd (nth iq qpts (V 0 0 0)) (nth i gs (V 0 0 0))) in
           nth_error l i = Some (if Rlt_dec 0 (norm k) then Some (8 * PI / norm k ^ 2) else None))
     /\ o = (if Rlt_dec 0 (norm (mv B q)) then Some (8 * PI / norm (mv B q)) else None))
  /\ (forall l o, single_qpt B cellvol qpts iq0 nmax ncoarse words pick RandomAvg iq gs = Ok (l, o) <->
        length l = length gs
        /\ (forall i, (i < length gs)%nat -> exists x, nth_error l i = Some (fst x)
              /\ montecarlo_hybrid B cellvol qpts iq0 nmax ncoarse words pick (vadd q (nth i gs (V 0 0 0))) = Ok x)
        /\ oneoverq_montecarlo B qpts iq0 nmax ncoarse words pick q = Ok o)
  /\ (forall recvol l o, 0 < recvol -> single_qpt B cellvol qpts iq0 nmax ncoarse words pick (SphereAvg recvol) iq gs = Ok (l, o) ->
        length l = length gs
        /\ (forall i, (i < length gs)%nat ->
              let k := norm (mv B (vadd q (nth i gs (V 0 0 0)))) in
              let r0 := q_cutoff recvol (length qpts) in
              nth_error l i = Some (if Rlt_dec r0 k then Some (shifted_average r0 k (fun r => 8 * PI / r ^ 2)) else None))
        /\ oneoverq_montecarlo B qpts iq0 nmax ncoarse words pick q = Ok o).
Proof.
  intros B cellvol qpts iq0 nmax ncoarse words pick iq gs Hi. cbn zeta.
  change (if (iq =? iq0)%nat then V 0 0 0 else nth iq qpts (V 0 0 0)) with (qvec qpts iq0 iq).
  split; [|split].
  - eexists _, _. split; [reflexivity|]. split; [|split].
    + unfold v_bare. now rewrite !map_length.
    + intros i H. unfold v_bare. rewrite map_map. rewrite (map_nth_error _ i gs (nth_error_nth' gs (V 0 0 0) H)). f_equal.
      set (k := mv B (vadd (nth iq qpts (V 0 0 0)) (nth i gs (V 0 0 0)))). unfold v_bare1.
      change (vdot k k) with (len2 k). rewrite <- len_sq, <- norm_len. unfold reqb.
      assert (0 <= norm k) by apply sqrt_pos.
      destruct (Req_EM_T (norm k ^ 2) 0) as [Z0|Z0], (Rlt_dec 0 (norm k)) as [P|P]; [nra|reflexivity|reflexivity|].
      exfalso. apply Z0. replace (norm k) with 0 by lra. ring.
    + rewrite <- norm_len. unfold rltb. destruct (Rlt_dec _ _); reflexivity.
  - intros l o. unfold single_qpt. split.
    + destruct (sequence _) as [v|] eqn:E; [|discriminate]. cbn [bind].
      destruct (oneoverq_montecarlo _ _ _ _ _ _ _ _) as [w|] eqn:E2; [|discriminate]. cbn [bind]. intros [= <- <-].
      apply sequence_ok in E. assert (LE : length v = length gs) by (apply (f_equal (@length _)) in E; now rewrite !map_length in E).
      split; [assumption|]. split; [|reflexivity]. intros i H.
      assert (NE := f_equal (fun t => nth_error t i) E). cbn beta in NE.
      rewrite (map_nth_error _ i gs (nth_error_nth' gs (V 0 0 0) H)) in NE.
      rewrite (map_nth_error _ i v (nth_error_nth' v None (eq_ind_r (fun z => (i < z)%nat) H LE))) in NE. injection NE as NE.
      destruct (montecarlo_hybrid _ _ _ _ _ _ _ _ _) as [x|] eqn:Ex; [|discriminate]. cbn in NE. injection NE as NE.
      exists x. split; [|reflexivity]. rewrite NE. apply nth_error_nth'. lia.
    + intros (L & HV & HO). rewrite HO.
      assert (E : sequence (map (fun g => rmap fst (montecarlo_hybrid B cellvol qpts iq0 nmax ncoarse words pick (vadd (qvec qpts iq0 iq) g))) gs) = Ok l).
      { apply sequence_ok. apply (nth_ext _ _ (Err ValueError) (Err ValueError)); rewrite ?map_length; [lia|]. intros i H.
        destruct (HV i H) as (x & E1 & E2).
        rewrite (nth_map_lt _ gs i (V 0 0 0)) by assumption. rewrite (nth_map_lt _ l i None) by lia.
        rewrite E2. rewrite (nth_error_nth l i None E1). reflexivity. }
      rewrite E. reflexivity.
  - intros recvol l o Rv. unfold single_qpt. destruct (oneoverq_montecarlo _ _ _ _ _ _ _ _) as [w|] eqn:E2; [|discriminate]. cbn [bind]. intros [= <- <-].
    split; [now rewrite map_length|]. split; [|reflexivity]. intros i H. cbn zeta.
    rewrite (map_nth_error _ i gs (nth_error_nth' gs (V 0 0 0) H)). f_equal. rewrite <- norm_len.
    unfold numq. set (k := norm _). destruct (C71_cell_volume recvol (length qpts) Rv ltac:(lia)) as (RP & _).
    set (r0 := q_cutoff recvol (length qpts)) in *. unfold sphere_shifted.
    destruct (Rlt_dec r0 k) as [L|L].
    + replace (reqb k 0) with false by (symmetry; apply not_true_is_false; rewrite reqb_iff; lra).
      replace (rleb k r0) with false by (symmetry; apply not_true_is_false; rewrite rleb_iff; lra). now apply C71_shifted_sphere_average.
    + replace (rleb k r0) with true by (symmetry; apply rleb_iff; lra). destruct (reqb k 0); reflexivity.
Qed.
Print Assumptions C97_single_point.

(** Instances: a nearest-point search exists; for the unit cubic cell and the q-list {q0, (a, 0, 0)}
    the radius is a/2, so the hypotheses of the value theorems hold for G = 0 and G = (1, 0, 0) with
    a = 1/2; with a = 9/10 the vector q + G = (-1/10, 0, 0) of the second q-point gives nan. *)
Fixpoint nearest_in (l : list rvec) (p : rvec) : rvec :=
  match l with
  | [] => V 0 0 0
  | [g] => g
  | g :: t => if Rle_dec (norm (vsub p g)) (norm (vsub p (nearest_in t p))) then g else nearest_in t p
  end.
Lemma nearest_exists : nearest nearest_in.
Proof.
  intros l p. induction l as [|g l IH]; [congruence|]. intros _. destruct l as [|h l]; [split; [now left|intros x [<-|[]]; cbn; lra]|].
  destruct IH as (A & D); [discriminate|]. change (nearest_in (g :: h :: l) p) with
    (if Rle_dec (norm (vsub p g)) (norm (vsub p (nearest_in (h :: l) p))) then g else nearest_in (h :: l) p).
  destruct (Rle_dec _ _) as [L|L].
  - split; [now left|]. intros x [<-|Hx]; [lra|]. specialize (D x Hx). lra.
  - split; [now right|]. intros x [<-|Hx]; [lra|]. now apply D.
Qed.
Lemma axis_nbhd a : 1 / 100 < a -> exists nb, gamma_nbhd mid [V (1 / 1000) 0 0; V a 0 0] 0 = Ok (a / 2, nb).
Proof.
  intros Ha. set (qpts := [V (1 / 1000) 0 0; V a 0 0]).
  assert (NA : forall x, norm (mv mid (V (x * a) 0 0)) = Rabs x * a).
  { intros x. unfold norm, mv, mid, vadd, vscale. cbn [vx vy vz c1 c2 c3]. match goal with |- sqrt ?z = _ => replace z with (Rsqr (x * a)) by (unfold Rsqr; ring) end.
    rewrite sqrt_Rsqr_abs, Rabs_mult. f_equal. apply Rabs_pos_eq. lra. }
  assert (CP : forall g, copy mid qpts 0 g -> g = V 0 0 0 \/ norm g = a).
  { intros g (x & y & z & q & Hx & Hy & Hz & (i & Hi & ->) & ->). destruct i as [|[|i]]; [left|right|cbn in Hi; lia].
    - cbn [Nat.eqb vx vy vz]. replace (V (x * 0) (y * 0) (z * 0)) with (V 0 0 0) by (f_equal; ring). apply mv_zero.
    - cbn [Nat.eqb nth qpts vx vy vz]. replace (V (x * a) (y * 0) (z * 0)) with (V (x * a) 0 0) by (f_equal; ring). rewrite NA.
      destruct Hx as [-> | ->]; [rewrite Rabs_R1|rewrite Rabs_left by lra]; ring. }
  assert (CA : copy mid qpts 0 (mv mid (V (1 * a) 0 0))).
  { exists 1, 1, 1, (V a 0 0). unfold pm. repeat split; auto. 2:{ cbn [vx vy vz]. f_equal. f_equal; ring. }
    exists 1%nat. split; [cbn; lia|reflexivity]. }
  destruct (proj1 (proj1 (proj2 (C97_no_neighbour_refused mid qpts 0)))) as (q & nb & E).
  { exists (mv mid (V (1 * a) 0 0)). split; [assumption|]. rewrite NA, Rabs_R1. nra. }
  exists nb. rewrite E. f_equal. f_equal. destruct (C97_neighbourhood mid qpts 0 q nb ltac:(cbn; lia) E) as ((g & Cg & Tg & ->) & _).
  destruct (CP g Cg) as [-> | ->]; [|reflexivity]. exfalso. unfold norm in Tg. cbn [vx vy vz] in Tg.
  replace (0 ^ 2 + 0 ^ 2 + 0 ^ 2) with 0 in Tg by ring. rewrite sqrt_0 in Tg. lra.
Qed.
Lemma axis_norm x : norm (mv mid (V x 0 0)) = Rabs x.
Proof.
  unfold norm, mv, mid, vadd, vscale. cbn [vx vy vz c1 c2 c3]. match goal with |- sqrt ?z = _ => replace z with (Rsqr x) by (unfold Rsqr; ring) end. apply sqrt_Rsqr_abs.
Qed.
Example C97_instance :
  (exists nb, gamma_nbhd mid [V (1 / 1000) 0 0; V (1 / 2) 0 0] 0 = Ok (1 / 2 / 2, nb))
  /\ norm (mv mid (V 0 0 0)) < 1 / 100000 /\ 1 / 2 / 2 < norm (mv mid (V 1 0 0))
  /\ (forall cellvol nmax ncoarse words pick, exists o,
        montecarlo_hybrid mid cellvol [V (1 / 1000) 0 0; V (9 / 10) 0 0] 0 nmax ncoarse words pick (vadd (V (9 / 10) 0 0) (V (-1) 0 0)) = Ok (None, o)).
Proof.
  split; [apply axis_nbhd; lra|]. split; [rewrite axis_norm, Rabs_R0; lra|]. split; [rewrite axis_norm, Rabs_R1; lra|].
  intros cellvol nmax ncoarse words pick. destruct (axis_nbhd (9 / 10) ltac:(lra)) as (nb & E).
  apply (C97_short_shift_refuted _ _ _ _ _ _ _ _ _ _ _ E). unfold vadd. cbn [vx vy vz].
  replace (V (9 / 10 + -1) (0 + 0) (0 + 0)) with (V (- (1 / 10)) 0 0) by (f_equal; field). rewrite axis_norm, Rabs_Ropp, Rabs_pos_eq by lra. lra.
Qed.
