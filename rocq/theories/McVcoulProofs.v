(** Proofs for McVcoulModel.v. *)
From Coq Require Import Reals Lra.
From Verif Require Import Base SortModel LatModel GwModel GwProofs McVcoulModel.
Open Scope R_scope.

Lemma reqb_iff x y : reqb x y = true <-> x = y.
Proof. unfold reqb. destruct (Req_EM_T x y); split; congruence. Qed.
Lemma rleb_iff x y : rleb x y = true <-> x <= y.
Proof. unfold rleb. destruct (Rle_dec x y); split; (congruence || tauto). Qed.
Lemma rltb_true x y : rltb x y = true <-> x < y.
Proof. unfold rltb. destruct (Rlt_dec x y); split; (congruence || tauto). Qed.
Lemma rltb_false x y : rltb x y = false <-> y <= x.
Proof. unfold rltb. destruct (Rlt_dec x y); split; try congruence; lra. Qed.

Lemma fold_min l : forall x, (fold_left Rmin l x = x \/ In (fold_left Rmin l x) l) /\
  fold_left Rmin l x <= x /\ forall y, In y l -> fold_left Rmin l x <= y.
Proof.
  induction l as [|z l IH]; intros x; cbn [fold_left].
  - split; [now left|]. split; [lra|]. intros y [].
  - destruct (IH (Rmin x z)) as (A & B & D). pose proof (Rmin_l x z). pose proof (Rmin_r x z). split; [|split].
    + destruct A as [A|A]; [|right; now right]. rewrite A. unfold Rmin. destruct (Rle_dec x z); [now left|right; now left].
    + lra.
    + intros y [<-|Hy]; [lra|now apply D].
Qed.
Lemma np_min_ok l m : np_min l = Ok m -> In m l /\ forall y, In y l -> m <= y.
Proof.
  destruct l as [|x l]; [discriminate|]. cbn [np_min]. intros [= <-]. destruct (fold_min l x) as (A & B & D). split.
  - destruct A as [->|A]; [now left|now right].
  - intros y [<-|Hy]; [assumption|now apply D].
Qed.

Lemma len2_nonneg v : 0 <= len2 v.
Proof. unfold len2, vdot. nra. Qed.
Lemma len_nonneg v : 0 <= len v.
Proof. apply sqrt_pos. Qed.
Lemma len_sq v : len v ^ 2 = len2 v.
Proof. unfold len. rewrite <- Rsqr_pow2, Rsqr_sqrt; [reflexivity|apply len2_nonneg]. Qed.
Lemma len_le u v : len2 u <= len2 v -> len u <= len v.
Proof. apply sqrt_le_1_alt. Qed.
Lemma len_le_inv u v : len u <= len v -> len2 u <= len2 v.
Proof. intros H. rewrite <- !len_sq. pose proof (len_nonneg u). nra. Qed.
Lemma len2_zero : len2 (V 0 0 0) = 0.
Proof. unfold len2, vdot. cbn. ring. Qed.

(** Cauchy-Schwarz for the Cartesian product. *)
Lemma cauchy u v : vdot u v <= len u * len v.
Proof.
  destruct (Rle_dec (vdot u v) 0) as [H|H]; [pose proof (len_nonneg u); pose proof (len_nonneg v); nra|].
  apply Rnot_le_lt in H. apply Rsqr_incr_0_var; [|pose proof (len_nonneg u); pose proof (len_nonneg v); nra].
  rewrite Rsqr_mult. unfold len. rewrite !Rsqr_sqrt by apply len2_nonneg. unfold Rsqr, len2, vdot. 
  destruct u as [a b c], v as [d e f]. cbn.
  pose proof (pow2_ge_0 (a * e - b * d)) as H1. pose proof (pow2_ge_0 (a * f - c * d)) as H2. pose proof (pow2_ge_0 (b * f - c * e)) as H3.
  apply Rminus_le. match goal with |- ?x <= 0 => replace x with (- ((a * e - b * d) ^ 2 + (a * f - c * d) ^ 2 + (b * f - c * e) ^ 2)) by ring end. lra.
Qed.
(** A point within half the length of a grid vector is not farther from the origin than from
    that vector. *)
Lemma inscribed p g r : len p <= r -> 2 * r <= len g -> len p <= len (vsub p g).
Proof.
  intros Hp Hg. apply len_le. pose proof (cauchy p g) as CS. pose proof (len_nonneg p). pose proof (len_nonneg g).
  assert (E : len2 (vsub p g) = len2 p - 2 * vdot p g + len2 g) by (unfold len2, vdot, vsub; cbn; ring).
  rewrite E. rewrite <- (len_sq g). nra.
Qed.

Lemma signs_list : signs = [V 1 1 1; V 1 1 (-1); V 1 (-1) 1; V 1 (-1) (-1); V (-1) 1 1; V (-1) 1 (-1); V (-1) (-1) 1; V (-1) (-1) (-1)].
Proof. reflexivity. Qed.
Lemma signs_neg s : In s signs -> In (vscale (-1) s) signs.
Proof.
  assert (E1 : -1 * 1 = -1) by ring. assert (E2 : -1 * -1 = 1) by ring.
  rewrite signs_list. unfold vscale. intros H. unfold In in *.
  repeat (destruct H as [H|H]; [rewrite <- H; cbn [vx vy vz]; rewrite ?E1, ?E2; tauto|]). destruct H.
Qed.
Lemma vmul_neg s v : vmul (vscale (-1) s) v = vscale (-1) (vmul s v).
Proof. unfold vmul, vscale. cbn. f_equal; ring. Qed.
Lemma mv_scale (B : mat) a v : mv B (vscale a v) = vscale a (mv B v).
Proof. unfold mv, vscale, vadd. cbn. f_equal; ring. Qed.
Lemma len2_neg v : len2 (vscale (-1) v) = len2 v.
Proof. unfold len2, vdot, vscale. cbn. ring. Qed.
Lemma full_neg (B : mat) qpts iq0 v : In v (map (mv B) (full_qpts qpts iq0)) -> In (vscale (-1) v) (map (mv B) (full_qpts qpts iq0)).
Proof.
  intros H. apply in_map_iff in H as (x & <- & Hx). unfold full_qpts in *. apply in_flat_map in Hx as (s & Hs & Hx).
  apply in_map_iff in Hx as (q & <- & Hq). rewrite <- mv_scale, <- vmul_neg. apply in_map. apply in_flat_map.
  exists (vscale (-1) s). split; [now apply signs_neg|]. now apply in_map.
Qed.
Lemma set_nth_in {A} i (x : A) l : (i < length l)%nat -> In x (set_nth i x l).
Proof. revert l. induction i; intros [|y l] H; cbn in *; try lia; [now left|]. right. apply IHi. lia. Qed.
Lemma mv_zero (B : mat) : mv B (V 0 0 0) = V 0 0 0.
Proof. unfold mv, vadd, vscale. cbn. f_equal; ring. Qed.
Lemma full_zero (B : mat) qpts iq0 : (iq0 < length qpts)%nat -> In (V 0 0 0) (map (mv B) (full_qpts qpts iq0)).
Proof.
  intros H. rewrite <- (mv_zero B). apply in_map. apply in_flat_map. exists (V 1 1 1). split; [unfold signs; cbn; tauto|].
  apply in_map_iff. exists (V 0 0 0). split; [unfold vmul; cbn; f_equal; ring|]. now apply set_nth_in.
Qed.
Lemma tol_pos : 0 < TOL_SMALL. Proof. unfold TOL_SMALL. lra. Qed.

Lemma nbhd_ok (B : mat) qpts iq0 q nb : gamma_nbhd B qpts iq0 = Ok (q, nb) ->
  let full := map (mv B) (full_qpts qpts iq0) in
  0 < q
  /\ (exists g, In g full /\ TOL_SMALL < len2 g /\ len g = 2 * q)
  /\ (forall g, In g full -> TOL_SMALL < len2 g -> 2 * q <= len g)
  /\ (forall g, In g nb <-> In g full /\ len g <= 8 * q).
Proof.
  intros H full. unfold gamma_nbhd in H. fold full in H. destruct (np_min _) as [m|] eqn:E; [|discriminate]. cbn [bind] in H. injection H as <- <-.
  apply np_min_ok in E as (I & M). apply filter_In in I as (I & T). apply rltb_true in T. apply in_map_iff in I as (g & Eg & Ig).
  pose proof tol_pos as TP. assert (0 < m) by lra. pose proof (sqrt_lt_R0 m H) as SP.
  assert (Q : 0 < sqrt m / 2) by lra. split; [assumption|]. split; [|split].
  - exists g. split; [assumption|]. rewrite Eg. split; [assumption|]. unfold len. rewrite Eg. field.
  - intros h Hh Th. replace (2 * (sqrt m / 2)) with (sqrt m) by field. apply sqrt_le_1_alt. apply M. apply filter_In. split; [now apply in_map|now apply rltb_true].
  - intros h. rewrite filter_In, rleb_iff. assert (P : 0 <= 8 * (sqrt m / 2)) by lra. split; intros (A & K); (split; [assumption|]).
    + apply Rsqr_incr_0_var; [|assumption]. rewrite !Rsqr_pow2, len_sq. assumption.
    + rewrite <- len_sq. pose proof (len_nonneg h). nra.
Qed.
Lemma nbhd_err (B : mat) qpts iq0 : (forall g, In g (map (mv B) (full_qpts qpts iq0)) -> len2 g <= TOL_SMALL) -> gamma_nbhd B qpts iq0 = Err ValueError.
Proof.
  intros H. unfold gamma_nbhd.
  replace (filter (fun x => rltb TOL_SMALL x) (map len2 (map (mv B) (full_qpts qpts iq0)))) with (@nil R); [reflexivity|].
  revert H. generalize (map (mv B) (full_qpts qpts iq0)). intros l H. induction l as [|g l IH]; [reflexivity|]. cbn [map filter].
  replace (rltb TOL_SMALL (len2 g)) with false; [apply IH; intros; apply H; now right|]. symmetry. apply rltb_false. apply H. now left.
Qed.
Lemma nbhd_exists (B : mat) qpts iq0 g : In g (map (mv B) (full_qpts qpts iq0)) -> TOL_SMALL < len2 g -> exists q nb, gamma_nbhd B qpts iq0 = Ok (q, nb).
Proof.
  intros H T. unfold gamma_nbhd. destruct (filter (fun x => rltb TOL_SMALL x) (map len2 (map (mv B) (full_qpts qpts iq0)))) as [|x l] eqn:E.
  - exfalso. assert (I : In (len2 g) []); [|destruct I]. rewrite <- E. apply filter_In. split; [now apply in_map|now apply rltb_true].
  - cbn [np_min bind]. eauto.
Qed.

(** Sums. *)
Lemma osum_some l : osum (map Some l) = Some (fold_right Rplus 0 l).
Proof. induction l as [|x l IH]; cbn; [reflexivity|]. unfold osum in IH. now rewrite IH. Qed.
Lemma recip_some x : x <> 0 -> recip x = Some (/ x).
Proof. intros H. unfold recip. destruct (reqb x 0) eqn:E; [apply reqb_iff in E; congruence|reflexivity]. Qed.
Lemma len_pos_iff v : len v <> 0 <-> v <> V 0 0 0.
Proof.
  split.
  - intros H ->. apply H. unfold len. rewrite len2_zero. apply sqrt_0.
  - intros H E. apply H. assert (Q : len2 v = 0) by (rewrite <- len_sq, E; ring). unfold len2, vdot in Q. destruct v as [a b c]. cbn in Q.
    assert (a = 0 /\ b = 0 /\ c = 0) as (-> & -> & ->); [|reflexivity]. nra.
Qed.

Lemma triples_length n w : (3 * n <= length w)%nat -> length (triples n w) = n.
Proof.
  revert w. induction n as [|n IH]; intros w H; [reflexivity|]. destruct w as [|a [|b [|c w]]]; cbn in H; try lia.
  cbn [triples length]. rewrite IH; [reflexivity|]. lia.
Qed.
