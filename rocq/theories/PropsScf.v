(** Properties C35 (SCF driver) and C36 (collectives of the density accumulation). *)
From Verif Require Import Base ScatterModel ScatterProofs SortModel CommModel CommProofs CtxModel ScfModel.
From Coq Require Import Reals Lra.
Local Open Scope R_scope.

(* ------------------------------------------------------------------ *)
(** * C35 *)

(** C35.  Whatever densities, errors and thresholds the physics produces: at most maxiter
    iterations are made, numbered from 0; the driver reports convergence exactly when the
    error of its last iteration is below the threshold, and no earlier one was; without
    convergence all maxiter iterations were made; the mixer is called exactly in the
    iterations that did not converge, except a first iteration whose error is below
    diago_thr * numel. *)
Theorem C35_stops_and_reports : forall D W M (ph : physics D W M) sy conv numel maxiter rho0 thr0 w m c rho tr,
  scf ph sy conv numel maxiter rho0 thr0 w m = (c, rho, tr) ->
  (length tr <= maxiter)%nat
  /\ map it_idx tr = seq 0 (length tr)
  /\ (c = true <-> exists pre last, tr = pre ++ [last] /\ it_error last < conv)
  /\ (forall it, In it tr -> it_converged it = true <-> it_error it < conv)
  /\ (forall i it, nth_error tr i = Some it -> it_error it < conv -> S i = length tr)
  /\ (c = false -> length tr = maxiter)
  /\ (forall it, In it tr -> it_mixed it = true <->
        conv <= it_error it /\ ~ (it_idx it = 0%nat /\ it_error it < it_thr_used it * numel)).
Proof.
  intros D W M ph sy conv numel maxiter rho0 thr0 w m c rho tr. unfold scf.
  assert (G : forall n idx rho0 thr0 w m c rho tr, scf_loop ph sy conv numel n idx rho0 thr0 w m = (c, rho, tr) ->
    (length tr <= n)%nat /\ map it_idx tr = seq idx (length tr)
    /\ (c = true -> exists pre last, tr = pre ++ [last] /\ it_error last < conv)
    /\ (forall it, In it tr -> it_converged it = true <-> it_error it < conv)
    /\ (forall i it, nth_error tr i = Some it -> it_error it < conv -> S i = length tr /\ c = true)
    /\ (c = false -> length tr = n)
    /\ (forall it, In it tr -> it_mixed it = true <->
        conv <= it_error it /\ ~ (it_idx it = 0%nat /\ it_error it < it_thr_used it * numel))).
  { clear. induction n as [|n IH]; intros idx rho0 thr0 w m c rho tr H; cbn [scf_loop] in H.
    - injection H as <- <- <-. cbn. repeat split; auto; try discriminate; try contradiction. all: destruct i; discriminate.
    - cbv zeta in H. set (ri := normalize ph (if sy then symmetrize ph rho0 else rho0)) in *.
      destruct (output ph w ri thr0) as [ro w'].
      destruct (Rlt_dec (error ph ri ro) conv) as [L|L].
      + injection H as <- <- <-. cbn. repeat split; auto; try lia; try discriminate.
        * intros _. exists [], (MkIter idx thr0 (error ph ri ro) true false thr0). now split.
        * destruct H as [<-|[]]; auto.
        * destruct H as [<-|[]]; auto.
        * destruct i as [|[|i]]; cbn in H; try discriminate. reflexivity.
        * destruct H as [<-|[]]; cbn; discriminate.
        * destruct H as [<-|[]]; cbn; discriminate.
        * destruct H as [<-|[]]; cbn; intros [A _]; lra.
      + match type of H with (if ?b then _ else _) = _ => destruct b eqn:B end.
        * match type of H with context[scf_loop ph sy conv numel n (S idx) ?a ?b ?c0 ?d] => destruct (scf_loop ph sy conv numel n (S idx) a b c0 d) as [[c1 r1] t1] eqn:E end.
          injection H as <- <- <-. destruct (IH _ _ _ _ _ _ _ _ E) as (A1 & A2 & A3 & A4 & A5 & A6 & A7).
          apply andb_prop in B. destruct B as [B1 B2]. apply Nat.eqb_eq in B1.
          destruct (Rlt_dec (error ph ri ro) (thr0 * numel)) as [B3|]; [|discriminate]. cbn [length map seq it_idx].
          split; [lia|]. split; [now rewrite A2|]. split; [|split; [|split; [|split]]].
          -- intros Hc. destruct (A3 Hc) as (pre & last & -> & Hl). eexists (_ :: pre), last. split; [reflexivity|exact Hl].
          -- intros it [<-|Hi]; [cbn; split; [discriminate|intros; contradiction]|now apply A4].
          -- intros [|i] it Hi Hl; cbn in Hi; [injection Hi as <-; contradiction|]. destruct (A5 i it Hi Hl). split; [lia|assumption].
          -- intros Hc. rewrite (A6 Hc). reflexivity.
          -- intros it [<-|Hi]; [|now apply A7]. cbn. split; [discriminate|]. intros [_ Hn]. exfalso. apply Hn. auto.
        * destruct (mix ph m ri ro) as [rn m'].
          match type of H with context[scf_loop ph sy conv numel n (S idx) ?a ?b ?c0 ?d] => destruct (scf_loop ph sy conv numel n (S idx) a b c0 d) as [[c1 r1] t1] eqn:E end.
          injection H as <- <- <-. destruct (IH _ _ _ _ _ _ _ _ E) as (A1 & A2 & A3 & A4 & A5 & A6 & A7).
          cbn [length map seq it_idx].
          split; [lia|]. split; [now rewrite A2|]. split; [|split; [|split; [|split]]].
          -- intros Hc. destruct (A3 Hc) as (pre & last & -> & Hl). eexists (_ :: pre), last. split; [reflexivity|exact Hl].
          -- intros it [<-|Hi]; [cbn; split; [discriminate|intros; contradiction]|now apply A4].
          -- intros [|i] it Hi Hl; cbn in Hi; [injection Hi as <-; contradiction|]. destruct (A5 i it Hi Hl). split; [lia|assumption].
          -- intros Hc. rewrite (A6 Hc). reflexivity.
          -- intros it [<-|Hi]; [|now apply A7]. cbn. split; [|reflexivity]. intros _. split; [lra|]. intros [-> Hl].
             cbn in B. destruct (Rlt_dec (error ph ri ro) (thr0 * numel)); [discriminate|contradiction]. }
  intros H. destruct (G _ _ _ _ _ _ _ _ _ H) as (A1 & A2 & A3 & A4 & A5 & A6 & A7).
  split; [exact A1|]. split; [exact A2|]. split; [|split; [exact A4|split; [|split; [exact A6|exact A7]]]].
  - split; [exact A3|]. intros (pre & last & -> & Hl).
    apply (proj2 (A5 (length pre) last ltac:(rewrite nth_error_app2, Nat.sub_diag by lia; reflexivity) Hl)).
  - intros i it Hi Hl. apply (A5 i it Hi Hl).
Qed.
Print Assumptions C35_stops_and_reports.

(** C35.  When convergence is reported, the returned density is the (normalised) input
    density of the last iteration, and its own output differs from it by less than the
    threshold. *)
Theorem C35_converged_density : forall D W M (ph : physics D W M) sy conv numel maxiter rho0 thr0 w m rho tr,
  scf ph sy conv numel maxiter rho0 thr0 w m = (true, rho, tr) ->
  exists rho_before w' thr, rho = normalize ph (if sy then symmetrize ph rho_before else rho_before)
    /\ error ph rho (fst (output ph w' rho thr)) < conv
    /\ exists pre last, tr = pre ++ [last] /\ it_thr_used last = thr /\ it_error last = error ph rho (fst (output ph w' rho thr)).
Proof.
  intros D W M ph sy conv numel maxiter. unfold scf. generalize 0%nat as idx.
  induction maxiter as [|n IH]; intros idx rho0 thr0 w m rho tr H; cbn [scf_loop] in H; [discriminate|].
  cbv zeta in H. remember (normalize ph (if sy then symmetrize ph rho0 else rho0)) as ri.
  destruct (output ph w ri thr0) as [ro w'] eqn:EO.
  destruct (Rlt_dec (error ph ri ro) conv) as [L|L].
  - injection H as <- <-. exists rho0, w, thr0. rewrite EO. cbn. split; [exact Heqri|]. split; [exact L|]. exists [], (MkIter idx thr0 (error ph ri ro) true false thr0). auto.
  - match type of H with (if ?b then _ else _) = _ => destruct b eqn:B end.
    + match type of H with context[scf_loop ph sy conv numel n (S idx) ?a ?b ?c0 ?d] => destruct (scf_loop ph sy conv numel n (S idx) a b c0 d) as [[c1 r1] t1] eqn:E end.
      injection H as -> <- <-. destruct (IH _ _ _ _ _ _ _ E) as (rb & w1 & th & Q1 & Q2 & pre & last & -> & Q3 & Q4).
      exists rb, w1, th. split; [exact Q1|]. split; [exact Q2|]. eexists (_ :: pre), last. split; [reflexivity|auto].
    + destruct (mix ph m ri ro) as [rn m'].
      match type of H with context[scf_loop ph sy conv numel n (S idx) ?a ?b ?c0 ?d] => destruct (scf_loop ph sy conv numel n (S idx) a b c0 d) as [[c1 r1] t1] eqn:E end.
      injection H as -> <- <-. destruct (IH _ _ _ _ _ _ _ E) as (rb & w1 & th & Q1 & Q2 & pre & last & -> & Q3 & Q4).
      exists rb, w1, th. split; [exact Q1|]. split; [exact Q2|]. eexists (_ :: pre), last. split; [reflexivity|auto].
Qed.
Print Assumptions C35_converged_density.

(** The floor of the diagonalisation threshold: 0.5e-13. *)
Definition thr_floor : R := 5 / 10 * / 10 ^ 13.

(** C35.  Thresholds.  Provided the initial threshold is at least the floor and the
    convergence threshold is not so small that 0.1 * conv_thr / numel is below it, the
    diagonalisation threshold never increases and never drops below the floor, and each
    iteration uses the threshold its predecessor announced. *)
Theorem C35_threshold_monotone : forall D W M (ph : physics D W M) sy conv numel maxiter rho0 thr0 w m c rho tr,
  0 < numel -> thr_floor <= thr0 -> thr_floor <= 1 / 10 * conv / numel ->
  scf ph sy conv numel maxiter rho0 thr0 w m = (c, rho, tr) ->
  (forall it, In it tr -> thr_floor <= it_thr_next it <= it_thr_used it)
  /\ (forall i a b, nth_error tr i = Some a -> nth_error tr (S i) = Some b -> it_thr_used b = it_thr_next a)
  /\ (forall a, nth_error tr 0 = Some a -> it_thr_used a = thr0).
Proof.
  intros D W M ph sy conv numel maxiter rho0 thr0 w m c rho tr HN H0 HC. unfold scf.
  assert (Q : forall e, conv <= e -> thr_floor <= 1 / 10 * e / numel).
  { intros e He. eapply Rle_trans; [exact HC|]. unfold Rdiv. apply Rmult_le_compat_r; [left; now apply Rinv_0_lt_compat|]. lra. }
  revert rho0 thr0 w m c rho tr H0. generalize 0%nat at 1 as idx.
  induction maxiter as [|n IH]; intros idx rho0 thr0 w m c rho tr H0 H; cbn [scf_loop] in H.
  { injection H as <- <- <-. split; [intros it []|]. split; [intros i a b Ha; destruct i; cbn in Ha; discriminate Ha|intros a Ha; cbn in Ha; discriminate Ha]. }
  cbv zeta in H. set (ri := normalize ph (if sy then symmetrize ph rho0 else rho0)) in *.
  destruct (output ph w ri thr0) as [ro w'].
  destruct (Rlt_dec (error ph ri ro) conv) as [L|L].
  - injection H as <- <- <-. split; [intros it [<-|[]]; cbn; lra|]. split; [intros [|[|i]] a b Ha Hb; cbn in Ha, Hb; discriminate|]. intros a [= <-]. reflexivity.
  - assert (Step : exists thr x t1, tr = x :: t1 /\ it_thr_used x = thr0 /\ it_thr_next x = thr /\ thr_floor <= thr <= thr0
        /\ exists r2 w2 m2 c2 r3, scf_loop ph sy conv numel n (S idx) r2 thr w2 m2 = (c2, r3, t1)).
    { match type of H with (if ?b then _ else _) = _ => destruct b eqn:B end.
      - match type of H with context[scf_loop ph sy conv numel n (S idx) ?a ?b ?c0 ?d] => destruct (scf_loop ph sy conv numel n (S idx) a b c0 d) as [[c1 r1] t1] eqn:E end.
        injection H as <- <- <-. do 3 eexists. split; [reflexivity|]. split; [reflexivity|]. split; [reflexivity|]. split; [|do 5 eexists; exact E].
        apply andb_prop in B. destruct B as [_ B]. destruct (Rlt_dec (error ph ri ro) (thr0 * numel)) as [B3|]; [|discriminate].
        split; [apply Q; lra|]. 
        assert (0 <= thr_floor) by (unfold thr_floor; lra).
        assert (1 / 10 * (thr0 * numel) / numel = 1 / 10 * thr0) by (field; lra).
        assert (1 / 10 * error ph ri ro / numel <= 1 / 10 * (thr0 * numel) / numel).
        { unfold Rdiv at 1 4. unfold Rdiv. apply Rmult_le_compat_r; [left; now apply Rinv_0_lt_compat|]. lra. }
        cbn [it_thr_next]. lra.
      - destruct (mix ph m ri ro) as [rn m'].
        match type of H with context[scf_loop ph sy conv numel n (S idx) ?a ?b ?c0 ?d] => destruct (scf_loop ph sy conv numel n (S idx) a b c0 d) as [[c1 r1] t1] eqn:E end.
        injection H as <- <- <-. do 3 eexists. split; [reflexivity|]. split; [reflexivity|]. split; [reflexivity|]. split; [|do 5 eexists; exact E].
        fold thr_floor. split; [apply Rmax_r|]. apply Rmax_lub; [apply Rmin_l|exact H0]. }
    destruct Step as (thr & x & t1 & -> & U & N & B & r2 & w2 & m2 & c2 & r3 & E).
    destruct (IH _ _ _ _ _ _ _ _ (proj1 B) E) as (I1 & I2 & I3). split; [|split].
    + intros it [<-|Hi]; [rewrite U, N; exact B|now apply I1].
    + intros [|i] a b Ha Hb; cbn in Ha, Hb; [injection Ha as <-; rewrite N; now apply I3|now apply (I2 i)].
    + intros a [= <-]. exact U.
Qed.
Print Assumptions C35_threshold_monotone.

(** C35, the exact rule, with no hypothesis on the inputs: iteration 0 uses the initial
    threshold, each later one what the previous iteration set; a converged iteration
    leaves it; an unconverged iteration 0 whose error is below threshold times electron
    count sets a tenth of the error per electron; every other unconverged iteration sets
    the smaller of the old threshold and a tenth of the error per electron, but not less
    than the floor. *)
Theorem C35_threshold_rule : forall D W M (ph : physics D W M) sy conv numel maxiter rho0 thr0 w m c rho tr,
  scf ph sy conv numel maxiter rho0 thr0 w m = (c, rho, tr) ->
  forall i a, nth_error tr i = Some a ->
    it_thr_used a = match i with O => thr0 | S j => match nth_error tr j with Some b => it_thr_next b | None => 0 end end
    /\ (it_error a < conv -> it_thr_next a = it_thr_used a)
    /\ (conv <= it_error a -> i = 0%nat -> it_error a < it_thr_used a * numel ->
          it_thr_next a = it_error a / numel / 10)
    /\ (conv <= it_error a -> (i <> 0%nat \/ it_thr_used a * numel <= it_error a) ->
          it_thr_next a = Rmax (Rmin (it_thr_used a) (it_error a / numel / 10)) thr_floor).
Proof.
  intros D W M ph sy conv numel maxiter rho0 thr0 w m c rho tr. unfold scf.
  assert (G : forall n idx rho0 thr0 w m c rho tr, scf_loop ph sy conv numel n idx rho0 thr0 w m = (c, rho, tr) ->
    forall i a, nth_error tr i = Some a ->
    it_thr_used a = match i with O => thr0 | S j => match nth_error tr j with Some b => it_thr_next b | None => 0 end end
    /\ (it_error a < conv -> it_thr_next a = it_thr_used a)
    /\ (conv <= it_error a -> (idx + i)%nat = 0%nat -> it_error a < it_thr_used a * numel ->
          it_thr_next a = it_error a / numel / 10)
    /\ (conv <= it_error a -> ((idx + i)%nat <> 0%nat \/ it_thr_used a * numel <= it_error a) ->
          it_thr_next a = Rmax (Rmin (it_thr_used a) (it_error a / numel / 10)) thr_floor)).
  { clear. induction n as [|n IH]; intros idx rho0 thr0 w m c rho tr H i a Ha; cbn [scf_loop] in H.
    { injection H as <- <- <-. destruct i; discriminate Ha. }
    cbv zeta in H. set (ri := normalize ph (if sy then symmetrize ph rho0 else rho0)) in *.
    destruct (output ph w ri thr0) as [ro w'].
    assert (Eq : 1 / 10 * error ph ri ro / numel = error ph ri ro / numel / 10) by (unfold Rdiv; ring).
    destruct (Rlt_dec (error ph ri ro) conv) as [L|L].
    - injection H as <- <- <-. destruct i as [|[|i]]; try discriminate Ha. injection Ha as <-. cbn.
      split; [reflexivity|]. split; [reflexivity|]. split; intros; lra.
    - destruct (Nat.eqb idx 0 && (if Rlt_dec (error ph ri ro) (thr0 * numel) then true else false))%bool eqn:B.
      + destruct (scf_loop ph sy conv numel n (S idx) ri _ w' m) as [[c1 r1] t1] eqn:E in H.
        injection H as <- <- <-. apply andb_prop in B. destruct B as [B1 B2]. apply Nat.eqb_eq in B1. subst idx.
        destruct (Rlt_dec (error ph ri ro) (thr0 * numel)) as [B3|]; [|discriminate].
        destruct i as [|i].
        * injection Ha as <-. cbn [it_thr_used it_error it_thr_next]. split; [reflexivity|]. split; [intros; lra|]. split; [intros; exact Eq|].
          intros _ [K|K]; [now destruct K|lra].
        * cbn in Ha. destruct (IH _ _ _ _ _ _ _ _ E i a Ha) as (I1 & I2 & I3 & I4). split; [|split; [exact I2|split]].
          -- rewrite I1. destruct i; [reflexivity|]. cbn. destruct (nth_error t1 i); reflexivity.
          -- intros _ K. lia.
          -- intros K _. apply I4; [exact K|left; lia].
      + destruct (mix ph m ri ro) as [rn m'].
        match type of H with context[scf_loop ph sy conv numel n (S idx) ?a ?b ?c0 ?d] => destruct (scf_loop ph sy conv numel n (S idx) a b c0 d) as [[c1 r1] t1] eqn:E end.
        injection H as <- <- <-. destruct i as [|i].
        * injection Ha as <-. cbn [it_thr_used it_error it_thr_next]. split; [reflexivity|]. split; [intros; lra|]. split.
          -- intros _ K Q. exfalso. assert (idx = 0%nat) as -> by lia. destruct (Rlt_dec (error ph ri ro) (thr0 * numel)); [discriminate B|lra].
          -- intros _ _. rewrite Eq. reflexivity.
        * cbn in Ha. destruct (IH _ _ _ _ _ _ _ _ E i a Ha) as (I1 & I2 & I3 & I4). split; [|split; [exact I2|split]].
          -- rewrite I1. destruct i; [reflexivity|]. cbn. destruct (nth_error t1 i); reflexivity.
          -- intros _ K. lia.
          -- intros K _. apply I4; [exact K|left; lia]. }
  intros H i a Ha. exact (G _ _ _ _ _ _ _ _ _ H i a Ha).
Qed.
Print Assumptions C35_threshold_rule.

(** A one-dimensional physics for the counterexamples: densities are natural numbers
    counting iterations, the error of iteration i is [err i]. *)
Definition toy (err : nat -> R) : physics nat unit unit :=
  MkPhysics nat unit unit (fun x => x) (fun x => x) (fun w x _ => (x, w)) (fun x _ => err x) (fun m x _ => (S x, m)).

(** C35, refuted part.  With inputs the interface accepts, the threshold can drop below its
    floor and can increase: (1) an initial threshold below the floor is raised to it by the
    first mixing step; (2) a first iteration whose error is small compared with
    diago_thr * numel sets 0.1 * error / numel without applying the floor, and the next
    iteration raises it again. *)
Theorem C35_threshold_refuted :
  (exists err conv numel thr0 c rho tr a,
      0 < conv /\ 0 < numel /\ 0 < thr0 /\ scf (toy err) false conv numel 1 0%nat thr0 tt tt = (c, rho, tr)
      /\ nth_error tr 0 = Some a /\ it_thr_used a < it_thr_next a)
  /\ (exists err conv numel thr0 c rho tr a b,
      0 < conv /\ 0 < numel /\ thr_floor <= thr0 /\ scf (toy err) false conv numel 2 0%nat thr0 tt tt = (c, rho, tr)
      /\ nth_error tr 0 = Some a /\ nth_error tr 1 = Some b
      /\ it_thr_next a < thr_floor /\ it_thr_used b < it_thr_next b).
Proof.
  split.
  - exists (fun _ => 1), (1 / 2), 1, (thr_floor / 2). unfold scf, scf_loop, toy; cbn.
    destruct (Rlt_dec 1 (1 / 2)); [lra|]. destruct (Rlt_dec 1 (thr_floor / 2 * 1)) as [H|H]; [unfold thr_floor in H; lra|].
    do 3 eexists. eexists. split; [lra|]. split; [lra|]. split; [unfold thr_floor; lra|]. split; [reflexivity|]. split; [reflexivity|]. cbn.
    fold thr_floor. eapply Rlt_le_trans; [|apply Rmax_r]. unfold thr_floor. lra.
  - exists (fun _ => thr_floor), (thr_floor / 2), 1, 1. unfold scf. cbn [scf_loop]. unfold toy. cbn [output error mix normalize symmetrize]. cbv zeta.
    destruct (Rlt_dec thr_floor (thr_floor / 2)) as [H|_]; [unfold thr_floor in H; lra|].
    destruct (Rlt_dec thr_floor (1 * 1)) as [_|H]; [|unfold thr_floor in H; lra]. cbn [Nat.eqb andb].
    do 4 eexists. eexists. split; [unfold thr_floor; lra|]. split; [lra|]. split; [unfold thr_floor; lra|]. split; [reflexivity|].
    split; [reflexivity|]. split; [reflexivity|]. cbn [it_thr_next it_thr_used]. split.
    + unfold thr_floor. lra.
    + fold thr_floor. eapply Rlt_le_trans; [|apply Rmax_r]. unfold thr_floor. lra.
Qed.
Print Assumptions C35_threshold_refuted.

(** Non-vacuity: the default inputs of [scf] satisfy the hypotheses of the threshold theorem
    (conv_thr = 1e-6 Ry = 5e-7 Ha, diago_thr_init = 1e-5 Ry, e.g. 8 electrons), and a run
    that mixes once and then converges exists. *)
Example C35_nonvacuous : 0 < 8 /\ thr_floor <= 5 / 10 * / 10 ^ 5 /\ thr_floor <= 1 / 10 * (5 / 10 * / 10 ^ 6) / 8
  /\ exists tr, scf (toy (fun i => match i with O => 1 | _ => 0 end)) false (/ 10) 8 5 0%nat (/ 10 ^ 5) tt tt = (true, 1%nat, tr) /\ length tr = 2%nat.
Proof.
  split; [lra|]. split; [unfold thr_floor; lra|]. split; [unfold thr_floor; lra|].
  unfold scf. cbn [scf_loop]. unfold toy. cbn [output error mix normalize symmetrize]. cbv zeta.
  destruct (Rlt_dec 1 (/ 10)); [lra|]. destruct (Rlt_dec 1 (/ 10 ^ 5 * 8)); [lra|]. cbn [Nat.eqb andb].
  destruct (Rlt_dec 0 (/ 10)); [|lra]. eexists. split; reflexivity.
Qed.

(* ------------------------------------------------------------------ *)
(** * C36 *)

(** C36.  With at least as many bands as band groups, every rank issues the same sequence of
    collectives when accumulating the density. *)
Theorem C36_same_collectives : forall numbnd n_bgrp, (0 < n_bgrp <= numbnd)%Z ->
  exists tr, tr <> [] /\ forall i, (0 <= i < n_bgrp)%Z -> update_rho_trace numbnd n_bgrp i = Ok tr.
Proof.
  intros nb ng H. exists [BarrierSelf; BodyStep 0; BarrierSelf]. split; [discriminate|]. intros i Hi.
  unfold update_rho_trace. rewrite scatter_slice_eq by lia. cbn [bind fst snd].
  assert (L : (sc_start nb ng i < sc_start nb ng (i + 1))%Z).
  { pose proof (sc_start_step nb ng i ltac:(lia) ltac:(lia) ltac:(lia)) as S.
    assert (1 <= nb / ng)%Z by (apply Z.div_le_lower_bound; lia).
    destruct (i <? nb mod ng)%Z; cbn [b2z] in S; lia. }
  apply Z.ltb_lt in L. rewrite L. reflexivity.
Qed.
Print Assumptions C36_same_collectives.

(** C36 is false with fewer bands than band groups: the first band group enters the
    reduction, the last one does not. *)
Theorem C36_few_bands_refuted : forall numbnd n_bgrp, (0 < numbnd < n_bgrp)%Z ->
  update_rho_trace numbnd n_bgrp 0 = Ok [BarrierSelf; BodyStep 0; BarrierSelf]
  /\ update_rho_trace numbnd n_bgrp (n_bgrp - 1) = Ok [].
Proof.
  intros nb ng H. unfold update_rho_trace. rewrite !scatter_slice_eq by lia. cbn [bind fst snd].
  pose proof (sc_start_step nb ng 0 ltac:(lia) ltac:(lia) ltac:(lia)) as S0.
  pose proof (sc_start_step nb ng (ng - 1) ltac:(lia) ltac:(lia) ltac:(lia)) as S1.
  rewrite Z.div_small, Z.mod_small in S0, S1 by lia.
  destruct (Z.ltb_spec 0 nb); [|lia]. destruct (Z.ltb_spec (ng - 1) nb); [lia|]. cbn [b2z] in *.
  destruct (Z.ltb_spec (sc_start nb ng 0) (sc_start nb ng (0 + 1))); [|lia].
  destruct (Z.ltb_spec (sc_start nb ng (ng - 1)) (sc_start nb ng (ng - 1 + 1))); [lia|]. now split.
Qed.
Print Assumptions C36_few_bands_refuted.

(** Collectives as ranks see them, for the deadlock: a collective on communicator [c] can
    complete only when it is the next one of every member. *)
Definition coll : Type := list Z * nat.                  (* members, kind *)
Definition can_complete (pending : Z -> list coll) (x : coll) : Prop :=
  fst x <> [] /\ forall m, In m (fst x) -> hd_error (pending m) = Some x.
(** The pending collectives of rank [m]: those of update_rho_out on its inter communicator,
    then the broadcast of compute_en on the image (scf.py 438) and whatever follows. *)
Definition pending_of (size : Z) (arg : option Z) (pw numbnd : Z) (rest : Z -> list coll) (m : Z) : list coll :=
  match dft_comm_mod size arg pw m with
  | Ok c => match update_rho_trace numbnd (n_bgrp c) (i_bgrp c) with
            | Ok tr => map (fun e => (pwgrp_inter_image c, match e with BarrierSelf => 1 | BodyStep _ => 2 | BarrierParent => 3 end)%nat) tr
                       ++ (zrange 0 size, 0%nat) :: rest m
            | Err _ => [] end
  | Err _ => [] end.

(** C36, consequence: with fewer bands than band groups and one k-group, no pending
    collective can ever complete: every rank waits (deadlock). *)
Lemma trace_cases numbnd ng i : (0 < ng)%Z -> (0 <= numbnd)%Z -> (0 <= i < ng)%Z ->
  update_rho_trace numbnd ng i = Ok [BarrierSelf; BodyStep 0; BarrierSelf] \/ update_rho_trace numbnd ng i = Ok [].
Proof.
  intros H1 H2 H3. unfold update_rho_trace. rewrite scatter_slice_eq by lia. cbn [bind fst snd].
  destruct (_ <? _)%Z; auto.
Qed.

(** C36, consequence: with fewer bands than band groups (one k-group here), no collective
    involving the image's processes can complete, while every process is waiting in one:
    deadlock. *)
Theorem C36_deadlock_refuted : forall pw nb numbnd rest, (0 < pw)%Z -> (0 < numbnd < nb)%Z ->
  let size := (nb * pw)%Z in
  (forall m, (0 <= m < size)%Z -> pending_of size (Some 1%Z) pw numbnd rest m <> [])
  /\ forall x, (forall m, In m (fst x) -> (0 <= m < size)%Z) -> ~ can_complete (pending_of size (Some 1%Z) pw numbnd rest) x.
Proof.
  intros pw nb numbnd rest Hpw Hb. cbv zeta. set (size := (nb * pw)%Z).
  assert (Hs : (0 < size)%Z) by (unfold size; nia).
  assert (SP : forall m, (0 <= m < size)%Z -> exists c, dft_comm_mod size (Some 1%Z) pw m = Ok c /\ comm_spec size pw 1 nb m c).
  { intros m Hm. apply dft_comm_mod_spec; try (unfold size; lia); now left. }
  assert (PC : forall m, (0 <= m < size)%Z -> exists c, comm_spec size pw 1 nb m c /\
     ((hd_error (pending_of size (Some 1%Z) pw numbnd rest m) = Some (pwgrp_inter_image c, 1%nat))
      \/ (hd_error (pending_of size (Some 1%Z) pw numbnd rest m) = Some (zrange 0 size, 0%nat)))
     /\ (i_bgrp c = 0%Z -> hd_error (pending_of size (Some 1%Z) pw numbnd rest m) = Some (pwgrp_inter_image c, 1%nat))
     /\ (i_bgrp c = (nb - 1)%Z -> hd_error (pending_of size (Some 1%Z) pw numbnd rest m) = Some (zrange 0 size, 0%nat))).
  { intros m Hm. destruct (SP m Hm) as (c & E & CS). exists c. split; [exact CS|].
    unfold pending_of. rewrite E. destruct (cs_counts _ _ _ _ _ _ CS) as (_ & NB & _). rewrite NB.
    destruct (C36_few_bands_refuted numbnd nb Hb) as [F0 F1].
    pose proof (cs_ib _ _ _ _ _ _ CS) as IB.
    split; [|split].
    - destruct (trace_cases numbnd nb (i_bgrp c) ltac:(lia) ltac:(lia) IB) as [->| ->]; cbn; auto.
    - intros ->. rewrite F0. reflexivity.
    - intros ->. rewrite F1. reflexivity. }
  split.
  - intros m Hm Hn. destruct (PC m Hm) as (c & _ & [H|H] & _); rewrite Hn in H; discriminate.
  - intros x Hx [NE HC]. destruct x as [mem kd]. cbn [fst] in *. destruct mem as [|m mem]; [contradiction|].
    assert (Hm := Hx m (or_introl eq_refl)). assert (Hd := HC m (or_introl eq_refl)).
    destruct (PC m Hm) as (c & CS & [H|H] & _); rewrite H in Hd; injection Hd as E1 E2.
    + (* waiting in the inter communicator: its last member is not *)
      set (m' := ((nb - 1) * pw + m mod pw)%Z).
      pose proof (Z.mod_pos_bound m pw Hpw) as MB.
      assert (Hm' : (0 <= m' < size)%Z) by (unfold m', size; nia).
      assert (Mod : (m' mod pw = m mod pw)%Z).
      { unfold m'. rewrite Z.add_comm, Z.mod_add, Z.mod_mod by lia. reflexivity. }
      assert (I : In m' (pwgrp_inter_image c)) by (apply (cs_inter _ _ _ _ _ _ CS); auto).
      rewrite E1 in I. apply HC in I. destruct (PC m' Hm') as (c' & CS' & _ & _ & Hl).
      assert (IB : i_bgrp c' = (nb - 1)%Z).
      { pose proof (cs_pos _ _ _ _ _ _ CS') as P. pose proof (cs_ik _ _ _ _ _ _ CS'). pose proof (cs_ib _ _ _ _ _ _ CS').
        assert (i_kgrp c' = 0%Z) as K by lia. rewrite K, Mod in P. unfold m' in P. clear - P Hpw. nia. }
      rewrite (Hl IB) in I. injection I as _ E. congruence.
    + (* waiting in the image communicator: rank 0 is not *)
      assert (I : In 0%Z (zrange 0 size)) by (apply in_zrange; lia).
      rewrite E1 in I. apply HC in I. destruct (PC 0%Z ltac:(lia)) as (c' & CS' & _ & H0 & _).
      assert (IB : i_bgrp c' = 0%Z).
      { pose proof (cs_pos _ _ _ _ _ _ CS') as P. pose proof (cs_ik _ _ _ _ _ _ CS'). pose proof (cs_ib _ _ _ _ _ _ CS').
        assert (i_kgrp c' = 0%Z) as K by lia. rewrite K, Z.mod_0_l in P by lia. clear - P Hpw H2. nia. }
      rewrite (H0 IB) in I. injection I as _ E. congruence.
Qed.
Print Assumptions C36_deadlock_refuted.

Lemma sumR_app a b : sumR (a ++ b) = sumR a + sumR b.
Proof. unfold sumR. induction a; cbn; [ring|]. rewrite IHa. ring. Qed.
Lemma sumR_concat {A} (f : A -> R) (ll : list (list A)) : sumR (map f (concat ll)) = sumR (map (fun l => sumR (map f l)) ll).
Proof. induction ll as [|l ll IH]; [reflexivity|]. cbn [concat map]. rewrite map_app, sumR_app, IH. reflexivity. Qed.
Lemma sumR_ext {A} (f g : A -> R) l : (forall x, In x l -> f x = g x) -> sumR (map f l) = sumR (map g l).
Proof. intros H. f_equal. apply map_ext_in. exact H. Qed.
Lemma sumR_plus {A} (f g : A -> R) l : sumR (map (fun x => f x + g x) l) = sumR (map f l) + sumR (map g l).
Proof. induction l; cbn; [ring|]. unfold sumR in *. rewrite IHl. ring. Qed.
Lemma sumR_zero {A} (l : list A) : sumR (map (fun _ => 0) l) = 0.
Proof. induction l; cbn; [reflexivity|]. unfold sumR in *. rewrite IHl. ring. Qed.
Lemma sumR_swap {A B} (f : A -> B -> R) l l' : sumR (map (fun a => sumR (map (f a) l')) l) = sumR (map (fun b => sumR (map (fun a => f a b) l)) l').
Proof.
  induction l as [|a l IH]; cbn [map].
  - cbn. now rewrite sumR_zero.
  - change (sumR (sumR (map (f a) l') :: ?x)) with (sumR (map (f a) l') + sumR x). cbn [sumR fold_right] in *.
    unfold sumR in *. rewrite IH. rewrite <- sumR_plus. reflexivity.
Qed.
Lemma telescope_sum (f : Z -> R) len n : (0 <= len)%Z -> (0 < n)%Z ->
  sumR (map (fun r => sumR (map f (zrange (sc_start len n r) (sc_start len n (r + 1))))) (zrange 0 n)) = sumR (map f (zrange 0 len)).
Proof.
  intros H1 H2. destruct (telescope_ranges (sc_start len n) n) as [H _]; [lia|intros i Hi; apply sc_start_mono; lia|].
  rewrite sc_start_0, sc_start_size in H by lia. rewrite <- H, sumR_concat, map_map. reflexivity.
Qed.
Lemma zrange_pairs a b (g : Z -> R) : (0 <= a)%Z -> (0 < b)%Z ->
  sumR (map g (zrange 0 (a * b))) = sumR (map (fun i => sumR (map (fun j => g (i * b + j)%Z) (zrange 0 b))) (zrange 0 a)).
Proof.
  intros Ha Hb. destruct (telescope_ranges (fun i => i * b)%Z a) as [H _]; [lia|intros i Hi; nia|].
  rewrite Z.mul_0_l in H. rewrite <- H, sumR_concat, map_map. apply sumR_ext. intros i Hi. 
  assert (E : zrange (i * b) ((i + 1) * b) = map (fun j => (i * b + j)%Z) (zrange 0 b)).
  { unfold zrange. rewrite map_map. replace ((i + 1) * b - i * b)%Z with (b - 0)%Z by ring. apply map_ext. intros k. lia. }
  rewrite E, map_map. reflexivity.
Qed.

(** C36.  The density every rank holds after the reduction is the sum over all k-points and
    all bands, each counted exactly once, for every numbers of k-groups, band groups and
    plane-wave group members (at least as many bands as band groups). *)
Theorem C36_density_complete : forall contrib size arg pw nk nb numkpts numbnd r,
  (0 < pw)%Z -> (0 < nk)%Z -> (0 < nb)%Z -> size = (nk * nb * pw)%Z ->
  (arg = Some nk \/ (arg = None /\ nb = 1%Z)) -> (0 <= r < size)%Z -> (0 <= numkpts)%Z -> (nb <= numbnd)%Z ->
  allreduced_rho contrib size arg pw numkpts numbnd r
  = Ok (sumR (map (fun k => sumR (map (fun b => contrib k b) (zrange 0 numbnd))) (zrange 0 numkpts))).
Proof.
  intros contrib size arg pw nk nb numkpts numbnd r Hpw Hnk Hnb Hsz Harg Hr Hk Hbb.
  unfold allreduced_rho. destruct (dft_comm_mod_spec size arg pw nk nb r Hpw Hnk Hnb Hsz Harg Hr) as (c & E & CS).
  rewrite E. cbn [bind].
  set (q := (r mod pw)%Z). assert (Hq : (0 <= q < pw)%Z) by (apply Z.mod_pos_bound; lia).
  assert (MEM : pwgrp_inter_image c = map (fun j => (j * pw + q)%Z) (zrange 0 (nk * nb))).
  { apply ss_ext; [apply (cs_inter_sorted _ _ _ _ _ _ CS)|apply (strided_ss pw q (nk * nb)); exact Hpw|].
    intros m. rewrite (cs_inter _ _ _ _ _ _ CS), in_map_iff. fold q. split.
    - intros [H1 H2]. exists (m / pw)%Z. split; [rewrite <- H2; pose proof (Z.div_mod m pw ltac:(lia)); lia|].
      apply in_zrange. split; [apply Z.div_pos; lia|]. apply Z.div_lt_upper_bound; lia.
    - intros (j & <- & Hj). apply in_zrange in Hj. split; [nia|]. rewrite Z.add_comm, Z.mod_add by lia. apply Z.mod_small. lia. }
  set (L := fun j => local_rho contrib (sc_start numkpts nk (j / nb), sc_start numkpts nk (j / nb + 1))%Z (sc_start numbnd nb (j mod nb), sc_start numbnd nb (j mod nb + 1))%Z).
  assert (SEQ : sequence (map (rank_contribution contrib size arg pw numkpts numbnd) (pwgrp_inter_image c)) = Ok (map L (zrange 0 (nk * nb)))).
  { rewrite MEM, map_map.
    assert (G : forall l, (forall j, In j l -> (0 <= j < nk * nb)%Z) ->
       sequence (map (fun j => rank_contribution contrib size arg pw numkpts numbnd (j * pw + q)%Z) l) = Ok (map L l)).
    { induction l as [|j l IH]; intros Hl; [reflexivity|]. cbn [map sequence].
      assert (Hj := Hl j (or_introl eq_refl)).
      assert (Hm : (0 <= j * pw + q < size)%Z) by (subst size; nia).
      destruct (dft_comm_mod_spec size arg pw nk nb (j * pw + q) Hpw Hnk Hnb Hsz Harg Hm) as (cj & Ej & CSj).
      unfold rank_contribution at 1. rewrite Ej. cbn [bind].
      destruct (cs_counts _ _ _ _ _ _ CSj) as (NK & NB & _). rewrite NK, NB.
      pose proof (cs_ik _ _ _ _ _ _ CSj) as IK. pose proof (cs_ib _ _ _ _ _ _ CSj) as IB.
      pose proof (cs_pos _ _ _ _ _ _ CSj) as P. rewrite (Z.add_comm (j * pw)) in P at 2. rewrite Z.mod_add, (Z.mod_small q) in P by lia.
      assert (J : (j = i_kgrp cj * nb + i_bgrp cj)%Z) by (clear - P Hpw; nia).
      assert (IK' : (i_kgrp cj = j / nb)%Z).
      { apply (Z.div_unique j nb (i_kgrp cj) (i_bgrp cj)); [left; lia|]. rewrite J at 1. ring. }
      assert (IB' : (i_bgrp cj = j mod nb)%Z).
      { apply (Z.mod_unique j nb (i_kgrp cj)); [lia|]. rewrite J at 1. ring. }
      rewrite !scatter_slice_eq by lia. cbn [bind fst snd].
      assert (S1 := sc_start_step numbnd nb (i_bgrp cj) ltac:(lia) ltac:(lia) ltac:(lia)).
      assert (1 <= numbnd / nb)%Z by (apply Z.div_le_lower_bound; lia).
      destruct (Z.ltb_spec (sc_start numbnd nb (i_bgrp cj)) (sc_start numbnd nb (i_bgrp cj + 1))) as [_|F].
      2:{ exfalso. destruct (i_bgrp cj <? numbnd mod nb)%Z; cbn [b2z] in S1; lia. }
      rewrite IH by (intros; apply Hl; now right). cbn [bind]. unfold L at 2. rewrite IK', IB'. reflexivity. }
    apply G. intros j Hj. apply in_zrange in Hj. lia. }
  rewrite SEQ. cbn [bind]. f_equal.
  rewrite zrange_pairs by lia.
  rewrite <- (telescope_sum (fun k => sumR (map (fun b => contrib k b) (zrange 0 numbnd))) numkpts nk) by lia.
  apply sumR_ext. intros i Hi. apply in_zrange in Hi.
  transitivity (sumR (map (fun j => sumR (map (fun k => sumR (map (fun b => contrib k b) (zrange (sc_start numbnd nb j) (sc_start numbnd nb (j + 1)))))
     (zrange (sc_start numkpts nk i) (sc_start numkpts nk (i + 1))))) (zrange 0 nb))).
  - apply sumR_ext. intros j Hj. apply in_zrange in Hj. unfold L, local_rho. cbn [fst snd].
    assert (D : ((i * nb + j) / nb = i)%Z) by (rewrite Z.div_add_l, Z.div_small by lia; lia).
    assert (Mo : ((i * nb + j) mod nb = j)%Z) by (rewrite Z.add_comm, Z.mod_add, Z.mod_small by lia; lia).
    rewrite D, Mo. reflexivity.
  - rewrite sumR_swap. apply sumR_ext. intros k _.
    apply (telescope_sum (fun b => contrib k b)); lia.
Qed.
Print Assumptions C36_density_complete.
Example C36_nonvacuous : (0 < 3 <= 8)%Z /\ (0 < 2 < 3)%Z /\ update_rho_trace 2 3 2 = Ok [].
Proof. repeat split; lia || reflexivity. Qed.
