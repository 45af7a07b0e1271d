(** Property C91: command line, process layout and plane-wave distribution of the pw.py driver. *)
From Coq Require Import Reals Ascii String.
From Verif Require Import Base SortModel GIndexModel CommModel CommProofs PropsComm CBase FFTModel FFTSpec
  DistModel DistSpec DistProofs PropsDist QeInpModel QeInpSpec QeInpProofs PwDriverModel.
Local Open Scope nat_scope.
Notation length := List.length.

(** ---- Specification ---- *)
(** The argument that follows the first occurrence of [flag]; nothing when the flag does not
    occur or its first occurrence is the last argument. *)
Inductive flag_value (flag : text) : list text -> option text -> Prop :=
| fv_absent argv : ~ In flag argv -> flag_value flag argv None
| fv_last pre : ~ In flag pre -> flag_value flag (pre ++ [flag]) None
| fv_value pre v post : ~ In flag pre -> flag_value flag (pre ++ flag :: v :: post) (Some v).

(** An option with a short and a long spelling. *)
Inductive option_value (short long : text) (argv : list text) : option text -> Prop :=
| ov_short v : flag_value short argv (Some v) -> option_value short long argv (Some v)
| ov_long ov : flag_value short argv None -> flag_value long argv ov -> option_value short long argv ov.

(** A count option: one when the option is not given, else the integer it spells. *)
Definition count_option (short long : text) (argv : list text) (z : Z) : Prop :=
  (option_value short long argv None /\ z = 1%Z)
  \/ exists w, option_value short long argv (Some w) /\ py_int w = Ok z.

(** ---- Lemmas ---- *)
Lemma index_of_none a l : index_of a l = None <-> ~ In a l.
Proof.
  induction l as [|x l IH]; cbn [index_of In]; [now split|].
  destruct (teqb x a) eqn:E.
  - apply teqb_eq in E. subst. split; [easy|tauto].
  - apply teqb_neq in E. destruct (index_of a l); cbn; split; try easy; try tauto.
    + intros H. exfalso. apply H. right. destruct (in_dec (list_eq_dec ascii_dec) a l) as [H0|H0]; [easy|]. apply IH in H0. easy.
Qed.
Lemma index_of_first a pre post : ~ In a pre -> index_of a (pre ++ a :: post) = Some (length pre).
Proof.
  induction pre as [|x l IH]; cbn [index_of app In length]; intros H; [now rewrite teqb_refl|].
  rewrite (proj2 (teqb_neq x a)) by (intros ->; tauto). rewrite IH by tauto. easy.
Qed.
Lemma index_of_split a l i : index_of a l = Some i -> exists pre post, l = pre ++ a :: post /\ ~ In a pre /\ length pre = i.
Proof.
  revert i. induction l as [|x l IH]; cbn [index_of]; [easy|]. intros i.
  destruct (teqb x a) eqn:E.
  - intros H. injection H as <-. apply teqb_eq in E. subst. exists [], l. easy.
  - destruct (index_of a l) as [j|]; [|easy]. cbn. intros H. injection H as <-.
    destruct (IH j eq_refl) as (pre & post & -> & A & <-). exists (x :: pre), post.
    apply teqb_neq in E. split; [easy|]. split; [|easy]. intros [->|B]; tauto.
Qed.

Lemma fetch_flag argv a ov : fetch_arg argv a = ov <-> flag_value a argv ov.
Proof.
  split.
  - intros <-. unfold fetch_arg. destruct (index_of a argv) as [i|] eqn:E.
    + apply index_of_split in E as (pre & post & -> & A & <-).
      rewrite nth_error_app2 by lia. replace (length pre + 1 - length pre) with 1 by lia.
      destruct post as [|v post]; cbn; constructor; exact A.
    + constructor. now apply index_of_none.
  - unfold fetch_arg. intros [l H|pre H|pre v post H].
    + now rewrite (proj2 (index_of_none a l) H).
    + rewrite index_of_first by exact H. rewrite nth_error_app2 by lia. now replace (length pre + 1 - length pre) with 1 by lia.
    + rewrite index_of_first by exact H. rewrite nth_error_app2 by lia. now replace (length pre + 1 - length pre) with 1 by lia.
Qed.

Lemma fetch2_spec {A} argv long short (d : A) cast :
  (option_value (T "-" ++ short) (T "-" ++ long) argv None /\ fetch2 argv long short d cast = Ok d)
  \/ exists v, option_value (T "-" ++ short) (T "-" ++ long) argv (Some v) /\ fetch2 argv long short d cast = cast v.
Proof.
  unfold fetch2. destruct (fetch_arg argv (T "-" ++ short)) as [v|] eqn:E1.
  - right. exists v. split; [|easy]. apply ov_short. now apply fetch_flag.
  - destruct (fetch_arg argv (T "-" ++ long)) as [v|] eqn:E2.
    + right. exists v. split; [|easy]. apply ov_long; now apply fetch_flag.
    + left. split; [|easy]. apply ov_long; now apply fetch_flag.
Qed.

Lemma flag_value_fun a argv x y : flag_value a argv x -> flag_value a argv y -> x = y.
Proof. intros H1 H2. apply fetch_flag in H1, H2. congruence. Qed.
Lemma option_value_fun s l argv x y : option_value s l argv x -> option_value s l argv y -> x = y.
Proof.
  intros [v H|ov H H'] [v2 G|ov2 G G'].
  - eapply flag_value_fun; eassumption.
  - pose proof (flag_value_fun _ _ _ _ H G); congruence.
  - pose proof (flag_value_fun _ _ _ _ H G); congruence.
  - eapply flag_value_fun; eassumption.
Qed.

(** C91.  Every argument list that is accepted yields: the input file is what follows the first
    "-in", else the first argument; each of the three counts is what follows the first
    occurrence of its short spelling, else of its long spelling, read as an integer, else one.
    When every given count spells an integer the list is accepted; otherwise ValueError. *)
Theorem C91_arguments : forall argv,
  (forall a, read_args argv = Ok a ->
     ((exists f, flag_value (T "-in") argv (Some f) /\ a_file a = Some f)
      \/ (flag_value (T "-in") argv None /\ a_file a = nth_error argv 1))
     /\ count_option (T "-nk") (T "-npools") argv (a_npools a)
     /\ count_option (T "-nt") (T "-ntg") argv (a_ntg a)
     /\ count_option (T "-nb") (T "-nband") argv (a_nband a))
  /\ ((exists k t b, count_option (T "-nk") (T "-npools") argv k /\ count_option (T "-nt") (T "-ntg") argv t
        /\ count_option (T "-nb") (T "-nband") argv b) -> exists a, read_args argv = Ok a)
  /\ (~ (exists k t b, count_option (T "-nk") (T "-npools") argv k /\ count_option (T "-nt") (T "-ntg") argv t
        /\ count_option (T "-nb") (T "-nband") argv b) -> read_args argv = Err ValueError).
Proof.
  intros argv.
  assert (PI : forall w, (exists z, py_int w = Ok z) \/ py_int w = Err ValueError).
  { intros w. unfold py_int. destruct (take_sign (strip w)) as [ng r]. destruct (span_digits r) as [[|d ds] [|? ?]]; eauto. }
  assert (CF : forall s l, (exists z, fetch2 argv l s 1%Z py_int = Ok z /\ count_option (T "-" ++ s) (T "-" ++ l) argv z)
               \/ (fetch2 argv l s 1%Z py_int = Err ValueError /\ forall z, ~ count_option (T "-" ++ s) (T "-" ++ l) argv z)).
  { intros s l. destruct (fetch2_spec argv l s 1%Z py_int) as [[A B]|(v & A & B)].
    - left. exists 1%Z. split; [exact B|]. left. now split.
    - destruct (PI v) as [[z E]|E].
      + left. exists z. split; [now rewrite B|]. right. now exists v.
      + right. split; [now rewrite B|]. intros z [[A' _]|(w & A' & E')].
        * pose proof (option_value_fun _ _ _ _ _ A A'). congruence.
        * pose proof (option_value_fun _ _ _ _ _ A A') as X. injection X as ->. congruence. }
  assert (FF : exists f, fetch2 argv (T "in") (T "in") (if 1 <? length argv then nth_error argv 1 else None) (fun t => Ok (Some t)) = Ok f
             /\ ((exists g, flag_value (T "-in") argv (Some g) /\ f = Some g)
                 \/ (flag_value (T "-in") argv None /\ f = nth_error argv 1))).
  { unfold fetch2. change (T "-" ++ T "in") with (T "-in").
    destruct (fetch_arg argv (T "-in")) as [v|] eqn:E.
    - exists (Some v). split; [easy|]. left. exists v. split; [now apply fetch_flag|easy].
    - exists (nth_error argv 1). split.
      + destruct (Nat.ltb_spec 1 (length argv)); [easy|]. f_equal. symmetry. now apply nth_error_None.
      + right. split; [now apply fetch_flag|easy]. }
  destruct FF as (f & EF & SF).
  pose proof (CF (T "nk") (T "npools")) as C1. pose proof (CF (T "nt") (T "ntg")) as C2. pose proof (CF (T "nb") (T "nband")) as C3.
  unfold read_args. rewrite EF. cbn [bind].
  change (T "-" ++ T "nk") with (T "-nk") in *. change (T "-" ++ T "npools") with (T "-npools") in *.
  change (T "-" ++ T "nt") with (T "-nt") in *. change (T "-" ++ T "ntg") with (T "-ntg") in *.
  change (T "-" ++ T "nb") with (T "-nb") in *. change (T "-" ++ T "nband") with (T "-nband") in *.
  destruct C1 as [(k & E1 & S1)|[E1 N1]]; rewrite E1; cbn [bind].
  2:{ split; [easy|]. split; [|easy]. intros (k & ? & ? & A & _). now apply N1 in A. }
  destruct C2 as [(t & E2 & S2)|[E2 N2]]; rewrite E2; cbn [bind].
  2:{ split; [easy|]. split; [|easy]. intros (? & t & ? & _ & A & _). now apply N2 in A. }
  destruct C3 as [(b & E3 & S3)|[E3 N3]]; rewrite E3; cbn [bind].
  2:{ split; [easy|]. split; [|easy]. intros (? & ? & b & _ & _ & A). now apply N3 in A. }
  split; [|split].
  - intros a H. injection H as <-. cbn [a_file a_npools a_ntg a_nband]. split; [exact SF|]. split; [exact S1|]. split; [exact S2|exact S3].
  - intros _. now eexists.
  - intros H. exfalso. apply H. exists k, t, b. now split.
Qed.
Print Assumptions C91_arguments.

Example C91_arguments_nonvacuous :
  read_args (map T ["pw.py"; "-nk"; "2"; "-npools"; "5"; "-in"; "si.in"; "-nband"; "3"]%string)
  = Ok (MkArgs (Some (T "si.in")) 2 1 3)
  /\ read_args (map T ["pw.py"; "-nk"; "2"]%string) = Ok (MkArgs (Some (T "-nk")) 2 1 1)
  /\ read_args (map T ["pw.py"; "si.in"; "-nk"; "two"]%string) = Err ValueError.
Proof. split; [|split]; vm_compute; reflexivity. Qed.

Local Open Scope Z_scope.

(** C91.  When the requested pools and band groups divide the processes evenly, every process
    gets exactly the requested layout ([comm_spec] of C05). *)
Theorem C91_requested_layout : forall size a r,
  0 < a_npools a -> 0 < a_nband a -> 0 < size -> size mod (a_npools a * a_nband a) = 0 -> 0 <= r < size ->
  exists c, pw_layout size a r = Ok c
    /\ n_kgrp c = a_npools a /\ n_bgrp c = a_nband a
    /\ comm_spec size (size / (a_npools a * a_nband a)) (a_npools a) (a_nband a) r c.
Proof.
  intros size a r Hk Hb Hs Hm Hr.
  set (k := a_npools a) in *. set (b := a_nband a) in *.
  assert (HP : pwgrp_size size a = Ok (size / (k * b))).
  { unfold pwgrp_size, floordiv. fold k b. rewrite (proj2 (Z.eqb_neq k 0)) by lia. cbn [bind].
    rewrite (proj2 (Z.eqb_neq b 0)) by lia. now rewrite Z.div_div by lia. }
  apply Z_div_exact_full_2 in Hm; [|nia].
  set (pw := size / (k * b)) in *.
  assert (0 < pw) by nia.
  destruct (C05_dft_comm_groups size (Some k) pw k b r) as (c & E & S); [assumption|exact Hk|exact Hb|nia|now left|exact Hr|].
  exists c. unfold pw_layout. rewrite HP. cbn [bind]. fold k. split; [exact E|].
  destruct (cs_counts _ _ _ _ _ _ S) as (A & B & _). easy.
Qed.
Print Assumptions C91_requested_layout.

Lemma layout_arith size k b pw n nb : 0 < k -> 0 < b -> 0 < pw -> 0 < nb -> size = pw * n -> n = k * nb ->
  pw * (k * b) <= size -> size / (k * b) = pw -> b <= nb /\ (nb = b <-> size mod (k * b) = 0).
Proof.
  intros Hk Hb Hp Hn E1 E2 H1 H2. subst n. split.
  - assert (H : pw * k * b <= pw * k * nb) by nia. apply Z.mul_le_mono_pos_l in H; nia.
  - split.
    + intros ->. rewrite E1. apply Z.mod_mul. nia.
    + intros HH. apply Z_div_exact_full_2 in HH; [|nia]. rewrite H2 in HH.
      assert (H : pw * k * b = pw * k * nb) by nia. apply Z.mul_reg_l in H; nia.
Qed.

(** C91.  The general acceptance rule for positive counts: with [pw] processes per plane-wave
    group ([size // npools // nband]), the driver goes on if and only if [pw] is positive,
    divides the number of processes, and the pools divide the number of plane-wave groups; all
    processes decide alike and refusal is a ValueError.  Then there are as many pools as asked
    for, at least as many band groups as asked for, and exactly as many only when pools times
    band groups divides the number of processes. *)
Theorem C91_acceptance : forall size a,
  0 < a_npools a -> 0 < a_nband a -> 0 < size ->
  let pw := size / a_npools a / a_nband a in
  let accepted := 0 < pw /\ size mod pw = 0 /\ (size / pw) mod a_npools a = 0 in
  (accepted -> forall r, 0 <= r < size -> exists c, pw_layout size a r = Ok c
      /\ n_kgrp c = a_npools a /\ n_pwgrp c * pw = size
      /\ a_nband a <= n_bgrp c
      /\ (n_bgrp c = a_nband a <-> size mod (a_npools a * a_nband a) = 0)
      /\ comm_spec size pw (a_npools a) (n_bgrp c) r c)
  /\ (~ accepted -> forall r, 0 <= r < size -> pw_layout size a r = Err ValueError).
Proof.
  intros size a Hk Hb Hs pw accepted.
  set (k := a_npools a) in *. set (b := a_nband a) in *.
  assert (HP : pwgrp_size size a = Ok pw).
  { unfold pwgrp_size, floordiv. fold k b. rewrite (proj2 (Z.eqb_neq k 0)) by lia. cbn [bind].
    now rewrite (proj2 (Z.eqb_neq b 0)) by lia. }
  assert (Hpw : pw * (k * b) <= size).
  { unfold pw. rewrite Z.div_div by lia. rewrite Z.mul_comm. apply Z.mul_div_le. nia. }
  split.
  - intros (P & M1 & M2) r Hr.
    apply Z_div_exact_full_2 in M1; [|lia]. set (n := size / pw) in *.
    apply Z_div_exact_full_2 in M2; [|lia]. set (nb := n / k) in *.
    assert (Hn : 0 < n) by nia. assert (Hnb : 0 < nb) by nia.
    destruct (C05_dft_comm_groups size (Some k) pw k nb r) as (c & E & S); [exact P|exact Hk|exact Hnb|nia|now left|exact Hr|].
    exists c. unfold pw_layout. rewrite HP. cbn [bind]. fold k. split; [exact E|].
    destruct (cs_counts _ _ _ _ _ _ S) as (A1 & A2 & A3). rewrite A1, A2, A3.
    destruct (layout_arith size k b pw n nb) as [B1 B2]; try assumption; [unfold pw; now rewrite Z.div_div by lia|].
    split; [easy|]. split; [clear - M1 M2; clearbody nb n pw; nia|]. split; [exact B1|]. split; [exact B2|exact S].
  - intros HN r Hr. unfold pw_layout. rewrite HP. cbn [bind]. fold k.
    destruct (Z_lt_le_dec 0 pw) as [P|P].
    2:{ apply (C05_rejects_bad_pwgrp_size size (Some k) pw r). now left. }
    destruct (Z.eq_dec (size mod pw) 0) as [M|M].
    2:{ apply (C05_rejects_bad_pwgrp_size size (Some k) pw r). now right. }
    apply (C05_rejects_bad_kgroup_count size k pw r P M Hr); [lia|].
    intros X. apply HN. now split.
Qed.
Print Assumptions C91_acceptance.

(** C91.  Asking for more groups than processes is a ValueError everywhere; zero pools or zero
    band groups a ZeroDivisionError. *)
Theorem C91_refused_counts : forall size a r, 0 <= r < size ->
  (0 < a_npools a -> 0 < a_nband a -> size < a_npools a * a_nband a -> pw_layout size a r = Err ValueError)
  /\ (a_npools a = 0 \/ a_nband a = 0 -> pw_layout size a r = Err ZeroDivisionError).
Proof.
  intros size a r Hr. split.
  - intros Hk Hb H. apply (proj2 (C91_acceptance size a Hk Hb ltac:(lia))); [|exact Hr].
    intros (P & _). rewrite Z.div_div in P by lia. rewrite Z.div_small in P by lia. lia.
  - intros H. unfold pw_layout, pwgrp_size, floordiv.
    destruct (Z.eqb_spec (a_npools a) 0); [easy|]. cbn [bind]. destruct H as [H|H]; [easy|]. now rewrite H.
Qed.
Print Assumptions C91_refused_counts.

(** C91.  The number of band groups asked for is not what one gets: one pool and any number
    of band groups above half the processes (but below all of them) silently gives as many
    band groups as processes. *)
Theorem C91_band_groups_refuted : forall size a r,
  a_npools a = 1 -> size < 2 * a_nband a -> a_nband a < size -> 0 <= r < size ->
  exists c, pw_layout size a r = Ok c /\ n_bgrp c = size /\ n_bgrp c <> a_nband a.
Proof.
  intros size a r H1 H2 H3 Hr.
  assert (E : size / 1 / a_nband a = 1).
  { rewrite Z.div_1_r. symmetry. apply (Z.div_unique _ _ _ (size - a_nband a)); lia. }
  pose proof (C91_acceptance size a) as X. rewrite H1, E in X.
  destruct X as [X _]; try lia.
  destruct X with r as (c & Ec & A1 & A2 & A3 & A4 & A5); [|exact Hr|].
  { split; [lia|]. split; apply Z.mod_1_r. }
  exists c. split; [exact Ec|].
  destruct (cs_counts _ _ _ _ _ _ A5) as (_ & _ & B). split; lia.
Qed.
Print Assumptions C91_band_groups_refuted.
Example C91_band_groups_nonvacuous :
  exists c, pw_layout 5 (MkArgs None 1 1 3) 4 = Ok c /\ n_bgrp c = 5.
Proof. eexists. split; [vm_compute; reflexivity|reflexivity]. Qed.

Lemma held_part nx ny nz s norm size c gx gyz os r o :
  dist_init_all nx ny nz (map Z.to_nat (gs_idxgrid s)) norm (Z.to_nat size) gx gyz = Ok os ->
  n_pwgrp c <> size -> 0 <= r < size -> nth_error os (Z.to_nat r) = Some o ->
  pw_held nx ny nz s norm size c gx gyz r = Ok (slice (d_ig o) (gs_cryst s)).
Proof.
  intros EO HN Hr EN. unfold pw_held. rewrite (proj2 (Z.eqb_neq _ _)) by exact HN.
  unfold dist_init_all in EO. pose proof (proj1 (sequence_ok _ _) EO) as SO.
  assert (ES : nth_error (seq 0 (Z.to_nat size)) (Z.to_nat r) = Some (Z.to_nat r)).
  { rewrite (nth_error_nth' _ 0%nat) by (rewrite seq_length; lia). now rewrite seq_nth by lia. }
  assert (X : nth_error (map (@Ok dist) os) (Z.to_nat r) = Some (Ok o)) by now apply map_nth_error.
  rewrite <- SO in X. rewrite (map_nth_error _ _ _ ES) in X. injection X as X. now rewrite X.
Qed.

(** C91.  One process per plane-wave group: every process works with the whole sphere.  One
    plane-wave group: the slices of its processes, in rank order, are the whole sphere. *)
Theorem C91_sphere_is_covered : forall nx ny nz gs s norm size a gx gyz,
  gspace_base (zshape nx ny nz) gs = Ok s ->
  0 < a_npools a -> 0 < a_nband a -> 0 < size ->
  (a_npools a * a_nband a = size -> forall r, 0 <= r < size -> exists c, pw_layout size a r = Ok c
      /\ pw_held nx ny nz s norm size c gx gyz r = Ok (gs_cryst s))
  /\ (a_npools a = 1 -> a_nband a = 1 -> 1 < size ->
      (Z.to_nat size <= num_sticks ny nz gs)%nat -> (Z.to_nat size <= nx)%nat ->
      exists parts, length parts = Z.to_nat size /\ concat parts = gs_cryst s
        /\ forall r, 0 <= r < size -> exists c, pw_layout size a r = Ok c
             /\ (exists l, pwgrp_intra c = Some l /\ forall m, In m l <-> 0 <= m < size)
             /\ pw_held nx ny nz s norm size c gx gyz r = Ok (nth (Z.to_nat r) parts [])).
Proof.
  intros nx ny nz gs s norm size a gx gyz HG Hk Hb Hs. split.
  - intros E r Hr. destruct (C91_requested_layout size a r) as (c & Ec & _ & _ & S); try lia.
    { rewrite E. now apply Z.mod_same; lia. }
    exists c. split; [exact Ec|]. unfold pw_held. destruct (cs_counts _ _ _ _ _ _ S) as (_ & _ & ->).
    rewrite E. now rewrite Z.eqb_refl.
  - intros E1 E2 H1 HS HX.
    destruct (C16_slices_partition nx ny nz gs s norm (Z.to_nat size) gx gyz HG) as (os & EO & L & CC & _); try lia.
    exists (map (fun o => slice (d_ig o) (gs_cryst s)) os). split; [now rewrite map_length|]. split; [exact CC|].
    intros r Hr. destruct (C91_requested_layout size a r) as (c & Ec & _ & _ & S); [exact Hk|exact Hb|exact Hs| |exact Hr|].
    { replace (a_npools a * a_nband a) with 1 by nia. apply Z.mod_1_r. }
    rewrite E1, E2 in S. change (1 * 1) with 1 in S. rewrite Z.div_1_r in S.
    exists c. split; [exact Ec|]. destruct (cs_counts _ _ _ _ _ _ S) as (_ & _ & E3).
    split.
    + pose proof (cs_pwgrp _ _ _ _ _ _ S) as P. destruct (pwgrp_intra c) as [l|]; [|lia].
      exists l. split; [easy|]. destruct P as (_ & _ & P). intros m. rewrite P. split; [tauto|].
      intros Hm. split; [exact Hm|]. now rewrite !Z.div_small by lia.
    + destruct (nth_error os (Z.to_nat r)) as [o|] eqn:EN.
      2:{ apply nth_error_None in EN. lia. }
      rewrite (held_part nx ny nz s norm size c gx gyz os r o EO); [|lia|exact Hr|exact EN]. f_equal.
      symmetry. rewrite (nth_indep _ [] (slice (d_ig o) (gs_cryst s))) by (rewrite map_length; lia).
      rewrite (map_nth (fun o => slice (d_ig o) (gs_cryst s))). now rewrite (nth_error_nth _ _ _ EN).
Qed.
Print Assumptions C91_sphere_is_covered.

(** C91.  Between these two cases the distribution is wrong: with several plane-wave groups of
    several processes each (the usual "-nk 2" on four processes), the sphere is split over all
    processes instead of over each group, so that every plane-wave group misses some G-vectors
    of the sphere altogether, on each of its processes. *)
Theorem C91_pools_miss_plane_waves_refuted : forall nx ny nz gs s norm size a gx gyz,
  gspace_base (zshape nx ny nz) gs = Ok s ->
  0 < a_npools a -> 0 < a_nband a -> 0 < size -> size mod (a_npools a * a_nband a) = 0 ->
  1 < a_npools a * a_nband a < size ->
  (Z.to_nat size <= num_sticks ny nz gs)%nat -> (Z.to_nat size <= nx)%nat ->
  forall r, 0 <= r < size -> exists c grp,
    pw_layout size a r = Ok c /\ pwgrp_intra c = Some grp /\ In r grp
    /\ exists g, In g (gs_cryst s)
         /\ forall m, In m grp -> exists cm held, pw_layout size a m = Ok cm
              /\ pw_held nx ny nz s norm size cm gx gyz m = Ok held /\ ~ In g held.
Proof.
  intros nx ny nz gs s norm size a gx gyz HG Hk Hb Hs HM HL HS HX r Hr.
  set (n := a_npools a * a_nband a) in *. set (pw := size / n) in *.
  assert (Epw : size = n * pw) by (apply Z_div_exact_full_2; [lia|exact HM]).
  assert (Hpw : 1 < pw) by nia.
  assert (LAY : forall m, 0 <= m < size -> exists c, pw_layout size a m = Ok c /\ n_pwgrp c = n
              /\ comm_spec size pw (a_npools a) (a_nband a) m c).
  { intros m Hm. destruct (C91_requested_layout size a m) as (c & Ec & _ & _ & S); try assumption.
    exists c. split; [exact Ec|]. split; [|exact S]. now destruct (cs_counts _ _ _ _ _ _ S) as (_ & _ & ->). }
  destruct (C16_slices_partition nx ny nz gs s norm (Z.to_nat size) gx gyz HG) as (os & EO & LO & CC & NE & ST & _); try lia.
  assert (NTH : forall m, 0 <= m < size -> exists o, nth_error os (Z.to_nat m) = Some o).
  { intros m Hm. destruct (nth_error os (Z.to_nat m)) as [o|] eqn:EN; [now exists o|]. apply nth_error_None in EN. lia. }
  destruct (LAY r Hr) as (c & Ec & Enc & S). pose proof (cs_pwgrp _ _ _ _ _ _ S) as P.
  destruct (pwgrp_intra c) as [grp|] eqn:EG; [|lia]. destruct P as (_ & _ & P).
  exists c, grp. split; [exact Ec|]. split; [exact EG|]. split; [now apply P|].
  (* a process outside the group *)
  assert (OUT : exists q, 0 <= q < size /\ q / pw <> r / pw).
  { destruct (Z.eq_dec (r / pw) 0) as [Z0|Z0].
    - exists pw. split; [nia|]. rewrite Z.div_same by lia. lia.
    - exists 0. split; [lia|]. rewrite Z.div_0_l by lia. lia. }
  destruct OUT as (q & Hq & Dq). destruct (NTH q Hq) as (oq & Eq).
  pose proof (NE oq (nth_error_In _ _ Eq)) as Bq.
  destruct (slice (d_ig oq) (gs_cryst s)) as [|g rest] eqn:Esl.
  { exfalso. apply (f_equal (@length _)) in Esl. destruct (d_ig oq) as [x y]. cbn [fst snd] in Bq. rewrite slice_length in Esl by lia. cbn in Esl. lia. }
  assert (Gin : In g (slice (d_ig oq) (gs_cryst s))) by (rewrite Esl; now left).
  exists g. split.
  { rewrite <- CC. apply in_concat. exists (slice (d_ig oq) (gs_cryst s)). split; [|exact Gin].
    apply in_map_iff. exists oq. split; [easy|]. eapply nth_error_In; exact Eq. }
  intros m Hm. apply P in Hm as (Hm & Dm). destruct (LAY m Hm) as (cm & Ecm & Encm & Sm).
  destruct (NTH m Hm) as (om & Em).
  exists cm, (slice (d_ig om) (gs_cryst s)). split; [exact Ecm|]. split.
  { apply (held_part nx ny nz s norm size cm gx gyz os m om EO); [lia|exact Hm|exact Em]. }
  intros Gm. pose proof (ST _ _ _ _ g g Em Eq Gm Gin eq_refl). assert (m = q) by lia. subst m. congruence.
Qed.
Print Assumptions C91_pools_miss_plane_waves_refuted.

Example C91_layout_nonvacuous : exists s,
  gspace_base (zshape 4 4 5) [(0, 0, 0); (1, -1, 2); (-1, 1, 0); (0, 1, -2); (1, 0, 0)]%Z = Ok s
  /\ num_sticks 4 5 [(0, 0, 0); (1, -1, 2); (-1, 1, 0); (0, 1, -2); (1, 0, 0)]%Z = 4%nat
  /\ (exists c, pw_layout 4 (MkArgs None 2 1 1) 3 = Ok c /\ n_kgrp c = 2 /\ pwgrp_intra c = Some [2; 3]).
Proof. eexists. split; [vm_compute; reflexivity|]. split; [vm_compute; reflexivity|]. eexists. split; [vm_compute; reflexivity|]. now split. Qed.
