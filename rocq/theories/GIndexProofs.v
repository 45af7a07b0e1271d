(** Proofs about FFT-grid indexing and G-vector ordering. *)
From Verif Require Import Base SortModel SortProofs GIndexModel.

Definition fold1 (n i : Z) : Z := i + n * b2z (i <? 0).
Lemma fold1_range n i : 0 < n -> dim_ok n i = true -> 0 <= fold1 n i < n.
Proof.
  intros Hn H. unfold dim_ok in H. unfold fold1, b2z.
  destruct (Z.ltb_spec i 0); lia.
Qed.
Lemma fold1_inj n i j : 0 < n -> dim_ok n i = true -> dim_ok n j = true ->
  fold1 n i = fold1 n j -> i = j.
Proof.
  intros Hn Hi Hj. unfold dim_ok in *. unfold fold1, b2z.
  destruct (Z.ltb_spec i 0), (Z.ltb_spec j 0); lia.
Qed.
Lemma fold1_surj n a : 0 < n -> 0 <= a < n ->
  let i := if a <? (n + 1) / 2 then a else a - n in dim_ok n i = true /\ fold1 n i = a.
Proof.
  intros Hn Ha. cbn zeta. unfold dim_ok, fold1, b2z.
  destruct (Z.ltb_spec a ((n + 1) / 2)).
  - destruct (Z.ltb_spec a 0); split; lia.
  - destruct (Z.ltb_spec (a - n) 0); split; lia.
Qed.

Lemma gidx_fold sh g : let '(n1, n2, n3) := sh in let '(i1, i2, i3) := g in
  gidx sh g = n2 * n3 * fold1 n1 i1 + n3 * fold1 n2 i2 + fold1 n3 i3.
Proof. destruct sh as [[n1 n2] n3], g as [[i1 i2] i3]. reflexivity. Qed.

Lemma ravel_unravel n1 n2 n3 a b c :
  0 <= a < n1 -> 0 <= b < n2 -> 0 <= c < n3 ->
  unravel (n1, n2, n3) (n2 * n3 * a + n3 * b + c) = (a, b, c)
  /\ 0 <= n2 * n3 * a + n3 * b + c < n1 * n2 * n3.
Proof.
  intros Ha Hb Hc. unfold unravel.
  assert (H1 : (n2 * n3 * a + n3 * b + c) / n3 = n2 * a + b).
  { symmetry. apply Z.div_unique with (r := c); [lia|]. ring. }
  assert (H2 : (n2 * n3 * a + n3 * b + c) mod n3 = c).
  { symmetry. apply Z.mod_unique with (q := n2 * a + b); [lia|]. ring. }
  assert (Hbc : 0 <= n3 * b + c < n2 * n3) by nia.
  assert (H3 : (n2 * n3 * a + n3 * b + c) / (n2 * n3) = a).
  { symmetry. apply Z.div_unique with (r := n3 * b + c); [lia|]. ring. }
  assert (H4 : (n2 * a + b) mod n2 = b).
  { symmetry. apply Z.mod_unique with (q := a); [lia|]. ring. }
  rewrite H1, H2, H3, H4. split; [reflexivity|]. nia.
Qed.

Lemma unravel_ravel n1 n2 n3 x :
  0 < n1 -> 0 < n2 -> 0 < n3 -> 0 <= x < n1 * n2 * n3 ->
  let '(a, b, c) := unravel (n1, n2, n3) x in
  0 <= a < n1 /\ 0 <= b < n2 /\ 0 <= c < n3 /\ n2 * n3 * a + n3 * b + c = x.
Proof.
  intros H1 H2 H3 Hx. unfold unravel.
  assert (H23 : 0 < n2 * n3) by nia.
  split. { split; [apply Z.div_pos; lia|]. apply Z.div_lt_upper_bound; nia. }
  split. { apply Z.mod_pos_bound; lia. }
  split. { apply Z.mod_pos_bound; lia. }
  replace (x / (n2 * n3)) with (x / n3 / n2) by (rewrite Z.div_div by lia; f_equal; lia).
  pose proof (Z.div_mod (x / n3) n2 ltac:(lia)) as E1.
  pose proof (Z.div_mod x n3 ltac:(lia)) as E2.
  rewrite E2 at 4. rewrite E1 at 3. ring.
Qed.

Lemma shape_ok_pos n1 n2 n3 : shape_ok (n1, n2, n3) = true <-> 0 < n1 /\ 0 < n2 /\ 0 < n3.
Proof. unfold shape_ok. lia. Qed.

Lemma gidx_unravel n1 n2 n3 i1 i2 i3 :
  shape_ok (n1, n2, n3) = true -> g_ok (n1, n2, n3) (i1, i2, i3) = true ->
  unravel (n1, n2, n3) (gidx (n1, n2, n3) (i1, i2, i3)) = (fold1 n1 i1, fold1 n2 i2, fold1 n3 i3)
  /\ 0 <= gidx (n1, n2, n3) (i1, i2, i3) < n1 * n2 * n3.
Proof.
  intros Hs Hg. apply shape_ok_pos in Hs. unfold g_ok in Hg.
  apply andb_true_iff in Hg as [Hg H3]. apply andb_true_iff in Hg as [H1 H2].
  rewrite (gidx_fold (n1, n2, n3) (i1, i2, i3)).
  apply ravel_unravel; apply fold1_range; tauto.
Qed.

Lemma gidx_inj sh g h :
  shape_ok sh = true -> g_ok sh g = true -> g_ok sh h = true ->
  gidx sh g = gidx sh h -> g = h.
Proof.
  destruct sh as [[n1 n2] n3], g as [[i1 i2] i3], h as [[j1 j2] j3].
  intros Hs Hg Hh E.
  destruct (gidx_unravel _ _ _ _ _ _ Hs Hg) as [Eg _].
  destruct (gidx_unravel _ _ _ _ _ _ Hs Hh) as [Eh _].
  rewrite E, Eh in Eg. injection Eg as E1 E2 E3.
  apply shape_ok_pos in Hs. unfold g_ok in Hg, Hh.
  apply andb_true_iff in Hg as [Hg H3]. apply andb_true_iff in Hg as [H1 H2].
  apply andb_true_iff in Hh as [Hh K3]. apply andb_true_iff in Hh as [K1 K2].
  repeat f_equal; (eapply fold1_inj; [| | |symmetry; eassumption]; tauto).
Qed.

Lemma gidx_surj sh x :
  shape_ok sh = true -> (let '(n1, n2, n3) := sh in 0 <= x < n1 * n2 * n3) ->
  exists g, g_ok sh g = true /\ gidx sh g = x.
Proof.
  destruct sh as [[n1 n2] n3]. intros Hs Hx. apply shape_ok_pos in Hs as (Hn1 & Hn2 & Hn3).
  pose proof (unravel_ravel n1 n2 n3 x Hn1 Hn2 Hn3 Hx) as H.
  destruct (unravel (n1, n2, n3) x) as [[a b] c]. destruct H as (Ha & Hb & Hc & E).
  destruct (fold1_surj n1 a Hn1 Ha) as [G1 F1]. destruct (fold1_surj n2 b Hn2 Hb) as [G2 F2].
  destruct (fold1_surj n3 c Hn3 Hc) as [G3 F3].
  cbn zeta in *.
  set (i1 := if a <? (n1 + 1) / 2 then a else a - n1) in *.
  set (i2 := if b <? (n2 + 1) / 2 then b else b - n2) in *.
  set (i3 := if c <? (n3 + 1) / 2 then c else c - n3) in *.
  exists (i1, i2, i3). split.
  - unfold g_ok. rewrite G1, G2, G3. reflexivity.
  - pose proof (gidx_fold (n1, n2, n3) (i1, i2, i3)) as Hf. cbn beta iota in Hf.
    rewrite Hf, F1, F2, F3. exact E.
Qed.

Lemma cryst2idxgrid_ok sh gs idx :
  cryst2idxgrid sh gs = Ok idx <->
  (shape_ok sh = true /\ forallb (g_ok sh) gs = true /\ idx = map (gidx sh) gs).
Proof.
  unfold cryst2idxgrid, check_g_cryst, assert_.
  destruct (shape_ok sh); cbn [bind]; [|split; [discriminate|intuition congruence]].
  destruct (forallb (g_ok sh) gs); cbn [bind]; [|split; [discriminate|intuition congruence]].
  split; [intros [= <-]; auto|intros (_ & _ & ->); reflexivity].
Qed.

Lemma cryst2idxgrid_bad sh gs :
  (shape_ok sh = false \/ exists g, In g gs /\ g_ok sh g = false) ->
  cryst2idxgrid sh gs = Err AssertionError.
Proof.
  intros H. unfold cryst2idxgrid, check_g_cryst, assert_.
  destruct (shape_ok sh); cbn [bind]; [|reflexivity].
  destruct (forallb (g_ok sh) gs) eqn:E; cbn [bind]; [|reflexivity].
  destruct H as [H|(g & Hin & Hg)]; [discriminate|].
  rewrite forallb_forall in E. apply E in Hin. congruence.
Qed.

(** The lexicographic order is a total order. *)
Lemma lex_total a b : lex_leb a b = true \/ lex_leb b a = true.
Proof. destruct a as [[a1 a2] a3], b as [[b1 b2] b3]. unfold lex_leb. lia. Qed.
Lemma lex_trans a b c : lex_leb a b = true -> lex_leb b c = true -> lex_leb a c = true.
Proof. destruct a as [[a1 a2] a3], b as [[b1 b2] b3], c as [[c1 c2] c3]. unfold lex_leb. lia. Qed.
Lemma lex_antisym a b : lex_leb a b = true -> lex_leb b a = true -> a = b.
Proof.
  destruct a as [[a1 a2] a3], b as [[b1 b2] b3]. unfold lex_leb. intros H1 H2.
  assert (a1 = b1) by lia. assert (a2 = b2) by lia. assert (a3 = b3) by lia. congruence.
Qed.

Lemma all_unique_NoDup l : all_unique l = true <-> NoDup l.
Proof.
  induction l as [|x l IH]; cbn; [split; [constructor|reflexivity]|].
  rewrite andb_true_iff, negb_true_iff, IH. split.
  - intros [H1 H2]. constructor; [|exact H2]. intros Hin.
    assert (existsb (Z.eqb x) l = true) by (apply existsb_exists; exists x; split; [assumption|lia]).
    congruence.
  - intros H. inversion_clear H as [|? ? Hn Hd]. split; [|exact Hd].
    apply not_true_is_false. intros E. apply existsb_exists in E as (y & Hy & Hxy).
    assert (x = y) by lia. now subst.
Qed.

Lemma take_map {A B} (f : A -> B) d l idx :
  take (f d) (map f l) idx = map f (take d l idx).
Proof. unfold take. rewrite map_map. apply map_ext. intros i. apply map_nth. Qed.

Definition grid_coords (sh : shape3) (g : vec3) : vec3 :=
  let '(n1, n2, n3) := sh in let '(i1, i2, i3) := g in (i1 mod n1, i2 mod n2, i3 mod n3).

(** What a successful construction guarantees. *)
Lemma gspace_base_spec sh gs s :
  gspace_base sh gs = Ok s ->
  Permutation (gs_cryst s) gs
  /\ NoDup gs
  /\ gs_idxgrid s = map (gidx sh) (gs_cryst s)
  /\ StronglySorted (fun a b => lex_leb a b = true) (map (fun g => lexkey sh (gidx sh g)) (gs_cryst s))
  /\ take (0, 0, 0) (gs_cryst s) (gs_idxsort s) = gs
  /\ Permutation (gs_idxsort s) (seq 0 (length gs))
  /\ (gs_has_g0 s = true <-> In (0, 0, 0) gs)
  /\ (In (0, 0, 0) gs -> hd_error (gs_cryst s) = Some (0, 0, 0))
  /\ shape_ok sh = true /\ forallb (g_ok sh) gs = true /\ gs <> [] /\ gs_shape s = sh.
Proof.
  unfold gspace_base. intros H.
  unfold check_g_cryst, assert_ in H.
  destruct (shape_ok sh) eqn:Hsh; cbn [bind] in H; [|discriminate].
  destruct (forallb (g_ok sh) gs) eqn:Hgs; cbn [bind] in H; [|discriminate].
  rewrite (proj2 (cryst2idxgrid_ok sh gs (map (gidx sh) gs))) in H by auto.
  cbn [bind] in H.
  set (p := sort_g sh (map (gidx sh) gs)) in *.
  assert (HP : Permutation p (seq 0 (length gs))).
  { unfold p, sort_g. rewrite (argsort_perm lex_leb). now rewrite !map_length. }
  set (gc := take (0, 0, 0) gs p) in *.
  destruct gc as [|[[a b] c] rest] eqn:Egc; [discriminate|].
  assert (Hg0 : gidx sh (0, 0, 0) = 0)
    by (destruct sh as [[n1 n2] n3]; unfold gidx, b2z; cbn; lia).
  assert (Hidx : take 0 (map (gidx sh) gs) p = map (gidx sh) ((a, b, c) :: rest)).
  { rewrite <- Egc. unfold gc. rewrite <- take_map. now rewrite Hg0. }
  rewrite Hidx in H.
  unfold check_g_idxgrid in H. destruct sh as [[n1 n2] n3].
  destruct (all_unique (map (gidx (n1, n2, n3)) ((a, b, c) :: rest))) eqn:Hu;
    cbn [bind assert_] in H; [|discriminate].
  destruct (forallb _ _) eqn:Hb in H; cbn [bind assert_] in H; [|discriminate].
  injection H as <-. cbn [gs_cryst gs_idxgrid gs_idxsort gs_has_g0 gs_shape].
  set (sh := (n1, n2, n3)) in *.
  assert (HPg : Permutation ((a, b, c) :: rest) gs)
    by (rewrite <- Egc; apply take_perm; exact HP).
  assert (HND : NoDup gs).
  { apply all_unique_NoDup in Hu. apply (Permutation_NoDup HPg). now apply NoDup_map_inv in Hu. }
  assert (HSort : StronglySorted (fun a b => lex_leb a b = true)
      (map (fun g => lexkey sh (gidx sh g)) ((a, b, c) :: rest))).
  { rewrite <- Egc. unfold gc.
    pose proof (take_map (fun g => lexkey sh (gidx sh g)) (0, 0, 0) gs p) as Htm.
    cbv beta in Htm.
    match goal with |- StronglySorted _ ?X => replace X with (take (lexkey sh (gidx sh (0, 0, 0))) (map (fun g => lexkey sh (gidx sh g)) gs) p) by exact Htm end.
    rewrite <- (map_map (gidx sh) (lexkey sh)). unfold p, sort_g.
    apply take_argsort_sorted; [apply lex_total|apply lex_trans]. }
  assert (Hfirst : In (0, 0, 0) gs -> (a, b, c) = (0, 0, 0)).
  { intros Hin.
    assert (Hin' : In (0, 0, 0) ((a, b, c) :: rest)) by (eapply Permutation_in; [symmetry; exact HPg|exact Hin]).
    destruct Hin' as [E|Hin']; [exact E|].
    cbn [map] in HSort. inversion_clear HSort as [|? ? _ HF].
    rewrite Forall_forall in HF.
    specialize (HF (lexkey sh (gidx sh (0, 0, 0)))).
    assert (Hle : lex_leb (lexkey sh (gidx sh (a, b, c))) (lexkey sh (gidx sh (0, 0, 0))) = true).
    { apply HF. apply in_map_iff. exists (0, 0, 0). auto. }
    rewrite forallb_forall in Hgs.
    assert (Ga : g_ok sh (a, b, c) = true) by (apply Hgs; eapply Permutation_in; [exact HPg|now left]).
    destruct (gidx_unravel n1 n2 n3 a b c Hsh Ga) as [Eu _]. fold sh in Eu.
    assert (G0 : g_ok sh (0, 0, 0) = true) by (apply Hgs; exact Hin).
    destruct (gidx_unravel n1 n2 n3 0 0 0 Hsh G0) as [E0 _]. fold sh in E0.
    unfold lexkey in Hle. rewrite Eu, E0 in Hle.
    assert (F0 : forall n, fold1 n 0 = 0) by (intros n; unfold fold1, b2z; cbn; lia).
    rewrite !F0 in Hle.
    apply shape_ok_pos in Hsh as (Hn1 & Hn2 & Hn3).
    unfold g_ok, sh in Ga, G0.
    apply andb_true_iff in Ga as [Ga Ga3]. apply andb_true_iff in Ga as [Ga1 Ga2].
    apply andb_true_iff in G0 as [G0 G03]. apply andb_true_iff in G0 as [G01 G02].
    pose proof (fold1_range _ _ Hn1 Ga1). pose proof (fold1_range _ _ Hn2 Ga2). pose proof (fold1_range _ _ Hn3 Ga3).
    unfold lex_leb in Hle.
    assert (Z1 : fold1 n1 a = 0) by lia. assert (Z2 : fold1 n2 b = 0) by lia. assert (Z3 : fold1 n3 c = 0) by lia.
    assert (a = 0) by (apply (fold1_inj n1); auto; rewrite F0; auto).
    assert (b = 0) by (apply (fold1_inj n2); auto; rewrite F0; auto).
    assert (c = 0) by (apply (fold1_inj n3); auto; rewrite F0; auto).
    congruence. }
  repeat split; auto.
  - rewrite <- Egc. unfold gc. apply take_argsort_argsort. exact HP.
  - rewrite (argsort_perm Nat.leb p). rewrite (Permutation_length HP). now rewrite seq_length.
  - intros E. assert (a = 0 /\ b = 0 /\ c = 0) as (-> & -> & ->) by lia.
    eapply Permutation_in; [exact HPg|now left].
  - intros Hin. apply Hfirst in Hin. injection Hin as -> -> ->. reflexivity.
  - intros Hin. apply Hfirst in Hin. cbn. now rewrite Hin.
  - intros ->. now apply Permutation_sym, Permutation_nil in HPg.
Qed.

(** When construction succeeds. *)
Lemma gspace_base_total sh gs :
  shape_ok sh = true -> forallb (g_ok sh) gs = true -> NoDup gs -> gs <> [] ->
  exists s, gspace_base sh gs = Ok s.
Proof.
  intros Hsh Hgs HND Hne. unfold gspace_base, check_g_cryst, assert_.
  rewrite Hsh, Hgs. cbn [bind].
  rewrite (proj2 (cryst2idxgrid_ok sh gs (map (gidx sh) gs))) by auto.
  cbn [bind].
  set (p := sort_g sh (map (gidx sh) gs)).
  assert (HP : Permutation p (seq 0 (length gs))).
  { unfold p, sort_g. rewrite (argsort_perm lex_leb). now rewrite !map_length. }
  destruct (take (0, 0, 0) gs p) as [|[[a b] c] rest] eqn:Egc.
  - exfalso. apply Hne. assert (HPg : Permutation (take (0,0,0) gs p) gs) by (apply take_perm; exact HP).
    rewrite Egc in HPg. now apply Permutation_nil in HPg.
  - assert (Hg0 : gidx sh (0, 0, 0) = 0)
      by (destruct sh as [[n1 n2] n3]; unfold gidx, b2z; cbn; lia).
    assert (Hidx : take 0 (map (gidx sh) gs) p = map (gidx sh) ((a, b, c) :: rest)).
    { rewrite <- Egc. rewrite <- take_map. now rewrite Hg0. }
    rewrite Hidx. unfold check_g_idxgrid. destruct sh as [[n1 n2] n3]. set (sh := (n1, n2, n3)) in *.
    assert (HPg : Permutation ((a, b, c) :: rest) gs) by (rewrite <- Egc; apply take_perm; exact HP).
    rewrite forallb_forall in Hgs.
    assert (Hin : forall g, In g ((a, b, c) :: rest) -> g_ok sh g = true)
      by (intros g Hg; apply Hgs; eapply Permutation_in; [exact HPg|exact Hg]).
    assert (HND' : NoDup ((a, b, c) :: rest)) by (eapply Permutation_NoDup; [symmetry; exact HPg|exact HND]).
    assert (HU : all_unique (map (gidx sh) ((a, b, c) :: rest)) = true).
    { apply all_unique_NoDup. clear - Hin HND' Hsh.
      induction ((a, b, c) :: rest) as [|g l IH]; cbn; [constructor|].
      inversion_clear HND' as [|? ? Hn Hd]. constructor.
      - intros Hc. apply in_map_iff in Hc as (h & Eh & Hh). apply Hn.
        assert (h = g); [|now subst]. apply (gidx_inj sh); auto; apply Hin; [now right|now left].
      - apply IH; [|exact Hd]. intros g' Hg'. apply Hin. now right. }
    rewrite HU. cbn [bind assert_].
    assert (HB : forallb (fun i => (0 <=? i) && (i <? n1 * n2 * n3)) (map (gidx sh) ((a, b, c) :: rest)) = true).
    { apply forallb_forall. intros i Hi. apply in_map_iff in Hi as ([[g1 g2] g3] & <- & Hg).
      destruct (gidx_unravel n1 n2 n3 g1 g2 g3 Hsh (Hin _ Hg)) as [_ Hr]. unfold sh. lia. }
    rewrite HB. cbn [bind]. eexists. reflexivity.
Qed.

(** Duplicate vectors are refused. *)
Lemma gspace_base_dup sh gs s : gspace_base sh gs = Ok s -> NoDup gs.
Proof. intros H. now apply gspace_base_spec in H. Qed.

(* ---------------- optimal_grid_shape ---------------- *)
Lemma strip_spec p fuel x :
  2 <= p -> 0 < x -> x <= Z.of_nat fuel ->
  exists k y, strip (S fuel) p x = Some y /\ 0 <= k /\ x = p ^ k * y /\ y mod p <> 0 /\ 0 < y.
Proof.
  intros Hp. revert x. induction fuel as [|fuel IH]; intros x Hx Hf; [lia|].
  cbn [strip]. destruct (Z.eqb_spec (x mod p) 0) as [E|E].
  - assert (Hq : 0 < x / p < x) by (split; [apply Z.div_str_pos; split; [lia|apply Z.divide_pos_le; [lia|apply Z.mod_divide; lia]]|apply Z.div_lt; lia]).
    destruct (IH (x / p)) as (k & y & Hs & Hk & Hxy & Hy & Hpos); [lia|lia|].
    exists (k + 1), y. cbn [strip] in Hs. rewrite Hs. repeat split; auto; [lia|].
    rewrite Z.pow_add_r, Z.pow_1_r by lia.
    assert (x = p * (x / p)) by (rewrite (Z.div_mod x p) at 1; lia).
    rewrite H. rewrite Hxy. ring.
  - exists 0, x. rewrite Z.pow_0_r. repeat split; auto; lia.
Qed.

Lemma pow_strip_unique p a k u y :
  2 <= p -> 0 <= a -> 0 <= k -> u mod p <> 0 -> y mod p <> 0 ->
  p ^ a * u = p ^ k * y -> a = k /\ u = y.
Proof.
  intros Hp Ha. revert k. pattern a. apply natlike_ind; [| |exact Ha].
  - intros k Hk Hu Hy E. destruct (Z.eq_dec k 0) as [->|Hne]; [rewrite !Z.pow_0_r in E; lia|].
    exfalso. apply Hu. rewrite Z.pow_0_r, Z.mul_1_l in E. subst u.
    replace k with (1 + (k - 1)) by lia. rewrite Z.pow_add_r, Z.pow_1_r by lia.
    rewrite <- Z.mul_assoc, Z.mul_comm. apply Z.mod_mul. lia.
  - intros m Hm IH k Hk Hu Hy E. destruct (Z.eq_dec k 0) as [->|Hne].
    + exfalso. apply Hy. rewrite Z.pow_0_r, Z.mul_1_l in E. rewrite <- E.
      rewrite Z.pow_succ_r by lia. rewrite <- Z.mul_assoc, Z.mul_comm. apply Z.mod_mul. lia.
    + destruct (IH (k - 1)) as [-> ->]; auto; try lia.
      rewrite Z.pow_succ_r in E by lia. replace k with (Z.succ (k - 1)) in E by lia.
      rewrite Z.pow_succ_r in E by lia. nia.
Qed.

Definition smooth235 (m : Z) : Prop :=
  exists a b c, 0 <= a /\ 0 <= b /\ 0 <= c /\ m = 2 ^ a * 3 ^ b * 5 ^ c.

Lemma pow_mod_nz p q : (p = 2 /\ (q = 3 \/ q = 5)) \/ (p = 3 /\ q = 5) ->
  forall c, 0 <= c -> (q ^ c) mod p <> 0.
Proof.
  intros H c Hc. pattern c. apply natlike_ind; [| |exact Hc].
  - rewrite Z.pow_0_r. destruct H as [[-> _]|[-> _]]; cbn; lia.
  - intros x Hx IH. rewrite Z.pow_succ_r by lia.
    destruct H as [[-> [->| ->]]|[-> ->]]; lia.
Qed.
Lemma pow35_mod2 b c : 0 <= b -> 0 <= c -> (3 ^ b * 5 ^ c) mod 2 <> 0.
Proof.
  intros Hb Hc. pose proof (pow_mod_nz 2 3 ltac:(lia) b Hb). pose proof (pow_mod_nz 2 5 ltac:(lia) c Hc).
  rewrite Z.mul_mod by lia.
  replace (3 ^ b mod 2) with 1 by lia. replace (5 ^ c mod 2) with 1 by lia. cbn. lia.
Qed.

Lemma strip_all_smooth fuel x :
  0 < x -> x <= Z.of_nat fuel ->
  exists y, strip_all (S fuel) good_primes x = Some y /\ (y = 1 <-> smooth235 x).
Proof.
  intros Hx Hf. unfold good_primes. cbn [strip_all].
  destruct (strip_spec 2 fuel x) as (k2 & y2 & -> & Hk2 & E2 & N2 & P2); [lia|lia|lia|].
  assert (Hy2 : y2 <= x) by (assert (1 <= 2 ^ k2) by (apply (Z.pow_le_mono_r 2 0 k2); lia); nia).
  destruct (strip_spec 3 fuel y2) as (k3 & y3 & -> & Hk3 & E3 & N3 & P3); [lia|lia|lia|].
  assert (Hy3 : y3 <= y2) by (assert (1 <= 3 ^ k3) by (apply (Z.pow_le_mono_r 3 0 k3); lia); nia).
  destruct (strip_spec 5 fuel y3) as (k5 & y5 & -> & Hk5 & E5 & N5 & P5); [lia|lia|lia|].
  exists y5. split; [reflexivity|]. split.
  - intros ->. exists k2, k3, k5. repeat split; auto. rewrite E2, E3, E5. ring.
  - intros (a & b & c & Ha & Hb & Hc & E).
    destruct (pow_strip_unique 2 a k2 (3 ^ b * 5 ^ c) y2) as [_ E2']; auto; [lia|apply pow35_mod2; auto|lia|].
    destruct (pow_strip_unique 3 b k3 (5 ^ c) y3) as [_ E3']; auto; [lia|apply pow_mod_nz; auto|lia|].
    destruct (pow_strip_unique 5 c k5 1 y5) as [_ E5']; auto; [lia|cbn; lia|lia].
Qed.

Lemma optimal_dim_find n d : forall inner fuel,
  0 < n -> 0 <= d -> smooth235 (n + d) -> (forall j, 0 <= j < d -> ~ smooth235 (n + j)) ->
  n + d <= Z.of_nat inner -> (Z.to_nat d < fuel)%nat ->
  optimal_dim fuel (S inner) n = Some (n + d).
Proof.
  intros inner fuel Hn Hd. revert n fuel Hn. pattern d. apply natlike_ind; [| |exact Hd].
  - intros n fuel Hn Hs _ Hi Hf. destruct fuel as [|fuel]; [lia|]. cbn [optimal_dim].
    destruct (strip_all_smooth inner n) as (y & -> & Hy); [lia|lia|].
    rewrite Z.add_0_r in *. apply Hy in Hs. subst y. reflexivity.
  - intros x Hx IH n fuel Hn Hs Hmin Hi Hf. destruct fuel as [|fuel]; [lia|]. cbn [optimal_dim].
    destruct (strip_all_smooth inner n) as (y & -> & Hy); [lia|lia|].
    destruct (Z.eqb_spec y 1) as [E|E].
    + exfalso. apply (Hmin 0); [lia|]. rewrite Z.add_0_r. now apply Hy.
    + rewrite (IH (n + 1) fuel); [f_equal; lia|lia| | |lia|lia].
      * replace (n + 1 + x) with (n + Z.succ x) by lia. exact Hs.
      * intros j Hj. replace (n + 1 + j) with (n + (j + 1)) by lia. apply Hmin. lia.
Qed.

Lemma smooth_dec_Z x : 0 < x -> {smooth235 x} + {~ smooth235 x}.
Proof.
  intros Hx. destruct (strip_all (S (Z.to_nat x)) good_primes x) as [y|] eqn:E.
  - destruct (Z.eq_dec y 1) as [H|H].
    + left. destruct (strip_all_smooth (Z.to_nat x) x) as (y' & E' & Hy); [lia|lia|].
      rewrite E in E'. injection E' as <-. now apply Hy.
    + right. intros Hs. destruct (strip_all_smooth (Z.to_nat x) x) as (y' & E' & Hy); [lia|lia|].
      rewrite E in E'. injection E' as <-. apply H. now apply Hy.
  - right. intros Hs. destruct (strip_all_smooth (Z.to_nat x) x) as (y' & E' & Hy); [lia|lia|]. congruence.
Qed.

Lemma least_smooth n : 0 < n ->
  exists d, 0 <= d <= n /\ smooth235 (n + d) /\ (forall j, 0 <= j < d -> ~ smooth235 (n + j)).
Proof.
  intros Hn.
  assert (Hex : exists e, 0 <= e <= n /\ smooth235 (n + e)).
  { exists (2 ^ Z.log2_up n - n). pose proof (Z.log2_up_nonneg n).
    assert (H1 : n <= 2 ^ Z.log2_up n) by (apply Z.log2_log2_up_spec; lia).
    assert (H2 : 2 ^ Z.log2_up n <= 2 * n).
    { destruct (Z.eq_dec n 1) as [->|Hne]; [cbn; lia|].
      pose proof (Z.log2_up_spec n ltac:(lia)) as [H3 _].
      pose proof (Z.log2_up_pos n ltac:(lia)).
      replace (2 ^ Z.log2_up n) with (2 * 2 ^ Z.pred (Z.log2_up n)); [lia|].
      rewrite <- Z.pow_succ_r by lia. f_equal. lia. }
    split; [lia|]. exists (Z.log2_up n), 0, 0. rewrite !Z.pow_0_r. repeat split; lia. }
  destruct Hex as (e & He & Hs).
  assert (H : forall m, 0 <= m -> forall e, 0 <= e <= m -> smooth235 (n + e) ->
     exists d, 0 <= d <= e /\ smooth235 (n + d) /\ (forall j, 0 <= j < d -> ~ smooth235 (n + j))).
  { intros m Hm. pattern m. apply natlike_ind; [| |exact Hm].
    - intros e0 He0 Hs0. exists e0. repeat split; auto; [lia|lia|]. intros j Hj. lia.
    - intros x Hx IH e0 He0 Hs0.
      assert (Hdec : forall k, 0 <= k -> (forall j, 0 <= j < k -> ~ smooth235 (n + j)) \/ (exists j, 0 <= j < k /\ smooth235 (n + j))).
      { intros k Hk. pattern k. apply natlike_ind; [| |exact Hk].
        - left. intros j Hj. lia.
        - intros q Hq [IHq|(j & Hj & Hsj)]; [|right; exists j; split; [lia|exact Hsj]].
          destruct (smooth_dec_Z (n + q)) as [Hsq|Hsq]; [lia|right; exists q; split; [lia|exact Hsq]|].
          left. intros j Hj. destruct (Z.eq_dec j q) as [->|Hne]; [exact Hsq|apply IHq; lia]. }
      destruct (Hdec e0 ltac:(lia)) as [Hno|(j & Hj & Hsj)].
      + exists e0. repeat split; auto; lia.
      + destruct (IH j ltac:(lia) Hsj) as (d & Hd & Hsd & Hm0). exists d. repeat split; auto; lia. }
  destruct (H e ltac:(lia) e ltac:(lia) Hs) as (d & Hd & Hsd & Hm0). exists d. repeat split; auto; lia.
Qed.

Lemma optimal_dim_spec n : 0 < n ->
  exists m, n <= m <= 2 * n /\ smooth235 m /\ (forall j, n <= j < m -> ~ smooth235 j)
    /\ forall fuel inner, n + 1 <= Z.of_nat fuel -> 2 * n + 1 <= Z.of_nat inner ->
         optimal_dim fuel inner n = Some m.
Proof.
  intros Hn. destruct (least_smooth n Hn) as (d & Hd & Hs & Hm).
  exists (n + d). split; [lia|]. split; [exact Hs|]. split.
  - intros j Hj. replace j with (n + (j - n)) by lia. apply Hm. lia.
  - intros fuel inner Hf Hi. destruct inner as [|inner]; [lia|].
    apply optimal_dim_find; auto; lia.
Qed.

(** Restatements used by PropsGIndex.v. *)
Lemma fold1_mod n i : 0 < n -> dim_ok n i = true -> fold1 n i = i mod n.
Proof.
  intros Hn H. pose proof (fold1_range n i Hn H) as R.
  unfold fold1, b2z in *. destruct (i <? 0).
  - rewrite <- (Z_mod_plus_full i 1 n), Z.mod_small; lia.
  - rewrite Z.mod_small; lia.
Qed.

Lemma gidx_value n1 n2 n3 i1 i2 i3 :
  shape_ok (n1, n2, n3) = true -> g_ok (n1, n2, n3) (i1, i2, i3) = true ->
  gidx (n1, n2, n3) (i1, i2, i3) = (i1 mod n1 * n2 + i2 mod n2) * n3 + i3 mod n3
  /\ 0 <= gidx (n1, n2, n3) (i1, i2, i3) < n1 * n2 * n3.
Proof.
  intros Hs Hg. split; [|now apply gidx_unravel].
  apply shape_ok_pos in Hs. unfold g_ok in Hg. apply andb_prop in Hg as [Hg H3].
  apply andb_prop in Hg as [H1 H2].
  rewrite (gidx_fold (n1, n2, n3) (i1, i2, i3)), !fold1_mod by tauto. ring.
Qed.

(** Grid coordinates of G as the sort key (iy, iz, ix). *)
Definition yzx (sh : shape3) (g : vec3) : vec3 :=
  let '(n1, n2, n3) := sh in let '(i1, i2, i3) := g in (i2 mod n2, i3 mod n3, i1 mod n1).

Lemma lexkey_yzx sh g : shape_ok sh = true -> g_ok sh g = true ->
  lexkey sh (gidx sh g) = yzx sh g.
Proof.
  destruct sh as [[n1 n2] n3], g as [[i1 i2] i3]. intros Hs Hg.
  destruct (gidx_unravel _ _ _ _ _ _ Hs Hg) as [Hu _]. unfold lexkey. rewrite Hu.
  apply shape_ok_pos in Hs. unfold g_ok in Hg. apply andb_prop in Hg as [Hg H3].
  apply andb_prop in Hg as [H1 H2].
  unfold yzx. now rewrite !fold1_mod by tauto.
Qed.

Lemma StronglySorted_unmap {A B} (f : A -> B) (R : B -> B -> Prop) l :
  StronglySorted R (map f l) -> StronglySorted (fun x y => R (f x) (f y)) l.
Proof.
  induction l as [|x l IH]; intros H; [constructor|].
  apply StronglySorted_inv in H as [H1 H2]. constructor; [now apply IH|].
  apply (proj1 (Forall_map f (R (f x)) l)) in H2. exact H2.
Qed.

Lemma gspace_base_sorted sh gs s :
  gspace_base sh gs = Ok s ->
  Permutation (gs_cryst s) gs
  /\ NoDup gs
  /\ gs_idxgrid s = map (gidx sh) (gs_cryst s)
  /\ StronglySorted (fun a b => lex_leb (yzx sh a) (yzx sh b) = true) (gs_cryst s)
  /\ take (0, 0, 0) (gs_cryst s) (gs_idxsort s) = gs
  /\ Permutation (gs_idxsort s) (seq 0 (length gs)).
Proof.
  intros H. apply gspace_base_spec in H as (P & N & I & S & T & Q & _ & _ & Hs & Hg & _ & _).
  repeat (split; [assumption|]). split; [|split; assumption].
  apply StronglySorted_unmap with (R := fun a b => lex_leb a b = true).
  erewrite map_ext_in; [exact S|]. intros g Hin. cbn beta. symmetry. apply lexkey_yzx; [exact Hs|].
  rewrite forallb_forall in Hg. apply Hg. eapply Permutation_in; [exact P|exact Hin].
Qed.

Lemma gspace_base_data sh gs s (A : Type) (d : A) (f : vec3 -> A) :
  gspace_base sh gs = Ok s ->
  take d (map f (gs_cryst s)) (gs_idxsort s) = map f gs.
Proof.
  intros H. apply gspace_base_spec in H as (P & _ & _ & _ & T & Q & _).
  rewrite <- T. unfold take. rewrite map_map. apply map_ext_in. intros i Hi.
  rewrite (nth_indep _ d (f (0,0,0))).
  - apply map_nth.
  - rewrite map_length, (Permutation_length P).
    apply (Permutation_in _ Q), in_seq in Hi. lia.
Qed.

Lemma gspace_base_g0 sh gs s :
  gspace_base sh gs = Ok s ->
  (gs_has_g0 s = true <-> In (0, 0, 0) gs)
  /\ (In (0, 0, 0) gs -> hd_error (gs_cryst s) = Some (0, 0, 0))
  /\ (hd_error (gs_cryst s) = Some (0, 0, 0) -> In (0, 0, 0) gs).
Proof.
  intros H. apply gspace_base_spec in H as (P & _ & _ & _ & _ & _ & G & G' & _).
  split; [exact G|]. split; [exact G'|]. intros E.
  eapply Permutation_in; [exact P|]. destruct (gs_cryst s); [discriminate|].
  injection E as ->. now left.
Qed.
