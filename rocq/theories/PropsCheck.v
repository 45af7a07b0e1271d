(** C83: the consistency check of the inputs across processes. *)
From Coq Require Import String.
From Verif Require Import Base CtxModel CheckModel.
From Coq Require Import Reals Lra.
Open Scope R_scope.

(** The specification: what "the same input" means.  Numbers in arrays agree to
    1e-8 + 1e-5 |root's value|; labels, valences, files, masses, grids exactly; lattice
    constant and cutoff to 1e-8. *)
Definition close (a b : list R) : Prop := Forall2 (fun x y => Rabs (x - y) <= / 10 ^ 8 + / 10 ^ 5 * Rabs y) a b.
Definition same_atoms (a r : atoms_d) : Prop :=
  d_label a = d_label r /\ d_valence a = d_valence r /\ d_pp a = d_pp r /\ d_mass a = d_mass r /\ close (d_rcryst a) (d_rcryst r).
Definition same_gspace (a r : gspace_d) : Prop :=
  close (d_recvec a) (d_recvec r) /\ Rabs (d_ecut a - d_ecut r) <= / 10 ^ 8 /\ d_grid a = d_grid r /\ d_isdist a = d_isdist r.
Definition same_system (s r : system_d) : Prop :=
  close (d_primvec s) (d_primvec r) /\ Rabs (d_alat s - d_alat r) <= / 10 ^ 8
  /\ Forall2 same_atoms (d_atoms s) (d_atoms r)
  /\ same_gspace (d_grho s) (d_grho r) /\ same_gspace (d_gwfn s) (d_gwfn r)
  /\ close (d_kcryst s) (d_kcryst r) /\ close (d_kweights s) (d_kweights r).
(** What a process can see by itself: every species has a pseudopotential, and the lattices
    of the grids and k-points are the crystal's. *)
Definition locally_fine (s : system_d) : Prop :=
  (forall a, In a (d_atoms s) -> d_pp a <> None) /\ d_grho_eq s = true /\ d_gwfn_is s = true /\ d_kpts_is s = true.

Lemma closeb_iff x y : closeb x y = true <-> Rabs (x - y) <= / 10 ^ 8 + / 10 ^ 5 * Rabs y.
Proof. unfold closeb. destruct (Rle_dec _ _); split; intros; try assumption; try reflexivity; try discriminate; contradiction. Qed.
Lemma allcloseb_iff a : forall b, allcloseb a b = true <-> close a b.
Proof.
  unfold close. induction a as [|x a IH]; intros [|y b]; cbn [allcloseb]; split; intros H; try discriminate; try (now inversion H); try constructor.
  - apply andb_true_iff in H as [H1 _]. now apply closeb_iff.
  - apply andb_true_iff in H as [_ H2]. now apply IH.
  - inversion H; subst. apply andb_true_iff. split; [now apply closeb_iff|now apply IH].
Qed.
Lemma close_length a b : close a b -> length a = length b.
Proof. intros H. induction H; cbn; congruence. Qed.
Lemma close_refl a : close a a.
Proof.
  induction a as [|x a IH]; constructor; [|exact IH]. rewrite Rminus_diag_eq, Rabs_R0 by reflexivity.
  pose proof (Rabs_pos x). assert (0 < / 10 ^ 8) by (apply Rinv_0_lt_compat, pow_lt; lra).
  assert (0 < / 10 ^ 5) by (apply Rinv_0_lt_compat, pow_lt; lra). assert (0 <= / 10 ^ 5 * Rabs x) by (apply Rmult_le_pos; lra). lra.
Qed.

(** One process passes a list of steps against the contributions of another. *)
Definition local_ok (p : list step) : Prop := forall b e, In (Local b e) p -> b = true.
Definition step_ok (x : payload) (c : compare) (y : payload) : Prop := paired x y = true /\ passes c x y = true.

Lemma run_self p : local_ok p -> (forall x c, In (Coll x c) p -> passes c x x = true) ->
  run p (contributed p) = (length (contributed p), Done).
Proof.
  induction p as [|[x c|b e] p IH]; intros HL HP; [reflexivity| |].
  - cbn [contributed run length].
    assert (E : paired x x = true) by (destruct x; cbn; try reflexivity; apply Nat.eqb_refl).
    rewrite E, (HP x c (or_introl eq_refl)). cbn [negb]. rewrite IH; [reflexivity| |].
    + intros b e H. apply (HL b e). now right.
    + intros y d H. apply HP. now right.
  - pose proof (HL b e (or_introl eq_refl)) as ->. cbn [contributed run]. apply IH.
    + intros b e' H. apply (HL b e'). now right.
    + intros y d H. apply HP. now right.
Qed.
Lemma run_le p : forall root n e, run p root = (n, e) -> e <> Waits -> (n <= length root)%nat.
Proof.
  induction p as [|[x c|b e0] p IH]; intros root n e H Hw; cbn [run] in H.
  - injection H as <- <-. lia.
  - destruct root as [|y root]; [injection H as <- <-; contradiction|]. cbn [length].
    destruct (negb (paired x y)); [injection H as <- <-; lia|]. destruct (passes c x y); [|injection H as <- <-; lia].
    destruct (run p root) as [m e'] eqn:E. injection H as <- <-. apply IH in E; [lia|assumption].
  - destruct b; [now apply IH in H|]. injection H as <- <-. lia.
Qed.
(** Sequencing. *)
Lemma run_app p q : forall root, run (p ++ q) root =
  match run p root with
  | (n, Done) => let (m, e) := run q (skipn n root) in ((n + m)%nat, e)
  | r => r
  end.
Proof.
  induction p as [|[x c|b e0] p IH]; intros root; cbn [app run].
  - rewrite skipn_O. destruct (run q root); reflexivity.
  - destruct root as [|y root]; [reflexivity|]. destruct (negb (paired x y)); [reflexivity|]. destruct (passes c x y); [|reflexivity].
    rewrite IH. destruct (run p root) as [n [ | | | ]] eqn:E; try reflexivity. cbn [skipn]. destruct (run q (skipn n root)). reflexivity.
  - destruct b; [apply IH|reflexivity].
Qed.

Definition dn (p : list step) (root : list payload) : Prop := exists n, run p root = (n, Done).
Lemma dn_coll x c p y root : dn (Coll x c :: p) (y :: root) <-> paired x y = true /\ passes c x y = true /\ dn p root.
Proof.
  unfold dn. cbn [run]. destruct (paired x y); cbn [negb]; [|split; [intros (n & H); discriminate|intros (H & _); discriminate]].
  destruct (passes c x y); [|split; [intros (n & H); discriminate|intros (_ & H & _); discriminate]].
  destruct (run p root) as [m e]. split.
  - intros (n & H). injection H as <- ->. eauto.
  - intros (_ & _ & n & H). injection H as <- ->. eauto.
Qed.
Lemma dn_coll_nil x c p : ~ dn (Coll x c :: p) [].
Proof. intros (n & H). discriminate. Qed.
Lemma dn_local b e p root : dn (Local b e :: p) root <-> b = true /\ dn p root.
Proof.
  unfold dn. destruct b; cbn [run]; [tauto|]. split; [intros (n & H); discriminate|intros (H & _); discriminate].
Qed.
Lemma contributed_app p q : local_ok p -> contributed (p ++ q) = contributed p ++ contributed q.
Proof.
  induction p as [|[x c|b e] p IH]; intros H; [reflexivity| |]; cbn [app contributed].
  - rewrite IH; [reflexivity|]. intros b e Hi. apply (H b e). now right.
  - pose proof (H b e (or_introl eq_refl)) as ->. apply IH. intros b e' Hi. apply (H b e'). now right.
Qed.
Lemma local_ok_app p q : local_ok p -> local_ok q -> local_ok (p ++ q).
Proof. intros H1 H2 b e H. apply in_app_or in H as [H|H]; eauto. Qed.

(** Comparisons as propositions. *)
Lemma pass_buf a b : paired (Buf a) (Buf b) = true /\ passes AllClose (Buf a) (Buf b) = true <-> close a b.
Proof.
  cbn. rewrite allcloseb_iff. split; [tauto|]. intros H. split; [|exact H]. apply Nat.eqb_eq. now apply close_length.
Qed.
Lemma pass_arr a b : passes AllClose (OArr a) (OArr b) = true <-> close a b.
Proof. apply allcloseb_iff. Qed.
Lemma pass_within a b : passes Within (ONum a) (ONum b) = true <-> Rabs (a - b) <= / 10 ^ 8.
Proof. cbn. destruct (Rle_dec _ _); split; intros; try assumption; try reflexivity; try discriminate; contradiction. Qed.
Lemma pass_num a b : passes Exact (ONum a) (ONum b) = true <-> a = b.
Proof. cbn. destruct (Req_EM_T a b); split; intros; try assumption; try reflexivity; try discriminate; contradiction. Qed.
Lemma pass_str a b : passes Exact (OStr a) (OStr b) = true <-> a = b.
Proof. apply String.eqb_eq. Qed.
Lemma pass_int a b : passes Exact (OInt a) (OInt b) = true <-> a = b.
Proof. apply Z.eqb_eq. Qed.
Lemma pass_flag a b : passes Exact (OFlag a) (OFlag b) = true <-> a = b.
Proof. apply Bool.eqb_true_iff. Qed.

Lemma dn_gspace g r p root : dn (check_gspace g ++ p) (contributed (check_gspace r) ++ root) <-> same_gspace g r /\ dn p root.
Proof.
  unfold check_gspace, same_gspace. destruct (d_grid g) as [[n1 n2] n3]. destruct (d_grid r) as [[m1 m2] m3].
  cbn [app contributed]. rewrite !dn_coll, pass_arr, pass_within, !pass_int, pass_flag. cbn [paired].
  split; [intros (_ & A & _ & B & _ & -> & _ & -> & _ & -> & _ & C & D); tauto|].
  intros ((A & B & E & C) & D). injection E as -> -> ->. tauto.
Qed.
Lemma dn_atoms a r p root : d_pp r <> None ->
  dn (check_basisatoms a ++ p) (contributed (check_basisatoms r) ++ root) <-> same_atoms a r /\ dn p root.
Proof.
  intros Hr. unfold check_basisatoms, same_atoms. destruct (d_pp r) as [[fr mr]|] eqn:Er; [|congruence].
  destruct (d_pp a) as [[fa ma]|] eqn:Ea.
  - destruct (d_mass a) as [x|] eqn:Ma; destruct (d_mass r) as [y|] eqn:Mr; cbn [app contributed];
      rewrite !dn_coll; cbn [paired]; rewrite ?pass_str, ?pass_int, ?pass_num.
    + rewrite <- (pass_buf (d_rcryst a)). cbn [paired].
      split; [intros (_ & _ & _ & A & _ & B & _ & -> & _ & -> & _ & -> & P & Q & D); tauto|].
      intros ((A & B & C & E & P & Q) & D). injection C as -> ->. injection E as ->. tauto.
    + split; [intros (_ & _ & _ & A & _ & B & _ & _ & _ & _ & H & _); discriminate|]. intros ((_ & _ & _ & E & _) & _). discriminate.
    + split; [intros (_ & _ & _ & A & _ & B & _ & _ & _ & _ & H & _); discriminate|]. intros ((_ & _ & _ & E & _) & _). discriminate.
    + rewrite <- (pass_buf (d_rcryst a)). cbn [paired].
      split; [intros (_ & _ & _ & A & _ & B & _ & -> & _ & -> & P & Q & D); tauto|].
      intros ((A & B & C & E & P & Q) & D). injection C as -> ->. tauto.
  - cbn [app contributed]. rewrite !dn_coll. rewrite dn_local. split; [intros H; decompose [and] H; discriminate|].
    intros ((_ & _ & H & _) & _). discriminate.
Qed.
Lemma atoms_local a : d_pp a <> None -> local_ok (check_basisatoms a).
Proof.
  intros H b e Hi. unfold check_basisatoms in Hi. destruct (d_pp a) as [[f m]|]; [|congruence].
  destruct (d_mass a); cbn in Hi; repeat (destruct Hi as [Hi|Hi]; [discriminate|]); destruct Hi.
Qed.
Lemma all_atoms_local l : (forall a, In a l -> d_pp a <> None) -> local_ok (concat (map check_basisatoms l)).
Proof.
  intros H b e Hi. apply in_concat in Hi as (p & Hp & Hi). apply in_map_iff in Hp as (a & <- & Ha).
  now apply (atoms_local a (H a Ha) b e).
Qed.
Lemma gspace_local g : local_ok (check_gspace g).
Proof.
  intros b e Hi. unfold check_gspace in Hi. destruct (d_grid g) as [[? ?] ?]. cbn in Hi.
  repeat (destruct Hi as [Hi|Hi]; [discriminate|]); destruct Hi.
Qed.
Lemma kpts_local k w : local_ok (check_kpts k w).
Proof. intros b e Hi. cbn in Hi. repeat (destruct Hi as [Hi|Hi]; [discriminate|]); destruct Hi. Qed.
Lemma lattice_local k w : local_ok (check_lattice k w).
Proof. intros b e Hi. cbn in Hi. repeat (destruct Hi as [Hi|Hi]; [discriminate|]); destruct Hi. Qed.

Lemma dn_all_atoms la : forall lr g p r root, (forall a, In a lr -> d_pp a <> None) ->
  dn (concat (map check_basisatoms la) ++ check_gspace g ++ p)
     (contributed (concat (map check_basisatoms lr)) ++ contributed (check_gspace r) ++ root)
  <-> Forall2 same_atoms la lr /\ dn (check_gspace g ++ p) (contributed (check_gspace r) ++ root).
Proof.
  induction la as [|a la IH]; intros [|b lr] g p r root Hr.
  - cbn [map concat app contributed]. split; [intros H; split; [constructor|exact H]|tauto].
  - split; [|intros (H & _); inversion H]. intros H. exfalso.
    cbn [map concat] in H. rewrite contributed_app in H by (apply atoms_local, Hr; now left).
    unfold check_basisatoms at 1 in H. unfold check_gspace at 1 in H. destruct (d_grid g) as [[? ?] ?]. cbn [app contributed] in H.
    apply dn_coll in H as (_ & H & _). discriminate.
  - split; [|intros (H & _); inversion H]. intros H. exfalso.
    cbn [map concat] in H. unfold check_basisatoms at 1 in H. unfold check_gspace at 2 in H. destruct (d_grid r) as [[? ?] ?].
    cbn [app contributed] in H. apply dn_coll in H as (_ & _ & H). apply dn_coll in H as (_ & H & _). discriminate.
  - cbn [map concat]. rewrite contributed_app by (apply atoms_local, Hr; now left). rewrite <- !app_assoc.
    rewrite dn_atoms by (apply Hr; now left). rewrite IH by (intros x Hx; apply Hr; now right).
    split; [intros (A & B & C); split; [constructor; assumption|exact C]|].
    intros (H & C). inversion H; subst. tauto.
Qed.

Lemma dn_system s r : locally_fine r ->
  dn (check_system s) (contributed (check_system r)) <-> same_system s r /\ locally_fine s.
Proof.
  intros (R1 & R2 & R3 & R4). unfold check_system at 2, check_crystal at 1.
  rewrite <- !app_assoc.
  rewrite (contributed_app (check_lattice _ _)) by apply lattice_local.
  rewrite (contributed_app (concat _)) by (now apply all_atoms_local).
  rewrite (contributed_app (check_gspace (d_grho r))) by apply gspace_local.
  rewrite R2. cbn [app contributed].
  rewrite (contributed_app (check_gspace (d_gwfn r))) by apply gspace_local.
  rewrite R3. cbn [app contributed]. rewrite R4. cbn [app contributed check_kpts].
  unfold check_system, check_crystal. rewrite <- !app_assoc. cbn [check_lattice app contributed].
  rewrite !dn_coll. rewrite dn_all_atoms by exact R1. rewrite !dn_gspace. cbn [app]. rewrite !dn_local, dn_gspace. cbn [app check_kpts].
  rewrite !dn_local, !dn_coll, !dn_local. rewrite pass_within.
  assert (T : dn [] []) by (now exists 0%nat). unfold same_system, locally_fine.
  rewrite <- (pass_buf (d_primvec s)), <- (pass_buf (d_kcryst s)), <- (pass_buf (d_kweights s)).
  cbn [paired]. change (passes Take (OFlag false) (OFlag false)) with true.
  split.
  - intros H.
    assert (F : Forall2 same_atoms (d_atoms s) (d_atoms r)) by tauto.
    assert (PP : forall a, In a (d_atoms s) -> d_pp a <> None); [|tauto]. intros a Ha.
    clear - F Ha R1. revert R1. induction F as [|x y l l' Hxy F IH]; [destruct Ha|]. intros R1.
    destruct Ha as [->|Ha].
    + destruct Hxy as (_ & _ & -> & _). apply R1. now left.
    + apply IH; [exact Ha|]. intros z Hz. apply R1. now right.
  - intros (H & H0). decompose [and] H. decompose [and] H0. tauto.
Qed.
Lemma contributed_fine r : locally_fine r -> local_ok (check_system r).
Proof.
  intros (R1 & R2 & R3 & R4). unfold check_system, check_crystal. rewrite R2, R3, R4.
  assert (L : forall e, local_ok [Local true e]) by (intros e b e' [H|[]]; now injection H as <- <-).
  repeat apply local_ok_app; try apply L; try apply gspace_local; try apply kpts_local; try apply lattice_local; now apply all_atoms_local.
Qed.
Lemma self_passes r x c : In (Coll x c) (check_system r) -> passes c x x = true.
Proof.
  assert (B : forall a, allcloseb a a = true) by (intros a; apply allcloseb_iff, close_refl).
  assert (N : forall a, passes Exact (ONum a) (ONum a) = true) by (intros a; now apply pass_num).
  assert (W : forall a, passes Within (ONum a) (ONum a) = true).
  { intros a. apply pass_within. rewrite Rminus_diag_eq, Rabs_R0 by reflexivity. left. apply Rinv_0_lt_compat, pow_lt. lra. }
  assert (S : forall a, passes Exact (OStr a) (OStr a) = true) by (intros a; now apply pass_str).
  assert (Z : forall a, passes Exact (OInt a) (OInt a) = true) by (intros a; now apply pass_int).
  assert (F : forall a, passes Exact (OFlag a) (OFlag a) = true) by (intros a; now apply pass_flag).
  assert (G : forall g, In (Coll x c) (check_gspace g) -> passes c x x = true).
  { intros g H. unfold check_gspace in H. destruct (d_grid g) as [[? ?] ?]. cbn in H.
    repeat (destruct H as [H|H]; [injection H as <- <-; first [solve [auto]|apply B]|]). destruct H. }
  unfold check_system, check_crystal. rewrite !in_app_iff. intros H.
  destruct H as [[H|H]|[H|[H|[H|[H|[H|H]]]]]]; try (eapply G; eassumption); try (destruct H as [H|[]]; discriminate).
  - cbn in H. repeat (destruct H as [H|H]; [injection H as <- <-; first [solve [auto]|apply B]|]). destruct H.
  - apply in_concat in H as (p & Hp & Hi). apply in_map_iff in Hp as (a & <- & Ha). unfold check_basisatoms in Hi.
    destruct (d_pp a) as [[f m]|]; destruct (d_mass a); cbn in Hi;
      repeat (destruct Hi as [Hi|Hi]; [try discriminate; injection Hi as <- <-; first [solve [auto]|apply B]|]); destruct Hi.
  - cbn in H. repeat (destruct H as [H|H]; [injection H as <- <-; first [solve [auto]|apply B]|]). destruct H.
Qed.

Lemma done_count p : forall root n, run p root = (n, Done) -> n = length (contributed p).
Proof.
  induction p as [|[x c|b e] p IH]; intros root n H; cbn [run contributed length] in *.
  - now injection H as <-.
  - destruct root as [|y root]; [discriminate|]. destruct (negb (paired x y)); [discriminate|]. destruct (passes c x y); [|discriminate].
    destruct (run p root) as [m e] eqn:E. injection H as <- ->. f_equal. now apply (IH root).
  - destruct b; [now apply (IH root)|discriminate].
Qed.
Lemma same_count s r : same_system s r -> locally_fine s -> locally_fine r ->
  length (contributed (check_system s)) = length (contributed (check_system r)).
Proof.
  intros (_ & _ & HA & _) HS HR.
  assert (U : forall x, locally_fine x -> length (contributed (check_system x)) =
     (length (contributed (concat (map check_basisatoms (d_atoms x)))) + 17)%nat).
  { intros x (X1 & X2 & X3 & X4). unfold check_system, check_crystal. rewrite <- !app_assoc.
    rewrite (contributed_app (check_lattice _ _)) by apply lattice_local.
    rewrite (contributed_app (concat _)) by (now apply all_atoms_local).
    rewrite (contributed_app (check_gspace _)) by apply gspace_local. rewrite X2. cbn [app contributed].
    rewrite (contributed_app (check_gspace _)) by apply gspace_local. rewrite X3. cbn [app contributed]. rewrite X4.
    unfold check_gspace. destruct (d_grid (d_grho x)) as [[? ?] ?]. destruct (d_grid (d_gwfn x)) as [[? ?] ?].
    rewrite !app_length. cbn. lia. }
  rewrite (U s HS), (U r HR). f_equal. destruct HS as (S1 & _). destruct HR as (R1 & _). clear U. revert S1 R1.
  induction HA as [|a b la lb Hab HA IH]; intros S1 R1; [reflexivity|]. cbn [map concat].
  rewrite !contributed_app by (apply atoms_local; first [apply S1; now left|apply R1; now left]). rewrite !app_length.
  rewrite IH by (intros x Hx; first [apply S1; now right|apply R1; now right]). f_equal.
  destruct Hab as (_ & _ & P & M & _). unfold check_basisatoms. rewrite P, M.
  destruct (d_pp b) as [[? ?]|]; destruct (d_mass b); reflexivity.
Qed.

(** C83.  With a process 0 whose arguments are fine by themselves: a process leaves the check
    normally exactly when its arguments are fine by themselves and the same as process 0's,
    and then it has entered the same number of collectives as process 0. *)
Theorem C83_passes_iff_same : forall root s, locally_fine root ->
  (snd (block s root) = Done <-> same_system s root /\ locally_fine s)
  /\ (snd (block s root) = Done -> fst (block s root) = fst (block root root)).
Proof.
  intros root s HR. pose proof (dn_system s root HR) as D. unfold dn in D. unfold block.
  rewrite (run_self (check_system root)) by (try apply self_passes; now apply contributed_fine).
  destruct (run (check_system s) (contributed (check_system root))) as [n e] eqn:E.
  split.
  - rewrite <- D. destruct e; cbn [snd]; split; intros H; eauto; try discriminate; destruct H as (m & H); discriminate.
  - destruct e; cbn [snd fst]; intros H; try discriminate. do 2 f_equal. rewrite (done_count _ _ _ E).
    destruct (proj1 D) as [A B]; [eauto|]. now apply same_count.
Qed.
Print Assumptions C83_passes_iff_same.

(** C83.  Process 0 compares every value with itself: whatever the others hold, it passes. *)
Theorem C83_root_never_objects : forall root, locally_fine root ->
  block root root = (S (S (length (contributed (check_system root)))), Done).
Proof.
  intros root HR. unfold block. rewrite (run_self (check_system root)) by (try apply self_passes; now apply contributed_fine). reflexivity.
Qed.
Print Assumptions C83_root_never_objects.

Lemma ends_step e x c p y root : paired x y = true -> passes c x y = true ->
  (exists n, run p root = (n, e)) -> exists n, run (Coll x c :: p) (y :: root) = (n, e).
Proof. intros P Q (n & H). cbn [run]. rewrite P, Q, H. cbn [negb]. eauto. Qed.
Lemma within_self a : passes Within (ONum a) (ONum a) = true.
Proof. apply pass_within. rewrite Rminus_diag_eq, Rabs_R0 by reflexivity. left. apply Rinv_0_lt_compat, pow_lt. lra. Qed.

(** C83, "a disagreement is reported" fails: a process whose arguments differ does not get
    through, but process 0 (and every process that agrees with it) objects to nothing and goes
    on to the closing barrier.  A process that raised has entered fewer collectives than that,
    so process 0 waits there for ever. *)
Theorem C83_disagreement_hangs_refuted : forall root s, locally_fine root -> ~ same_system s root ->
  snd (block s root) <> Done /\ snd (block root root) = Done
  /\ forall e, snd (block s root) = Raises e -> (fst (block s root) < fst (block root root))%nat.
Proof.
  intros root s HR HD. destruct (C83_passes_iff_same root s HR) as [P _].
  rewrite (C83_root_never_objects root HR). cbn [snd fst]. split; [rewrite P; tauto|]. split; [reflexivity|].
  intros e. unfold block. destruct (run (check_system s) (contributed (check_system root))) as [n o] eqn:E.
  destruct o; cbn [snd fst]; intros H; try discriminate. apply run_le in E; [lia|discriminate].
Qed.
Print Assumptions C83_disagreement_hangs_refuted.

(** C83.  Two inputs that differ only in one process not being given a mass: the two run
    different collectives against each other. *)
Theorem C83_missing_mass_refuted : forall root s a b la, locally_fine root ->
  d_primvec s = d_primvec root -> d_alat s = d_alat root -> d_atoms s = a :: la -> d_atoms root = b :: la ->
  d_label a = d_label b -> d_valence a = d_valence b -> d_pp a = d_pp b -> d_rcryst a = d_rcryst b ->
  (d_mass a = None <-> d_mass b <> None) -> snd (block s root) = Erroneous.
Proof.
  intros root s a b la HR E1 E2 E3 E4 L1 L2 L3 L4 HM.
  assert (Hb : d_pp b <> None) by (apply (proj1 HR); rewrite E4; now left).
  assert (LA : forall x, In x la -> d_pp x <> None) by (intros x Hx; apply (proj1 HR); rewrite E4; now right).
  unfold block. 
  assert (K : exists n, run (check_system s) (contributed (check_system root)) = (n, Erroneous)).
  { unfold check_system, check_crystal. rewrite E1, E2, E3, E4. rewrite <- !app_assoc.
    rewrite (contributed_app (check_lattice _ _)) by apply lattice_local. cbn [map concat]. rewrite <- !app_assoc.
    rewrite (contributed_app (check_basisatoms b)) by now apply atoms_local.
    cbn [check_lattice app contributed].
    apply ends_step; [apply Nat.eqb_refl|apply allcloseb_iff, close_refl|]. apply ends_step; [reflexivity|apply within_self|].
    unfold check_basisatoms at 1. unfold check_basisatoms at 2. rewrite L1, L2, L3. destruct (d_pp b) as [[f m]|]; [|congruence].
    cbn [app contributed]. apply ends_step; [reflexivity|reflexivity|].
    apply ends_step; [reflexivity|now apply pass_str|]. apply ends_step; [reflexivity|now apply pass_int|].
    apply ends_step; [reflexivity|now apply pass_str|]. apply ends_step; [reflexivity|now apply pass_str|].
    destruct (d_mass a) as [x|]; destruct (d_mass b) as [y|]; cbn [app contributed run paired negb].
    - exfalso. assert (X : Some x = None) by (apply HM; discriminate). discriminate.
    - eexists; reflexivity.
    - eexists; reflexivity.
    - exfalso. apply (proj1 HM eq_refl). reflexivity. }
  destruct K as (n & ->). reflexivity.
Qed.
Print Assumptions C83_missing_mass_refuted.

(** C83.  A species without a pseudopotential file is refused with AttributeError - by every
    process, also in a serial run - when the data in front of it agree. *)
Theorem C83_needs_pseudopotential : forall s a la, d_atoms s = a :: la -> d_pp a = None ->
  snd (block s s) = Raises AttributeError.
Proof.
  intros s a la E P. unfold block.
  assert (K : exists n, run (check_system s) (contributed (check_system s)) = (n, Raises AttributeError)).
  { unfold check_system, check_crystal. rewrite E. rewrite <- !app_assoc.
    rewrite (contributed_app (check_lattice _ _)) by apply lattice_local. cbn [map concat].
    unfold check_basisatoms at 1. unfold check_basisatoms at 2. rewrite P.
    cbn [check_lattice app contributed].
    apply ends_step; [apply Nat.eqb_refl|apply allcloseb_iff, close_refl|]. apply ends_step; [reflexivity|apply within_self|].
    apply ends_step; [reflexivity|reflexivity|].
    apply ends_step; [reflexivity|now apply pass_str|]. apply ends_step; [reflexivity|now apply pass_int|].
    cbn [run]. eexists; reflexivity. }
  destruct K as (n & ->). reflexivity.
Qed.
Print Assumptions C83_needs_pseudopotential.

(** Non-vacuity: silicon-like data on two processes, equal up to rounding; and a copy with
    another cutoff, which is caught on its own process only. *)
Definition ex_gs : gspace_d := MkGspaceD [1; 0; 0; 0; 1; 0; 0; 0; 1] 25 (24, 24, 24)%Z false.
Definition ex_system (ecut : R) (x : R) : system_d :=
  let g := MkGspaceD [1; 0; 0; 0; 1; 0; 0; 0; 1] ecut (24, 24, 24)%Z false in
  MkSystemD [5; 5; 0; 5; 0; 5; 0; 5; 5] 10 [MkAtomsD "Si" 4 (Some ("Si.upf"%string, "d41d"%string)) None [0; x; 0; x; 0; x]]
    g g [0; 0; 0] [1] true true true.
Example C83_nonvacuous : locally_fine (ex_system 25 (1/4)) /\ same_system (ex_system 25 (1/4 + / 10 ^ 9)) (ex_system 25 (1/4))
  /\ ~ same_system (ex_system 30 (1/4)) (ex_system 25 (1/4)).
Proof.
  assert (E8 : / 10 ^ 9 < / 10 ^ 8) by (apply Rinv_lt_contravar; [apply Rmult_lt_0_compat; apply pow_lt; lra|apply Rlt_pow; [lra|lia]]).
  assert (P9 : 0 < / 10 ^ 9) by (apply Rinv_0_lt_compat, pow_lt; lra).
  assert (P5 : 0 < / 10 ^ 5) by (apply Rinv_0_lt_compat, pow_lt; lra).
  split; [|split].
  - split; [intros a [<-|[]]; discriminate|repeat split].
  - unfold same_system, ex_system. cbn [d_primvec d_alat d_atoms d_grho d_gwfn d_kcryst d_kweights].
    assert (Z : Rabs (10 - 10) <= / 10 ^ 8) by (rewrite Rminus_diag_eq, Rabs_R0 by reflexivity; lra).
    assert (Z' : Rabs (25 - 25) <= / 10 ^ 8) by (rewrite Rminus_diag_eq, Rabs_R0 by reflexivity; lra).
    assert (G : same_gspace (MkGspaceD [1; 0; 0; 0; 1; 0; 0; 0; 1] 25 (24, 24, 24)%Z false) (MkGspaceD [1; 0; 0; 0; 1; 0; 0; 0; 1] 25 (24, 24, 24)%Z false)).
    { split; [apply close_refl|]. cbn. repeat split. exact Z'. }
    split; [apply close_refl|]. split; [exact Z|]. split; [|split; [exact G|split; [exact G|split; apply close_refl]]].
    constructor; [|constructor]. unfold same_atoms. cbn [d_label d_valence d_pp d_mass d_rcryst]. do 4 (split; [reflexivity|]).
    assert (C0 : Rabs (0 - 0) <= / 10 ^ 8 + / 10 ^ 5 * Rabs 0) by (rewrite Rminus_diag_eq, Rabs_R0 by reflexivity; lra).
    assert (CX : Rabs (1 / 4 + / 10 ^ 9 - 1 / 4) <= / 10 ^ 8 + / 10 ^ 5 * Rabs (1 / 4)).
    { replace (1 / 4 + / 10 ^ 9 - 1 / 4) with (/ 10 ^ 9) by ring. rewrite !Rabs_pos_eq by lra. lra. }
    unfold close. do 6 (apply Forall2_cons; [assumption|]). apply Forall2_nil.
  - intros (_ & _ & _ & (_ & H & _) & _). cbn [d_ecut d_grho ex_system] in H. rewrite Rabs_pos_eq in H by lra.
    assert (/ 10 ^ 8 <= 1). { rewrite <- Rinv_1. apply Rinv_le_contravar; [lra|]. apply pow_R1_Rle. lra. } lra.
Qed.
