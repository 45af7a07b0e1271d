(** C115: the input checks called by themselves. *)
From Coq Require Import String.
From Verif Require Import Base CtxModel CheckModel CheckMoreModel PropsCheck.
From Coq Require Import Reals Lra.
Open Scope R_scope.

(** A process with steps [p] gets through when process 0 does the steps [q]. *)
Definition gets_through (p q : list step) : Prop := exists n, run p (contributed q) = (n, Done).
(** ... having entered exactly the collectives process 0 entered. *)
Definition in_step (p q : list step) : Prop := run p (contributed q) = (length (contributed q), Done).

Definition same_lattice (l r : lattice_d) : Prop :=
  close (ld_primvec l) (ld_primvec r) /\ (ld_class r <> PlainL -> Rabs (ld_unit l - ld_unit r) <= / 10 ^ 8).

Lemma dn_lattice l r p root : ld_class l = ld_class r ->
  dn (check_any_lattice l ++ p) (contributed (check_any_lattice r) ++ root) <-> same_lattice l r /\ dn p root.
Proof.
  intros E. unfold check_any_lattice, same_lattice. rewrite E. destruct (ld_class r); cbn [app contributed]; rewrite !dn_coll;
    rewrite <- (pass_buf (ld_primvec l)); rewrite ?pass_within; cbn [paired]; intuition congruence.
Qed.
Lemma lat_local l : local_ok (check_any_lattice l).
Proof.
  intros b e H. unfold check_any_lattice in H. destruct (ld_class l); cbn in H; repeat (destruct H as [H|H]; [discriminate|]); destruct H.
Qed.
Lemma dn_end : dn [] [].
Proof. now exists 0%nat. Qed.
Lemma lat_self l x c : In (Coll x c) (check_any_lattice l) -> passes c x x = true.
Proof.
  assert (B : forall a, allcloseb a a = true) by (intros a; apply allcloseb_iff, close_refl).
  assert (W : forall a, passes Within (ONum a) (ONum a) = true).
  { intros a. apply pass_within. rewrite Rminus_diag_eq, Rabs_R0 by reflexivity. left. apply Rinv_0_lt_compat, pow_lt. lra. }
  unfold check_any_lattice. destruct (ld_class l); cbn; intros H; repeat (destruct H as [H|H]; [injection H as <- <-; first [apply W|apply B]|]); destruct H.
Qed.
Lemma gsp_self g x c : In (Coll x c) (check_gspace g) -> passes c x x = true.
Proof.
  assert (B : forall a, allcloseb a a = true) by (intros a; apply allcloseb_iff, close_refl).
  assert (W : forall a, passes Within (ONum a) (ONum a) = true).
  { intros a. apply pass_within. rewrite Rminus_diag_eq, Rabs_R0 by reflexivity. left. apply Rinv_0_lt_compat, pow_lt. lra. }
  unfold check_gspace. destruct (d_grid g) as [[n1 n2] n3]. cbn.
  intros H; repeat (destruct H as [H|H]; [injection H as <- <-; first [apply W|apply B|apply Z.eqb_refl|apply Bool.eqb_reflx]|]); destruct H.
Qed.

(** Lattices of one class. *)
Theorem C115_lattice : forall l r, ld_class l = ld_class r ->
  (gets_through (check_any_lattice l) (check_any_lattice r) <-> same_lattice l r)
  /\ in_step (check_any_lattice r) (check_any_lattice r).
Proof.
  intros l r E. split.
  - pose proof (dn_lattice l r [] [] E) as H. rewrite !app_nil_r in H.
    change (dn (check_any_lattice l) (contributed (check_any_lattice r)) <-> same_lattice l r). rewrite H. pose proof dn_end. tauto.
  - apply run_self; [apply lat_local|apply lat_self].
Qed.
Print Assumptions C115_lattice.

(** The class of the lattice is not compared: a reciprocal lattice passes for a real one with the same numbers. *)
Theorem C115_lattice_class_refuted : forall P u,
  in_step (check_any_lattice (MkLatticeD ReciL P u)) (check_any_lattice (MkLatticeD RealL P u))
  /\ gets_through (check_any_lattice (MkLatticeD PlainL P u)) (check_any_lattice (MkLatticeD RealL P u))
  /\ run (check_any_lattice (MkLatticeD RealL P u)) (contributed (check_any_lattice (MkLatticeD PlainL P u))) = (2%nat, Waits).
Proof.
  intros P u. split; [|split].
  - exact (proj2 (C115_lattice (MkLatticeD RealL P u) (MkLatticeD RealL P u) eq_refl)).
  - change (dn (check_any_lattice (MkLatticeD PlainL P u)) (contributed (check_any_lattice (MkLatticeD RealL P u)))).
    unfold check_any_lattice. cbn. rewrite dn_coll. pose proof (proj2 (pass_buf P P) (close_refl P)) as [A B].
    split; [exact A|]. split; [exact B|]. now exists 0%nat.
  - unfold check_any_lattice. cbn [ld_class ld_primvec contributed run].
    destruct (proj2 (pass_buf P P) (close_refl P)) as [A B]. rewrite A, B. reflexivity.
Qed.
Print Assumptions C115_lattice_class_refuted.

(** Species: whatever flag a process passes, that of process 0 decides whether the lattices are compared. *)
Theorem C115_basisatoms : forall f g l a lr r, d_pp r <> None -> ld_class l = ld_class lr ->
  (gets_through (check_basisatoms_f f g l a) (check_basisatoms_f f f lr r)
   <-> same_atoms a r /\ (f = true -> same_lattice l lr))
  /\ in_step (check_basisatoms_f f f lr r) (check_basisatoms_f f f lr r).
Proof.
  intros f g l a lr r Hr E. split.
  - change (dn (check_basisatoms_f f g l a) (contributed (check_basisatoms_f f f lr r)) <-> same_atoms a r /\ (f = true -> same_lattice l lr)).
    (* compare with the run without lattices *)
    assert (K : forall p root, dn (check_basisatoms_f false g l a ++ p) (contributed (check_basisatoms_f false f lr r) ++ root) <-> same_atoms a r /\ dn p root).
    { intros p root. exact (dn_atoms a r p root Hr). }
    assert (K0 : dn (check_basisatoms_f false g l a) (contributed (check_basisatoms_f false f lr r)) <-> same_atoms a r).
    { specialize (K [] []). rewrite !app_nil_r in K. rewrite K. pose proof dn_end. tauto. }
    destruct f; [|rewrite K0; intuition congruence].
    set (tail x := [Coll (OInt (d_valence x)) Exact] ++
      (match d_pp x with None => [Local false AttributeError] | Some (file, md5) => [Coll (OStr file) Exact; Coll (OStr md5) Exact] end) ++
      (match d_mass x with None => [] | Some m => [Coll (ONum m) Exact] end) ++ [Coll (Buf (d_rcryst x)) AllClose]).
    assert (K1 : dn (check_basisatoms_f false g l a) (contributed (check_basisatoms_f false true lr r))
      <-> d_label a = d_label r /\ dn (tail a) (contributed (tail r))).
    { change (check_basisatoms_f false g l a) with (Coll (OFlag g) Take :: Coll (OStr (d_label a)) Exact :: tail a).
      change (check_basisatoms_f false true lr r) with (Coll (OFlag true) Take :: Coll (OStr (d_label r)) Exact :: tail r).
      cbn [contributed]. rewrite !dn_coll, pass_str. cbn [paired passes]. tauto. }
    change (check_basisatoms_f true g l a) with (Coll (OFlag g) Take :: Coll (OStr (d_label a)) Exact :: check_any_lattice l ++ tail a).
    change (check_basisatoms_f true true lr r) with (Coll (OFlag true) Take :: Coll (OStr (d_label r)) Exact :: check_any_lattice lr ++ tail r).
    cbn [contributed]. rewrite (contributed_app (check_any_lattice lr)) by apply lat_local.
    rewrite !dn_coll, pass_str. cbn [paired passes]. rewrite dn_lattice by exact E. rewrite <- K0, K1. tauto.
  - apply run_self.
    + intros b e H. unfold check_basisatoms_f in H. rewrite !in_app_iff in H.
      destruct H as [H|[H|[H|[H|[H|H]]]]].
      * cbn in H. repeat (destruct H as [H|H]; [discriminate|]); destruct H.
      * destruct f; [exact (lat_local lr b e H)|destruct H].
      * destruct H as [H|[]]; discriminate.
      * destruct (d_pp r) as [[x y]|]; [|congruence]. cbn in H. repeat (destruct H as [H|H]; [discriminate|]); destruct H.
      * destruct (d_mass r); cbn in H; repeat (destruct H as [H|H]; [discriminate|]); destruct H.
      * destruct H as [H|[]]; discriminate.
    + intros x c H. unfold check_basisatoms_f in H. rewrite !in_app_iff in H.
      destruct H as [H|[H|[H|[H|[H|H]]]]].
      * cbn in H. repeat (destruct H as [H|H]; [injection H as <- <-; first [reflexivity|apply pass_str; reflexivity]|]); destruct H.
      * destruct f; [exact (lat_self lr x c H)|destruct H].
      * destruct H as [H|[]]. injection H as <- <-. now apply pass_int.
      * destruct (d_pp r) as [[y z]|]; [|congruence]. cbn in H. repeat (destruct H as [H|H]; [injection H as <- <-; apply pass_str; reflexivity|]); destruct H.
      * destruct (d_mass r); cbn in H; repeat (destruct H as [H|H]; [injection H as <- <-; apply pass_num; reflexivity|]); destruct H.
      * destruct H as [H|[]]. injection H as <- <-. apply allcloseb_iff, close_refl.
Qed.
Print Assumptions C115_basisatoms.

(** G+k spaces: k exactly, the wavefunction sphere if process 0 asked for it. *)
Theorem C115_gkspace : forall f g s r,
  (gets_through (check_gkspace f g s) (check_gkspace f f r)
   <-> gk_k s = gk_k r /\ gk_dist s = gk_dist r /\ (f = true -> same_gspace (gk_gwfn s) (gk_gwfn r)))
  /\ in_step (check_gkspace f f r) (check_gkspace f f r).
Proof.
  intros f g s r. unfold check_gkspace. destruct (gk_k s) as [[k1 k2] k3], (gk_k r) as [[q1 q2] q3]. split.
  - match goal with |- gets_through ?p ?q <-> _ => change (dn p (contributed q) <-> (k1, k2, k3) = (q1, q2, q3) /\ gk_dist s = gk_dist r /\ (f = true -> same_gspace (gk_gwfn s) (gk_gwfn r))) end.
    assert (T : dn [Coll (ONum k1) Exact; Coll (ONum k2) Exact; Coll (ONum k3) Exact; Coll (OFlag (gk_dist s)) Exact]
                   [ONum q1; ONum q2; ONum q3; OFlag (gk_dist r)] <-> (k1, k2, k3) = (q1, q2, q3) /\ gk_dist s = gk_dist r).
    { rewrite !dn_coll, !pass_num, pass_flag. cbn [paired]. pose proof dn_end as D. split.
      - intros (_ & -> & _ & -> & _ & -> & _ & -> & _). auto.
      - intros [H ->]. injection H as -> -> ->. tauto. }
    destruct f.
    + cbn [app contributed]. rewrite (contributed_app (check_gspace _)) by apply gspace_local. cbn [contributed].
      rewrite dn_coll, dn_gspace, T. cbn [paired passes]. tauto.
    + cbn [app contributed]. rewrite dn_coll, T. cbn [paired passes]. intuition congruence.
  - assert (L : local_ok [Coll (ONum q1) Exact; Coll (ONum q2) Exact; Coll (ONum q3) Exact; Coll (OFlag (gk_dist r)) Exact]).
    { intros b e H. cbn in H. repeat (destruct H as [H|H]; [discriminate|]); destruct H. }
    apply run_self.
    + apply local_ok_app; [intros b e [H|[]]; discriminate|]. apply local_ok_app; [destruct f; [apply gspace_local|intros ? ? []]|exact L].
    + intros x c H. rewrite !in_app_iff in H. destruct H as [[H|[]]|[H|H]].
      * injection H as <- <-. reflexivity.
      * destruct f; [exact (gsp_self _ x c H)|destruct H].
      * cbn in H. repeat (destruct H as [H|H]; [injection H as <- <-; first [apply pass_num; reflexivity|apply pass_flag; reflexivity]|]); destruct H.
Qed.
Print Assumptions C115_gkspace.

Theorem C115_kpts : forall f g l k w lr kr wr, ld_class l = ld_class lr ->
  (gets_through (check_kpts_f f g l k w) (check_kpts_f f f lr kr wr)
   <-> close k kr /\ close w wr /\ (f = true -> same_lattice l lr))
  /\ in_step (check_kpts_f f f lr kr wr) (check_kpts_f f f lr kr wr).
Proof.
  intros f g l k w lr kr wr E. unfold check_kpts_f. split.
  - match goal with |- gets_through ?p ?q <-> ?r => change (dn p (contributed q) <-> r) end.
    assert (T : dn [Coll (Buf k) AllClose; Coll (Buf w) AllClose] [Buf kr; Buf wr] <-> close k kr /\ close w wr).
    { rewrite !dn_coll, <- (pass_buf k), <- (pass_buf w). pose proof dn_end. tauto. }
    destruct f.
    + cbn [app contributed]. rewrite (contributed_app (check_any_lattice _)) by apply lat_local. cbn [contributed].
      rewrite dn_coll, dn_lattice, T by exact E. cbn [paired passes]. tauto.
    + cbn [app contributed]. rewrite dn_coll, T. cbn [paired passes]. intuition congruence.
  - apply run_self.
    + apply local_ok_app; [intros b e [H|[]]; discriminate|]. apply local_ok_app; [destruct f; [apply lat_local|intros ? ? []]|].
      intros b e [H|[H|[]]]; discriminate.
    + intros x c H. rewrite !in_app_iff in H. destruct H as [[H|[]]|[H|H]].
      * injection H as <- <-. reflexivity.
      * destruct f; [exact (lat_self _ x c H)|destruct H].
      * destruct H as [H|[H|[]]]; injection H as <- <-; apply allcloseb_iff, close_refl.
Qed.
Print Assumptions C115_kpts.

(** The tolerance is not an equivalence: with root values near zero a relative change is refused, and the test
    is not symmetric (it is relative to the value of process 0). *)
Theorem C115_close_symmetric_refuted : exists x y : R,
  gets_through (check_kpts_f false false (MkLatticeD ReciL [] 1) [x] [1]) (check_kpts_f false false (MkLatticeD ReciL [] 1) [y] [1])
  /\ ~ gets_through (check_kpts_f false false (MkLatticeD ReciL [] 1) [y] [1]) (check_kpts_f false false (MkLatticeD ReciL [] 1) [x] [1]).
Proof.
  exists (1 - / 10 ^ 8 - / 10 ^ 5), 1. rewrite !(fun a b => proj1 (C115_kpts false false (MkLatticeD ReciL [] 1) a [1] (MkLatticeD ReciL [] 1) b [1] eq_refl)).
  assert (E8 : / 10 ^ 8 = 1 / 100000000) by lra. assert (E5 : / 10 ^ 5 = 1 / 100000) by lra.
  split.
  - split; [|split; [apply close_refl|discriminate]]. constructor; [|constructor].
    rewrite E8, E5. rewrite Rabs_R1. apply Rabs_le. lra.
  - intros (H & _). inversion H as [|? ? ? ? H1 _]; subst. revert H1. rewrite E8, E5. unfold Rabs. repeat destruct (Rcase_abs _); lra.
Qed.
Print Assumptions C115_close_symmetric_refuted.

(** Non-vacuity. *)
Definition ex_lat : lattice_d := MkLatticeD RealL [10; 0; 0; 0; 10; 0; 0; 0; 10] 10.
Definition ex_atoms : atoms_d := MkAtomsD "Si" 4 (Some ("Si.upf"%string, "abc"%string)) (Some 28) [0; 0; 0].
Example C115_example : d_pp ex_atoms <> None /\ same_atoms ex_atoms ex_atoms /\ same_lattice ex_lat ex_lat
  /\ ~ same_lattice (MkLatticeD RealL [10; 0; 0; 0; 10; 0; 0; 0; 10] 11) ex_lat.
Proof.
  split; [discriminate|]. split; [repeat split; apply close_refl|]. split.
  - split; [apply close_refl|]. intros _. cbn [ld_unit]. rewrite Rminus_diag_eq, Rabs_R0 by reflexivity. lra.
  - intros [_ H]. specialize (H ltac:(discriminate)). cbn in H. rewrite (Rabs_pos_eq (11 - 10)) in H by lra. lra.
Qed.
