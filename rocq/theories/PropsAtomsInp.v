(** C102: atoms given in any of the five units are put where the numbers say. *)
From Coq Require Import Reals Lra.
From Verif Require Import Base LatModel LatProofs CrystalModel IbravModel IbravSpec PropsIbrav AtomsInpModel AtomsInpSpec.
Import ListNotations.
Local Open Scope nat_scope.

Definition coords_of (a : pyarg) : list R := match a with Pt v => v | Num _ => [] end.
Lemma collect_pts k args : Forall (of_length k) args -> collect (as_pt k) args = Some (map coords_of args).
Proof.
  induction 1 as [|a args (v & -> & L) _ IH]; [reflexivity|]. cbn [collect as_pt map coords_of]. rewrite L, Nat.eqb_refl, IH. reflexivity.
Qed.
Lemma collect_pts_inv k args c : collect (as_pt k) args = Some c -> Forall (of_length k) args /\ c = map coords_of args.
Proof.
  revert c; induction args as [|a args IH]; intros c H; cbn [collect] in H; [injection H as <-; now split|].
  destruct a as [x|v]; cbn [as_pt] in H; [discriminate|]. destruct (Nat.eqb_spec (length v) k) as [E|]; [|discriminate].
  destruct (collect (as_pt k) args) as [bs|] eqn:C1; [|discriminate]. injection H as <-. destruct (IH bs eq_refl) as (F & ->).
  split; [|reflexivity]. constructor; [now exists v|assumption].
Qed.
Lemma np_pts k args : args <> [] -> Forall (of_length k) args -> np_array_T args = Ok (A2 k (map coords_of args)).
Proof.
  intros N F. destruct args as [|a args]; [easy|]. pose proof F as F0. apply Forall_cons_iff in F as ((v & -> & L) & _).
  cbn [np_array_T]. rewrite L. now rewrite (collect_pts k _ F0).
Qed.
Lemma np_inv args a : np_array_T args = Ok a ->
  (exists v, a = A1 v) \/ exists k, a = A2 k (map coords_of args) /\ args <> [] /\ Forall (of_length k) args.
Proof.
  destruct args as [|[x|v] args]; intros H; [left; eexists; now injection H as <-| |]; cbn [np_array_T] in H.
  - destruct (collect as_num _); [|discriminate]. left. eexists. now injection H as <-.
  - destruct (collect _ _) as [c|] eqn:C1; [|discriminate]. injection H as <-. right. apply collect_pts_inv in C1 as (F & ->).
    exists (length v). now repeat split.
Qed.
Lemma of_length_inj j k args : args <> [] -> Forall (of_length j) args -> Forall (of_length k) args -> j = k.
Proof.
  intros N F G. destruct args as [|a args]; [easy|]. apply Forall_cons_iff in F as ((v & -> & L) & _). apply Forall_cons_iff in G as ((w & E & L') & _).
  injection E as ->. congruence.
Qed.

Lemma mk_species_ok label pp m U r : (exists s, mk_species label pp m U r = Ok s) <-> pp_ok pp /\ mass_ok m.
Proof.
  unfold mk_species, pp_ok, mass_ok. split.
  - intros (s & H). destruct pp, m as [|x|]; cbn in H; try discriminate; (split; [discriminate|]); try (now left);
      destruct (Rlt_dec x 0); try discriminate; right; exists x; (split; [reflexivity|lra]).
  - intros (P & [-> |(x & -> & X)]); destruct pp; try easy; cbn; try (eexists; reflexivity);
      (destruct (Rlt_dec x 0); [lra|eexists; reflexivity]).
Qed.
Lemma mk_species_fields label pp m U r s : mk_species label pp m U r = Ok s ->
  sp_label s = label /\ sp_mass s = m /\ sp_lat s = U /\ sp_r s = r /\
  sp_valence s = match pp with PPFile v | PPInt v => v | _ => (-1)%Z end /\ (forall r', exists s', mk_species label pp m U r' = Ok s').
Proof.
  intros H. assert (G : pp_ok pp /\ mass_ok m) by (apply (mk_species_ok label pp m U r); now exists s).
  unfold mk_species in H.
  destruct pp; cbn in H; try discriminate; destruct m as [|x|]; cbn in H; try discriminate; try (destruct (Rlt_dec x 0); [discriminate|]);
    injection H as <-; repeat split; intros r'; now apply mk_species_ok.
Qed.
Lemma mk_species_err label pp m U r e : mk_species label pp m U r = Err e -> e = TypeError /\ ~ (pp_ok pp /\ mass_ok m).
Proof.
  intros H. split.
  - unfold mk_species in H. destruct pp; cbn in H; try (now injection H); destruct m as [|x|]; cbn in H; try discriminate; try (now injection H);
    (destruct (Rlt_dec x 0); [now injection H|discriminate]).
  - intros G. apply (mk_species_ok label pp m U r) in G as (s & E). congruence.
Qed.
Lemma init_ok label pp m U k c : pp_ok pp -> mass_ok m -> k = 3 ->
  exists s, init_atoms label pp m U (A2 k c) = Ok s /\ mk_species label pp m U (map to_rvec c) = Ok s.
Proof.
  intros P M ->. unfold init_atoms. destruct (proj2 (mk_species_ok label pp m U []) (conj P M)) as (s0 & ->). cbn [bind Nat.eqb].
  destruct (proj2 (mk_species_ok label pp m U (map to_rvec c)) (conj P M)) as (s & ->). now exists s.
Qed.
Lemma init_inv label pp m U a s : init_atoms label pp m U a = Ok s -> pp_ok pp /\ mass_ok m /\ exists c, a = A2 3 c /\ mk_species label pp m U (map to_rvec c) = Ok s.
Proof.
  unfold init_atoms. intros H. destruct (mk_species label pp m U []) as [s0|] eqn:E; [|discriminate]. cbn [bind] in H.
  assert (G : pp_ok pp /\ mass_ok m) by (apply (mk_species_ok label pp m U []); now exists s0). destruct G as (P & M).
  split; [exact P|]. split; [exact M|]. destruct a as [v|k c]; [discriminate|]. destruct (Nat.eqb_spec k 3) as [-> |]; [|discriminate]. now exists c.
Qed.
Lemma init_err label pp m U a e : init_atoms label pp m U a = Err e -> e = TypeError /\ ~ (pp_ok pp /\ mass_ok m) \/ e = ValueError.
Proof.
  unfold init_atoms. intros H. destruct (mk_species label pp m U []) as [s0|e0] eqn:E.
  - cbn [bind] in H. destruct a as [v|k c]; [right; now injection H|]. destruct (k =? 3); [|right; now injection H].
    left. now apply (mk_species_err label pp m U (map to_rvec c)).
  - cbn [bind] in H. injection H as <-. left. now apply (mk_species_err label pp m U []).
Qed.
Lemma to_of v : to_rvec (of_rvec v) = v.
Proof. now destruct v. Qed.
(** The array handed to the constructor. *)
Definition to_cryst (f : form) (U : ulattice) (k : nat) (l : list R) : rvec :=
  match f with
  | FCart | FBohr => cart2cryst (u_lat U) (broadcast3 k l)
  | FAngstrom => cart2cryst (u_lat U) (broadcast3 k (map (Rmult ANGSTROM) l))
  | FAlat => vscale (u_unit U) (cart2cryst (u_lat U) (broadcast3 k l))
  | FCryst => to_rvec l
  end.
Definition good_len (f : form) (k : nat) : Prop := k = 3 \/ f <> FCryst /\ k = 1.
Lemma build_pts f label pp m U k args : pp_ok pp -> mass_ok m -> args <> [] -> Forall (of_length k) args -> good_len f k ->
  exists s, build f label pp m U args = Ok s /\ mk_species label pp m U (map (fun a => to_cryst f U k (coords_of a)) args) = Ok s.
Proof.
  intros P M N F G. pose proof (np_pts k args N F) as NP.
  assert (KK : f <> FCryst -> (k =? 1) || (k =? 3) = true).
  { intros _. destruct G as [-> |(_ & ->)]; reflexivity. }
  destruct f; unfold build, atoms_from_bohr, atoms_from_cart, atoms_from_angstrom, atoms_from_alat, atoms_from_cryst; rewrite NP; cbn [bind arr_cart2cryst arr_scale].
  1,2: rewrite KK by discriminate; cbn [bind]; destruct (init_ok label pp m U 3 (map (fun l => of_rvec (cart2cryst (u_lat U) (broadcast3 k l))) (map coords_of args)) P M eq_refl) as (s & E & E');
       exists s; (split; [exact E|]); rewrite <- E', !map_map; reflexivity.
  - rewrite KK by discriminate; cbn [bind]. destruct (init_ok label pp m U 3 (map (fun l => of_rvec (cart2cryst (u_lat U) (broadcast3 k l))) (map (map (Rmult ANGSTROM)) (map coords_of args))) P M eq_refl) as (s & E & E').
    exists s. split; [exact E|]. rewrite <- E', !map_map. reflexivity.
  - rewrite KK by discriminate; cbn [bind arr_scale].
    destruct (init_ok label pp m U 3 (map (map (Rmult (u_unit U))) (map (fun l => of_rvec (cart2cryst (u_lat U) (broadcast3 k l))) (map coords_of args))) P M eq_refl) as (s & E & E').
    exists s. split; [exact E|]. rewrite <- E', !map_map. f_equal.
  - destruct G as [-> |(B & _)]; [|easy]. destruct (init_ok label pp m U 3 (map coords_of args) P M eq_refl) as (s & E & E').
    exists s. split; [exact E|]. rewrite <- E', !map_map. f_equal.
Qed.
Lemma conv_A1 L v b : arr_cart2cryst L (A1 v) = Ok b -> exists w, b = A1 w.
Proof. cbn [arr_cart2cryst]. destruct (_ || _); [|discriminate]. intros H. injection H as <-. eexists; reflexivity. Qed.
Lemma conv_A2 L k c b : arr_cart2cryst L (A2 k c) = Ok b -> k = 3 \/ k = 1.
Proof. cbn [arr_cart2cryst]. destruct (Nat.eqb_spec k 1); [now right|]. destruct (Nat.eqb_spec k 3); [now left|discriminate]. Qed.
Lemma build_inv f label pp m U args s : build f label pp m U args = Ok s ->
  pp_ok pp /\ mass_ok m /\ args <> [] /\ exists k, Forall (of_length k) args /\ good_len f k.
Proof.
  intros H.
  assert (G : pp_ok pp /\ mass_ok m).
  { destruct f; unfold build, atoms_from_bohr, atoms_from_cart, atoms_from_angstrom, atoms_from_alat, atoms_from_cryst in H;
      (destruct (np_array_T args) as [a|]; [|discriminate]); cbn [bind] in H;
      try (destruct (arr_cart2cryst _ _) as [b|]; [|discriminate]; cbn [bind] in H); apply init_inv in H; tauto. }
  split; [apply G|]. split; [apply G|].
  destruct f; unfold build, atoms_from_bohr, atoms_from_cart, atoms_from_angstrom, atoms_from_alat, atoms_from_cryst in H;
    (destruct (np_array_T args) as [a|] eqn:NP; [|discriminate]); cbn [bind] in H; apply np_inv in NP as [(v & ->)|(k & -> & N & F)]; cbn [arr_scale] in H.
  all: try (destruct (arr_cart2cryst _ _) as [b|] eqn:CV; [|discriminate]; cbn [bind] in H; apply init_inv in H as (_ & _ & c & E & _); apply conv_A1 in CV as (w & ->); discriminate).
  all: try (destruct (arr_cart2cryst _ _) as [b|] eqn:CV; [|discriminate]; apply conv_A2 in CV; split; [exact N|]; exists k; split; [exact F|]; destruct CV as [-> | ->]; [now left|now right]).
  - apply init_inv in H as (_ & _ & c & E & _). discriminate.
  - apply init_inv in H as (_ & _ & c & E & _). injection E as -> _. split; [exact N|]. exists 3. split; [exact F|now left].
Qed.
Lemma mk_u unit_ P U : mk_ulattice unit_ P = Ok U -> u_unit U = unit_ /\ mk_lattice P = Ok (u_lat U).
Proof. unfold mk_ulattice. destruct (mk_lattice P) as [L|]; [|discriminate]. intros H. injection H as <-. now split. Qed.
Lemma cryst_place f alat P U (x y z : R) : mk_ulattice alat P = Ok U ->
  cryst2cart (u_lat U) (to_cryst f U 3 [x; y; z]) = place f alat (c1 P) (c2 P) (c3 P) x y z.
Proof.
  intros H. apply mk_u in H as (HU & HL). pose proof (cryst_cart_inverse P (u_lat U)) as I.
  destruct f; cbn [to_cryst place map]; unfold broadcast3; cbn [Nat.eqb]; unfold to_rvec; cbn [nth].
  - apply I, HL.
  - apply I, HL.
  - rewrite <- ANGSTROM_bohr. apply I, HL.
  - rewrite HU. unfold cryst2cart in *. rewrite mv_vscale. now rewrite (proj2 (I (V x y z) HL)).
  - unfold cryst2cart. rewrite (proj1 (proj2 (mk_lattice_ok P (u_lat U) HL))) . reflexivity.
Qed.

(** Given as triples, in any of the five forms, the atoms are accepted, keep their number and order and
    are where the numbers say. *)
Theorem C102_positions : forall f alat P U label pp m (pts : list (R * R * R)),
  mk_ulattice alat P = Ok U -> alat <> 0%R -> pp_ok pp -> mass_ok m -> pts <> [] ->
  exists s, build f label pp m U (map triple pts) = Ok s
  /\ r_cart s = map (fun p => place f alat (c1 P) (c2 P) (c3 P) (fst (fst p)) (snd (fst p)) (snd p)) pts
  /\ map (vscale alat) (r_alat s) = r_cart s
  /\ sp_label s = label /\ sp_mass s = m /\ numatoms s = Z.of_nat (length pts).
Proof.
  intros f alat P U label pp m pts HU HA HP HM N.
  assert (F : Forall (of_length 3) (map triple pts)).
  { apply Forall_map, Forall_forall. intros p _. eexists. split; reflexivity. }
  destruct (build_pts f label pp m U 3 (map triple pts) HP HM) as (s & E & E'); [destruct pts; [easy|discriminate]|exact F|now left|].
  exists s. split; [exact E|]. apply mk_species_fields in E' as (L1 & L2 & L3 & L4 & _ & _).
  assert (RC : r_cart s = map (fun p => place f alat (c1 P) (c2 P) (c3 P) (fst (fst p)) (snd (fst p)) (snd p)) pts).
  { unfold r_cart. rewrite L3, L4, !map_map. apply map_ext. intros ((x & y) & z). now apply cryst_place. }
  split; [exact RC|]. split; [|split; [exact L1|split; [exact L2|unfold numatoms; now rewrite L4, !map_length]]].
  unfold r_alat, r_cart. rewrite map_map. apply map_ext. intros v. rewrite L3. unfold cryst2unit. rewrite (proj1 (mk_u _ _ _ HU)), vscale_vscale, Rinv_r, vscale_1 by exact HA. reflexivity.
Qed.
Print Assumptions C102_positions.

(** Exactly which arguments are accepted: a usable pseudopotential and mass, at least one position, and
    three coordinates for each, or, except for crystal coordinates, one coordinate for each. *)
Theorem C102_accepted : forall f label pp m U args,
  (exists s, build f label pp m U args = Ok s)
  <-> pp_ok pp /\ mass_ok m /\ args <> [] /\ (Forall (of_length 3) args \/ f <> FCryst /\ Forall (of_length 1) args).
Proof.
  intros f label pp m U args. split.
  - intros (s & H). apply build_inv in H as (HP & HM & N & k & F & [-> |(B & ->)]); split; auto.
  - intros (HP & HM & N & [F|(B & F)]).
    + destruct (build_pts f label pp m U 3 args HP HM N F) as (s & E & _); [now left|now exists s].
    + destruct (build_pts f label pp m U 1 args HP HM N F) as (s & E & _); [now right|now exists s].
Qed.
Print Assumptions C102_accepted.

(** The single coordinate is not refused but silently used for all three axes. *)
Theorem C102_one_coordinate_refuted : forall f alat P U label pp m (xs : list R),
  mk_ulattice alat P = Ok U -> pp_ok pp -> mass_ok m -> xs <> [] -> f <> FCryst ->
  exists s, build f label pp m U (map (fun x => Pt [x]) xs) = Ok s
  /\ r_cart s = map (fun x => place f alat (c1 P) (c2 P) (c3 P) x x x) xs.
Proof.
  intros f alat P U label pp m xs HU HP HM N B.
  assert (F : Forall (of_length 1) (map (fun x => Pt [x]) xs)).
  { apply Forall_map, Forall_forall. intros p _. eexists. split; reflexivity. }
  assert (N' : map (fun x => Pt [x]) xs <> []) by (destruct xs; [easy|discriminate]).
  destruct (build_pts f label pp m U 1 _ HP HM N' F (or_intror (conj B eq_refl))) as (s & E & E').
  exists s. split; [exact E|]. apply mk_species_fields in E' as (_ & _ & L3 & L4 & _ & _).
  unfold r_cart. rewrite L3, L4, !map_map. apply map_ext. intros x. rewrite <- (cryst_place f alat P U x x x HU). f_equal. destruct f; try reflexivity. easy.
Qed.
Print Assumptions C102_one_coordinate_refuted.

(** Refusals: TypeError exactly for a bad pseudopotential or mass once the positions form an array that
    can be converted, ValueError otherwise. *)
Theorem C102_refusals : forall f label pp m U args e, build f label pp m U args = Err e ->
  e = TypeError /\ ~ (pp_ok pp /\ mass_ok m) \/ e = ValueError.
Proof.
  intros f label pp m U args e H.
  destruct f; unfold build, atoms_from_bohr, atoms_from_cart, atoms_from_angstrom, atoms_from_alat, atoms_from_cryst in H.
  all: destruct (np_array_T args) as [a|e0] eqn:NP; cbn [bind] in H.
  all: try (right; injection H as <-; destruct args as [|[x|v] args]; cbn [np_array_T] in NP; [discriminate| |];
            destruct (collect _ _); [discriminate|now injection NP|discriminate|now injection NP]).
  all: try (destruct (arr_cart2cryst _ _) as [b|e1] eqn:CV; cbn [bind] in H;
            [|right; injection H as <-; destruct a; cbn [arr_cart2cryst arr_scale] in CV; destruct (_ || _); [discriminate|now injection CV|discriminate|now injection CV]]).
  all: now apply init_err in H.
Qed.
Print Assumptions C102_refusals.

(** The number of valence electrons: the given number, that of the file, or -1 without either. *)
Theorem C102_valence : forall f label pp m U args s, build f label pp m U args = Ok s ->
  sp_valence s = match pp with PPFile v | PPInt v => v | _ => (-1)%Z end.
Proof.
  intros f label pp m U args s H. pose proof H as H0. apply build_inv in H0 as (HP & HM & N & k & F & G).
  destruct (build_pts f label pp m U k args HP HM N F G) as (s' & E & E'). rewrite E in H. injection H as <-. now apply mk_species_fields in E'.
Qed.
Print Assumptions C102_valence.

(** Two silicon atoms in a cubic cell of side 10: in alat units and in crystal coordinates they agree. *)
Example C102_instance : exists U s s',
  mk_ulattice 10 (Mat (V 10 0 0) (V 0 10 0) (V 0 0 10)) = Ok U
  /\ build FAlat 0 (PPInt 4) (MFloat 28) U (map triple [(0, 0, 0); (/ 4, / 4, / 2)]%R) = Ok s
  /\ build FCryst 0 (PPInt 4) (MFloat 28) U (map triple [(0, 0, 0); (/ 4, / 4, / 2)]%R) = Ok s' /\ r_cart s = r_cart s'.
Proof.
  assert (MD : mk_ulattice 10 (Mat (V 10 0 0) (V 0 10 0) (V 0 0 10)) = Ok (MkULattice 10 (MkLattice (Mat (V 10 0 0) (V 0 10 0) (V 0 0 10)) (minv (Mat (V 10 0 0) (V 0 10 0) (V 0 0 10)))
     (mmul (mtrans (Mat (V 10 0 0) (V 0 10 0) (V 0 0 10))) (Mat (V 10 0 0) (V 0 10 0) (V 0 0 10))) (Rabs (mdet (Mat (V 10 0 0) (V 0 10 0) (V 0 0 10))))))).
  { unfold mk_ulattice, mk_lattice. destruct (Req_EM_T _ 0) as [Z0|]; [|reflexivity]. exfalso. unfold mdet, vdot, vcross in Z0. cbn [c1 c2 c3 vx vy vz] in Z0. nra. }
  assert (MM : mass_ok (MFloat 28)) by (right; exists 28%R; split; [reflexivity|lra]).
  assert (TEN : 10%R <> 0%R) by lra.
  destruct (C102_positions FAlat _ _ _ 0 (PPInt 4) (MFloat 28) [(0, 0, 0); (/ 4, / 4, / 2)]%R MD TEN ltac:(discriminate) MM ltac:(discriminate)) as (s & E & RC & _).
  destruct (C102_positions FCryst _ _ _ 0 (PPInt 4) (MFloat 28) [(0, 0, 0); (/ 4, / 4, / 2)]%R MD TEN ltac:(discriminate) MM ltac:(discriminate)) as (s' & E' & RC' & _).
  eexists. exists s, s'. split; [exact MD|]. split; [exact E|]. split; [exact E'|]. rewrite RC, RC'. cbn. repeat (f_equal; try lra).
Qed.
