(** C74: from a pw.x input to a calculation set-up. *)
From Coq Require Import Reals Ascii String Lra.
From Verif Require Import Base LatModel LatProofs GSphereModel CrystalModel KPtsModel IbravModel IbravSpec IbravProofs QeInpModel QeInpSpec QeInpProofs UpfModel PropsQeInp PropsUpf ParseInpModel.
Local Open Scope nat_scope.

(** ---- vocabulary ---- *)
(** The positions given for a label, in file order. *)
Definition rows_of (lb : text) (i : pwin) : list rvec :=
  map (fun r => fst (snd r)) (filter (fun r => teqb (fst r) lb) (p_pos i)).
(** The length unit named by the option of ATOMIC_POSITIONS. *)
Definition length_unit (opt : text) (alat f : R) : Prop :=
  (opt = T "alat" /\ f = alat) \/ (opt = T "bohr" /\ f = 1%R) \/ (opt = T "angstrom" /\ f = ANGSTROM).
(** The valence charge of the pseudopotential of a label. *)
Definition zval (upf : text -> option pseudo) (sp : list (text * (R * text))) (lb : text) : R :=
  match assoc lb sp with Some (_, f) => match upf f with Some p => pp_z p | None => 0%R end | None => 0%R end.

(** ---- lemmas ---- *)
Lemma guard_ok b e u : guard b e = Ok u -> b = true.
Proof. destruct b; [easy|discriminate]. Qed.
Lemma one_of_in t l : one_of t l = true <-> In t l.
Proof.
  unfold one_of. rewrite existsb_exists. split.
  - intros (x & H & E). apply teqb_eq in E. now subst.
  - intros H. exists t. split; [exact H|apply teqb_refl].
Qed.
Lemma rle_true x y : rle x y = true <-> (x <= y)%R.
Proof. unfold rle. destruct (Rle_dec x y); split; easy. Qed.
Lemma rlt_true x y : rlt x y = true <-> (x < y)%R.
Proof. unfold rlt. destruct (Rlt_dec x y); split; easy. Qed.
Lemma rle_false x y : rle x y = false <-> (y < x)%R.
Proof. unfold rle. destruct (Rle_dec x y); split; try easy; intros; lra. Qed.
Lemma rlt_false x y : rlt x y = false <-> (y <= x)%R.
Proof. unfold rlt. destruct (Rlt_dec x y); split; try easy; intros; lra. Qed.

Lemma upd_fresh {A} k (v : A) l : ~ In k (map fst l) -> upd k v l = l ++ [(k, v)].
Proof.
  induction l as [|[a b] l IH]; [easy|]. cbn [map upd fst app]. intros H. destruct (teqb a k) eqn:E; [apply teqb_eq in E; subst; exfalso; apply H; now left|].
  rewrite IH; [easy|]. intros X. apply H. now right.
Qed.
Lemma upd_keys {A} k (v : A) l : In k (map fst l) -> map fst (upd k v l) = map fst l.
Proof.
  induction l as [|[a b] l IH]; [easy|]. cbn [map upd fst]. intros H. destruct (teqb a k) eqn:E; [easy|]. cbn [map fst]. f_equal. apply IH.
  destruct H as [H|H]; [|exact H]. apply teqb_neq in E. easy.
Qed.
Lemma add_all_species upf sp : forall d d', foldm (add_species upf) d sp = Ok d' -> NoDup (map fst d ++ map fst sp) ->
  exists e, d' = d ++ e /\ Forall2 (fun row x => fst x = fst row /\ fst (fst (snd x)) = fst (snd row) /\ upf (snd (snd row)) = Some (snd (fst (snd x))) /\ snd (snd x) = []) sp e.
Proof.
  induction sp as [|row sp IH]; cbn [foldm map]; intros d d' H N.
  - injection H as <-. exists []. rewrite app_nil_r. now split.
  - apply bind_ok in H as (d1 & H1 & H). unfold add_species in H1. destruct (upf (snd (snd row))) as [pp|] eqn:U; [|discriminate]. injection H1 as <-.
    assert (F : ~ In (fst row) (map fst d)).
    { intros X. apply NoDup_remove_2 in N. apply N. apply in_or_app. now left. }
    rewrite (upd_fresh _ _ _ F) in H. apply IH in H.
    + destruct H as (e & -> & HF). eexists ((fst row, (fst (snd row), pp, [])) :: e). rewrite <- app_assoc. split; [easy|]. constructor; [|exact HF]. cbn. now rewrite U.
    + rewrite map_app. cbn [map fst]. rewrite <- app_assoc. exact N.
Qed.
(** Atoms are appended to their species. *)
Lemma upd_map {A} (f : A -> A) k (v : A) l : NoDup (map fst l) -> assoc k l = Some v ->
  upd k (f v) l = map (fun e => if teqb (fst e) k then (fst e, f (snd e)) else e) l.
Proof.
  induction l as [|[a b] l IH]; [easy|]. cbn [map fst snd upd assoc]. rewrite NoDup_cons_iff. intros [N D] H.
  destruct (teqb a k) eqn:E.
  - injection H as ->. f_equal. apply teqb_eq in E. subst a. rewrite <- (map_id l) at 1. apply map_ext_in. intros [x y] Hx. cbn [fst snd].
    destruct (teqb x k) eqn:E'; [|easy]. apply teqb_eq in E'. subst. exfalso. apply N. now apply (in_map fst) in Hx.
  - f_equal. now apply IH.
Qed.
Definition with_rows (f : text -> list (rvec * nat)) (e : text * (R * pseudo * list (rvec * nat))) : text * (R * pseudo * list (rvec * nat)) :=
  (fst e, (fst (fst (snd e)), snd (fst (snd e)), snd (snd e) ++ f (fst e))).
Definition raw_rows (pos : list (text * (rvec * nat))) (lb : text) := map snd (filter (fun r => teqb (fst r) lb) pos).
Lemma teqb_sym a b : teqb a b = teqb b a.
Proof. destruct (teqb a b) eqn:E; symmetry; [apply teqb_eq in E; now apply teqb_eq|apply teqb_neq in E; apply teqb_neq; congruence]. Qed.
Lemma add_all_atoms pos : forall d d', NoDup (map fst d) -> foldm add_atom d pos = Ok d' ->
  d' = map (with_rows (raw_rows pos)) d /\ forall row, In row pos -> In (fst row) (map fst d).
Proof.
  induction pos as [|row pos IH]; cbn [foldm]; intros d d' N H.
  - injection H as <-. split; [|easy]. rewrite <- (map_id d) at 1. apply map_ext. intros [lb [[m pp] l]]. unfold with_rows, raw_rows. cbn. now rewrite app_nil_r.
  - apply bind_ok in H as (d1 & H1 & H). unfold add_atom in H1. destruct (assoc (fst row) d) as [[[m pp] l]|] eqn:E; [|discriminate]. injection H1 as <-.
    pose proof (upd_map (fun v => (fst (fst v), snd (fst v), snd v ++ [snd row])) _ _ _ N E) as U. cbn [fst snd] in U. rewrite U in H. clear U.
    assert (K : map fst (map (fun e : text * (R * pseudo * list (rvec * nat)) => if teqb (fst e) (fst row) then (fst e, (fst (fst (snd e)), snd (fst (snd e)), snd (snd e) ++ [snd row])) else e) d) = map fst d).
    { rewrite map_map. apply map_ext. intros [x y]. cbn. now destruct (teqb x (fst row)). }
    apply IH in H; [|now rewrite K]. destruct H as [-> HI]. rewrite K in HI. split.
    + rewrite map_map. apply map_ext. intros [x [[mm p] y]]. unfold with_rows, raw_rows. cbn [fst snd filter map]. rewrite (teqb_sym (fst row) x). destruct (teqb x (fst row)); cbn [fst snd map]; [|easy].
      now rewrite <- app_assoc.
    + intros r [<-|Hr]; [|now apply HI]. apply assoc_in in E. now apply (in_map fst) in E.
Qed.
Lemma sequence_forall2 {A B} (f : A -> res B) l r : sequence (map f l) = Ok r -> Forall2 (fun a b => f a = Ok b) l r.
Proof.
  revert r. induction l as [|a l IH]; cbn [map sequence]; intros r H.
  - injection H as <-. constructor.
  - apply bind_ok in H as (b & H1 & H). apply bind_ok in H as (t & H2 & H). injection H as <-. constructor; auto.
Qed.
Lemma make_lattice_ok i U d : make_lattice i = Ok (U, d) ->
  exists P, parse_lattice (p_lat i) = Ok (Vectors (u_unit U) P, d) /\ primvec (u_lat U) = P /\ d 1%Z = Some (u_unit U) /\ mdet P <> 0%R /\ primvec_inv (u_lat U) = minv P.
Proof.
  unfold make_lattice. intros H. apply bind_ok in H as ([o dd] & H1 & H). cbn [fst snd] in H. destruct o as [alat P| |]; try discriminate.
  apply bind_ok in H as (U' & H2 & H). injection H as <- <-. unfold mk_ulattice, mk_lattice in H2. destruct (Req_EM_T (mdet P) 0) as [|D]; [discriminate|]. cbn [rmap] in H2. injection H2 as <-.
  cbn [u_unit u_lat primvec]. exists P. split; [exact H1|]. split; [easy|]. split; [|now split].
  unfold parse_lattice in H1. destruct (li_ibrav (p_lat i) =? 0)%Z.
  - destruct (li_card (p_lat i)) as [[opt [[r1 r2] r3]]|]; [|discriminate]. apply bind_ok in H1 as (r & H1 & H). injection H as <- <- <-. unfold fill, dset. now rewrite Z.eqb_refl.
  - destruct (ibrav_list (li_ibrav (p_lat i))); [|discriminate]. apply bind_ok in H1 as (x & H1 & H). apply bind_ok in H as (r & H2 & H). injection H as -> <-.
    unfold dget in H1. unfold ibrav2latvec in H2. apply bind_ok in H2 as (a & H2 & H3). unfold dget in H2.
    destruct (li_celldm (p_lat i) 1%Z) eqn:E; [|discriminate]. injection H2 as <-. destruct (ibrav_list (li_ibrav (p_lat i))) as [g|]; [|discriminate].
    destruct (g (li_celldm (p_lat i))) as [[[[v1 v2] v3]|]|] eqn:E3; [injection H3 as <- <-; unfold fill; now rewrite E|discriminate|].
    exfalso. unfold handler in H3. repeat (apply bind_ok in H3 as (? & _ & H3)). discriminate.
Qed.
Lemma parse_steps upf mesh i s : parse_inp upf mesh i = Ok s ->
  exists d d', check_control i = Ok tt /\ make_lattice i = Ok (s_lattice s, s_celldm s) /\ (0 < p_ecutwfc i)%R /\
    foldm (add_species upf) [] (p_species i) = Ok d /\ foldm add_atom d (p_pos i) = Ok d' /\
    sequence (map (make_atoms (p_pos_option i) (s_celldm s) (s_lattice s)) d') = Ok (s_atoms s) /\
    choose_dft i (s_atoms s) = Ok (s_dft s) /\ p_noncolin i = false /\
    s_numel s = count_el (s_atoms s) /\ electrons i (s_numel s) = Ok (s_nbnd s, s_smearing s) /\ magnetization i = Ok (s_mag s) /\
    check_electrons i = Ok tt /\ kpoints mesh i = Ok (s_kpts s) /\ s_ecutrho s = (4 * p_ecutwfc i)%R /\ s_grid s = make_grid i (s_lattice s).
Proof.
  unfold parse_inp. intros H. apply bind_ok in H as ([] & H1 & H). apply bind_ok in H as ([U cd] & H2 & H). cbn [fst snd] in H.
  apply bind_ok in H as (u & H3 & H). apply guard_ok in H3. apply negb_true_iff, rle_false in H3.
  apply bind_ok in H as (d & H4 & H). apply bind_ok in H as (d' & H5 & H). apply bind_ok in H as (l & H6 & H). apply bind_ok in H as (xc & H7 & H).
  apply bind_ok in H as (u' & H8 & H). apply guard_ok, negb_true_iff in H8. apply bind_ok in H as ([b sm] & H9 & H). apply bind_ok in H as (m & H10 & H).
  apply bind_ok in H as ([] & H11 & H). apply bind_ok in H as (k & H12 & H). injection H as <-. cbn. exists d, d'. repeat split; auto.
Qed.
Lemma to_cryst_ok opt cd U rows r : to_cryst opt cd U rows = Ok r -> cd 1%Z = Some (u_unit U) -> mdet (primvec (u_lat U)) <> 0%R -> primvec_inv (u_lat U) = minv (primvec (u_lat U)) ->
  rows <> [] /\ (forall x, In x rows -> snd x = 0) /\ length r = length rows /\
  ((opt = T "crystal" /\ r = map fst rows) \/ exists f, length_unit opt (u_unit U) f /\ map (cryst2cart (u_lat U)) r = map (vscale f) (map fst rows)).
Proof.
  intros H C D I. assert (P : forall b : bool, plain rows = true -> rows <> [] /\ (forall x, In x rows -> snd x = 0)).
  { intros _ Hp. unfold plain in Hp. destruct rows as [|x t]; [discriminate|]. split; [easy|]. rewrite forallb_forall in Hp. intros y Hy. now apply Nat.eqb_eq, Hp. }
  assert (CC : forall f l, map (cryst2cart (u_lat U)) (map (fun r0 : rvec * nat => cart2cryst (u_lat U) (vscale f (fst r0))) l) = map (vscale f) (map fst l)).
  { intros f l. rewrite !map_map. apply map_ext. intros x. unfold cryst2cart, cart2cryst. rewrite I, <- mv_mmul, minv_r by exact D. apply mv_mid. }
  unfold to_cryst in H. destruct (teqb opt (T "crystal")) eqn:E.
  - apply teqb_eq in E. destruct (uniform rows); [|discriminate]. destruct (plain rows) eqn:Hp; [|discriminate]. injection H as <-. destruct (P true eq_refl) as [P1 P2]. split; [exact P1|]. split; [exact P2|]. split; [apply map_length|]. now left.
  - destruct (one_of opt [T "alat"; T "bohr"; T "angstrom"]) eqn:O; [|discriminate]. apply one_of_in in O. apply bind_ok in H as (f & Hf & H).
    destruct (uniform rows); [|discriminate]. destruct (plain rows) eqn:Hp; [|destruct rows; discriminate]. injection H as <-. destruct (P true eq_refl) as [P1 P2].
    split; [exact P1|]. split; [exact P2|]. split; [apply map_length|]. right. exists f. split; [|apply CC].
    unfold length_unit. destruct O as [<-|[<-|[<-|[]]]]; cbn [teqb] in Hf.
    + left. split; [easy|]. change (teqb (T "alat") (T "alat")) with true in Hf. unfold dget in Hf. rewrite C in Hf. now injection Hf.
    + right. left. change (teqb (T "bohr") (T "alat")) with false in Hf. change (teqb (T "bohr") (T "angstrom")) with false in Hf. now injection Hf.
    + right. right. change (teqb (T "angstrom") (T "alat")) with false in Hf. change (teqb (T "angstrom") (T "angstrom")) with true in Hf. now injection Hf.
Qed.
Lemma rsum_zval upf sp (l : list atoms) pos : NoDup (map fst sp) ->
  Forall2 (fun row a => a_label a = fst row /\ upf (snd (snd row)) = Some (a_pp a) /\ length (a_r a) = length (filter (fun r : text * (rvec * nat) => teqb (fst r) (fst row)) pos)) sp l ->
  (forall row, In row pos -> In (fst row) (map fst sp)) -> count_el l = rsum (map (fun row => zval upf sp (fst row)) pos).
Proof.
  intros N F I. assert (E : count_el l = rsum (map (fun row => INR (length (filter (fun r : text * (rvec * nat) => teqb (fst r) (fst row)) pos)) * zval upf sp (fst row))%R sp)).
  { unfold count_el. assert (G : forall l z, fold_left (fun n a => n + INR (length (a_r a)) * pp_z (a_pp a))%R l z = (z + rsum (map (fun a => INR (length (a_r a)) * pp_z (a_pp a)) l))%R).
    { intros l0. induction l0 as [|a l0 IH]; intros z; cbn [fold_left map rsum fold_right]; [lra|]. rewrite IH. unfold rsum. lra. }
    rewrite G, Rplus_0_l. unfold zval. 
    assert (X : forall sp0 : list (text * (R * text)), (forall x, In x sp0 -> assoc (fst x) sp = Some (snd x)) -> Forall2 (fun row a => a_label a = fst row /\ upf (snd (snd row)) = Some (a_pp a) /\ length (a_r a) = length (filter (fun r : text * (rvec * nat) => teqb (fst r) (fst row)) pos)) sp0 l ->
       rsum (map (fun a => (INR (length (a_r a)) * pp_z (a_pp a))%R) l) = rsum (map (fun row => (INR (length (filter (fun r : text * (rvec * nat) => teqb (fst r) (fst row)) pos)) * match assoc (fst row) sp with Some (_, f) => match upf f with Some p => pp_z p | None => 0 end | None => 0 end)%R) sp0)).
    { clear F. intros sp0 HA F. induction F as [|row a sp0 l0 (E1 & E2 & E3) _ IH]; [easy|]. cbn [map rsum fold_right]. unfold rsum in IH. rewrite IH by (intros x Hx; apply HA; now right).
      rewrite (HA row) by now left. destruct row as [lb [m f]]. cbn [fst snd] in *. rewrite E2, E3. reflexivity. }
    apply X; [|exact F]. intros [lb v] Hx. cbn [fst snd]. now apply assoc_nodup. }
  rewrite E. clear E F. induction pos as [|x pos IH].
  - cbn [filter length map rsum fold_right]. induction sp as [|r sp IHs]; [easy|]. cbn [map rsum fold_right]. 
    replace (fold_right Rplus 0%R (map (fun row => (INR 0 * zval upf (r :: sp) (fst row))%R) sp)) with 0%R; [cbn; lra|].
    clear. generalize (r :: sp). intros q. induction sp as [|a sp IH]; [easy|]. cbn [map fold_right]. rewrite <- IH. cbn. lra.
  - cbn [map rsum fold_right]. unfold rsum in IH. rewrite <- IH by (intros r Hr; apply I; now right).
    assert (J : In (fst x) (map fst sp)) by (apply I; now left). clear I IH. generalize (zval upf sp) as g. intros g.
    induction sp as [|row sp IHs]; [easy|]. cbn [map] in J, N. apply NoDup_cons_iff in N as [N1 N2]. cbn [map rsum fold_right filter].
    destruct (teqb (fst x) (fst row)) eqn:E.
    + apply teqb_eq in E. cbn [length]. rewrite S_INR, E.
      replace (fold_right Rplus 0%R (map (fun row0 => (INR (length (if teqb (fst row) (fst row0) then x :: filter (fun r => teqb (fst r) (fst row0)) pos else filter (fun r => teqb (fst r) (fst row0)) pos)) * g (fst row0))%R) sp))
        with (fold_right Rplus 0%R (map (fun row0 => (INR (length (filter (fun r => teqb (fst r) (fst row0)) pos)) * g (fst row0))%R) sp)); [lra|].
      f_equal. apply map_ext_in. intros r Hr. destruct (teqb (fst row) (fst r)) eqn:E'; [|easy]. apply teqb_eq in E'. exfalso. apply N1. rewrite E'. now apply in_map.
    + destruct J as [J|J]; [apply teqb_neq in E; now symmetry in J|]. specialize (IHs N2 J). unfold rsum in IHs. cbn [filter] in IHs. rewrite IHs. lra.
Qed.

(** C74, atoms: every species of the card, with its mass, pseudopotential and exactly the atoms listed under its
    label, in file order, at the positions the input states; the electron count is the sum over the atoms. *)
Theorem C74_atoms : forall upf mesh i s, parse_inp upf mesh i = Ok s -> NoDup (map fst (p_species i)) ->
  Forall2 (fun row a =>
      a_label a = fst row /\ a_mass a = fst (snd row) /\ (0 <= a_mass a)%R /\ upf (snd (snd row)) = Some (a_pp a) /\ a_r a <> [] /\
      ((p_pos_option i = T "crystal" /\ a_r a = rows_of (fst row) i) \/
       exists f, length_unit (p_pos_option i) (u_unit (s_lattice s)) f /\ map (cryst2cart (u_lat (s_lattice s))) (a_r a) = map (vscale f) (rows_of (fst row) i)))
    (p_species i) (s_atoms s) /\
  (forall row, In row (p_pos i) -> In (fst row) (map fst (p_species i))) /\
  s_numel s = rsum (map (fun row => zval upf (p_species i) (fst row)) (p_pos i)).
Proof.
  intros upf mesh i s H N. apply parse_steps in H as (d & d' & _ & H2 & _ & H4 & H5 & H6 & _ & _ & H9 & _).
  apply make_lattice_ok in H2 as (P & _ & HP & C & D & I). subst P.
  apply add_all_species in H4; [|exact N]. destruct H4 as (e & -> & F). cbn [app] in *.
  assert (K : map fst e = map fst (p_species i)) by (clear - F; induction F as [|r x l l' (E & _) _ IH]; [easy|]; cbn [map]; now rewrite E, IH).
  apply add_all_atoms in H5; [|now rewrite K]. destruct H5 as [-> HI]. rewrite K in HI.
  apply sequence_forall2 in H6.
  assert (G : Forall2 (fun row a => a_label a = fst row /\ a_mass a = fst (snd row) /\ (0 <= a_mass a)%R /\ upf (snd (snd row)) = Some (a_pp a) /\ length (a_r a) = length (filter (fun r : text * (rvec * nat) => teqb (fst r) (fst row)) (p_pos i)) /\ a_r a <> [] /\
      ((p_pos_option i = T "crystal" /\ a_r a = rows_of (fst row) i) \/
       exists f, length_unit (p_pos_option i) (u_unit (s_lattice s)) f /\ map (cryst2cart (u_lat (s_lattice s))) (a_r a) = map (vscale f) (rows_of (fst row) i))) (p_species i) (s_atoms s)).
  { revert H6. generalize (s_atoms s). clear - F C D I. induction F as [|row x sp e (E1 & E2 & E3 & E4) F IH]; cbn [map]; intros l H; inversion H as [|y a ? l' HA HB]; subst; constructor; auto. clear IH F HB H.
    destruct x as [lb [[m pp] rows]]. cbn [fst snd] in *. subst. unfold with_rows, make_atoms in HA. cbn [fst snd] in HA. apply bind_ok in HA as (r & HR & HA). apply bind_ok in HA as (u & HM & HA). injection HA as <-. cbn [a_label a_mass a_pp a_r].
    apply guard_ok, negb_true_iff, rlt_false in HM. apply to_cryst_ok in HR as (R1 & _ & R3 & R4); auto. cbn [app] in R1, R3, R4.
    split; [easy|]. split; [easy|]. split; [exact HM|]. split; [exact E3|].
    split; [unfold raw_rows in R3; now rewrite map_length in R3|]. split; [destruct r; [destruct (raw_rows (p_pos i) (fst row)); easy|easy]|].
    unfold rows_of. unfold raw_rows in R4. rewrite map_map in R4. exact R4. }
  split; [|split; [exact HI|]].
  - clear - G. induction G as [|row a l l' (A & B & B' & C & D & D' & E) _ IH]; constructor; auto 10.
  - rewrite H9. apply rsum_zval; [exact N| |exact HI]. clear - G. induction G as [|row a l l' (A & B & B' & C & D & D' & E) _ IH]; constructor; auto.
Qed.
Print Assumptions C74_atoms.

(** C74, cell and grids: the lattice is the one the input's ibrav / CELL_PARAMETERS states (C41), the density
    cutoff is four times the wave-function cutoff, and a complete nr1, nr2, nr3 is taken as is. *)
Theorem C74_cell_and_cutoffs : forall upf mesh i s, parse_inp upf mesh i = Ok s ->
  parse_lattice (p_lat i) = Ok (Vectors (u_unit (s_lattice s)) (primvec (u_lat (s_lattice s))), s_celldm s) /\
  (0 < p_ecutwfc i)%R /\ s_ecutrho s = (4 * p_ecutwfc i)%R /\
  (forall n1 n2 n3, p_nr i = (Some n1, Some n2, Some n3) -> s_grid s = (n1, n2, n3)) /\
  ((forall n1 n2 n3, p_nr i <> (Some n1, Some n2, Some n3)) -> s_grid s = gen_grid_shape (primvec (u_lat (s_lattice s))) (p_ecutwfc i / 2)).
Proof.
  intros upf mesh i s H. apply parse_steps in H as (d & d' & _ & H2 & H3 & _ & _ & _ & _ & _ & _ & _ & _ & _ & _ & HE & HG).
  apply make_lattice_ok in H2 as (P & HL & <- & _). split; [exact HL|]. split; [exact H3|]. split; [exact HE|]. rewrite HG. unfold make_grid. split.
  - intros n1 n2 n3 ->. reflexivity.
  - intros Hn. replace (p_ecutwfc i * rydberg)%R with (p_ecutwfc i / 2)%R by (unfold rydberg; lra). destruct (p_nr i) as [[[n1|] [n2|]] [n3|]]; try reflexivity. exfalso. now apply (Hn n1 n2 n3).
Qed.
Print Assumptions C74_cell_and_cutoffs.

Lemma half_spec x : (2 * IZR (half x) <= x < 2 * IZR (half x) + 2)%R.
Proof. unfold half. pose proof (rfloor_spec (x / 2)). lra. Qed.
(** C74, bands: the bands hold the electrons.  With fixed occupations and one spin channel they hold exactly them
    (to 1e-5); with smearing the requested number is kept and is sufficient, or at least three spare bands are added. *)
Theorem C74_bands : forall upf mesh i s, parse_inp upf mesh i = Ok s ->
  (p_occupations i = T "fixed" \/ p_occupations i = T "smearing") /\
  (p_occupations i = T "fixed" -> p_nspin i <> 2%Z /\ (2 * IZR (s_nbnd s) <= s_numel s)%R /\
     (p_nspin i = 1%Z -> (s_numel s <= 2 * IZR (s_nbnd s) + / 100000)%R)) /\
  (p_occupations i = T "smearing" -> (/ 100000 < p_degauss i)%R /\
     (forall n, p_nbnd i = Some n -> s_nbnd s = n /\ (s_numel s <= 2 * IZR n)%R) /\
     (p_nbnd i = None -> (s_numel s / 2 + 3 < IZR (s_nbnd s))%R /\ (IZR (s_nbnd s) <= Rmax (6 / 10 * s_numel s) (s_numel s / 2 + 4))%R)).
Proof.
  intros upf mesh i s H. apply parse_steps in H as (d & d' & _ & _ & _ & _ & _ & _ & _ & _ & _ & H & _).
  unfold electrons in H. apply bind_ok in H as (u & HO & H). apply guard_ok, one_of_in in HO.
  destruct HO as [HO|[HO|[]]]; rewrite <- HO in *.
  - split; [now left|]. split; [intros _|intros X; discriminate]. rewrite teqb_refl in H. apply bind_ok in H as (u1 & H1 & H). apply bind_ok in H as (u2 & H2 & H). apply guard_ok, negb_true_iff in H1, H2. injection H as <- _.
    apply Z.eqb_neq in H1. split; [exact H1|]. pose proof (half_spec (s_numel s)) as HH. split; [lra|]. intros E. rewrite E in H2. cbn [Z.eqb Pos.eqb andb] in H2.
    apply rlt_false in H2. unfold rem2, EPS5 in H2. rewrite Rabs_right in H2; lra.
  - split; [now right|]. split; [intros X; discriminate|intros _]. change (teqb (T "smearing") (T "fixed")) with false in H. cbn iota in H.
    apply bind_ok in H as (nm & _ & H). apply bind_ok in H as (u1 & H1 & H). apply guard_ok, negb_true_iff, rle_false in H1. split; [exact H1|].
    destruct (p_nbnd i) as [n|].
    + apply bind_ok in H as (u2 & H2 & H). apply guard_ok, negb_true_iff, rlt_false in H2. injection H as <- _. split; [|discriminate]. intros n0 [= ->]. now split.
    + injection H as <- _. split; [discriminate|]. intros _. set (x := Rmax _ _). pose proof (rfloor_spec x) as HR.
      assert (M : (s_numel s / 2 + 4 <= x)%R) by apply Rmax_r. split; [lra|]. replace (6 / 10 * s_numel s)%R with (12 / 10 * (s_numel s / 2))%R by lra. exact (proj1 HR).
Qed.
Print Assumptions C74_bands.

(** C74, smearing: the method is recognised by QE's names and passed on under one name per method. *)
Theorem C74_smearing : forall upf mesh i s, parse_inp upf mesh i = Ok s -> p_occupations i = T "smearing" ->
  exists m, In (m, s_smearing s) [(["gaussian"; "gauss"], T "gauss"); (["methfessel-paxton"; "m-p"; "mp"], T "mp");
       (["marzari-vanderbilt"; "cold"; "m-v"; "mv"], T "mv"); (["fermi-dirac"; "f-d"; "fd"], T "fd")]%string /\ In (p_smearing i) (map T m).
Proof.
  intros upf mesh i s H HO. apply parse_steps in H as (d & d' & _ & _ & _ & _ & _ & _ & _ & _ & _ & H & _).
  unfold electrons in H. rewrite HO in H. apply bind_ok in H as (u & _ & H). change (teqb (T "smearing") (T "fixed")) with false in H. cbn iota in H.
  apply bind_ok in H as (nm & HN & H). apply bind_ok in H as (u1 & _ & H).
  assert (E : s_smearing s = nm) by (destruct (p_nbnd i); [apply bind_ok in H as (? & _ & H)|]; congruence). rewrite E. clear E H.
  unfold smearing_name in HN. destruct (one_of (p_smearing i) [T "gaussian"; T "gauss"]) eqn:E1.
  { injection HN as <-. apply one_of_in in E1. eexists. split; [now left|exact E1]. }
  destruct (one_of (p_smearing i) [T "methfessel-paxton"; T "m-p"; T "mp"]) eqn:E2.
  { injection HN as <-. apply one_of_in in E2. eexists. split; [right; now left|exact E2]. }
  destruct (one_of (p_smearing i) [T "marzari-vanderbilt"; T "cold"; T "m-v"; T "mv"]) eqn:E3.
  { injection HN as <-. apply one_of_in in E3. eexists. split; [right; right; now left|exact E3]. }
  destruct (one_of (p_smearing i) [T "fermi-dirac"; T "f-d"; T "fd"]) eqn:E4; [|discriminate].
  injection HN as <-. apply one_of_in in E4. eexists. split; [right; right; right; now left|exact E4].
Qed.
Print Assumptions C74_smearing.

Lemma zassoc_zupd k k' v l : zassoc k (zupd k' v l) = if (k' =? k)%Z then Some v else zassoc k l.
Proof.
  induction l as [|[a b] l IH]; cbn [zupd zassoc]; [easy|]. destruct (Z.eqb_spec a k'); cbn [zassoc].
  - subst. now destruct (k' =? k)%Z.
  - rewrite IH. destruct (Z.eqb_spec a k); [|easy]. destruct (Z.eqb_spec k' k); [lia|easy].
Qed.
Lemma clip_range x : clip x = Rmax (-1) (Rmin 1 x).
Proof. unfold clip. destruct (Rlt_dec x (-1)); [rewrite Rmin_right, Rmax_left by lra; easy|]. destruct (Rlt_dec 1 x); [rewrite Rmin_left, Rmax_right by lra; easy|]. rewrite Rmin_right, Rmax_right by lra; easy. Qed.
(** C74, magnetisation: in spin-polarised runs every species has one, the requested value limited to [-1, 1],
    0 when none was given; requests for species that do not exist are refused. *)
Theorem C74_magnetization : forall upf mesh i s, parse_inp upf mesh i = Ok s ->
  (p_nspin i <> 2%Z -> s_mag s = p_mag i) /\
  (p_nspin i = 2%Z -> p_mag i <> [] /\ (forall k x, In (k, x) (p_mag i) -> 1 <= k <= Z.of_nat (length (p_species i)))%Z /\
     forall k, (1 <= k <= Z.of_nat (length (p_species i)))%Z ->
       zassoc k (s_mag s) = Some (Rmax (-1) (Rmin 1 (match zassoc k (p_mag i) with Some x => x | None => 0 end)))).
Proof.
  intros upf mesh i s H. apply parse_steps in H as (d & d' & _ & _ & _ & _ & _ & _ & _ & _ & _ & _ & H & HC & _).
  assert (P : p_startingpot i = T "atomic").
  { unfold check_electrons in HC. repeat (apply bind_ok in HC as (? & ? & HC)). match goal with X : guard (one_of (p_startingpot i) _) _ = _ |- _ => apply guard_ok, one_of_in in X; destruct X as [X|[]]; now symmetry end. }
  unfold magnetization in H. rewrite P, teqb_refl, andb_true_r in H. destruct (Z.eqb_spec (p_nspin i) 2) as [E|E].
  - split; [easy|]. intros _. apply bind_ok in H as (u & H1 & H). apply bind_ok in H as (u' & H2 & H). apply guard_ok in H1, H2. injection H as <-.
    split; [intros X; rewrite X in H1; discriminate|]. split.
    + intros k x Hk. rewrite forallb_forall in H2. apply H2 in Hk. cbn [fst] in Hk. lia.
    + set (n := length (p_species i)). clear H2 H1. assert (G : forall ks l k, NoDup ks -> zassoc k (fold_left set_mag ks l) = if existsb (Z.eqb k) ks then Some (clip (match zassoc k l with Some x => x | None => 0%R end)) else zassoc k l).
      { induction ks as [|a ks IH]; intros l k N; cbn [fold_left existsb]; [easy|]. apply NoDup_cons_iff in N as [N1 N2]. rewrite IH by exact N2. unfold set_mag at 1 2. rewrite zassoc_zupd.
        destruct (Z.eqb_spec k a) as [->|Hka]; [rewrite Z.eqb_refl; cbn [orb]|destruct (Z.eqb_spec a k); [congruence|]; reflexivity].
        assert (X : existsb (Z.eqb a) ks = false). { destruct (existsb (Z.eqb a) ks) eqn:X; [|easy]. apply existsb_exists in X as (y & Hy & X). apply Z.eqb_eq in X. now subst. } now rewrite X. }
      intros k Hk. rewrite G.
      * assert (X : existsb (Z.eqb k) (map (fun k => (Z.of_nat k + 1)%Z) (seq 0 n)) = true).
        { apply existsb_exists. exists k. split; [|apply Z.eqb_refl]. apply in_map_iff. exists (Z.to_nat (k - 1)). split; [lia|]. apply in_seq. lia. }
        rewrite X. now rewrite clip_range.
      * apply FinFun.Injective_map_NoDup; [intros x y; lia|apply seq_NoDup].
  - split; [|easy]. intros _. now injection H.
Qed.
Print Assumptions C74_magnetization.

(** C74, k-points: only "automatic" is ever accepted; its six integers are the mesh and the shifts handed to
    gen_monkhorst_pack_grid, with symmetry and time reversal unless nosym / noinv. *)
Theorem C74_automatic_kpoints : forall upf mesh i s lead ws ns rest n1 n2 n3 s1 s2 s3, parse_inp upf mesh i = Ok s ->
  p_k_rows i = row_text lead ws :: rest -> row_ok lead ws -> Forall2 (fun w n => exists sg ds, int_ok ds /\ fst w = int_text sg ds /\ n = signed sg (denotes ds)) ws ns ->
  ns = [n1; n2; n3; s1; s2; s3] ->
  p_k_option i = T "automatic" /\ (0 < n1 /\ 0 < n2 /\ 0 < n3)%Z /\
  let shape := [n1; n2; n3] in let shifts := map (fun z => negb (z =? 0)%Z) [s1; s2; s3] in
  gen_monkhorst_pack_grid shape shifts (if p_nosym i then None else Some (mesh shape shifts (negb (p_noinv i)))) (negb (p_noinv i)) = Ok (s_kpts s).
Proof.
  intros upf mesh i s lead ws ns rest n1 n2 n3 s1 s2 s3 H HR HW HF HN. apply parse_steps in H as (d & d' & _ & _ & _ & _ & _ & _ & _ & _ & _ & _ & _ & _ & H & _).
  unfold kpoints in H. apply bind_ok in H as (u & HO & H). apply guard_ok, one_of_in in HO. destruct (teqb (p_k_option i) (T "automatic")) eqn:E; [|apply bind_ok in H as (? & _ & H); discriminate].
  split; [now apply teqb_eq|]. rewrite HR in H. rewrite words_row in H by exact HW. apply bind_ok in H as (u' & _ & H).
  assert (X : map py_int (map fst ws) = map Ok ns).
  { clear - HF. induction HF as [|[w sp] n ws ns (sg & ds & A & B & ->) _ IH]; [easy|]. cbn [fst] in B. subst w. cbn [map fst]. rewrite py_int_text by exact A. now rewrite IH. }
  subst ns. apply bind_ok in H as (sh & H1 & H). rewrite <- firstn_map, X in H1. cbn in H1. injection H1 as <-. apply bind_ok in H as (sf & H2 & H).
  rewrite <- (map_map py_int (rmap (fun z => negb (z =? 0)%Z))), <- skipn_map, X in H2. cbn in H2. injection H2 as <-.
  assert (POS : (0 < n1 /\ 0 < n2 /\ 0 < n3)%Z).
  { unfold gen_monkhorst_pack_grid in H. destruct (forallb (fun n => (0 <? n)%Z) [n1; n2; n3]) eqn:P; [|discriminate]. cbn [forallb] in P. lia. }
  split; [exact POS|]. cbn zeta. cbn [map]. destruct (p_nosym i); exact H.
Qed.
Print Assumptions C74_automatic_kpoints.

(** REFUTED: the two other documented K_POINTS options.  No input with an explicit list is ever accepted. *)
Theorem C74_explicit_kpoints_refuted : forall upf mesh i s, parse_inp upf mesh i = Ok s -> p_k_option i = T "automatic".
Proof.
  intros upf mesh i s H. apply parse_steps in H as (d & d' & _ & _ & _ & _ & _ & _ & _ & _ & _ & _ & _ & _ & H & _).
  unfold kpoints in H. apply bind_ok in H as (u & _ & H). destruct (teqb (p_k_option i) (T "automatic")) eqn:E; [now apply teqb_eq|]. apply bind_ok in H as (? & _ & H). discriminate.
Qed.
Print Assumptions C74_explicit_kpoints_refuted.
(** REFUTED: input_dft overrides the functional.  It is never accepted. *)
Theorem C74_input_dft_refuted : forall upf mesh i s, parse_inp upf mesh i = Ok s -> p_species i <> [] -> NoDup (map fst (p_species i)) -> p_input_dft i = None.
Proof.
  intros upf mesh i s H HS N. pose proof (C74_atoms _ _ _ _ H N) as (F & _). apply parse_steps in H as (d & d' & _ & _ & _ & _ & _ & _ & H & _).
  unfold choose_dft in H. apply bind_ok in H as (fs & _ & H). destruct (p_input_dft i) as [f|]; [|easy]. apply bind_ok in H as (p & _ & H).
  destruct (s_atoms s); [|discriminate]. inversion F as [E0|]. now symmetry in E0.
Qed.
Print Assumptions C74_input_dft_refuted.
(** REFUTED: invalid output settings fall back to the default (as the warning says): they raise AttributeError. *)
Theorem C74_fallback_refuted : forall upf mesh i, In (p_calculation i) [T "scf"; T "nscf"; T "bands"] -> p_verbosity i <> T "high" -> p_verbosity i <> T "low" ->
  parse_inp upf mesh i = Err AttributeError.
Proof.
  intros upf mesh i HC V1 V2. unfold parse_inp, check_control. apply one_of_in in HC. rewrite HC. cbn [guard bind].
  destruct (one_of (p_verbosity i) [T "high"; T "low"]) eqn:E; [|reflexivity]. apply one_of_in in E as [E|[E|[]]]; now symmetry in E.
Qed.
Print Assumptions C74_fallback_refuted.
(** REFUTED: a stated number of bands is used (or refused).  With fixed occupations it is silently replaced. *)
Theorem C74_nbnd_ignored_refuted : forall upf mesh i s, parse_inp upf mesh i = Ok s -> p_occupations i = T "fixed" ->
  forall n, exists s', parse_inp upf mesh (MkIn (p_calculation i) (p_verbosity i) (p_restart i) (p_iprint i) (p_max_seconds i) (p_dir_exists i) (p_lat i) (p_ecutwfc i) (p_ecutrho i) (p_nr i)
     (p_species i) (p_pos_option i) (p_pos i) (p_input_dft i) (p_noncolin i) (p_occupations i) (p_nspin i) n (p_smearing i) (p_degauss i) (p_mag i) (p_maxstep i) (p_conv_thr i) (p_mixing_mode i) (p_mixing_beta i)
     (p_mixing_ndim i) (p_diag i) (p_david_ndim i) (p_thr_init i) (p_startingpot i) (p_startingwfc i) (p_k_option i) (p_k_rows i) (p_nosym i) (p_noinv i)) = Ok s' /\ s_nbnd s' = s_nbnd s.
Proof.
  intros upf mesh i s H HO n. exists s. split; [|easy]. rewrite <- H. unfold parse_inp, check_control, make_lattice, make_grid, choose_dft, electrons, magnetization, check_electrons, kpoints. cbn. rewrite HO.
  change (teqb (T "fixed") (T "fixed")) with true. reflexivity.
Qed.
Print Assumptions C74_nbnd_ignored_refuted.
(** REFUTED: positions may carry QE's if_pos flags, and a species may be listed without atoms. *)
Theorem C74_if_pos_refuted : forall upf mesh i s, parse_inp upf mesh i = Ok s -> NoDup (map fst (p_species i)) ->
  (forall row, In row (p_pos i) -> snd (snd row) = 0) /\ (forall sp, In sp (p_species i) -> exists row, In row (p_pos i) /\ fst row = fst sp).
Proof.
  intros upf mesh i s H N. apply parse_steps in H as (d & d' & _ & H2 & _ & H4 & H5 & H6 & _).
  apply make_lattice_ok in H2 as (P & _ & HP & C & D & I). subst P.
  apply add_all_species in H4; [|exact N]. destruct H4 as (e & -> & F). cbn [app] in *.
  assert (K : map fst e = map fst (p_species i)) by (clear - F; induction F as [|r x l l' (E & _) _ IH]; [easy|]; cbn [map]; now rewrite E, IH).
  apply add_all_atoms in H5; [|now rewrite K]. destruct H5 as [-> HI]. rewrite K in HI. apply sequence_forall2 in H6.
  assert (G : forall sp, In sp (p_species i) -> raw_rows (p_pos i) (fst sp) <> [] /\ forall x, In x (raw_rows (p_pos i) (fst sp)) -> snd x = 0).
  { revert H6. generalize (s_atoms s). clear - F C D I. induction F as [|row x sp e (E1 & E2 & E3 & E4) F IH]; cbn [map]; intros l H q Hq; [easy|]. inversion H as [|y a ? l' HA HB]. subst. destruct Hq as [->|Hq]; [|now apply (IH l')].
    destruct x as [lb [[m pp] rows]]. cbn [fst snd] in *. subst. unfold with_rows, make_atoms in HA. cbn [fst snd] in HA. apply bind_ok in HA as (r & HR & HA). apply to_cryst_ok in HR as (R1 & R2 & _); auto. }
  split.
  - intros row Hr. destruct (proj1 (in_map_iff _ _ _) (HI row Hr)) as (sp & E & Hs). apply (G sp Hs). unfold raw_rows. apply in_map, filter_In. split; [exact Hr|]. rewrite E. apply teqb_refl.
  - intros sp Hs. destruct (G sp Hs) as [NE _]. unfold raw_rows in NE. destruct (filter (fun r => teqb (fst r) (fst sp)) (p_pos i)) as [|r t] eqn:E; [now elim NE|].
    assert (X : In r (filter (fun r => teqb (fst r) (fst sp)) (p_pos i))) by (rewrite E; now left). apply filter_In in X as [X1 X2]. exists r. split; [exact X1|now apply teqb_eq].
Qed.
Print Assumptions C74_if_pos_refuted.

(** ---- inputs that are accepted ---- *)
Record acceptable (upf : text -> option pseudo) (i : pwin) (a : R) (P : mat) (cd : dict) : Prop := {
  acc_calc : In (p_calculation i) [T "scf"; T "nscf"; T "bands"];
  acc_verb : In (p_verbosity i) [T "high"; T "low"];
  acc_restart : In (p_restart i) [T "from_scratch"; T "restart"];
  acc_iprint : (0 < p_iprint i)%Z; acc_seconds : (0 < p_max_seconds i)%R; acc_dir : p_dir_exists i = true;
  acc_lattice : parse_lattice (p_lat i) = Ok (Vectors a P, cd); acc_cell : mdet P <> 0%R;
  acc_ecut : (0 < p_ecutwfc i)%R;
  acc_species : p_species i <> []; acc_labels : NoDup (map fst (p_species i));
  acc_mass : forall r, In r (p_species i) -> (0 <= fst (snd r))%R;
  acc_pp : forall r, In r (p_species i) -> exists pp, upf (snd (snd r)) = Some pp /\ lower (pp_functional pp) = T "pbe";
  acc_opt : In (p_pos_option i) [T "crystal"; T "alat"; T "bohr"; T "angstrom"];
  acc_pos : forall r, In r (p_pos i) -> In (fst r) (map fst (p_species i)) /\ snd (snd r) = 0;
  acc_used : forall sp, In sp (p_species i) -> exists r, In r (p_pos i) /\ fst r = fst sp;
  acc_dft : p_input_dft i = None; acc_colin : p_noncolin i = false;
  acc_occ : let n := rsum (map (fun row => zval upf (p_species i) (fst row)) (p_pos i)) in
    (p_occupations i = T "fixed" /\ p_nspin i = 1%Z /\ exists k, n = (2 * IZR k)%R) \/
    (p_occupations i = T "smearing" /\ (/ 100000 < p_degauss i)%R /\ (forall b, p_nbnd i = Some b -> (n <= 2 * IZR b)%R) /\
     In (p_smearing i) (map T ["gaussian"; "gauss"; "methfessel-paxton"; "m-p"; "mp"; "marzari-vanderbilt"; "cold"; "m-v"; "mv"; "fermi-dirac"; "f-d"; "fd"]%string));
  acc_mag : p_nspin i = 2%Z -> p_mag i <> [] /\ (forall k x, In (k, x) (p_mag i) -> 1 <= k <= Z.of_nat (length (p_species i)))%Z;
  acc_steps : (0 < p_maxstep i)%Z; acc_conv : (0 < p_conv_thr i)%R; acc_mode : p_mixing_mode i = T "plain";
  acc_beta : (0 <= p_mixing_beta i <= 1)%R; acc_ndim : (0 <= p_mixing_ndim i)%Z; acc_diag : p_diag i = T "david";
  acc_david : (0 <= p_david_ndim i)%Z; acc_thr : (0 < p_thr_init i)%R; acc_pot : p_startingpot i = T "atomic"; acc_wfc : p_startingwfc i = T "random";
  acc_kopt : p_k_option i = T "automatic";
  acc_k : exists row t n1 n2 n3 b1 b2 b3, p_k_rows i = row :: t /\ map py_int (words row) = map Ok [n1; n2; n3; b1; b2; b3] /\ (0 < n1 /\ 0 < n2 /\ 0 < n3)%Z }.

Lemma add_species_ok upf sp : (forall r, In r sp -> exists pp, upf (snd (snd r)) = Some pp) -> forall d, exists d', foldm (add_species upf) d sp = Ok d'.
Proof.
  induction sp as [|r sp IH]; intros H d; [now exists d|]. cbn [foldm]. unfold add_species at 1. destruct (H r (or_introl eq_refl)) as (pp & ->). cbn [bind]. apply IH. intros x Hx. apply H. now right.
Qed.
Lemma add_atoms_ok pos : forall d, (forall r, In r pos -> In (fst r) (map fst d)) -> exists d', foldm add_atom d pos = Ok d'.
Proof.
  induction pos as [|r pos IH]; intros d H; [now exists d|]. cbn [foldm]. unfold add_atom at 1.
  assert (I : In (fst r) (map fst d)) by (apply H; now left).
  assert (X : exists v, assoc (fst r) d = Some v).
  { clear - I. induction d as [|[a b] d IH]; [easy|]. cbn [assoc map fst] in *. destruct (teqb a (fst r)) eqn:E; [now exists b|]. destruct I as [I|I]; [apply teqb_neq in E; easy|auto]. }
  destruct X as ([[m pp] l] & ->). cbn [bind]. apply IH. intros x Hx. rewrite upd_keys by exact I. apply H. now right.
Qed.
Lemma sequence_all {A B} (f : A -> res B) l : (forall x, In x l -> exists y, f x = Ok y) -> exists r, sequence (map f l) = Ok r.
Proof.
  induction l as [|x l IH]; intros H; [now exists []|]. cbn [map sequence]. destruct (H x (or_introl eq_refl)) as (y & ->). destruct IH as (r & ->); [intros z Hz; apply H; now right|]. now exists (y :: r).
Qed.
Lemma half_even k : half (2 * IZR k) = k.
Proof. unfold half. replace (2 * IZR k / 2)%R with (IZR k) by lra. apply rfloor_unique. lra. Qed.
(** C74: such inputs are accepted.  ([mesh]: spglib's answer; its weights are counts, never negative.) *)
Theorem C74_accepts : forall upf mesh i a P cd, acceptable upf i a P cd -> exists s, parse_inp upf mesh i = Ok s /\ u_unit (s_lattice s) = a /\ primvec (u_lat (s_lattice s)) = P.
Proof.
  intros upf mesh i a P cd A. destruct A.
  assert (HC : check_control i = Ok tt).
  { unfold check_control. rewrite (proj2 (one_of_in _ _) acc_calc0), (proj2 (one_of_in _ _) acc_verb0), (proj2 (one_of_in _ _) acc_restart0). cbn [guard bind].
    destruct (Z.leb_spec (p_iprint i) 0); [lia|]. rewrite (proj2 (rle_false _ _) acc_seconds0), acc_dir0. reflexivity. }
  set (U := MkULattice a {| primvec := P; primvec_inv := minv P; metric := mmul (mtrans P) P; cellvol := Rabs (mdet P) |}).
  assert (HL : exists U, make_lattice i = Ok (U, cd) /\ u_unit U = a /\ primvec (u_lat U) = P).
  { unfold make_lattice. rewrite acc_lattice0. cbn [bind fst snd]. unfold mk_ulattice, mk_lattice. destruct (Req_EM_T (mdet P) 0); [easy|]. cbn [rmap bind]. eexists. split; [reflexivity|]. now split. }
  destruct HL as (U' & HL & HU1 & HU2). clear U. rename U' into U.
  pose proof (make_lattice_ok _ _ _ HL) as (P' & _ & HP' & C1 & D & I). rewrite HU2 in HP'. subst P'.
  destruct (add_species_ok upf (p_species i)) with (d := @nil (text * (R * pseudo * list (rvec * nat)))) as (d & HD).
  { intros r Hr. destruct (acc_pp0 r Hr) as (pp & E & _). now exists pp. }
  pose proof (add_all_species _ _ _ _ HD acc_labels0) as (e & E & F). cbn [app] in E. subst e.
  assert (K : map fst d = map fst (p_species i)) by (clear - F; induction F as [|r x l l' (E & _) _ IH]; [easy|]; cbn [map]; now rewrite E, IH).
  destruct (add_atoms_ok (p_pos i) d) as (d' & HD').
  { intros r Hr. rewrite K. now apply acc_pos0. }
  assert (ND : NoDup (map fst d)) by now rewrite K.
  pose proof (add_all_atoms _ _ _ ND HD') as (E & HI).
  assert (RZ : forall lb x, In x (raw_rows (p_pos i) lb) -> snd x = 0).
  { intros lb x Hx. unfold raw_rows in Hx. apply in_map_iff in Hx as (r & <- & Hr). apply filter_In in Hr as [Hr _]. now apply acc_pos0. }
  assert (HA : exists l, sequence (map (make_atoms (p_pos_option i) cd U) d') = Ok l).
  { apply sequence_all. rewrite E. intros x Hx. apply in_map_iff in Hx as (y & <- & Hy).
    assert (X : exists row, In row (p_species i) /\ fst y = fst row /\ fst (fst (snd y)) = fst (snd row) /\ snd (snd y) = []).
    { clear - F Hy. induction F as [|row x sp d (E1 & E2 & E3 & E4) _ IH]; [easy|]. destruct Hy as [<-|Hy]; [exists row; split; [now left|auto]|]. destruct (IH Hy) as (row' & H & H'). exists row'. split; [now right|exact H']. }
    destruct X as (row & Hrow & X1 & X2 & X3). destruct y as [lb [[m pp] rows]]. cbn [fst snd] in *. subst. unfold with_rows, make_atoms. cbn [fst snd app].
    assert (TC : exists r, to_cryst (p_pos_option i) cd U (raw_rows (p_pos i) (fst row)) = Ok r).
    { assert (NE : raw_rows (p_pos i) (fst row) <> []).
      { destruct (acc_used0 row Hrow) as (r & Hr & Er). intros Z0. assert (In (snd r) (raw_rows (p_pos i) (fst row))). { unfold raw_rows. apply in_map, filter_In. split; [exact Hr|]. rewrite Er. apply teqb_refl. } now rewrite Z0 in H. }
      assert (PL : plain (raw_rows (p_pos i) (fst row)) = true).
      { unfold plain. specialize (RZ (fst row)). destruct (raw_rows (p_pos i) (fst row)) as [|q t]; [easy|]. apply forallb_forall. intros z Hz. apply Nat.eqb_eq. now apply RZ. }
      assert (UN : uniform (raw_rows (p_pos i) (fst row)) = true).
      { unfold uniform. specialize (RZ (fst row)). destruct (raw_rows (p_pos i) (fst row)) as [|q t]; [easy|]. apply forallb_forall. intros z Hz. apply Nat.eqb_eq. rewrite (RZ z) by now right. rewrite (RZ q) by now left. easy. }
      unfold to_cryst. rewrite UN, PL. unfold dget. rewrite C1. destruct acc_opt0 as [<-|[<-|[<-|[<-|[]]]]]; eexists; reflexivity. }
    destruct TC as (r & ->). cbn [bind]. specialize (acc_mass0 row Hrow). rewrite (proj2 (rlt_false _ _) acc_mass0). eexists. reflexivity. }
  destruct HA as (l & HA).
  assert (HL2 : Forall2 (fun row x => a_label x = fst row /\ upf (snd (snd row)) = Some (a_pp x) /\ length (a_r x) = length (filter (fun r : text * (rvec * nat) => teqb (fst r) (fst row)) (p_pos i))) (p_species i) l).
  { apply sequence_forall2 in HA. rewrite E in HA. rewrite <- HU2 in D, I. clear - F HA D I C1 HU1. revert l HA. induction F as [|row x sp d (E1 & E2 & E3 & E4) F IH]; cbn [map]; intros l H; inversion H as [|y z ? l' HA HB]; subst; constructor; auto. clear IH F HB H.
    destruct x as [lb [[m pp] rows]]. cbn [fst snd] in *. subst. unfold with_rows, make_atoms in HA. cbn [fst snd app] in HA. apply bind_ok in HA as (r & HR & HA). apply bind_ok in HA as (u & HM & HA). injection HA as <-. cbn [a_label a_pp a_r].
    split; [easy|]. split; [exact E3|]. apply to_cryst_ok in HR as (_ & _ & R3 & _); auto. rewrite R3. unfold raw_rows. now rewrite map_length. }
  assert (HX : exists xc, choose_dft i l = Ok xc).
  { unfold choose_dft. assert (Q : sequence (map (fun a0 => lookup_dft (lower (pp_functional (a_pp a0)))) l) = Ok (map (fun _ => (T "gga_x_pbe", T "gga_c_pbe")) l)).
    { clear - HL2 acc_pp0. induction HL2 as [|row x sp l (E1 & E2 & E3) _ IH]; [easy|]. cbn [map sequence]. destruct (acc_pp0 row (or_introl eq_refl)) as (pp & X & Y). rewrite E2 in X. injection X as <-. rewrite Y.
      change (lookup_dft (T "pbe")) with (@Ok (text * text) (T "gga_x_pbe", T "gga_c_pbe")). cbn [bind]. rewrite IH; [easy|]. intros r Hr. apply acc_pp0. now right. }
    rewrite Q, acc_dft0. cbn [bind]. destruct l as [|x l].
    { inversion HL2 as [E0|]. now rewrite <- E0 in acc_species0. }
    cbn [map]. assert (G : forallb (pair_eqb (T "gga_x_pbe", T "gga_c_pbe")) (map (fun _ : atoms => (T "gga_x_pbe", T "gga_c_pbe")) l) = true).
    { apply forallb_forall. intros y Hy. apply in_map_iff in Hy as (? & <- & _). reflexivity. } rewrite G. eexists. reflexivity. }
  destruct HX as (xc & HX).
  assert (HN : count_el l = rsum (map (fun row => zval upf (p_species i) (fst row)) (p_pos i))).
  { apply rsum_zval; auto. intros r Hr. now apply acc_pos0. }
  assert (HE : exists bs, electrons i (count_el l) = Ok bs).
  { unfold electrons. cbn zeta in acc_occ0. rewrite HN. destruct acc_occ0 as [(O1 & O2 & k & O3)|(O1 & O2 & O3 & O4)]; rewrite O1.
    - change (one_of (T "fixed") [T "fixed"; T "smearing"]) with true. change (teqb (T "fixed") (T "fixed")) with true. cbn [guard bind]. rewrite O2, O3. cbn [Z.eqb Pos.eqb negb guard bind andb]. unfold rem2. rewrite half_even.
      rewrite (proj2 (rlt_false _ _)); [eexists; reflexivity|]. replace (2 * IZR k - 2 * IZR k)%R with 0%R by lra. rewrite Rabs_R0. unfold EPS5. lra.
    - change (one_of (T "smearing") [T "fixed"; T "smearing"]) with true. change (teqb (T "smearing") (T "fixed")) with false. cbn [guard bind].
      assert (S : exists nm, smearing_name (p_smearing i) = Ok nm).
      { cbn [map In] in O4. repeat (destruct O4 as [<-|O4]; [eexists; reflexivity|]). destruct O4. }
      destruct S as (nm & ->). cbn [bind]. rewrite (proj2 (rle_false _ _)) by exact O2. cbn [negb guard bind]. destruct (p_nbnd i) as [b|]; [|eexists; reflexivity].
      rewrite (proj2 (rlt_false _ _)); [eexists; reflexivity|]. now apply O3. }
  destruct HE as (bs & HE).
  assert (HM : exists m, magnetization i = Ok m).
  { unfold magnetization. rewrite acc_pot0, teqb_refl, andb_true_r. destruct (Z.eqb_spec (p_nspin i) 2) as [Q|Q]; [|eexists; reflexivity]. destruct (acc_mag0 Q) as [M1 M2].
    destruct (p_mag i) as [|q t] eqn:EM; [easy|]. cbn [length Nat.eqb negb guard bind]. rewrite <- EM in *. 
    assert (X : forallb (fun e => (0 <=? fst e - 1)%Z && (fst e - 1 <? Z.of_nat (length (p_species i)))%Z) (p_mag i) = true).
    { apply forallb_forall. intros [k x] Hk. apply M2 in Hk. cbn [fst]. lia. } rewrite X. eexists. reflexivity. }
  destruct HM as (m & HM).
  assert (HS : check_electrons i = Ok tt).
  { unfold check_electrons. rewrite acc_mode0, acc_diag0, acc_pot0, acc_wfc0. destruct (Z.leb_spec (p_maxstep i) 0); [lia|]. rewrite (proj2 (rle_false _ _) acc_conv0).
    destruct acc_beta0 as [B1 B2]. rewrite (proj2 (rlt_false (p_mixing_beta i) 0) B1), (proj2 (rlt_false 1 (p_mixing_beta i)) B2).
    destruct (Z.ltb_spec (p_mixing_ndim i) 0); [lia|]. destruct (Z.ltb_spec (p_david_ndim i) 0); [lia|]. rewrite (proj2 (rle_false _ _) acc_thr0). reflexivity. }
  assert (HK : exists k, kpoints mesh i = Ok k).
  { unfold kpoints. rewrite acc_kopt0. change (one_of (T "automatic") [T "tpiba"; T "automatic"; T "crystal"]) with true. change (teqb (T "automatic") (T "automatic")) with true. cbn [guard bind].
    destruct acc_k0 as (row & t & n1 & n2 & n3 & b1 & b2 & b3 & -> & W & N1 & N2 & N3).
    assert (L6 : length (words row) = 6) by (apply (f_equal (@length _)) in W; now rewrite map_length in W). rewrite L6. cbn [Nat.eqb guard bind].
    rewrite <- firstn_map, W. rewrite <- (map_map py_int (rmap (fun z => negb (z =? 0)%Z))), <- skipn_map, W. cbn [map firstn skipn sequence bind rmap].
    unfold gen_monkhorst_pack_grid. assert (X : forallb (fun n => (0 <? n)%Z) [n1; n2; n3] = true) by (cbn; lia). rewrite X. cbn [negb].
    assert (SW : forall (A : Type) (f : A -> R) q, (forall x, 0 <= f x)%R -> exists w, sanitize_weights (map f q) = Ok w).
    { intros A f q Hq. unfold sanitize_weights. replace (existsb (fun x => if Rlt_dec x 0 then true else false) (map f q)) with false; [eexists; reflexivity|]. symmetry.
      induction q as [|y q IH]; [easy|]. cbn [map existsb]. destruct (Rlt_dec (f y) 0) as [Y|]; [specialize (Hq y); lra|exact IH]. }
    destruct (negb (p_nosym i)).
    - destruct (SW nat INR (np_counts (ir_mapping (mesh [n1; n2; n3] [negb (b1 =? 0)%Z; negb (b2 =? 0)%Z; negb (b3 =? 0)%Z] (negb (p_noinv i)))))) as (w & ->); [apply pos_INR|]. eexists. reflexivity.
    - match goal with |- context [sanitize_weights (map ?f ?q)] => destruct (SW _ f q) as (w & ->) end; [|eexists; reflexivity].
      intros _. match goal with |- context [INR ?q] => destruct q eqn:EQ; [cbn; unfold Rdiv; rewrite Rinv_0; lra|apply Rlt_le, Rdiv_lt_0_compat; [lra|apply lt_0_INR; lia]] end. }
  destruct HK as (k & HK).
  unfold parse_inp. rewrite HC. cbn [bind]. rewrite HL. cbn [bind fst snd]. rewrite (proj2 (rle_false _ _) acc_ecut0). cbn [negb guard bind]. rewrite HD. cbn [bind]. rewrite HD'. cbn [bind]. rewrite HA. cbn [bind]. rewrite HX. cbn [bind]. rewrite acc_colin0. cbn [negb guard bind].
  rewrite HE. cbn [bind]. rewrite HM. cbn [bind]. rewrite HS. cbn [bind]. rewrite HK. cbn [bind]. eexists. split; [reflexivity|]. cbn [s_lattice]. now split.
Qed.
Print Assumptions C74_accepts.

(** A case: two Si atoms in a cubic cell of 10 Bohr, 8 electrons, a 4 4 4 shifted mesh. *)
Definition si_pp (f : text) : option pseudo := if teqb f (T "Si.upf") then Some (MkPseudo (T "PBE") 4) else None.
Definition si_in : pwin := MkIn (T "scf") (T "low") (T "from_scratch") 100000 10000000 true
  (with_celldm 0 None None None None None None (Some (OOther, (V 10 0 0, V 0 10 0, V 0 0 10))) dempty) 30 None (None, None, None)
  [(T "Si", (28%R, T "Si.upf"))] (T "alat") [(T "Si", (V 0 0 0, 0)); (T "Si", (V (1/4) (1/4) (1/4), 0))]
  None false (T "fixed") 1 (Some 7%Z) (T "gaussian") 0 [] 100 (/ 1000000) (T "plain") (7/10) 8 (T "david") 4 (/ 100) (T "atomic") (T "random")
  (T "automatic") [T "4 4 4 1 1 1"] true false.
Example C74_example : acceptable si_pp si_in (vnorm (V 10 0 0)) (Mat (V 10 0 0) (V 0 10 0) (V 0 0 10)) (fill (dset 1 (vnorm (V 10 0 0)) dempty)).
Proof.
  constructor; cbn [si_in p_calculation p_verbosity p_restart p_iprint p_max_seconds p_dir_exists p_lat p_ecutwfc p_ecutrho p_nr p_species p_pos_option p_pos p_input_dft p_noncolin p_occupations p_nspin p_nbnd p_smearing p_degauss p_mag p_maxstep p_conv_thr p_mixing_mode p_mixing_beta p_mixing_ndim p_diag p_david_ndim p_thr_init p_startingpot p_startingwfc p_k_option p_k_rows p_nosym p_noinv];
    try reflexivity; try lia; try lra; try discriminate; cbn [In]; auto.
  - cbv [mdet vdot vcross c1 c2 c3 vx vy vz]. lra.
  - constructor; [easy|constructor].
  - intros r [<-|[]]. cbn. lra.
  - intros r [<-|[]]. exists (MkPseudo (T "PBE") 4). split; reflexivity.
  - intros r [<-|[<-|[]]]; cbn; auto.
  - intros sp [<-|[]]. eexists. split; [now left|reflexivity].
  - left. split; [reflexivity|]. split; [reflexivity|]. exists 4%Z. cbn [map fst]. change (zval si_pp [(T "Si", (28%R, T "Si.upf"))] (T "Si")) with 4%R. cbn. lra.
  - exists (T "4 4 4 1 1 1"), [], 4%Z, 4%Z, 4%Z, 1%Z, 1%Z, 1%Z. split; [reflexivity|]. split; [reflexivity|]. lia.
Qed.
(** The number of bands is 4, not the 7 asked for. *)
Example C74_example_bands : forall mesh, exists s, parse_inp si_pp mesh si_in = Ok s /\ s_nbnd s = 4%Z.
Proof.
  intros mesh. destruct (C74_accepts _ mesh _ _ _ _ C74_example) as (s & H & _). exists s. split; [exact H|].
  pose proof (C74_bands _ _ _ _ H) as (_ & HB & _). destruct (HB eq_refl) as (_ & B1 & B2). specialize (B2 eq_refl).
  destruct (C74_atoms _ _ _ _ H) as (_ & _ & N); [repeat constructor; easy|].
  change (p_pos si_in) with [(T "Si", (V 0 0 0, 0)); (T "Si", (V (1/4) (1/4) (1/4), 0))] in N. cbn [map fst] in N. change (zval si_pp (p_species si_in) (T "Si")) with 4%R in N. cbn in N. rewrite N in *.
  assert (IZR (s_nbnd s) < IZR 5)%R by lra. assert (IZR 3 < IZR (s_nbnd s))%R by lra. apply lt_IZR in H0, H1. lia.
Qed.

(** C74, validation: what is accepted has passed the documented limits. *)
Theorem C74_validated : forall upf mesh i s, parse_inp upf mesh i = Ok s ->
  In (p_calculation i) [T "scf"; T "nscf"; T "bands"] /\ In (p_verbosity i) [T "high"; T "low"] /\ In (p_restart i) [T "from_scratch"; T "restart"] /\
  (0 < p_iprint i)%Z /\ (0 < p_max_seconds i)%R /\ p_dir_exists i = true /\ p_noncolin i = false /\
  (0 < p_maxstep i)%Z /\ (0 < p_conv_thr i)%R /\ p_mixing_mode i = T "plain" /\ (0 <= p_mixing_beta i <= 1)%R /\ (0 <= p_mixing_ndim i)%Z /\
  p_diag i = T "david" /\ (0 <= p_david_ndim i)%Z /\ (0 < p_thr_init i)%R /\ p_startingpot i = T "atomic" /\ p_startingwfc i = T "random".
Proof.
  intros upf mesh i s H. apply parse_steps in H as (d & d' & HC & _ & _ & _ & _ & _ & _ & HN & _ & _ & _ & HE & _).
  unfold check_control in HC. apply bind_ok in HC as (u1 & C1 & HC). apply bind_ok in HC as (u2 & C2 & HC). apply bind_ok in HC as (u3 & C3 & HC). apply bind_ok in HC as (u4 & C4 & HC). apply bind_ok in HC as (u5 & C5 & C6).
  apply guard_ok, one_of_in in C1, C2, C3. apply guard_ok, negb_true_iff in C4, C5. apply guard_ok in C6. apply rle_false in C5.
  unfold check_electrons in HE. apply bind_ok in HE as (v1 & E1 & HE). apply bind_ok in HE as (v2 & E2 & HE). apply bind_ok in HE as (v3 & E3 & HE). apply bind_ok in HE as (v4 & E4 & HE). apply bind_ok in HE as (v5 & E5 & HE).
  apply bind_ok in HE as (v6 & E6 & HE). apply bind_ok in HE as (v7 & E7 & HE). apply bind_ok in HE as (v8 & E8 & HE). apply bind_ok in HE as (v9 & E9 & E10).
  apply guard_ok, negb_true_iff in E1, E2, E4, E5, E7, E8. apply guard_ok, one_of_in in E3, E6, E9, E10. apply rle_false in E2, E8. apply orb_false_iff in E4 as [E4 E4']. apply rlt_false in E4, E4'.
  destruct E3 as [E3|[]], E6 as [E6|[]], E9 as [E9|[]], E10 as [E10|[]].
  repeat (split; [first [assumption | lia | now symmetry | lra]|]). now symmetry.
Qed.
Print Assumptions C74_validated.
(** C74, functional: all pseudopotentials name the same known functional (PBE, in any letter case), which is used. *)
Theorem C74_functional : forall upf mesh i s, parse_inp upf mesh i = Ok s -> p_species i <> [] -> NoDup (map fst (p_species i)) ->
  (forall a, In a (s_atoms s) -> lower (pp_functional (a_pp a)) = T "pbe") /\ s_dft s = (T "gga_x_pbe", T "gga_c_pbe").
Proof.
  intros upf mesh i s H HS N. pose proof (C74_input_dft_refuted _ _ _ _ H HS N) as HI. apply parse_steps in H as (d & d' & _ & _ & _ & _ & _ & _ & H & _).
  unfold choose_dft in H. rewrite HI in H. apply bind_ok in H as (fs & H1 & H). apply sequence_forall2 in H1.
  assert (X : forall f p, lookup_dft f = Ok p -> f = T "pbe" /\ p = (T "gga_x_pbe", T "gga_c_pbe")).
  { intros f p. unfold lookup_dft, libxc_map. destruct (teqb f (T "pbe")) eqn:E; [|discriminate]. intros [= <-]. split; [now apply teqb_eq|easy]. }
  split.
  - intros a Ha. clear - H1 X Ha. induction H1 as [|b f l fs E _ IH]; [easy|]. destruct Ha as [->|Ha]; [now apply (X _ f)|auto].
  - destruct H1 as [|b f l fs E _]; [discriminate|]. destruct (forallb (pair_eqb f) fs); [|discriminate]. injection H as <-. now apply (X _ f) in E.
Qed.
Print Assumptions C74_functional.

(** C74: an unknown unit of the atomic positions is refused with ValueError, whatever the atoms are. *)
Theorem C74_unknown_unit_refused : forall opt cd U e, ~ In opt [T "crystal"; T "alat"; T "bohr"; T "angstrom"] ->
  make_atoms opt cd U e = Err ValueError.
Proof.
  intros opt cd U [lb [[m pp] rows]] H. unfold make_atoms, to_cryst.
  destruct (teqb opt (T "crystal")) eqn:E1. { apply teqb_eq in E1. subst. exfalso. apply H. now left. }
  destruct (one_of opt _) eqn:E2; [|reflexivity]. exfalso. apply H. right.
  apply one_of_in in E2. exact E2.
Qed.
Print Assumptions C74_unknown_unit_refused.
Example C74_unknown_unit_ex : ~ In (T "crystal_sg") [T "crystal"; T "alat"; T "bohr"; T "angstrom"].
Proof. cbn. intuition discriminate. Qed.
