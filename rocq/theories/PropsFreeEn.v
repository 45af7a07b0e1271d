(** C82: the occupations and the smearing correction belong together (smear.py). *)
From Coq Require Import Reals String Lra Lia.
From Coquelicot Require Import Coquelicot.
From Verif Require Import Base LatModel KPtsModel KPtsProofs ErfBase OccModel OccProofs PropsOcc SmearModel SmearProofs PropsSmear.
Open Scope R_scope.

(** Band energy of the occupations held: sum of weight times occupation times eigenvalue. *)
Definition band_energy (world : list kgroup) : R :=
  fold_right Rplus 0 (map (fun w => k_weight w * fold_right Rplus 0 (map (fun oe => fst oe * snd oe) (combine (occ w) (evl w)))) (wfns world)).
(** The grand potential the code's occupations and correction define at a chemical
    potential: sum over the states of weight ((e - mu) occupation + correction). *)
Definition grand_potential (occf enf : R -> R) (degauss : R) (world : list kgroup) (mu : R) : R :=
  fold_right Rplus 0 (map (fun w => k_weight w *
     (fold_right Rplus 0 (map (fun e => (e - mu) * occ_one occf degauss mu e) (evl w)) + en_wfn enf degauss w mu)) (wfns world)).

(** C82.  For each of the three smearings both functions are differentiable and the
    correction's slope is minus the argument times the occupation's slope. *)
Theorem C82_entropy_slope : forall typ occf enf x, l_smear_func typ = Some (occf, enf) ->
  ex_derive occf x /\ is_derive enf x (- x * Derive occf x).
Proof.
  intros typ occf enf x H. unfold l_smear_func in H.
  assert (K : forall o n s, is_derive o x s -> is_derive n x (- x * s) -> ex_derive o x /\ is_derive n x (- x * Derive o x)).
  { intros o n s A B. split; [now exists s|]. rewrite (is_derive_unique o x s A). exact B. }
  destruct (String.eqb typ "gauss"); [|destruct (String.eqb typ "fd"); [|destruct (String.eqb typ "mv"); [|discriminate]]];
    injection H as <- <-.
  - apply K with (gauss_slope x); [apply gauss_occ_derive|apply gauss_en_derive].
  - apply K with (fd_slope x); [apply fd_occ_derive|apply fd_en_derive].
  - apply K with (mv_slope x); [apply mv_occ_derive|apply mv_en_derive].
Qed.
Print Assumptions C82_entropy_slope.

Local Ltac reqn := match goal with |- ?a = ?b => change (@eq R a b) end.

(** Clamped functions of the scaled energy. *)
Definition cl_occ (occf : R -> R) (f : R) : R :=
  if Rle_dec (Rabs f) 50 then occf f else if Rlt_dec f (- (50)) then 1 else 0.
Definition cl_en (enf : R -> R) (f : R) : R := if Rle_dec (Rabs f) 50 then enf f else 0.

Lemma near_in x : Rabs x < 50 -> locally x (fun y => Rabs y <= 50).
Proof.
  intros H. assert (P : 0 < 50 - Rabs x) by lra. exists (mkposreal _ P). intros y Hy. unfold ball in Hy; cbn in Hy.
  unfold AbsRing_ball, abs, minus, plus, opp in Hy; cbn in Hy.
  replace y with (x + (y + - x)) by ring. eapply Rle_trans; [apply Rabs_triang|]. lra.
Qed.
Lemma near_out x : 50 < Rabs x -> locally x (fun y => ~ Rabs y <= 50 /\ (y < - (50) <-> x < - (50))).
Proof.
  intros H. assert (P : 0 < Rabs x - 50) by lra. exists (mkposreal _ P). intros y Hy. unfold ball in Hy; cbn in Hy.
  unfold AbsRing_ball, abs, minus, plus, opp in Hy; cbn in Hy.
  apply Rabs_def2 in Hy as [H1 H2]. unfold Rabs in *. destruct (Rcase_abs x); destruct (Rcase_abs y); split; lra.
Qed.
Lemma cl_derive occf enf f : (forall x, ex_derive occf x /\ is_derive enf x (- x * Derive occf x)) -> Rabs f <> 50 ->
  is_derive (fun y => y * cl_occ occf y + cl_en enf y) f (cl_occ occf f).
Proof.
  intros D Hf. destruct (Rtotal_order (Rabs f) 50) as [L|[L|L]]; [|contradiction|].
  - apply (is_derive_ext_loc (fun y => y * occf y + enf y)).
    + apply (filter_imp (fun y => Rabs y <= 50)); [|now apply near_in].
      intros y Hy. unfold cl_occ, cl_en. destruct (Rle_dec (Rabs y) 50); [reflexivity|contradiction].
    + unfold cl_occ. destruct (Rle_dec (Rabs f) 50); [|lra]. destruct (D f) as [D1 D2].
      assert (D3 : is_derive occf f (Derive occf f)) by now apply Derive_correct.
      auto_derive.
      * split; [exact D1|]. split; [now exists (- f * Derive occf f)|exact I].
      * replace (Derive (fun x : R => enf x) f) with (- f * Derive occf f) by (symmetry; apply is_derive_unique; exact D2).
        change (Derive (fun x : R => occf x) f) with (Derive occf f). ring.
  - unfold cl_occ at 2. destruct (Rle_dec (Rabs f) 50); [lra|]. destruct (Rlt_dec f (- (50))) as [M|M].
    + apply (is_derive_ext_loc (fun y => y)); [|apply (is_derive_id f)].
      apply (filter_imp (fun y => ~ Rabs y <= 50 /\ (y < - (50) <-> f < - (50)))); [|now apply near_out].
      intros y [H1 H2]. unfold cl_occ, cl_en. destruct (Rle_dec (Rabs y) 50); [contradiction|].
      destruct (Rlt_dec y (- (50))); [reqn; ring|tauto].
    + apply (is_derive_ext_loc (fun y => 0)); [|apply (is_derive_const 0 f)].
      apply (filter_imp (fun y => ~ Rabs y <= 50 /\ (y < - (50) <-> f < - (50)))); [|now apply near_out].
      intros y [H1 H2]. unfold cl_occ, cl_en. destruct (Rle_dec (Rabs y) 50); [contradiction|].
      destruct (Rlt_dec y (- (50))); [tauto|reqn; ring].
Qed.

(** C82.  One state: the derivative of ((e - mu) occupation + correction) with respect to its
    eigenvalue is its occupation, for every level not exactly 50 widths from mu. *)
Theorem C82_level_derivative : forall typ occf enf degauss mu e, l_smear_func typ = Some (occf, enf) -> 0 < degauss ->
  Rabs ((e - mu) / degauss) <> 50 ->
  is_derive (fun e => (e - mu) * occ_one occf degauss mu e
     + en_wfn enf degauss (MkKS [e] 1 []) mu) e (occ_one occf degauss mu e).
Proof.
  intros typ occf enf degauss mu e H Hd Hf.
  pose proof (fun x => C82_entropy_slope typ occf enf x H) as D.
  apply (is_derive_ext (fun u => degauss * ((fun y => y * cl_occ occf y + cl_en enf y) ((u - mu) / degauss)))).
  { intros t. unfold en_wfn, occ_one, SMEAR_THRESHOLD. cbn [evl map filter].
    change (if Rle_dec (Rabs ((t - mu) / degauss)) 50 then occf ((t - mu) / degauss) else if Rlt_dec ((t - mu) / degauss) (- (50)) then 1 else 0)
      with (cl_occ occf ((t - mu) / degauss)).
    cbv beta. unfold cl_en. destruct (Rle_dec _ 50); cbn [map rsum fold_right]; reqn; field; lra. }
  replace (occ_one occf degauss mu e) with (degauss * (/ degauss * cl_occ occf ((e - mu) / degauss))).
  2:{ unfold occ_one, cl_occ, SMEAR_THRESHOLD. field. lra. }
  apply (is_derive_scal (fun u => (fun y => y * cl_occ occf y + cl_en enf y) ((u - mu) / degauss)) e degauss).
  apply (is_derive_comp (fun y => y * cl_occ occf y + cl_en enf y) (fun u => (u - mu) / degauss) e).
  - now apply cl_derive.
  - auto_derive; [exact I|]. field. lra.
Qed.
Print Assumptions C82_level_derivative.

Lemma is_derive_rsum {A} (l : list A) (f : A -> R -> R) (d : A -> R) x :
  (forall a, In a l -> is_derive (f a) x (d a)) ->
  is_derive (fun y => fold_right Rplus 0 (map (fun a => f a y) l)) x (fold_right Rplus 0 (map d l)).
Proof.
  induction l as [|a l IH]; intros H; cbn [map fold_right].
  - apply (is_derive_const 0 x).
  - apply (is_derive_plus (f a) (fun y => fold_right Rplus 0 (map (fun a => f a y) l))); [apply H; now left|].
    apply IH. intros b Hb. apply H. now right.
Qed.

(** C82.  The grand potential's derivative in the chemical potential is minus the number of
    electrons, as long as no eigenvalue is exactly 50 widths away. *)
Theorem C82_grand_potential : forall typ occf enf degauss world mu, l_smear_func typ = Some (occf, enf) -> 0 < degauss ->
  (forall w e, In w (wfns world) -> In e (evl w) -> Rabs ((e - mu) / degauss) <> 50) ->
  is_derive (grand_potential occf enf degauss world) mu (- compute_numel occf degauss world mu).
Proof.
  intros typ occf enf degauss world mu H Hd Hf.
  pose proof (fun x => C82_entropy_slope typ occf enf x H) as D.
  assert (EN : forall w m, en_wfn enf degauss w m = fold_right Rplus 0 (map (fun e => degauss * cl_en enf ((e - m) / degauss)) (evl w))).
  { intros w m. unfold en_wfn. generalize (evl w). induction l as [|e l IH]; [cbn; ring|].
    cbn [map filter fold_right]. rewrite <- IH. unfold cl_en, SMEAR_THRESHOLD. destruct (Rle_dec _ 50); cbn [map]; rewrite ?rsum_cons; ring. }
  assert (N : - compute_numel occf degauss world mu = fold_right Rplus 0 (map (fun w => k_weight w *
      fold_right Rplus 0 (map (fun e => - occ_one occf degauss mu e) (evl w))) (wfns world))).
  { assert (E : compute_numel occf degauss world mu = rsum (map (fun w => rsum (map (fun e => occ_one occf degauss mu e * k_weight w) (evl w))) (wfns world))).
    { unfold compute_numel, group_numel, wfns. clear. induction world as [|g ws IH]; [reflexivity|].
      cbn [concat map]. rewrite concat_app, map_app, rsum_app, rsum_cons, IH. reflexivity. }
    rewrite E. generalize (wfns world). induction l as [|w l IH]; [cbn; ring|]. cbn [map fold_right]. rewrite rsum_cons, <- IH.
    rewrite Ropp_plus_distr. f_equal. generalize (evl w). induction l0 as [|e l0 IH0]; [cbn; ring|].
    cbn [map fold_right]. rewrite rsum_cons. 
    transitivity (k_weight w * - occ_one occf degauss mu e - rsum (map (fun e => occ_one occf degauss mu e * k_weight w) l0)); [ring|].
    unfold Rminus. rewrite IH0. ring. }
  rewrite N.
  apply (is_derive_ext (fun m => fold_right Rplus 0 (map (fun w => k_weight w *
      fold_right Rplus 0 (map (fun e => degauss * ((fun y => y * cl_occ occf y + cl_en enf y) ((e - m) / degauss))) (evl w))) (wfns world)))).
  { intros m. unfold grand_potential. generalize (wfns world). induction l as [|w l IH]; [reflexivity|].
    cbn [map fold_right]. rewrite IH. f_equal. f_equal. rewrite EN. generalize (evl w). induction l0 as [|e l0 IH0]; [cbn; ring|].
    cbn [map fold_right]. rewrite IH0. 
    change (occ_one occf degauss m e) with (cl_occ occf ((e - m) / degauss)).
    reqn. field. lra. }
  apply (is_derive_rsum (wfns world) (fun w m => k_weight w * fold_right Rplus 0 (map (fun e => degauss * ((fun y => y * cl_occ occf y + cl_en enf y) ((e - m) / degauss))) (evl w)))).
  intros w Hw. apply (is_derive_scal (fun m => fold_right Rplus 0 (map (fun e => degauss * ((fun y => y * cl_occ occf y + cl_en enf y) ((e - m) / degauss))) (evl w))) mu (k_weight w)).
  apply (is_derive_rsum (evl w) (fun e m => degauss * ((fun y => y * cl_occ occf y + cl_en enf y) ((e - m) / degauss)))).
  intros e He.
  replace (- occ_one occf degauss mu e) with (degauss * ((- / degauss) * cl_occ occf ((e - mu) / degauss))).
  2:{ unfold occ_one, cl_occ, SMEAR_THRESHOLD. field. lra. }
  apply (is_derive_scal (fun m => (fun y => y * cl_occ occf y + cl_en enf y) ((e - m) / degauss)) mu degauss).
  apply (is_derive_comp (fun y => y * cl_occ occf y + cl_en enf y) (fun m => (e - m) / degauss) mu).
  - apply cl_derive; [exact D|now apply (Hf w)].
  - auto_derive; [exact I|]. field. lra.
Qed.
Print Assumptions C82_grand_potential.

(** C82.  What the routine returns: band energy of the occupations it wrote, plus the
    smearing correction, minus Fermi level times electrons, is the grand potential at the
    Fermi level - whose derivative there is minus the electrons held (previous theorem), so
    band energy plus correction has slope (Fermi level) per electron. *)
Theorem C82_returned_free_energy : forall typ occf enf degauss fuel world numel world' e_fermi e_smear,
  l_smear_func typ = Some (occf, enf) -> 0 < degauss ->
  compute_occ fuel world numel typ degauss = Ok (Some (world', (e_fermi, e_smear))) ->
  band_energy world' + e_smear - e_fermi * electrons world' = grand_potential occf enf degauss world e_fermi
  /\ ((forall w e, In w (wfns world) -> In e (evl w) -> Rabs ((e - e_fermi) / degauss) <> 50) ->
      is_derive (grand_potential occf enf degauss world) e_fermi (- electrons world')).
Proof.
  intros typ occf enf degauss fuel world numel world' e_fermi e_smear Hf Hd H. unfold compute_occ in H. rewrite Hf in H.
  unfold smear_compute_occ in H.
  destruct (sequence _) as [mins|] in H; [|discriminate]. cbn [bind] in H. destruct (sequence _) as [maxs|] in H; [|discriminate].
  cbn [bind] in H. destruct (rminimum mins) as [lo|] in H; [|discriminate]. cbn [bind] in H.
  destruct (rmaximum maxs) as [hi|] in H; [|discriminate]. cbn [bind] in H.
  destruct (bisect _ _ _ _ _) as [mu|] in H; [|discriminate]. injection H as <- <- <-.
  assert (EL : electrons (map (map (map (fun w => set_occ w (map (occ_one occf degauss mu) (evl w))))) world) = compute_numel occf degauss world mu).
  { unfold electrons. rewrite wfns_map, map_map. cbn [k_weight occ set_occ]. unfold compute_numel, group_numel, wfns.
    clear. induction world as [|g ws IH]; [reflexivity|]. cbn [concat map]. rewrite concat_app, map_app.
    match goal with |- fold_right Rplus 0 ?l = _ => change (rsum l = rsum (map (fun g => rsum (map (fun w => rsum (map (fun e => occ_one occf degauss mu e * k_weight w) (evl w))) (concat g))) (g :: ws))) end.
    rewrite rsum_app. cbn [map]. rewrite rsum_cons. f_equal; [|exact IH].
    apply rsum_ext. intros w _. fold (rsum (map (occ_one occf degauss mu) (evl w))).
    rewrite <- rsum_scale. apply rsum_ext. intros; ring. }
  split.
  - assert (ES : rsum (map (fun g => rsum (map (fun w => k_weight w * en_wfn enf degauss w mu) (concat g))) world)
       = fold_right Rplus 0 (map (fun w => k_weight w * en_wfn enf degauss w mu) (wfns world))).
    { unfold wfns. clear. induction world as [|g ws IH]; [reflexivity|]. cbn [concat map]. rewrite concat_app, map_app, rsum_cons, IH.
      symmetry. match goal with |- fold_right Rplus 0 (?l ++ ?m) = _ => change (rsum (l ++ m) = rsum l + rsum m) end. apply rsum_app. }
    rewrite ES. clear ES. unfold electrons, band_energy, grand_potential. rewrite !wfns_map, !map_map. cbn [k_weight occ evl set_occ].
    generalize (wfns world). clear. induction l as [|w l IH]; [cbn; ring|]. cbn [map fold_right].
    rewrite <- IH. clear IH.
    set (b := fold_right Rplus 0 (map (fun x => k_weight x * fold_right Rplus 0 (map (fun oe => fst oe * snd oe) _)) l)).
    assert (W : fold_right Rplus 0 (map (fun oe => fst oe * snd oe) (combine (map (occ_one occf degauss mu) (evl w)) (evl w)))
        - mu * fold_right Rplus 0 (map (occ_one occf degauss mu) (evl w))
        = fold_right Rplus 0 (map (fun e => (e - mu) * occ_one occf degauss mu e) (evl w))).
    { generalize (evl w). induction l0 as [|e l0 IH]; [cbn; ring|]. cbn [map combine fold_right fst snd]. rewrite <- IH. ring. }
    rewrite <- W. ring.
  - intros Hn. rewrite EL. now apply (C82_grand_potential typ).
Qed.
Print Assumptions C82_returned_free_energy.

(** Non-vacuity: a run that returns, with a level strictly inside the smearing window. *)
Example C82_nonvacuous : exists world' e_smear,
  compute_occ 0 [[[MkKS [0; 1] 2 [0; 0]]]] 2 "fd" (1/10) = Ok (Some (world', (1/2, e_smear)))
  /\ (forall w e, In w (wfns [[[MkKS [0; 1] 2 [0; 0]]]]) -> In e (evl w) -> Rabs ((e - 1/2) / (1/10)) <> 50).
Proof.
  eexists. eexists. split.
  - unfold compute_occ. cbn [l_smear_func String.eqb Ascii.eqb Bool.eqb]. unfold smear_compute_occ.
    cbn [map sequence bind rminimum rmaximum concat app fold_left evl]. rewrite Rmin_left, Rmax_right by lra.
    cbn [bisect]. replace ((0 + 1) / 2) with (1 / 2) by field.
    destruct (C28_fermi_dirac (1 / 10) (1 / 2) ltac:(lra)) as (_ & _ & _ & S & _). specialize (S (1 / 2)).
    replace (1 / 2 + 1 / 2) with 1 in S by field. replace (1 / 2 - 1 / 2) with 0 in S by field.
    assert (CN : compute_numel fd_occ (1 / 10) [[[MkKS [0; 1] 2 [0; 0]]]] (1 / 2) = 2).
    { unfold compute_numel, group_numel. cbn [map concat app evl k_weight rsum fold_right]. lra. }
    rewrite CN, Rminus_diag_eq, Rabs_R0 by reflexivity. destruct (Rlt_dec EPS 0) as [L|_]; [|reflexivity].
    exfalso. unfold EPS in L. assert (0 < / 10 ^ 10) by (apply Rinv_0_lt_compat, pow_lt; lra). lra.
  - intros w e Hw He. cbn in Hw. destruct Hw as [<-|[]]. cbn in He. destruct He as [<-|[<-|[]]].
    + replace ((0 - 1 / 2) / (1 / 10)) with (- (5)) by field. rewrite Rabs_Ropp, Rabs_pos_eq; lra.
    + replace ((1 - 1 / 2) / (1 / 10)) with 5 by field. rewrite Rabs_pos_eq; lra.
Qed.
