(** C41: lattices from Quantum ESPRESSO cell parameters.  C67: what one input file
    leaves behind for the next.  C68: the FFT grid chosen for a cutoff. *)
From Coq Require Import Reals Lra.
From Verif Require Import Base GIndexModel GIndexProofs LatModel LatProofs GSphereModel GSphereProofs IbravModel IbravSpec IbravProofs.
Open Scope R_scope.

Lemma dget_some d k v : d k = Some v -> dget d k = Ok v.
Proof. intros H. unfold dget. now rewrite H. Qed.

Lemma manual_keys ibrav p r : ibrav <> 14%Z -> manual ibrav p = Some r ->
  (ibrav = 1 \/ ibrav = 2 \/ ibrav = 3 \/ ibrav = -3 \/ ibrav = 4 \/ ibrav = 5 \/ ibrav = -5 \/
   ibrav = 6 \/ ibrav = 7 \/ ibrav = 8 \/ ibrav = 9 \/ ibrav = -9 \/ ibrav = 91 \/ ibrav = 10 \/ ibrav = 11 \/
   ibrav = 12 \/ ibrav = -12 \/ ibrav = 13 \/ ibrav = -13)%Z.
Proof.
  unfold manual. cbn zeta.
  repeat match goal with |- context [match ?x with _ => _ end] => destruct x end;
      intros H14 Hm; try discriminate Hm; try (exfalso; apply H14; reflexivity); tauto.
Qed.

(** C41: for every [ibrav] of the manual except the triclinic one and all admissible
    cell parameters, the returned vectors are a right-handed primitive basis of the
    documented centred lattice, with the documented volume, and [alat] is celldm(1). *)
Theorem C41_cell_of_the_manual : forall ibrav p cen s celldm,
  manual ibrav p = Some (cen, s) -> ibrav <> 14%Z -> admissible s ->
  (forall k, In k (1 :: needs ibrav)%Z -> celldm k = Some (p k)) ->
  exists P, ibrav2latvec ibrav celldm = Ok (Vectors (p 1%Z) P) /\ primitive_basis cen s P.
Proof.
  intros ibrav p cen s celldm Hm H14 (Ha & Hb & Hc & H1 & H2 & H3 & Hg) Hd.
  assert (G : forall k, In k (1 :: needs ibrav)%Z -> dget celldm k = Ok (p k))
    by (intros; apply dget_some, Hd; assumption).
  pose proof (G 1%Z ltac:(now left)) as G1.
  pose proof (manual_keys _ _ _ H14 Hm) as Hcase. unfold manual in Hm. cbn zeta in Hm.
  repeat destruct Hcase as [Hcase|Hcase]; subst ibrav; cbn in Hm; inversion Hm; subst; clear Hm;
    cbn [la lb lc cbc cac cab] in *.
  all: try (pose proof (G 2%Z ltac:(cbn; tauto)) as G2).
  all: try (pose proof (G 3%Z ltac:(cbn; tauto)) as G3).
  all: try (pose proof (G 4%Z ltac:(cbn; tauto)) as G4).
  all: try (pose proof (G 5%Z ltac:(cbn; tauto)) as G5).
  all: unfold ibrav2latvec; rewrite G1; cbn [bind ibrav_list];
    unfold basis_cubic_p, basis_cubic_f, basis_cubic_i, basis_cubic_i_symm, basis_hexagonal,
      basis_trigonal_r_c, basis_trigonal_r_111, basis_tetragonal_p, basis_tetragonal_i,
      basis_orthorhombic_p, basis_orthorhombic_bco, basis_orthorhombic_bco_alt, basis_orthorhombic_bca,
      basis_orthorhombic_face, basis_orthorhombic_body, basis_monoclinic_p_c, basis_moniclinic_p_b,
      basis_monoclinic_base_c, basis_monoclinic_base_b, abc, fin;
    rewrite G1, ?G2, ?G3, ?G4, ?G5; cbn [bind].
  all: try (eexists; split; [reflexivity|];
    first [now apply cell_P | now apply cell_2 | now apply cell_3 | now apply cell_m3 | now apply cell_7
          | now apply cell_9 | now apply cell_m9 | now apply cell_91 | now apply cell_10 | now apply cell_11]).
  - (* hexagonal *) eexists; split; [reflexivity|]. rewrite (Rmult_comm (p 1%Z) (p 3%Z)). now apply cell_4.
  - (* trigonal *)
    assert (Hx : 0 < 1 + 2 * p 4%Z).
    { replace (1 + 2 * p 4%Z * p 4%Z * p 4%Z - p 4%Z * p 4%Z - p 4%Z * p 4%Z - p 4%Z * p 4%Z)
        with ((1 - p 4%Z) * (1 - p 4%Z) * (1 + 2 * p 4%Z)) in Hg by ring. nra. }
    rewrite !npsqrt_pos by lra. cbn [obind]. eexists; split; [reflexivity|].
    apply cell_5; try assumption; try (apply sqrt_lt_R0; lra); apply sqrt_sqrt; lra.
  - assert (Hx : 0 < 1 + 2 * p 4%Z).
    { replace (1 + 2 * p 4%Z * p 4%Z * p 4%Z - p 4%Z * p 4%Z - p 4%Z * p 4%Z - p 4%Z * p 4%Z)
        with ((1 - p 4%Z) * (1 - p 4%Z) * (1 + 2 * p 4%Z)) in Hg by ring. nra. }
    rewrite !npsqrt_pos by lra. cbn [obind]. eexists; split; [reflexivity|].
    apply cell_m5; try assumption; try (apply sqrt_lt_R0; lra); apply sqrt_sqrt; lra.
  - pose proof (sincos _ H3) as Hs. rewrite npsqrt_pos by lra. cbn [obind]. eexists; split; [reflexivity|].
    apply cell_12; try assumption; [now apply sqrt_lt_R0 | apply sqrt_sqrt; lra].
  - pose proof (sincos _ H2) as Hs. rewrite npsqrt_pos by lra. cbn [obind]. eexists; split; [reflexivity|].
    apply cell_m12; try assumption; [now apply sqrt_lt_R0 | apply sqrt_sqrt; lra].
  - pose proof (sincos _ H3) as Hs. rewrite npsqrt_pos by lra. cbn [obind]. eexists; split; [reflexivity|].
    apply cell_13; try assumption; [now apply sqrt_lt_R0 | apply sqrt_sqrt; lra].
  - pose proof (sincos _ H2) as Hs. rewrite npsqrt_pos by lra. cbn [obind]. eexists; split; [reflexivity|].
    apply cell_m13; try assumption; [now apply sqrt_lt_R0 | apply sqrt_sqrt; lra].
Qed.
Print Assumptions C41_cell_of_the_manual.

(** The table of the manual and the code's dispatch table have the same keys. *)
Lemma same_keys ibrav p : manual ibrav p = None <-> ibrav_list ibrav = None.
Proof.
  unfold manual, ibrav_list. cbn zeta.
  repeat match goal with |- context [match ?x with _ => _ end] => destruct x end; split; intros H;
    try reflexivity; discriminate.
Qed.

(** C41: an [ibrav] outside the manual's table yields Python's None when called
    directly and a ValueError from the input parser. *)
Theorem C41_unknown_ibrav : forall ibrav p celldm i,
  manual ibrav p = None -> celldm 1%Z <> None ->
  ibrav2latvec ibrav celldm = Ok PyNone /\
  (li_ibrav i = ibrav -> ibrav <> 0%Z -> parse_lattice i = Err ValueError).
Proof.
  intros ibrav p celldm i Hm Hd. apply same_keys in Hm. split.
  - unfold ibrav2latvec, dget. destruct (celldm 1%Z) as [a|]; [|congruence]. cbn [bind]. now rewrite Hm.
  - intros <- H0. unfold parse_lattice. destruct (Z.eqb_spec (li_ibrav i) 0); [congruence|]. now rewrite Hm.
Qed.
Print Assumptions C41_unknown_ibrav.

(** C41: a missing cell parameter is always an error, and the error is a KeyError
    (the ValueError of the source is never what the caller sees). *)
Theorem C41_missing_parameter : forall ibrav celldm k,
  ibrav_list ibrav <> None -> In k (1 :: needs ibrav)%Z -> celldm k = None ->
  ibrav2latvec ibrav celldm = Err KeyError.
Proof.
  intros ibrav celldm k Hl Hk Hn.
  assert (Hh : forall A, handler celldm = Err KeyError :> res A).
  { intros A. unfold handler, dget.
    assert (Hk6 : (1 <= k <= 6)%Z).
    { destruct Hk as [<-|Hk]; [lia|]. revert Hk. unfold needs.
      repeat match goal with |- context [match ?x with _ => _ end] => destruct x end; cbn; lia. }
    assert (k = 1 \/ k = 2 \/ k = 3 \/ k = 4 \/ k = 5 \/ k = 6)%Z as [->|[->|[->|[->|[->| ->]]]]] by lia;
      destruct (celldm 1%Z), (celldm 2%Z), (celldm 3%Z), (celldm 4%Z), (celldm 5%Z), (celldm 6%Z);
      cbn; first [reflexivity | discriminate]. }
  unfold ibrav2latvec. destruct (celldm 1%Z) as [a|] eqn:E1; [|unfold dget; rewrite E1; reflexivity].
  rewrite (dget_some _ _ _ E1). cbn [bind].
  destruct (ibrav_list ibrav) as [f|] eqn:Ef; [|congruence].
  assert (Hf : exists e, f celldm = Err e).
  { destruct Hk as [<-|Hk]; [congruence|]. revert Hk Ef. unfold needs, ibrav_list.
    repeat match goal with |- context [match ?x with _ => _ end] => destruct x end;
      intros Hk Ef; try discriminate Ef; inversion Ef; subst; clear Ef; cbn in Hk; try contradiction.
    all: exists KeyError; unfold basis_hexagonal,
      basis_trigonal_r_c, basis_trigonal_r_111, basis_tetragonal_p, basis_tetragonal_i,
      basis_orthorhombic_p, basis_orthorhombic_bco, basis_orthorhombic_bco_alt, basis_orthorhombic_bca,
      basis_orthorhombic_face, basis_orthorhombic_body, basis_monoclinic_p_c, basis_moniclinic_p_b,
      basis_monoclinic_base_c, basis_monoclinic_base_b, basis_triclinic, abc, dget; rewrite E1; cbn [bind].
    all: repeat (destruct Hk as [<-|Hk]; [rewrite Hn; cbn;
           repeat (match goal with H : ?d _ = None |- context [?d ?j] => destruct (d j) end; cbn);
           reflexivity|]); destruct Hk. }
  destruct Hf as [e He]. rewrite He. apply Hh.
Qed.
Print Assumptions C41_missing_parameter.

Lemma ANGSTROM_bohr : ANGSTROM = angstrom_in_bohr.
Proof. unfold ANGSTROM, angstrom_in_bohr. lra. Qed.
(** C41: traditional constants in angstrom describe the same cell in bohr. *)
Theorem C41_traditional_constants : forall ibrav a b c cosab cosac cosbc cen s,
  manual_abc ibrav angstrom_in_bohr a b c cosab cosac cosbc = Some (cen, s) -> ibrav <> 14%Z -> admissible s ->
  exists d P,
    trad2celldm ibrav a (Some b) (Some c) (Some cosab) (Some cosbc) (Some cosac) = Ok d /\
    ibrav2latvec ibrav d = Ok (Vectors (a * angstrom_in_bohr) P) /\ primitive_basis cen s P.
Proof.
  intros ibrav a b c cosab cosac cosbc cen s Hm H14 Had. rewrite <- ANGSTROM_bohr in *.
  assert (HA : 0 < ANGSTROM) by (unfold ANGSTROM; lra).
  set (p := fun k : Z => match k with 1 => (a * ANGSTROM)%R | 2 => (b / a)%R | 3 => (c / a)%R
     | 4 => if (ibrav =? 14)%Z then cosbc else cosab | 5 => cosac | _ => cosab end%Z).
  assert (Hm' : manual ibrav p = Some (cen, s)) by exact Hm.
  assert (Ha : a <> 0).
  { destruct Had as (Ha & _). intros ->.
    assert (la s = 0 * ANGSTROM).
    { revert Hm'. unfold manual. cbn zeta. change (p 1%Z) with (0 * ANGSTROM).
      repeat match goal with |- context [match ?x with _ => _ end] => destruct x end; intros E;
        try discriminate E; inversion E; reflexivity. }
    lra. }
  assert (Hd : exists d, trad2celldm ibrav a (Some b) (Some c) (Some cosab) (Some cosbc) (Some cosac) = Ok d /\
     forall k, In k (1 :: needs ibrav)%Z -> d k = Some (p k)).
  { unfold trad2celldm, fdiv. destruct (Req_EM_T a 0); [contradiction|]. cbn [bind].
    pose proof (manual_keys _ _ _ H14 Hm') as Hcase. clear - Hcase.
    repeat destruct Hcase as [Hcase|Hcase]; subst ibrav; cbn; (eexists; split; [reflexivity|]);
      intros k Hk; cbn in Hk; repeat (destruct Hk as [<-|Hk]; [reflexivity|]); destruct Hk. }
  destruct Hd as (d & Ed & Hd).
  destruct (C41_cell_of_the_manual ibrav p cen s d Hm' H14 Had Hd) as (P & EP & HP).
  exists d, P. auto.
Qed.
Print Assumptions C41_traditional_constants.

(** C41 is false for the triclinic lattice (ibrav = 14): with the admissible angles
    (60, 90, 90) degrees the third axis is too long and the volume wrong, and with
    the admissible cosines (0, 0, 0.8) the answer is not even finite. *)
Theorem C41_triclinic_refuted :
  (exists p s P, manual 14 p = Some (CP, s) /\ admissible s /\
     ibrav2latvec 14 (fun k => Some (p k)) = Ok (Vectors (p 1%Z) P) /\
     ~ primitive_basis CP s P /\
     vdot (c3 P) (c3 P) = 5 / 4 * (lc s * lc s)) /\
  (exists p s, manual 14 p = Some (CP, s) /\ admissible s /\
     ibrav2latvec 14 (fun k => Some (p k)) = Ok NotFinite).
Proof.
  split.
  - exists (fun k => match k with 4 => (/ 2)%R | 5 | 6 => 0%R | _ => 1%R end%Z). eexists. eexists.
    split; [reflexivity|]. cbn [la lb lc cbc cac cab].
    assert (Had : admissible (Cell 1 (1 * 1) (1 * 1) (/ 2) 0 0)) by (unfold admissible; cbn; lra).
    split; [exact Had|]. split.
    + unfold ibrav2latvec, dget, ibrav_list, basis_triclinic, abc, dget. cbn [bind].
      replace (1 - 0 ^ 2) with 1 by ring. rewrite npsqrt_pos by lra. rewrite sqrt_1. cbn [obind].
      rewrite npdiv_pos by lra. cbn [obind].
      replace (1 + 2 * / 2 * 0 * 0 - 0 ^ 2 - 0 ^ 2 - 0 ^ 2) with 1 by ring.
      rewrite npsqrt_pos by lra. rewrite sqrt_1. cbn [obind]. rewrite npdiv_pos by lra. cbn [obind]. reflexivity.
    + split.
      * intros (A & B & C & _ & _ & _ & _ & H). unfold shape_volume in H. cbn [la lb lc cbc cac cab] in H.
        unfold mdet, vdot, vcross in H. cbn in H.
        replace (1 + 2 * / 2 * 0 * 0 - / 2 * / 2 - 0 * 0 - 0 * 0) with (3 / 4) in H by field.
        assert (E : sqrt (3 / 4) = 1) by lra.
        pose proof (sqrt_sqrt (3 / 4) ltac:(lra)) as E2. rewrite E in E2. lra.
      * unfold vdot. cbn. field.
  - exists (fun k => match k with 6 => (4 / 5)%R | 4 | 5 => 0%R | _ => 1%R end%Z). eexists.
    split; [reflexivity|]. split; [unfold admissible; cbn; lra|].
    unfold ibrav2latvec, dget, ibrav_list, basis_triclinic, abc, dget. cbn [bind].
    rewrite npsqrt_pos by lra. cbn [obind].
    rewrite npdiv_pos by (apply sqrt_lt_R0; lra). cbn [obind].
    unfold npsqrt. destruct (Rlt_dec _ 0) as [|n]; [reflexivity|]. exfalso. apply n. lra.
Qed.
Print Assumptions C41_triclinic_refuted.

(** C41 for the triclinic lattice, what does hold: whenever the answer is finite the
    first two lengths and all three angles (scalar products) are the requested ones
    up to the length of the third axis, which is right exactly when
    cos(A,B)^2 = cos(B,C)^2; in that case the whole cell is right.  Missing: the
    third axis in general (false, see above). *)
Theorem C41_triclinic_cell : forall p s celldm P alat,
  manual 14 p = Some (CP, s) -> admissible s ->
  (forall k, In k (1 :: needs 14)%Z -> celldm k = Some (p k)) ->
  ibrav2latvec 14 celldm = Ok (Vectors alat P) ->
  alat = la s /\
  vdot (c1 P) (c1 P) = la s * la s /\ vdot (c2 P) (c2 P) = lb s * lb s /\
  vdot (c1 P) (c2 P) = la s * lb s * cab s /\ vdot (c1 P) (c3 P) = la s * lc s * cac s /\
  vdot (c2 P) (c3 P) = lb s * lc s * cbc s /\
  (vdot (c3 P) (c3 P) = lc s * lc s <-> cab s * cab s = cbc s * cbc s) /\
  (cab s * cab s = cbc s * cbc s -> primitive_basis CP s P).
Proof.
  intros p s celldm P alat Hm (Ha & Hb & Hc & H1 & H2 & H3 & Hg) Hd HP.
  assert (G : forall k, In k (1 :: needs 14)%Z -> dget celldm k = Ok (p k))
    by (intros; apply dget_some, Hd; assumption).
  cbn in Hm. inversion Hm; subst; clear Hm. cbn [la lb lc cbc cac cab] in *.
  set (a := p 1%Z) in *. set (b := p 2%Z * a) in *. set (c := p 3%Z * a) in *.
  set (x := p 4%Z) in *. set (y := p 5%Z) in *. set (z := p 6%Z) in *.
  revert HP. unfold ibrav2latvec. cbn [ibrav_list]. unfold basis_triclinic, abc.
  rewrite !(G 1%Z), !(G 2%Z), !(G 3%Z), !(G 4%Z), !(G 5%Z), !(G 6%Z) by (cbn; tauto). cbn [bind].
  fold a x y z. fold b c.
  pose proof (sincos _ H3) as Hs. rewrite npsqrt_pos by lra. cbn [obind].
  set (sn := sqrt (1 - z ^ 2)).
  assert (Hsn : 0 < sn) by (apply sqrt_lt_R0; assumption).
  assert (Esn : sn * sn = 1 - z ^ 2) by (apply sqrt_sqrt; lra).
  rewrite !npdiv_pos by assumption. cbn [obind].
  destruct (npsqrt _) as [r|] eqn:Er; cbn [obind]; [|intros HP; discriminate HP].
  rewrite npdiv_pos by assumption. cbn [obind]. intros HP. inversion HP; subst; clear HP.
  unfold npsqrt in Er. destruct (Rlt_dec _ 0) as [|Hr]; [discriminate|].
  assert (Err : r * r = 1 + 2 * x * y * z - z ^ 2 - y ^ 2 - z ^ 2).
  { inversion Er. apply sqrt_sqrt. lra. }
  assert (Hrn : 0 <= r) by (inversion Er; apply sqrt_pos). clear Er.
  cbn [LatModel.c1 LatModel.c2 LatModel.c3].
  assert (E33 : vdot (V (c * y) (c * (x - y * z) / sn) (c * r / sn)) (V (c * y) (c * (x - y * z) / sn) (c * r / sn))
     = c * c * (1 + (x * x - z * z) / (sn * sn))).
  { unfold vdot. cbn [vx vy vz].
    transitivity (c * c * (y * y + ((x - y * z) * (x - y * z) + r * r) / (sn * sn))); [field; lra|].
    rewrite Err, Esn. f_equal. field. lra. }
  assert (Hk : c * c * (1 + (x * x - z * z) / (sn * sn)) = c * c <-> z * z = x * x).
  { split; intros E.
    - assert (Hc2 : c * c <> 0) by nra.
      assert (E1 : (x * x - z * z) / (sn * sn) = 0).
      { apply (Rmult_eq_reg_l (c * c)); [|exact Hc2]. lra. }
      assert (E2 : x * x - z * z = (x * x - z * z) / (sn * sn) * (sn * sn)) by (field; lra).
      rewrite E1 in E2. lra.
    - replace (x * x - z * z) with 0 by lra. field. lra. }
  split; [reflexivity|].
  split; [unfold vdot; cbn [vx vy vz]; ring|].
  assert (E22 : vdot (V (b * z) (b * sn) 0) (V (b * z) (b * sn) 0) = b * b).
  { unfold vdot; cbn [vx vy vz]. transitivity (b * b * (z * z + sn * sn)); [ring|]. rewrite Esn. ring. }
  assert (E23 : vdot (V (b * z) (b * sn) 0) (V (c * y) (c * (x - y * z) / sn) (c * r / sn)) = b * c * x).
  { unfold vdot; cbn [vx vy vz]. field. lra. }
  split; [exact E22|]. split; [unfold vdot; cbn [vx vy vz]; ring|].
  split; [unfold vdot; cbn [vx vy vz]; ring|]. split; [exact E23|].
  rewrite E33. split; [exact Hk|].
  intros Exz. apply Hk in Exz. rewrite <- E33 in Exz.
  assert (Hr0 : 0 < r).
  { apply Hk in Exz || (rewrite E33 in Exz; apply Hk in Exz).
    assert (0 < r * r) by (rewrite Err; nra). nra. }
  apply (primitive_intro _ _ (V a 0 0) (V (b * z) (b * sn) 0) (V (c * y) (c * (x - y * z) / sn) (c * r / sn)) _ f_P);
    cbn [la lb lc]; try assumption.
  - repeat split; cbn [la lb lc cbc cac cab]; try assumption; unfold vdot; cbn [vx vy vz]; ring.
  - unfold vdot, vcross. cbn [vx vy vz].
    replace (a * (b * sn * (c * r / sn) - 0 * (c * (x - y * z) / sn)) +
      0 * (0 * (c * y) - b * z * (c * r / sn)) + 0 * (b * z * (c * (x - y * z) / sn) - b * sn * (c * y)))
      with (a * b * c * r) by (field; lra).
    apply Rmult_lt_0_compat; [apply pos3; assumption|assumption].
  - unfold f_P. intros i j k. vec_eq; lra.
  - exact f_P_ok.
  - exact f_P_inv.
  - unfold mdet. cbn [LatModel.c1 LatModel.c2 LatModel.c3]. cbn [translations length INR]. ring.
Qed.
Print Assumptions C41_triclinic_cell.

(** C41: the CELL_PARAMETERS card: its lines become the lattice vectors, in the unit
    of its option; 'alat' needs celldm(1); any other option is taken as bohr. *)
Theorem C41_cell_parameters_card : forall r1 r2 r3 celldm a,
  cellparam2latvec OAngstrom r1 r2 r3 celldm a =
    (let r := vscale angstrom_in_bohr in Ok (vnorm (r r1), Mat (r r1) (r r2) (r r3))) /\
  cellparam2latvec OOther r1 r2 r3 celldm a = Ok (vnorm r1, Mat r1 r2 r3) /\
  (forall alat, celldm 1%Z = Some alat ->
     cellparam2latvec OAlat r1 r2 r3 celldm a =
       Ok (alat, Mat (vscale alat r1) (vscale alat r2) (vscale alat r3))).
Proof.
  intros r1 r2 r3 celldm a. split; [rewrite <- ANGSTROM_bohr; reflexivity|]. split; [reflexivity|].
  intros alat E. unfold cellparam2latvec. rewrite (dget_some _ _ _ E). reflexivity.
Qed.
Print Assumptions C41_cell_parameters_card.

(** C41: the documented alternative of giving the traditional constant A instead of
    celldm(1) never works: whatever A, B, C and the cosines are, an input without
    celldm(1) raises KeyError (for the card, with option 'alat'). *)
Theorem C41_traditional_input_refuted : forall i,
  li_celldm i 1%Z = None ->
  (li_ibrav i <> 0%Z -> ibrav_list (li_ibrav i) <> None -> parse_lattice i = Err KeyError) /\
  (forall rows, li_ibrav i = 0%Z -> li_card i = Some (OAlat, rows) -> parse_lattice i = Err KeyError).
Proof.
  intros i Hn. split.
  - intros H0 Hl. unfold parse_lattice. destruct (Z.eqb_spec (li_ibrav i) 0); [contradiction|].
    destruct (ibrav_list (li_ibrav i)); [|congruence]. unfold dget. now rewrite Hn.
  - intros [[r1 r2] r3] H0 Hc. unfold parse_lattice. rewrite H0, Hc. cbn [Z.eqb].
    unfold cellparam2latvec, dget. now rewrite Hn.
Qed.
Print Assumptions C41_traditional_input_refuted.

(** C41 non-vacuity: hexagonal a = 3, c/a = 8/5; the returned cell holds. *)
Example C41_witness :
  exists P, ibrav2latvec 4 (dset 3 (8 / 5) (dset 1 3 dempty)) = Ok (Vectors 3 P) /\
    primitive_basis CP (Cell 3 3 (8 / 5 * 3) 0 0 (- / 2)) P.
Proof.
  apply (C41_cell_of_the_manual 4 (fun k => match k with 3 => (8 / 5)%R | _ => 3%R end%Z)).
  - reflexivity.
  - lia.
  - unfold admissible; cbn; lra.
  - intros k [<-|[<-|[]]]; reflexivity.
Qed.

(* ------------------------------------------------------------------ *)
(** C67: inputs that state their own celldm are unaffected by what was parsed before
    and leave nothing behind. *)
Theorem C67_own_celldm_independent : forall js j s s' d,
  j_celldm j = Some d ->
  fst (run_job s j) = fst (run_job s' j) /\ snd (run_job s j) = s /\
  (forall pre post, (forall x, In x (pre ++ post) -> j_celldm x <> None) -> js = pre ++ j :: post ->
     nth (length pre) (fst (run_jobs dempty js)) (Err ValueError) = fst (run_job dempty j)).
Proof.
  assert (Hrun : forall pre s, (forall x, In x pre -> j_celldm x <> None) -> snd (run_jobs s pre) = s).
  { induction pre as [|x t IH]; intros s H; [reflexivity|]. cbn [run_jobs]. unfold run_job.
    destruct (j_celldm x) as [d|] eqn:E; [|exfalso; apply (H x); [now left|exact E]].
    specialize (IH s (fun y Hy => H y (or_intror Hy))). destruct (run_jobs s t); exact IH. }
  assert (Hnth : forall pre s j post dflt,
     nth (length pre) (fst (run_jobs s (pre ++ j :: post))) dflt = fst (run_job (snd (run_jobs s pre)) j)).
  { induction pre as [|x t IH]; intros s j post dflt.
    - cbn [app run_jobs snd length]. destruct (run_job s j) as [r u]. destruct (run_jobs u post). reflexivity.
    - cbn [app run_jobs length]. destruct (run_job s x) as [r u]. specialize (IH u j post dflt).
      destruct (run_jobs u (t ++ j :: post)). destruct (run_jobs u t). exact IH. }
  intros js j s s' d E. unfold run_job at 1 2 3. rewrite E. split; [reflexivity|]. split; [reflexivity|].
  intros pre post H ->. rewrite Hnth, Hrun; [reflexivity|].
  intros x Hx. apply H. apply in_or_app. now left.
Qed.
Print Assumptions C67_own_celldm_independent.

(** C67 is false in general: an input that gives its cell by the card leaves its
    lattice parameter in the shared default, and a later input that states no
    celldm(1) (an error on its own) silently gets the earlier structure's value. *)
Theorem C67_history_independence_refuted : forall ibrav f a r1 r2 r3 L,
  0 < L -> vnorm r1 = L -> ibrav_list ibrav = Some f -> In ibrav [1; 2; 3; -3]%Z ->
  let first := {| j_celldm := None; j_in := with_celldm 0 None None None None None None (Some (OOther, (r1, r2, r3))) |} in
  let second := {| j_celldm := None; j_in := with_celldm ibrav (Some a) None None None None None None |} in
  run_job dempty second = (Err KeyError, dempty) /\
  exists P, fst (run_jobs dempty [first; second]) = [Ok (Vectors L (Mat r1 r2 r3)); Ok (Vectors L P)].
Proof.
  intros ibrav f a r1 r2 r3 L HL Hn Hf Hin first second.
  assert (H0 : (ibrav =? 0)%Z = false) by (cbn in Hin; lia).
  split.
  - unfold run_job, second. cbn [j_celldm j_in]. unfold parse_lattice, with_celldm. cbn [li_ibrav li_celldm].
    rewrite H0, Hf. reflexivity.
  - unfold first, second, run_jobs, run_job. cbn [j_celldm j_in]. unfold parse_lattice, with_celldm.
    cbn [li_ibrav li_celldm li_card li_a]. cbn [Z.eqb]. unfold cellparam2latvec. cbn [bind fst snd c1].
    rewrite H0, Hf, Hn. set (d := fill (dset 1 L dempty)).
    assert (E : dget d 1 = Ok L) by reflexivity. rewrite E. cbn [bind].
    assert (EP : exists P, ibrav2latvec ibrav d = Ok (Vectors L P)).
    { unfold ibrav2latvec. rewrite E, Hf. cbn [bind].
      cbn in Hin. destruct Hin as [<-|[<-|[<-|[<-|[]]]]]; cbn in Hf; inversion Hf; subst f;
        unfold basis_cubic_p, basis_cubic_f, basis_cubic_i, basis_cubic_i_symm, fin; rewrite E; cbn [bind];
        eexists; reflexivity. }
    destruct EP as [P EP]. exists P. rewrite EP. reflexivity.
Qed.
Print Assumptions C67_history_independence_refuted.

(* ------------------------------------------------------------------ *)
Lemma rceil_spec x : IZR (rceil x) - 1 < x <= IZR (rceil x).
Proof. unfold rceil. pose proof (rfloor_spec (- x)). rewrite opp_IZR. lra. Qed.

Lemma optimal_dim_z_spec n : (0 < n)%Z ->
  (n <= optimal_dim_z n)%Z /\ GIndexProofs.smooth235 (optimal_dim_z n) /\
  (forall j, (n <= j < optimal_dim_z n)%Z -> ~ GIndexProofs.smooth235 j).
Proof.
  intros Hn. destruct (optimal_dim_spec n Hn) as (m & H1 & H2 & H3 & H4).
  unfold optimal_dim_z. rewrite H4 by lia. repeat split; [lia|assumption|exact H3].
Qed.

Definition col (P : mat) (i : nat) : rvec := match i with 0%nat => c1 P | 1%nat => c2 P | _ => c3 P end.
Definition dim (sh : shape3) (i : nat) : Z := let '(a, b, c) := sh in match i with 0%nat => a | 1%nat => b | _ => c end.
Definition coord (g : vec3) (i : nat) : Z := let '(a, b, c) := g in match i with 0%nat => a | 1%nat => b | _ => c end.

Lemma vnorm_pos v : v <> V 0 0 0 -> 0 < vnorm v.
Proof.
  intros H. unfold vnorm. apply sqrt_lt_R0. pose proof (vdot_nonneg v).
  destruct (Req_dec (vdot v v) 0) as [E|E]; [apply vdot_zero in E; contradiction|lra].
Qed.

(** C68: each dimension of the chosen grid is the least product of 2, 3 and 5 that is
    at least 2 |a_i| sqrt(2 ecutwfc) / pi. *)
Theorem C68_grid_is_least_smooth : forall P ecutwfc i,
  0 < ecutwfc -> (i < 3)%nat -> col P i <> V 0 0 0 ->
  let n := dim (gen_grid_shape P ecutwfc) i in
  let bound := 2 * sqrt (2 * ecutwfc) / PI * vnorm (col P i) in
  bound <= IZR n /\ (0 < n)%Z /\ GIndexProofs.smooth235 n /\
  (forall j, bound <= IZR j -> (j < n)%Z -> ~ GIndexProofs.smooth235 j).
Proof.
  intros P e i He Hi Hcol n bound.
  assert (En : n = optimal_dim_z (rceil bound)).
  { unfold n, bound, gen_grid_shape, grid_min. destruct i as [|[|[|i]]]; [reflexivity..|lia]. }
  assert (Hb : 0 < bound).
  { unfold bound. apply Rmult_lt_0_compat; [|now apply vnorm_pos].
    apply Rdiv_lt_0_compat; [|apply PI_RGT_0]. apply Rmult_lt_0_compat; [lra|]. apply sqrt_lt_R0. lra. }
  pose proof (rceil_spec bound) as [Hc1 Hc2].
  assert (Hpos : (0 < rceil bound)%Z) by (apply lt_IZR; lra).
  destruct (optimal_dim_z_spec _ Hpos) as (H1 & H2 & H3). rewrite En.
  apply IZR_le in H1 as H1'. repeat split; [lra|lia|exact H2|].
  intros j Hj Hlt. apply H3. split; [|exact Hlt].
  assert (rceil bound - 1 < j)%Z; [|lia]. apply lt_IZR. rewrite minus_IZR. lra.
Qed.
Print Assumptions C68_grid_is_least_smooth.

Lemma cauchy u v : vdot u v * vdot u v <= vdot u u * vdot v v.
Proof.
  pose proof (vdot_nonneg (vcross u v)) as H.
  replace (vdot (vcross u v) (vcross u v)) with (vdot u u * vdot v v - vdot u v * vdot u v) in H
    by (unfold vdot, vcross; cbn; ring). lra.
Qed.

(** C68: every plane wave of the density sphere (kinetic energy at most 4 ecutwfc)
    has components of at most half the grid dimension, and it can fall off the grid
    only in the exact case 2 m_i = n_i. *)
Theorem C68_grid_holds_density_sphere : forall P unit_ U B ecutwfc g,
  mk_ulattice unit_ P = Ok U -> from_reallat U = Ok B -> 0 < ecutwfc ->
  vdot (cryst2cart (u_lat B) (gvec g)) (cryst2cart (u_lat B) (gvec g)) <= 2 * (4 * ecutwfc) ->
  (forall i, (i < 3)%nat -> (2 * Z.abs (coord g i) <= dim (gen_grid_shape P ecutwfc) i)%Z) /\
  ((forall i, (i < 3)%nat -> (2 * coord g i <> dim (gen_grid_shape P ecutwfc) i)%Z) ->
   g_ok (gen_grid_shape P ecutwfc) g = true).
Proof.
  intros P unit_ U B e g HU HB He Hcut.
  assert (Hdet : mdet P <> 0 /\ primvec (u_lat U) = P).
  { unfold mk_ulattice in HU. destruct (mk_lattice P) as [L|] eqn:EL; [|discriminate]. cbn in HU.
    inversion HU; subst. cbn [u_lat]. apply mk_lattice_ok in EL. tauto. }
  destruct Hdet as [Hdet _].
  assert (Hdual : forall i, (i < 3)%nat -> vdot (col P i) (cryst2cart (u_lat B) (gvec g)) = TPI * IZR (coord g i)).
  { intros i Hi. unfold cryst2cart.
    assert (EB : primvec (u_lat B) = mscale TPI (mtrans (minv P))).
    { unfold from_reallat, mk_ulattice in HB.
      destruct (mk_lattice (mscale TPI (mtrans (primvec_inv (u_lat U))))) as [L|] eqn:EL; [|discriminate].
      cbn in HB. inversion HB; subst. cbn [u_lat]. apply mk_lattice_ok in EL.
      destruct EL as (EL1 & EL2 & _). unfold mk_ulattice in HU.
      destruct (mk_lattice P) as [L'|] eqn:EL'; [|discriminate]. cbn in HU. inversion HU; subst. cbn [u_lat] in *.
      apply mk_lattice_ok in EL'. destruct EL' as (_ & _ & Hi' & _). rewrite EL2, Hi'. reflexivity. }
    rewrite EB.
    pose proof (minv_l P Hdet) as HI. apply (f_equal mtrans) in HI. rewrite mtrans_mmul, mtrans_mid in HI.
    (* P^T (2 pi P^-T) m = 2 pi m *)
    assert (E : mv (mtrans P) (mv (mscale TPI (mtrans (minv P))) (gvec g)) = vscale TPI (gvec g)).
    { transitivity (vscale TPI (mv (mmul (mtrans P) (mtrans (minv P))) (gvec g))).
      - rewrite mv_mmul. unfold mv, mscale, vscale, vadd, mtrans. cbn. f_equal; ring.
      - rewrite HI, mv_mid. reflexivity. }
    destruct g as [[g1 g2] g3].
    apply (f_equal (fun v => (vx v, vy v, vz v))) in E. unfold vscale in E. cbn [gvec vx vy vz] in E.
    change (gvec (g1, g2, g3)) with (V (IZR g1) (IZR g2) (IZR g3)).
    set (w := mv (mscale TPI (mtrans (minv P))) (V (IZR g1) (IZR g2) (IZR g3))) in *.
    unfold mv, mtrans, vadd, vscale in E. cbn [vx vy vz LatModel.c1 LatModel.c2 LatModel.c3] in E. 
    pose proof (f_equal (fun x => fst (fst x)) E) as E1. pose proof (f_equal (fun x => snd (fst x)) E) as E2.
    pose proof (f_equal snd E) as E3. cbn [fst snd] in E1, E2, E3. clear E. clearbody w.
    unfold vdot, col, coord.
    destruct i as [|[|[|i]]]; [| | |lia]; cbv beta iota zeta; [rewrite <- E1|rewrite <- E2|rewrite <- E3]; ring. }
  assert (Hcol : forall i, (i < 3)%nat -> col P i <> V 0 0 0).
  { intros i Hi E. apply Hdet. unfold mdet, vdot, vcross. unfold col in E.
    destruct i as [|[|[|i]]]; [| | |lia]; rewrite E; cbn; ring. }
  assert (Hhalf : forall i, (i < 3)%nat -> (2 * Z.abs (coord g i) <= dim (gen_grid_shape P e) i)%Z).
  { intros i Hi.
    destruct (C68_grid_is_least_smooth P e i He Hi (Hcol i Hi)) as (Hb & Hpos & _).
    set (n := dim (gen_grid_shape P e) i) in *.
    pose proof (cauchy (col P i) (cryst2cart (u_lat B) (gvec g))) as HC. rewrite (Hdual i Hi) in HC.
    pose proof (vnorm_pos _ (Hcol i Hi)) as Hvp.
    assert (Hvv : vdot (col P i) (col P i) = vnorm (col P i) * vnorm (col P i)).
    { unfold vnorm. rewrite sqrt_sqrt; [reflexivity|apply vdot_nonneg]. }
    set (v := vnorm (col P i)) in *. set (m := coord g i) in *.
    assert (Hs : sqrt (2 * e) * sqrt (2 * e) = 2 * e) by (apply sqrt_sqrt; lra).
    pose proof (sqrt_pos (2 * e)) as Hs0. set (q := sqrt (2 * e)) in *.
    pose proof PI_RGT_0 as HPI.
    assert (Hsq : (2 * PI * IZR m) * (2 * PI * IZR m) <= (2 * q * v) * (2 * q * v)).
    { unfold TPI in HC. rewrite Hvv in HC. apply Rle_trans with (1 := HC).
      replace (2 * q * v * (2 * q * v)) with (v * v * (4 * (q * q))) by ring. rewrite Hs.
      apply Rmult_le_compat_l; [nra|lra]. }
    assert (Habs : PI * (2 * Rabs (IZR m)) <= 2 * q * v).
    { assert (0 <= 2 * q * v) by (apply Rmult_le_pos; [lra|lra]).
      assert (0 <= PI * (2 * Rabs (IZR m))) by (pose proof (Rabs_pos (IZR m)); apply Rmult_le_pos; lra).
      apply Rsqr_incr_0; try assumption. unfold Rsqr.
      apply Rle_trans with (2 := Hsq). right.
      transitivity (4 * PI * PI * (Rabs (IZR m) * Rabs (IZR m))); [ring|].
      rewrite <- Rabs_mult, Rabs_right by (apply Rle_ge, Rle_0_sqr). ring. }
    apply le_IZR. rewrite mult_IZR, abs_IZR.
    apply Rle_trans with (2 := Hb).
    replace (2 * q / PI * v) with ((2 * q * v) * / PI) by (field; lra).
    apply (Rmult_le_reg_l PI); [lra|]. replace (PI * (2 * q * v * / PI)) with (2 * q * v) by (field; lra).
    exact Habs. }
  split; [exact Hhalf|].
  intros Hne. destruct (gen_grid_shape P e) as [[n1 n2] n3]. destruct g as [[g1 g2] g3].
  pose proof (Hhalf 0%nat ltac:(lia)). pose proof (Hhalf 1%nat ltac:(lia)). pose proof (Hhalf 2%nat ltac:(lia)).
  pose proof (Hne 0%nat ltac:(lia)). pose proof (Hne 1%nat ltac:(lia)). pose proof (Hne 2%nat ltac:(lia)).
  cbn [dim coord] in *. unfold g_ok, dim_ok. lia.
Qed.
Print Assumptions C68_grid_holds_density_sphere.

Lemma rceil_IZR k : rceil (IZR k) = k.
Proof.
  unfold rceil. rewrite <- opp_IZR. rewrite (rfloor_unique (IZR (- k)) (- k)); [lia|]. lra.
Qed.

Definition cube (a : R) : mat := Mat (V a 0 0) (V 0 a 0) (V 0 0 a).

(** C68 is false on the boundary: for a cubic cell of side pi and ecutwfc = 2 (hartree)
    the chosen grid is 4 x 4 x 4; the plane wave (2,0,0) has kinetic energy exactly
    4 ecutwfc but is not on the grid, while (-2,0,0) is: the density sphere built on
    that grid is not closed under inversion. *)
Theorem C68_boundary_refuted :
  gen_grid_shape (cube PI) 2 = (4, 4, 4)%Z /\
  exists U B s, mk_ulattice PI (cube PI) = Ok U /\ from_reallat U = Ok B /\
    gspace_new B (4 * 2) (Some (gen_grid_shape (cube PI) 2)) = Ok s /\
    vdot (cryst2cart (u_lat B) (gvec (2, 0, 0)%Z)) (cryst2cart (u_lat B) (gvec (2, 0, 0)%Z)) <= 2 * (4 * 2) /\
    In (-2, 0, 0)%Z (gs_cryst (sp_base s)) /\ ~ In (2, 0, 0)%Z (gs_cryst (sp_base s)).
Proof.
  pose proof PI_RGT_0 as HPI.
  assert (Hs4 : sqrt (2 * 2) = 2) by (replace (2 * 2) with (2 ^ 2) by ring; apply sqrt_pow2; lra).
  assert (Hmin : forall v, vnorm v = PI -> grid_min 2 v = 4%Z).
  { intros v Hv. unfold grid_min. rewrite Hv, Hs4.
    replace (2 * 2 / PI * PI) with (IZR 4) by (cbn; field; lra). apply rceil_IZR. }
  assert (Hn : forall x y z, x * x + y * y + z * z = PI * PI -> vnorm (V x y z) = PI).
  { intros x y z E. unfold vnorm, vdot. cbn [vx vy vz]. rewrite E. apply sqrt_square. lra. }
  assert (Hsh : gen_grid_shape (cube PI) 2 = (4, 4, 4)%Z).
  { unfold gen_grid_shape, cube. cbn [LatModel.c1 LatModel.c2 LatModel.c3].
    rewrite !Hmin by (apply Hn; ring). reflexivity. }
  split; [exact Hsh|]. rewrite Hsh.
  assert (Hdet : mdet (cube PI) <> 0).
  { unfold mdet, cube, vdot, vcross. cbn. pose proof (pos3 PI PI PI HPI HPI HPI). lra. }
  assert (HU : exists U, mk_ulattice PI (cube PI) = Ok U).
  { unfold mk_ulattice, mk_lattice. destruct (Req_EM_T _ 0); [contradiction|]. eexists; reflexivity. }
  destruct HU as [U HU].
  destruct (reci_exists _ _ _ HU) as (B & HB & _ & EBp).
  assert (Hlen : forall i j k, vdot (cryst2cart (u_lat B) (gvec (i, j, k))) (cryst2cart (u_lat B) (gvec (i, j, k)))
     = 4 * (IZR i * IZR i + IZR j * IZR j + IZR k * IZR k)).
  { intros i j k. unfold cryst2cart.
    assert (EB : primvec (u_lat B) = cube 2).
    { rewrite EBp. unfold minv, mtrans, mscale, vscale, cube, mdet, vdot, vcross, TPI. cbn. f_equal; f_equal; field; lra. }
    rewrite EB. unfold mv, cube, vdot, vadd, vscale, gvec. cbn. ring. }
  destruct (gspace_new_total (mscale TPI (mtrans (primvec_inv (u_lat U)))) B (TPI / PI) (4 * 2) (Some (4, 4, 4)%Z) (4, 4, 4)%Z) as [s Hsp].
  - unfold from_reallat in HB. assert (EU : u_unit U = PI).
    { unfold mk_ulattice in HU. destruct (mk_lattice (cube PI)); [|discriminate]. cbn in HU. now inversion HU. }
    rewrite EU in HB. exact HB.
  - lra.
  - reflexivity.
  - now left.
  - exists (-2, -2, -2)%Z. split; [reflexivity|]. rewrite Hlen. lra.
  - exists (0, 0, 0)%Z, (-1, 0, 0)%Z. split; [congruence|].
    intros x [->| ->]; (split; [reflexivity|]); rewrite Hlen; lra.
  - exists U, B, s. split; [exact HU|]. split; [exact HB|]. split; [exact Hsp|].
    rewrite Hlen. split; [lra|].
    assert (HBu : mk_ulattice (TPI / u_unit U) (mscale TPI (mtrans (primvec_inv (u_lat U)))) = Ok B) by exact HB.
    destruct (gspace_new_inv _ _ _ _ _ _ HBu Hsp) as (_ & _ & _ & _ & Hshape & _ & Hin & _).
    split.
    + apply Hin. rewrite (Hshape _ eq_refl), Hlen. split; [reflexivity|lra].
    + intros H. apply Hin in H. destruct H as [H _]. rewrite (Hshape _ eq_refl) in H. discriminate H.
Qed.
Print Assumptions C68_boundary_refuted.
