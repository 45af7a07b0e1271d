(** Properties C21, C22: supercells. *)
From Verif Require Import Base LatModel LatProofs CrystalModel CrystalProofs.
From Coq Require Import Lra.
Open Scope R_scope.

(** C21.  For positive repeats the supercell exists; its axes are the repeated
    axes and its volume n1*n2*n3 times larger; every species keeps its label and
    mass, has n1*n2*n3 times as many atoms, and they sit exactly at the lattice
    translates of the original atoms. *)
Theorem C21_supercell : forall c P alat n1 n2 n3,
  mk_ulattice alat P = Ok (cr_lat c) -> Forall valid_species (cr_atoms c) ->
  (0 < n1 /\ 0 < n2 /\ 0 < n3)%Z ->
  let L := u_lat (cr_lat c) in
  exists c', gen_supercell c [n1; n2; n3] = Ok c'
    /\ axes_cart (u_lat (cr_lat c')) = [vscale (IZR n1) (c1 P); vscale (IZR n2) (c2 P); vscale (IZR n3) (c3 P)]
    /\ cellvol (u_lat (cr_lat c')) = IZR (n1 * n2 * n3) * cellvol L
    /\ Forall2 (fun sp sp' =>
         sp_label sp' = sp_label sp /\ sp_mass sp' = sp_mass sp
         /\ numatoms sp' = (n1 * n2 * n3 * numatoms sp)%Z
         /\ (forall p, In p (r_cart sp') <->
               exists i j k q, (0 <= i < n1 /\ 0 <= j < n2 /\ 0 <= k < n3)%Z
                 /\ In q (map (cryst2cart L) (sp_r sp)) /\ p = translate L i j k q))
       (cr_atoms c) (cr_atoms c').
Proof.
  intros c P alat n1 n2 n3 HP Hsp Hn L.
  destruct (sup_lat c P alat HP) as (_ & EL & _ & _).
  destruct (sup_exists c n1 n2 n3 P alat HP Hn Hsp) as (c' & E & _ & EL' & F).
  exists c'. split; [exact E|].
  destruct (mk_lattice_ok _ _ EL') as (_ & EP' & _ & _ & EV').
  destruct (mk_lattice_ok _ _ EL) as (_ & _ & _ & _ & EV). fold L in EL, EV.
  split; [|split].
  - unfold axes_cart. rewrite EP'. reflexivity.
  - rewrite EV', EV, mdet_sup. rewrite Rabs_mult. f_equal. rewrite !mult_IZR. apply Rabs_pos_eq.
    repeat apply Rmult_le_pos; apply IZR_le; lia.
  - clear E EL' EP' EV'. revert F. generalize (cr_atoms c) as l, (cr_atoms c') as l'.
    clear Hsp. induction 1 as [|sp sp' l l' Hh Ht IH]; constructor; [|exact IH].
    destruct Hh as (A1 & A2 & A3 & A4 & _). split; [exact A1|]. split; [exact A2|]. split.
    + unfold numatoms. rewrite <- r_cryst_all_length by lia.
      rewrite <- (map_length (cryst2cart (u_lat (cr_lat c))) (r_cryst_all n1 n2 n3 (sp_r sp))), <- A4.
      unfold r_cart. now rewrite map_length.
    + intros p. rewrite A4. fold L. rewrite r_cart_all. rewrite in_flat_map. split.
      * intros ([[i j] k] & Hc & Hp). apply cells_in in Hc. apply in_map_iff in Hp as (q & <- & Hq).
        exists i, j, k, q. tauto.
      * intros (i & j & k & q & Hc & Hq & ->). exists (i, j, k). split; [now apply cells_in|].
        apply in_map_iff. now exists q.
Qed.
Print Assumptions C21_supercell.

(** C21.  Each translate occurs once: if no two atoms of a species coincide up to
    a lattice vector, the atoms of the supercell species are pairwise distinct. *)
Theorem C21_supercell_no_duplicates : forall c P alat n1 n2 n3 c',
  mk_ulattice alat P = Ok (cr_lat c) -> Forall valid_species (cr_atoms c) ->
  (0 < n1 /\ 0 < n2 /\ 0 < n3)%Z ->
  gen_supercell c [n1; n2; n3] = Ok c' ->
  let L := u_lat (cr_lat c) in
  Forall2 (fun sp sp' =>
    let r := map (cryst2cart L) (sp_r sp) in
    (forall a b i j k, (a < length r)%nat -> (b < length r)%nat ->
       nth b r (V 0 0 0) = translate L i j k (nth a r (V 0 0 0)) -> a = b) ->
    NoDup (r_cart sp')) (cr_atoms c) (cr_atoms c').
Proof.
  intros c P alat n1 n2 n3 c' HP Hsp Hn E L.
  destruct (sup_lat c P alat HP) as (_ & EL & _ & _).
  destruct (sup_exists c n1 n2 n3 P alat HP Hn Hsp) as (c'' & E' & _ & _ & F).
  rewrite E in E'. injection E' as <-.
  eapply Forall2_impl; [|exact F]. intros sp sp' (_ & _ & _ & A4 & _) r Hr.
  rewrite A4. fold L. rewrite r_cart_all. fold r. now apply (supercell_distinct P L).
Qed.
Print Assumptions C21_supercell_no_duplicates.

(** C21.  A zero repeat gives a singular cell (ValueError); a negative one is
    refused - with AssertionError, not the TypeError the code intends. *)
Theorem C21_bad_repeats_refused : forall c P alat n1 n2 n3,
  mk_ulattice alat P = Ok (cr_lat c) ->
  ((0 <= n1 /\ 0 <= n2 /\ 0 <= n3)%Z -> (n1 = 0 \/ n2 = 0 \/ n3 = 0)%Z ->
     gen_supercell c [n1; n2; n3] = Err ValueError)
  /\ ((n1 < 0 \/ n2 < 0 \/ n3 < 0)%Z -> gen_supercell c [n1; n2; n3] = Err AssertionError)
  /\ (forall l, length l <> 3%nat -> Forall (fun n => (0 <= n)%Z) l -> gen_supercell c l = Err ValueError).
Proof.
  intros c P alat n1 n2 n3 HP. destruct (sup_lat c P alat HP) as (_ & _ & EP & _). split; [|split].
  - intros Hn Hz. unfold gen_supercell. cbn [forallb].
    replace ((0 <=? n1) && ((0 <=? n2) && ((0 <=? n3) && true)))%Z with true by lia. cbn [assert_ bind].
    unfold mk_ulattice. rewrite EP. destruct (mk_lattice_iff (latvec_sup n1 n2 n3 P)) as [K _].
    rewrite K; [reflexivity|]. rewrite mdet_sup. destruct Hz as [-> | [-> | ->]]; ring.
  - intros Hneg. unfold gen_supercell. cbn [forallb].
    replace ((0 <=? n1) && ((0 <=? n2) && ((0 <=? n3) && true)))%Z with false by lia. reflexivity.
  - intros l Hl HF. unfold gen_supercell.
    replace (forallb (fun n => (0 <=? n)%Z) l) with true.
    2:{ symmetry. apply forallb_forall. rewrite Forall_forall in HF. intros x Hx. specialize (HF x Hx). lia. }
    cbn [assert_ bind]. destruct l as [|a [|b [|d [|e l]]]]; try reflexivity. cbn in Hl. congruence.
Qed.
Print Assumptions C21_bad_repeats_refused.

(** C22.  For species read from pseudopotential files the electron count scales. *)
Theorem C22_numel_scales : forall c P alat n1 n2 n3 c',
  mk_ulattice alat P = Ok (cr_lat c) -> Forall valid_species (cr_atoms c) ->
  (0 < n1 /\ 0 < n2 /\ 0 < n3)%Z ->
  (forall sp, In sp (cr_atoms c) -> exists v, sp_pp sp = PPFile v) ->
  gen_supercell c [n1; n2; n3] = Ok c' ->
  numel c' = (n1 * n2 * n3 * numel c)%Z.
Proof.
  intros c P alat n1 n2 n3 c' HP Hsp Hn Hf E.
  destruct (sup_exists c n1 n2 n3 P alat HP Hn Hsp) as (c'' & E' & _ & _ & F).
  rewrite E in E'. injection E' as <-. unfold numel. revert Hf F.
  generalize (cr_atoms c) as l, (cr_atoms c') as l'. clear - Hn.
  intros l l' Hf F. induction F as [|sp sp' l l' Hh Ht IH]; cbn [map fold_right]; [ring|].
  rewrite IH by (intros; apply Hf; now right).
  destruct Hh as (_ & _ & _ & A4 & A5). destruct (Hf sp (or_introl eq_refl)) as (v & Ev). rewrite Ev in A5. rewrite A5.
  assert (EN : numatoms sp' = (n1 * n2 * n3 * numatoms sp)%Z).
  { unfold numatoms. rewrite <- r_cryst_all_length by lia.
    rewrite <- (map_length (cryst2cart (u_lat (cr_lat c))) (r_cryst_all n1 n2 n3 (sp_r sp))), <- A4.
    unfold r_cart. now rewrite map_length. }
  rewrite EN. ring.
Qed.
Print Assumptions C22_numel_scales.

(** C22, exact for every crystal: species with a pseudopotential file keep their valence, the others
    count -1 electron per atom in the supercell. *)
Theorem C22_numel_exact : forall c P alat n1 n2 n3 c',
  mk_ulattice alat P = Ok (cr_lat c) -> Forall valid_species (cr_atoms c) ->
  (0 < n1 /\ 0 < n2 /\ 0 < n3)%Z ->
  gen_supercell c [n1; n2; n3] = Ok c' ->
  numel c' = (n1 * n2 * n3 * fold_right Z.add 0 (map (fun sp =>
     (match sp_pp sp with PPFile _ => sp_valence sp | _ => -1 end) * Z.of_nat (length (sp_r sp))) (cr_atoms c)))%Z.
Proof.
  intros c P alat n1 n2 n3 c' HP Hsp Hn E.
  destruct (sup_exists c n1 n2 n3 P alat HP Hn Hsp) as (c'' & E' & _ & _ & F).
  rewrite E in E'. injection E' as <-. unfold numel. revert Hsp F.
  generalize (cr_atoms c) as l, (cr_atoms c') as l'. clear - Hn.
  intros l l' Hv F. induction F as [|sp sp' l l' Hh Ht IH]; cbn [map fold_right]; [ring|].
  inversion Hv as [|? ? V1 V2]; subst. rewrite IH by exact V2.
  destruct Hh as (_ & _ & _ & A4 & A5). 
  assert (EN : numatoms sp' = (n1 * n2 * n3 * numatoms sp)%Z).
  { unfold numatoms. rewrite <- r_cryst_all_length by lia.
    rewrite <- (map_length (cryst2cart (u_lat (cr_lat c))) (r_cryst_all n1 n2 n3 (sp_r sp))), <- A4.
    unfold r_cart. now rewrite map_length. }
  rewrite EN. unfold numatoms at 1.
  destruct V1 as (lb & pp & m & lat & r & M). unfold mk_species in M.
  destruct pp; cbn [bind fst snd] in M; try discriminate; destruct m as [|x|]; cbn [bind] in M; try discriminate;
    try (destruct (Rlt_dec x 0); cbn [bind] in M; try discriminate); injection M as <-; cbn [sp_pp sp_valence sp_r] in *; rewrite A5; ring.
Qed.
Print Assumptions C22_numel_exact.

(** C22 fails for species given by a plain valence: the supercell forgets it and
    counts -1 electron per atom. *)
Theorem C22_plain_valence_refuted : exists c P alat c',
  mk_ulattice alat P = Ok (cr_lat c) /\ Forall valid_species (cr_atoms c)
  /\ gen_supercell c [2; 1; 1]%Z = Ok c' /\ numel c = 4%Z /\ numel c' = (-2)%Z.
Proof.
  set (P := Mat (V 1 0 0) (V 0 1 0) (V 0 0 1)).
  destruct (mk_lattice_iff P) as [_ K]. destruct K as (L & EL & _).
  { unfold mdet, P, vdot, vcross. cbn. lra. }
  set (lat := MkULattice 1 L).
  set (sp := MkSpecies 0 4 PPNone MNone lat [V 0 0 0]).
  assert (Hv : Forall valid_species [sp]).
  { constructor; [|constructor]. exists 0%nat, (PPInt 4), MNone, lat, [V 0 0 0]. reflexivity. }
  set (c := MkCrystal lat [sp]).
  assert (HP : mk_ulattice 1 P = Ok (cr_lat c)) by (unfold mk_ulattice; rewrite EL; reflexivity).
  destruct (sup_exists c 2 1 1 P 1 HP ltac:(lia) Hv) as (c' & E & _ & _ & F).
  exists c, P, 1, c'. split; [exact HP|]. split; [exact Hv|]. split; [exact E|]. split; [reflexivity|].
  unfold numel. cbn [cr_atoms c] in F. inversion F as [|? sp' ? l' Hh Ht]; subst. inversion Ht; subst.
  destruct Hh as (_ & _ & _ & A4 & A5). cbn [sp_pp sp] in A5.
  cbn [map fold_right]. rewrite A5. unfold numatoms.
  replace (length (sp_r sp')) with 2%nat; [reflexivity|].
  transitivity (length (r_cart sp')); [|unfold r_cart; now rewrite map_length].
  rewrite A4, map_length. reflexivity.
Qed.
Print Assumptions C22_plain_valence_refuted.

(** Non-vacuity: a two-atom fcc crystal with a pseudopotential file. *)
Example C21_nonvacuous : exists c,
  mk_ulattice 10 (Mat (V (-5) 0 5) (V 0 5 5) (V (-5) 5 0)) = Ok (cr_lat c)
  /\ Forall valid_species (cr_atoms c)
  /\ (forall sp, In sp (cr_atoms c) -> exists v, sp_pp sp = PPFile v)
  /\ numel c = 8%Z.
Proof.
  destruct (mk_lattice_iff (Mat (V (-5) 0 5) (V 0 5 5) (V (-5) 5 0))) as [_ K]. destruct K as (L & EL & _).
  { unfold mdet, vdot, vcross. cbn. lra. }
  set (lat := MkULattice 10 L).
  set (sp := MkSpecies 0 4 (PPFile 4) (MFloat 28) lat [V 0 0 0; V (1/4) (1/4) (1/4)]).
  exists (MkCrystal lat [sp]). split; [unfold mk_ulattice; rewrite EL; reflexivity|]. split; [|split].
  - constructor; [|constructor]. exists 0%nat, (PPFile 4), (MFloat 28), lat, [V 0 0 0; V (1/4) (1/4) (1/4)].
    unfold mk_species. cbn [bind]. destruct (Rlt_dec 28 0); [lra|]. reflexivity.
  - intros s [<-|[]]. now exists 4%Z.
  - reflexivity.
Qed.

(** A species is refused, always with TypeError, exactly when its pseudopotential is of a wrong kind or its mass is not a non-negative float. *)
Theorem C22_species_refused : forall label pp m lat r,
  (exists sp, mk_species label pp m lat r = Ok sp /\ sp_r sp = r /\ sp_mass sp = m) /\ pp <> PPBad /\ m <> MOther /\ (forall x, m = MFloat x -> 0 <= x)
  \/ mk_species label pp m lat r = Err TypeError /\ (pp = PPBad \/ m = MOther \/ exists x, m = MFloat x /\ x < 0).
Proof.
  intros label pp m lat r. unfold mk_species. destruct pp; cbn [bind]; try (right; split; [reflexivity|now left]).
  all: destruct m as [|x|]; cbn [bind fst snd]; [left|destruct (Rlt_dec x 0) as [L|L]; cbn [bind]; [right|left]|right].
  all: try (split; [reflexivity|]; first [right; right; now exists x|right; now left]).
  all: split; [eexists; split; [reflexivity|]; now split|]; split; [easy|]; split; [easy|]; intros y E; try discriminate; injection E as <-; lra.
Qed.
Print Assumptions C22_species_refused.
