(** Lemmas about the distributed G-space model, part 3: connection with the
    serial G-space, histories of calls, scatter/gather, failing constructions. *)
From Verif Require Import Base ScatterModel ScatterProofs SortModel SortProofs GIndexModel GIndexProofs
  CBase FFTModel FFTSpec FFTProofs FFTProofs2 DistModel DistSpec DistProofs DistProofs2.
Open Scope nat_scope.

Definition stickn (ny nz : nat) (g : vec3) : nat :=
  let '(a, b) := stick ny nz g in Z.to_nat a * nz + Z.to_nat b.

Section FromGSpace.
  Context (nx ny nz : nat) (gs : list vec3) (s : gspace).
  Hypothesis H : gspace_base (zshape nx ny nz) gs = Ok s.
  Let idx := map Z.to_nat (gs_idxgrid s).

  Lemma FG_pos : 0 < nx /\ 0 < ny /\ 0 < nz.
  Proof. destruct (gspace_idx nx ny nz gs s H) as (_ & _ & _ & A & B & C & _). tauto. Qed.

  Lemma FG_bound : forall i, In i idx -> i < nx * ny * nz.
  Proof. now destruct (gspace_idx nx ny nz gs s H) as (_ & A & _). Qed.
  Lemma FG_len : length idx = length (gs_cryst s).
  Proof. now destruct (gspace_idx nx ny nz gs s H) as (_ & _ & A & _). Qed.

  Lemma FG_iyz : map (iyz_of ny nz) idx = map (stickn ny nz) (gs_cryst s).
  Proof.
    destruct (gspace_idx nx ny nz gs s H) as (_ & _ & HL & Px & Py & Pz & HK). fold idx in HL, HK.
    apply (nth_ext _ _ (iyz_of ny nz 0) (stickn ny nz (0, 0, 0)%Z)); [now rewrite !map_length|].
    rewrite map_length. intros k Hk. rewrite !map_nth. specialize (HK k ltac:(lia)).
    destruct (nth k (gs_cryst s) (0, 0, 0)%Z) as [[g1 g2] g3]. destruct HK as (D1 & D2 & D3 & _ & E2 & E3).
    unfold iyz_of, stickn, stick. rewrite E2, E3, !fold1_mod by (assumption || lia). reflexivity.
  Qed.

  Lemma FG_sorted : nsorted (map (iyz_of ny nz) idx).
  Proof.
    rewrite FG_iyz. destruct (gspace_base_sorted _ _ _ H) as (_ & _ & _ & HS & _).
    destruct FG_pos as (Px & Py & Pz).
    apply StronglySorted_map. eapply StronglySorted_impl; [|exact HS].
    intros [[a1 a2] a3] [[b1 b2] b3]. unfold yzx, zshape, lex_leb, stickn, stick. intros L.
    pose proof (Z.mod_pos_bound a2 (Z.of_nat ny) ltac:(lia)) as A2.
    pose proof (Z.mod_pos_bound b2 (Z.of_nat ny) ltac:(lia)) as B2.
    pose proof (Z.mod_pos_bound a3 (Z.of_nat nz) ltac:(lia)) as A3.
    pose proof (Z.mod_pos_bound b3 (Z.of_nat nz) ltac:(lia)) as B3.
    revert L A2 A3 B2 B3.
    generalize (a1 mod Z.of_nat nx)%Z, (b1 mod Z.of_nat nx)%Z.
    generalize (a2 mod Z.of_nat ny)%Z, (b2 mod Z.of_nat ny)%Z.
    generalize (a3 mod Z.of_nat nz)%Z, (b3 mod Z.of_nat nz)%Z.
    intros z3 z3' z2 z2' z1 z1' L A2 A3 B2 B3.
    assert (z2 < z2' \/ (z2 = z2' /\ z3 <= z3'))%Z as [C|[-> C]] by lia.
    - assert (Z.to_nat z2 + 1 <= Z.to_nat z2') by lia.
      assert (Z.to_nat z3 < nz) by lia.
      assert ((Z.to_nat z2 + 1) * nz <= Z.to_nat z2' * nz) by now apply Nat.mul_le_mono_r. lia.
    - apply Nat.add_le_mono_l. lia.
  Qed.

  Lemma stick_inj g h : stickn ny nz g = stickn ny nz h -> stick ny nz g = stick ny nz h.
  Proof.
    destruct FG_pos as (Px & Py & Pz).
    destruct g as [[g1 g2] g3], h as [[h1 h2] h3]. unfold stickn, stick.
    pose proof (Z.mod_pos_bound g2 (Z.of_nat ny) ltac:(lia)) as A2.
    pose proof (Z.mod_pos_bound h2 (Z.of_nat ny) ltac:(lia)) as B2.
    pose proof (Z.mod_pos_bound g3 (Z.of_nat nz) ltac:(lia)) as A3.
    pose proof (Z.mod_pos_bound h3 (Z.of_nat nz) ltac:(lia)) as B3.
    revert A2 A3 B2 B3.
    generalize (g2 mod Z.of_nat ny)%Z, (h2 mod Z.of_nat ny)%Z.
    generalize (g3 mod Z.of_nat nz)%Z, (h3 mod Z.of_nat nz)%Z.
    intros z3 z3' z2 z2' A2 A3 B2 B3 E.
    rewrite !(Nat.mul_comm _ nz) in E.
    assert (C1 : Z.to_nat z3 < nz) by lia. assert (C2 : Z.to_nat z3' < nz) by lia.
    destruct (mixed_inj nz _ _ _ _ C1 C2 E) as [E1 E2].
    apply pair_equal_spec. split; lia.
  Qed.

  Lemma FG_num : length (np_unique (map (iyz_of ny nz) idx)) = num_sticks ny nz gs.
  Proof.
    destruct (gspace_base_sorted _ _ _ H) as (HP & _).
    rewrite FG_iyz. unfold num_sticks.
    set (F := fun p : Z * Z => Z.to_nat (fst p) * nz + Z.to_nat (snd p)).
    transitivity (length (map F (nodup zz_dec (map (stick ny nz) gs)))); [|apply map_length].
    apply Nat.le_antisymm.
    - apply NoDup_incl_length; [apply np_unique_NoDup|]. intros p Hp.
      apply (proj1 (np_unique_in _ _)) in Hp. apply in_map_iff in Hp as (g & <- & Hg).
      apply in_map_iff. exists (stick ny nz g). split.
      + unfold F, stickn. now destruct (stick ny nz g).
      + apply nodup_In, in_map. eapply Permutation_in; eassumption.
    - apply NoDup_incl_length.
      + assert (HF : forall l : list (Z*Z), NoDup l ->
           (forall a, In a l -> exists g, a = stick ny nz g) -> NoDup (map F l)).
        { induction l as [|a l IH]; intros HN Hl; [constructor|]. inversion HN as [|? ? Hn HN']; subst.
          cbn [map]. constructor; [|apply IH; [assumption|intros b Hb; apply Hl; now right]].
          intros Hin. apply in_map_iff in Hin as (b & E & Hb). apply Hn.
          destruct (Hl a (or_introl eq_refl)) as [g ->]. destruct (Hl b (or_intror Hb)) as [h ->].
          replace (stick ny nz g) with (stick ny nz h); [assumption|]. apply stick_inj.
          unfold stickn. unfold F in E. now destruct (stick ny nz g), (stick ny nz h). }
        apply HF; [apply NoDup_nodup|]. intros a Ha. apply nodup_In, in_map_iff in Ha as (g & <- & _). now exists g.
      + intros p Hp. apply in_map_iff in Hp as (a & <- & Ha). apply nodup_In, in_map_iff in Ha as (g & <- & Hg).
        apply (proj2 (np_unique_in _ _)). apply in_map_iff. exists g. split.
        * unfold F, stickn. now destruct (stick ny nz g).
        * eapply Permutation_in; [symmetry; exact HP|exact Hg].
  Qed.
End FromGSpace.

Lemma NoDup_app_parts {A} (l1 l2 : list A) : NoDup (l1 ++ l2) -> NoDup l1 /\ NoDup l2.
Proof.
  induction l1 as [|x l1 IH]; intros H; [split; [constructor|exact H]|].
  inversion H as [|? ? Hn HN]; subst. destruct (IH HN) as [H1 H2]. split; [|exact H2].
  constructor; [|exact H1]. intros Hin. apply Hn, in_or_app. now left.
Qed.

(** Sorting an already sorted part of a G-list changes nothing. *)
Lemma gspace_base_part sh gs s a b :
  gspace_base sh gs = Ok s -> a < b -> b <= length (gs_cryst s) ->
  exists s', gspace_base sh (slice (a, b) (gs_cryst s)) = Ok s'
    /\ gs_cryst s' = slice (a, b) (gs_cryst s)
    /\ gs_idxgrid s' = slice (a, b) (gs_idxgrid s).
Proof.
  intros H Hab Hb.
  pose proof (gspace_base_spec _ _ _ H) as (HP & HN & HI & HS & _ & _ & _ & _ & Hsh & Hg & _ & _).
  assert (Hin : forall g, In g (slice (a, b) (gs_cryst s)) -> In g (gs_cryst s)).
  { intros g Hin. apply (proj1 (in_slice_nth (0, 0, 0)%Z a b _ _ Hb)) in Hin as (k & Hk & <-).
    apply nth_In. apply (Nat.lt_le_trans _ b); [lia|exact Hb]. }
  assert (HNc : NoDup (gs_cryst s)) by (eapply Permutation_NoDup; [symmetry; exact HP|exact HN]).
  assert (HNp : NoDup (slice (a, b) (gs_cryst s))).
  { rewrite (slice3 a b (gs_cryst s)) in HNc by lia. apply NoDup_app_parts in HNc as [_ HNc].
    now apply NoDup_app_parts in HNc. }
  destruct (gspace_base_total sh (slice (a, b) (gs_cryst s)) Hsh) as [s' Hs'].
  - rewrite forallb_forall in *. intros g Hg'. apply Hg. eapply Permutation_in; [exact HP|]. now apply Hin.
  - exact HNp.
  - intros E. apply (f_equal (@length vec3)) in E. rewrite slice_length in E by assumption. cbn in E. lia.
  - exists s'. split; [exact Hs'|].
    pose proof (gspace_base_spec _ _ _ Hs') as (HP' & _ & HI' & HS' & _ & _ & _ & _ & _ & Hg' & _ & _).
    assert (E : gs_cryst s' = slice (a, b) (gs_cryst s)).
    { assert (E : map (fun g => lexkey sh (gidx sh g)) (gs_cryst s')
             = map (fun g => lexkey sh (gidx sh g)) (slice (a, b) (gs_cryst s))).
      { apply (sorted_unique (fun a b => lex_leb a b = true)).
        - apply lex_antisym.
        - exact HS'.
        - rewrite <- slice_map.
          assert (SS : forall (R : vec3 -> vec3 -> Prop) l, StronglySorted R l -> StronglySorted R (slice (a, b) l)).
          { clear. intros R l. unfold slice. cbn [fst snd]. generalize (b - a) as n. revert l.
            induction a as [|a' IH]; intros l n HS.
            - cbn [skipn]. revert l HS. induction n as [|n IHn]; intros l HS; [constructor|].
              destruct l as [|x l]; [constructor|]. cbn [firstn]. apply StronglySorted_inv in HS as [H1 H2].
              constructor; [now apply IHn|]. rewrite Forall_forall in *. intros y Hy. apply H2.
              rewrite <- (firstn_skipn n l). apply in_or_app. now left.
            - destruct l as [|x l]; [rewrite skipn_nil, firstn_nil; constructor|]. cbn [skipn].
              apply StronglySorted_inv in HS as [H1 _]. now apply IH. }
          apply SS, HS.
        - now apply Permutation_map. }
      assert (INJ : forall g h, In g (slice (a, b) (gs_cryst s)) -> In h (slice (a, b) (gs_cryst s)) ->
           lexkey sh (gidx sh g) = lexkey sh (gidx sh h) -> g = h).
      { intros g h Hgi Hhi EE. rewrite forallb_forall in Hg'.
        pose proof (Hg' _ Hgi) as G1. pose proof (Hg' _ Hhi) as G2.
        destruct sh as [[n1 n2] n3], g as [[g1 g2] g3], h as [[h1 h2] h3].
        destruct (gidx_unravel _ _ _ _ _ _ Hsh G1) as [U1 _]. destruct (gidx_unravel _ _ _ _ _ _ Hsh G2) as [U2 _].
        apply (gidx_inj (n1, n2, n3)); try assumption.
        rewrite (gidx_fold (n1, n2, n3) (g1, g2, g3)), (gidx_fold (n1, n2, n3) (h1, h2, h3)).
        unfold lexkey in EE. rewrite U1, U2 in EE.
        apply pair_equal_spec in EE as [EE E3]. apply pair_equal_spec in EE as [E1 E2].
        now rewrite E1, E2, E3. }
      apply (nth_ext _ _ (0, 0, 0)%Z (0, 0, 0)%Z); [now apply Permutation_length|].
      intros k Hk. pose proof (Permutation_length HP') as HL. apply INJ.
      - eapply Permutation_in; [exact HP'|]. now apply nth_In.
      - apply nth_In. eapply Nat.lt_le_trans; [exact Hk|]. apply Nat.eq_le_incl. exact HL.
      - rewrite <- !(map_nth (fun g => lexkey sh (gidx sh g))). now rewrite E. }
    split; [exact E|]. rewrite HI', HI, E. symmetry. apply slice_map.
Qed.

  Lemma slices_of_bounds {A} P (F : nat -> nat) (l : list A) :
    F 0 = 0 -> F P = length l -> (forall j, j < P -> F j <= F (S j)) ->
    scatterv (map (fun j => F (S j) - F j) (seq 0 P)) = @split_counts C (map (fun j => F (S j) - F j) (seq 0 P)) /\
    split_counts (map (fun j => F (S j) - F j) (seq 0 P)) l = map (fun j => slice (F j, F (S j)) l) (seq 0 P)
    /\ concat (map (fun j => slice (F j, F (S j)) l) (seq 0 P)) = l.
  Proof.
    intros H0 HPl Hm. split; [reflexivity|].
    assert (GEN : forall n k, k + n = P ->
       split_counts (map (fun j => F (S j) - F j) (seq k n)) (skipn (F k) l)
         = map (fun j => slice (F j, F (S j)) l) (seq k n)
       /\ concat (map (fun j => slice (F j, F (S j)) l) (seq k n)) = skipn (F k) l).
    { induction n as [|n IH]; intros k Hk.
      - split; [reflexivity|]. cbn [seq map concat]. replace k with P by lia. rewrite HPl. symmetry. apply skipn_all.
      - destruct (IH (S k) ltac:(lia)) as [I1 I2]. specialize (Hm k ltac:(lia)). cbn [seq map split_counts concat].
        rewrite skipn_skipn'. replace (F k + (F (S k) - F k)) with (F (S k)) by lia. rewrite I1, I2.
        split; [reflexivity|]. unfold slice. cbn [fst snd].
        replace (skipn (F (S k)) l) with (skipn (F (S k) - F k) (skipn (F k) l)) by (rewrite skipn_skipn'; f_equal; lia).
        apply firstn_skipn. }
    destruct (GEN P 0 ltac:(lia)) as [G1 G2]. rewrite H0 in G1, G2. now split.
  Qed.

Section Global.
  Context (nx ny nz : nat) (idx : list nat) (norm : bool) (P : nat).
  Let iyz := map (iyz_of ny nz) idx.
  Let ns := length (np_unique iyz).
  Hypothesis Hidx : forall i, In i idx -> i < nx * ny * nz.
  Hypothesis Hsort : nsorted iyz.
  Hypothesis HP : 0 < P.
  Hypothesis HPs : P <= ns.
  Hypothesis HPx : P <= nx.
  Let GG := G ny nz idx P.
  Let XX := st nx P.
  Definition gcnt := map (fun j => GG (S j) - GG j) (seq 0 P).
  Definition rcnt := map (fun j => XX (S j) * (ny * nz) - XX j * (ny * nz)) (seq 0 P).

  Lemma g_scatter (v : list C) : length v = length idx ->
    scatterv gcnt v = scat_g ny nz idx P v /\ gatherv (scat_g ny nz idx P v) = v.
  Proof.
    intros Hv. destruct (slices_of_bounds P GG v) as (_ & A & B).
    - now apply (G_0 nx).
    - unfold GG. now rewrite (G_P nx) .
    - intros j Hj. now apply (G_mono nx).
    - split; assumption.
  Qed.

  Lemma r_scatter (f : list C) : length f = nx * ny * nz ->
    scatterv rcnt f = scat_r nx ny nz P f /\ gatherv (scat_r nx ny nz P f) = f.
  Proof.
    intros Hf. destruct (slices_of_bounds P (fun j => XX j * (ny * nz)) f) as (_ & A & B).
    - unfold XX. now rewrite st_0.
    - unfold XX. rewrite st_P by assumption. lia.
    - intros j Hj. apply Nat.mul_le_mono_r, st_le_S; assumption.
    - split; assumption.
  Qed.

  Lemma full_fun_len c : length (full_fun nx ny nz idx norm c)
    = match c with R2G _ => length idx | G2R _ => nx * ny * nz end.
  Proof. destruct c; cbn [full_fun]; unfold taken, store; now rewrite map_length, ?seq_length. Qed.

  Lemma call_eq os c : oinv nx ny nz idx norm P os -> well_sized (nx * ny * nz) (length idx) c ->
    exists os' out, dist_call os (scattered gcnt rcnt c) = Ok (os', out)
      /\ oinv nx ny nz idx norm P os' /\ gatherv out = full_fun nx ny nz idx norm c
      /\ out = match c with R2G _ => scatterv gcnt (full_fun nx ny nz idx norm c)
                          | G2R _ => scatterv rcnt (full_fun nx ny nz idx norm c) end.
  Proof.
    intros Ho Hw. destruct c as [f|v]; cbn [scattered dist_call well_sized] in *.
    - rewrite (proj1 (r_scatter f Hw)).
      destruct (dist_r2g_eq nx ny nz idx norm P Hidx Hsort HP HPs HPx f Hw os Ho) as (os' & E & Ho').
      exists os'. eexists. split; [exact E|]. split; [exact Ho'|].
      destruct (g_scatter (full_fun nx ny nz idx norm (R2G f)) (full_fun_len (R2G f))) as [E1 E2].
      split; [exact E2|]. now rewrite E1.
    - rewrite (proj1 (g_scatter v Hw)).
      destruct (dist_g2r_eq nx ny nz idx norm P Hidx Hsort HP HPs HPx v Hw os Ho) as (os' & E & Ho').
      exists os'. eexists. split; [exact E|]. split; [exact Ho'|].
      destruct (r_scatter (full_fun nx ny nz idx norm (G2R v)) (full_fun_len (G2R v))) as [E1 E2].
      split; [exact E2|]. now rewrite E1.
  Qed.

  Lemma run_eq h : forall os, oinv nx ny nz idx norm P os ->
    Forall (well_sized (nx * ny * nz) (length idx)) h ->
    exists os', dist_run os (map (scattered gcnt rcnt) h) = Ok os' /\ oinv nx ny nz idx norm P os'.
  Proof.
    induction h as [|c h IH]; intros os Ho Hw; [now exists os|].
    inversion Hw as [|? ? Hc Hh]; subst. cbn [map dist_run].
    destruct (call_eq os c Ho Hc) as (os1 & out & E & Ho1 & _). rewrite E. cbn [bind fst]. now apply IH.
  Qed.

  Lemma oinv_props os : oinv nx ny nz idx norm P os ->
    length os = P /\ (forall o, In o os -> d_g_cnt o = gcnt /\ d_r_cnt o = rcnt)
    /\ (forall r d, r < P -> d_ig (nth r os d) = (GG r, GG (S r))).
  Proof.
    intros (wx & wyz & -> & _). split; [now rewrite map_length, seq_length|]. split.
    - intros o Ho. apply in_map_iff in Ho as (r & <- & _). split; reflexivity.
    - intros r d Hr. now rewrite nth_map_seq.
  Qed.
End Global.

(** Scatter then gather of batched arrays. *)
Lemma gather_scatter_rows counts shape rows :
  shape <> [] -> length rows = fold_right Nat.mul 1 shape ->
  (forall row, In row rows -> length row = fold_right Nat.add 0 counts) ->
  exists parts, scatter_rows counts shape rows = Ok parts
    /\ length parts = length counts
    /\ (forall r p, nth_error parts r = Some p -> length p = length rows)
    /\ gather_rows shape parts = Ok rows.
Proof.
  intros Hs HL Hrow. unfold scatter_rows, gather_rows, batch_range.
  destruct shape as [|n shape]; [congruence|]. cbn [bind]. rewrite <- HL.
  eexists. split; [reflexivity|]. split; [now rewrite map_length, seq_length|]. split.
  - intros r p Hp. apply nth_error_In in Hp. apply in_map_iff in Hp as (k & <- & _).
    now rewrite map_length, seq_length.
  - f_equal. transitivity (map (fun i => nth i rows []) (seq 0 (length rows))).
    + apply map_ext_in. intros i Hi. apply in_seq in Hi.
      rewrite map_map. unfold gatherv, scatterv.
      rewrite (map_ext_in _ (fun r => nth r (split_counts counts (nth i rows [])) [])).
      2:{ intros r Hr. rewrite (nth_map_seq (fun iarr => nth r (split_counts counts (nth iarr rows [])) [])) by lia. reflexivity. }
      specialize (Hrow (nth i rows []) (nth_In rows [] (proj2 Hi))). revert Hrow. generalize (nth i rows []) as row.
      clear. induction counts as [|c cs IH]; intros row Hrow; cbn in Hrow.
      * destruct row; [reflexivity|discriminate].
      * cbn [length seq map split_counts nth concat]. rewrite <- seq_shift, map_map.
        cbn [nth]. rewrite IH; [apply firstn_skipn|]. rewrite skipn_length. lia.
    + apply (nth_ext _ _ [] []); [now rewrite map_length, seq_length|]. rewrite map_length, seq_length.
      intros i Hi. now rewrite nth_map_seq.
Qed.

(** Too many ranks: some rank gets no stick, or no plane. *)
Lemma sc_start_small len P r : len < P -> len <= r -> r < P -> st len P r = st len P (S r).
Proof.
  intros H1 H2 H3. pose proof (st_step len P ltac:(lia) r H3) as E.
  rewrite Z.div_small, Z.mod_small in E by lia. unfold b2z in E.
  destruct (Z.ltb_spec (Z.of_nat r) (Z.of_nat len)); lia.
Qed.

Lemma dist_init_no_stick nx ny nz idx norm P r gx gyz :
  let ns := length (np_unique (map (iyz_of ny nz) idx)) in
  ns <= r -> r < P -> dist_init nx ny nz idx norm P r gx gyz = Err IndexError.
Proof.
  intros ns H1 H2. unfold dist_init. fold ns. rewrite nslice_eq by lia. cbn [bind].
  rewrite (sc_start_small ns P r) by lia. unfold slice. cbn [fst snd]. rewrite Nat.sub_diag. reflexivity.
Qed.

Lemma dist_init_no_plane nx ny nz idx norm P r gx gyz :
  P <= length (np_unique (map (iyz_of ny nz) idx)) -> nx <= r -> r < P ->
  dist_init nx ny nz idx norm P r gx gyz = Err AssertionError.
Proof.
  intros HPs H1 H2. unfold dist_init. rewrite nslice_eq by lia. cbn [bind].
  set (ns := length (np_unique (map (iyz_of ny nz) idx))) in *.
  assert (L : length (slice (st ns P r, st ns P (S r)) (np_unique (map (iyz_of ny nz) idx)))
              = st ns P (S r) - st ns P r).
  { apply slice_length. unfold ns. apply T_le; lia. }
  pose proof (st_lt_S ns P ltac:(lia) r HPs H2) as HT.
  destruct (slice _ _) as [|a l]; [cbn in L; lia|]. cbn [ig_slice bind].
  rewrite nlen_eq, nslice_eq, nlen_all_eq by lia. cbn [bind].
  rewrite (sc_start_small nx P r) by lia. rewrite Nat.sub_diag.
  destruct (backend_ok [nx; _]) as [u|e] eqn:EB; cbn [bind].
  - rewrite nlen_all_eq by lia. reflexivity.
  - unfold backend_ok, assert_ in EB. destruct (forallb _ _); congruence.
Qed.
