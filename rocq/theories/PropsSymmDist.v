(** C25, fields distributed over the ranks of a plane-wave group. *)
From Verif Require Import Base SortModel SortProofs LatModel LatProofs GIndexModel GIndexProofs
  GSphereModel GSphereProofs SymmModel SymmSpec SymmProofs SymmProofs2 SymmProofs3 PropsGSphere CBase
  FFTModel FFTSpec FFTProofs FFTProofs2 DistModel DistSpec DistSymmModel PropsSymm PropsDist.
Open Scope nat_scope.

Lemma function_of (l : list vec3) (r : list C) : NoDup l -> length l = length r -> exists F, map F l = r.
Proof.
  revert r. induction l as [|x l IH]; intros [|y r] N H; try discriminate H.
  - now exists (fun _ => RtoC 0).
  - inversion N as [|? ? Hx N']; subst. destruct (IH r N' ltac:(cbn in H; lia)) as [F E].
    exists (fun z => if vec3_eqb z x then y else F z). cbn [map].
    assert (X : forall z, vec3_eqb z x = true <-> z = x).
    { intros [[a b] c]. destruct x as [[a' b'] c']. unfold vec3_eqb. split.
      - intros K. repeat (apply andb_prop in K; destruct K as [K ?]). repeat match goal with H : (_ =? _)%Z = true |- _ => apply Z.eqb_eq in H end. congruence.
      - intros K. injection K as -> -> ->. now rewrite !Z.eqb_refl. }
    rewrite (proj2 (X x) eq_refl). f_equal. rewrite <- E. apply map_ext_in. intros z Hz.
    destruct (vec3_eqb z x) eqn:K; [|reflexivity]. apply X in K. subst z. contradiction.
Qed.

Lemma slice_map {A B} (f : A -> B) s l : slice s (map f l) = map f (slice s l).
Proof. unfold slice. now rewrite skipn_map, firstn_map. Qed.

Lemma concat_slices (os : list dist) (l : list vec3) (r : list C) :
  NoDup l -> length l = length r -> concat (map (fun o => slice (d_ig o) l) os) = l ->
  concat (map (fun o => slice (d_ig o) r) os) = r.
Proof.
  intros N H E. destruct (function_of l r N H) as [F <-].
  transitivity (map F (concat (map (fun o => slice (d_ig o) l) os))); [|now rewrite E].
  rewrite concat_map, map_map. f_equal. apply map_ext. intros o. apply slice_map.
Qed.

(** C25.  Each rank holding its slice of every member of a field obtains its slice of the
    symmetrised member, i.e. of the group average over the whole G-list: distribution
    changes nothing.  A single field (shape ()) raises TypeError on every rank. *)
Theorem C25_distributed : forall U S ops nx ny nz gs norm P gx gyz os shape rows junk,
  symm_setting U S ops ->
  gspace_base (zshape nx ny nz) gs = Ok (sp_base S) ->
  0 < P -> P <= num_sticks ny nz gs -> P <= nx ->
  dist_init_all nx ny nz (map Z.to_nat (gs_idxgrid (sp_base S))) norm P gx gyz = Ok os ->
  let G := gs_cryst (sp_base S) in
  let kept := filter_frac_trans (gs_shape (sp_base S)) ops in
  let parts := map (fun o => map (slice (d_ig o)) rows) os in
  length rows = fold_right Nat.mul 1 shape -> (forall row, In row rows -> length row = length G) ->
  exists M, symmod_new ops S = Ok (M, kept) /\
  (shape = [] -> symmetrize_dist M junk os shape parts = Err TypeError) /\
  (shape <> [] -> exists out,
     symmetrize_dist M junk os shape parts = Ok (map (fun o => map (slice (d_ig o)) out) os)
     /\ Forall2 (fun row new => length new = length G /\
          forall F, (forall i, i < length G -> nth i row (RtoC 0) = F (nth i G (0, 0, 0)%Z)) ->
          forall i, i < length G -> nth i new (RtoC 0) = group_average kept F (nth i G (0, 0, 0)%Z)) rows out).
Proof.
  intros U S ops nx ny nz gs norm P gx gyz os shape rows junk HS HG HP HPs HPx HO G kept parts HR HL.
  destruct (C25_group_average U S ops HS) as (M & EM & HM). fold G kept in EM, HM.
  exists M. split; [exact EM|]. split; [intros ->; reflexivity|]. intros Hs.
  destruct (C16_slices_partition nx ny nz gs (sp_base S) norm P gx gyz HG HP HPs HPx) as (os' & EO & _ & EC & _).
  rewrite HO in EO. injection EO as <-. fold G in EC.
  assert (N : NoDup G) by (exact (proj1 (proj2 (proj2 (setting_facts U S ops HS))))).
  assert (EMg : sm_g M = G).
  { unfold symmod_new in EM. destruct (columns _ _ _ _); [|discriminate]. cbn in EM. injection EM as <-. reflexivity. }
  assert (EG : gather_rows shape parts = Ok rows).
  { unfold gather_rows, batch_range. destruct shape as [|a sh]; [congruence|]. cbn [bind]. rewrite <- HR. f_equal.
    apply (nth_ext _ _ [] []); [now rewrite map_length, seq_length|]. rewrite map_length, seq_length. intros i Hi.
    set (f := fun iarr => gatherv (map (fun p => nth iarr p []) parts)).
    rewrite (nth_indep _ [] (f 0)) by (now rewrite map_length, seq_length).
    rewrite map_nth, seq_nth by exact Hi. cbn [Nat.add]. unfold f, gatherv, parts. rewrite map_map.
    transitivity (concat (map (fun o => slice (d_ig o) (nth i rows [])) os)).
    2:{ apply (concat_slices os G (nth i rows []) N); [symmetry; apply HL, nth_In; exact Hi|exact EC]. }
    f_equal. apply map_ext. intros o.  rewrite (nth_indep _ [] (slice (d_ig o) [])) by (now rewrite map_length). now rewrite map_nth. }
  exists (map (fun row => store (length (sm_g M)) (symmetrize M junk (load row))) rows).
  split; [unfold symmetrize_dist; rewrite EG; reflexivity|].
  rewrite EMg. clear - HM. induction rows as [|row rows IH]; cbn [map]; constructor; [|exact IH].
  split; [unfold store; now rewrite map_length, seq_length|].
  intros F HF i Hi. unfold store. rewrite (nth_indep _ (RtoC 0) (symmetrize M junk (load row) 0)) by (now rewrite map_length, seq_length).
  rewrite map_nth, seq_nth by exact Hi. apply HM; [|exact Hi]. intros j Hj. unfold load. now apply HF.
Qed.
Print Assumptions C25_distributed.

(** Non-vacuity: the setting of [C25_witness] distributed over one rank. *)
Example C25_distributed_witness : exists U S ops nx ny nz gs os w,
  symm_setting U S ops /\ length ops = 3 /\ gspace_base (zshape nx ny nz) gs = Ok (sp_base S)
  /\ 1 <= num_sticks ny nz gs /\ 1 <= nx
  /\ dist_init_all nx ny nz (map Z.to_nat (gs_idxgrid (sp_base S))) true 1 w w = Ok os.
Proof.
  destruct C25_witness as (U & S & M & HS & _ & HL & Hin).
  pose proof HS as [(P & u & e & arg & HU & HN) _ _ _]. pose proof HN as HN'. unfold gspace_new in HN.
  destruct (rleb e 0); [discriminate|].
  match type of HN with bind ?x _ = _ => destruct x as [[[a b] c]|] eqn:E; [|discriminate] end. cbn [bind] in HN.
  destruct (rleb _ e); [discriminate|]. destruct (_ <? 2)%Z; [discriminate|].
  match type of HN with bind ?x _ = _ => destruct x as [bs|] eqn:Eb; [|discriminate] end. cbn [bind] in HN.
  injection HN as <-. cbn [sp_base] in *.
  match type of Eb with gspace_base _ ?l = _ => set (gs := l) in * end.
  pose proof (gspace_base_spec _ _ _ Eb) as (HP & _ & _ & _ & _ & _ & _ & _ & Hsh & _).
  assert (Hp : (0 < a /\ 0 < b /\ 0 < c)%Z) by (unfold shape_ok in Hsh; lia).
  assert (Ez : zshape (Z.to_nat a) (Z.to_nat b) (Z.to_nat c) = (a, b, c)) by (unfold zshape; rewrite !Z2Nat.id by lia; reflexivity).
  rewrite <- Ez in Eb.
  assert (Hk : 1 <= num_sticks (Z.to_nat b) (Z.to_nat c) gs).
  { unfold num_sticks. assert (I : In (1, 2, 0)%Z gs) by (eapply Permutation_in; [exact HP|exact Hin]).
    apply (in_map (stick (Z.to_nat b) (Z.to_nat c))) in I. apply (nodup_In zz_dec) in I.
    destruct (nodup zz_dec _); [destruct I|cbn; lia]. }
  destruct (C16_slices_partition _ _ _ gs bs true 1 (fun _ => MkWorker zeros zeros zeros) (fun _ => MkWorker zeros zeros zeros) Eb
     ltac:(lia) Hk ltac:(lia)) as (os & EO & _).
  exists U, (MkGSphere U e bs), (crystal_symm screw), (Z.to_nat a), (Z.to_nat b), (Z.to_nat c), gs, os, (fun _ => MkWorker zeros zeros zeros).
  split; [exact HS|]. split; [exact HL|]. split; [exact Eb|]. split; [exact Hk|]. split; [lia|exact EO].
Qed.
