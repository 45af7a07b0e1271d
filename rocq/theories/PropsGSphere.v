(** C09, C11, C12: plane-wave spheres.  [|G|^2] below is the Cartesian squared
    length of the vector with integer crystal coordinates G. *)
From Verif Require Import Base SortModel GIndexModel LatModel LatProofs GSphereModel GSphereProofs.
From Coq Require Import Lra.
Open Scope R_scope.

Definition len2 (U : ulattice) (v : rvec) : R :=
  vdot (cryst2cart (u_lat U) v) (cryst2cart (u_lat U) v).

(** C09: a GSpace holds exactly the grid vectors with |G|^2 <= 2*ecut, without
    duplicates; the caller-order list is non-decreasing in the rounded key; and
    the grid is the given or the optimal minimal one. *)
Theorem C09_gspace_is_sphere : forall P U unit_ ecut arg s,
  mk_ulattice unit_ P = Ok U -> gspace_new U ecut arg = Ok s ->
  0 < ecut /\ sp_ecut s = ecut /\ sp_lat s = U
  /\ NoDup (gs_cryst (sp_base s))
  /\ (forall sh, arg = Some sh -> gs_shape (sp_base s) = sh)
  /\ (arg = None -> exists m, minimal_grid_shape (u_lat U) ecut = Ok m
                              /\ gs_shape (sp_base s) = optimal_grid_shape m)
  /\ (forall g, In g (gs_cryst (sp_base s)) <->
       (g_ok (gs_shape (sp_base s)) g = true /\ len2 U (gvec g) <= 2 * ecut))
  /\ StronglySorted Z.le
       (map (fun g => round_key (len2 U (gvec g) / unit_))
            (take (0,0,0)%Z (gs_cryst (sp_base s)) (gs_idxsort (sp_base s)))).
Proof. exact gspace_new_inv. Qed.
Print Assumptions C09_gspace_is_sphere.

(** C09: in the caller's order the vectors come by increasing length, up to the rounding of
    the squared length (in the lattice's unit) to six decimals. *)
Theorem C09_caller_order_by_length : forall P U unit_ ecut arg s,
  mk_ulattice unit_ P = Ok U -> gspace_new U ecut arg = Ok s ->
  StronglySorted (fun g h => (len2 U (gvec g) / unit_ <= len2 U (gvec h) / unit_ + 1 / 1000000)%R)
    (take (0,0,0)%Z (gs_cryst (sp_base s)) (gs_idxsort (sp_base s))).
Proof.
  intros P U unit_ ecut arg s HU HS. pose proof (C09_gspace_is_sphere P U unit_ ecut arg s HU HS) as H.
  do 7 (destruct H as [_ H]). revert H.
  generalize (take (0, 0, 0)%Z (gs_cryst (sp_base s)) (gs_idxsort (sp_base s))) as l.
  induction l as [|g l IH]; cbn [map]; intros H; [constructor|]. inversion_clear H as [|? ? Hs Ha].
  constructor; [apply IH, Hs|]. rewrite Forall_forall in *. intros h Hh.
  specialize (Ha _ (in_map _ _ _ Hh)). cbn beta in Ha. unfold round_key in Ha. apply IZR_le in Ha.
  assert (N : forall x, x - 1 / 2 <= IZR (rint x) <= x + 1 / 2).
  { intros x. pose proof (rint_close x) as Hx. unfold Rabs in Hx. destruct (Rcase_abs _); lra. }
  pose proof (N (len2 U (gvec g) / unit_ * 1000000)). pose proof (N (len2 U (gvec h) / unit_ * 1000000)). lra.
Qed.
Print Assumptions C09_caller_order_by_length.

(** C09: construction succeeds whenever the grid is not entirely inside the
    sphere and at least two of its points are. *)
Theorem C09_gspace_total : forall P U unit_ ecut arg sh,
  mk_ulattice unit_ P = Ok U -> 0 < ecut -> shape_ok sh = true ->
  (arg = Some sh \/
   (arg = None /\ exists m, minimal_grid_shape (u_lat U) ecut = Ok m /\ sh = optimal_grid_shape m)) ->
  (exists g, g_ok sh g = true /\ 2 * ecut < len2 U (gvec g)) ->
  (exists g h, g <> h /\ (forall x, x = g \/ x = h ->
       g_ok sh x = true /\ len2 U (gvec x) <= 2 * ecut)) ->
  exists s, gspace_new U ecut arg = Ok s.
Proof. exact gspace_new_total. Qed.
Print Assumptions C09_gspace_total.

Theorem C09_gspace_refuses_bad_cutoff : forall U ecut arg,
  ecut <= 0 -> gspace_new U ecut arg = Err ValueError.
Proof. exact gspace_new_rejects. Qed.
Print Assumptions C09_gspace_refuses_bad_cutoff.

(** C09: a GkSpace holds exactly the parent's vectors with |G+k|^2 <= 2*ecutwfn
    (default: a quarter of the parent's cutoff); idxgk indexes the parent's
    caller-order list. *)
Theorem C09_gkspace_is_sphere : forall P U unit_ ecut arg G k ew b idx,
  mk_ulattice unit_ P = Ok U -> gspace_new U ecut arg = Ok G ->
  gkspace_new G k ew = Ok (b, idx) ->
  let e := match ew with None => ecut / 4 | Some e => e end in
  NoDup (gs_cryst b) /\ gs_shape b = gs_shape (sp_base G)
  /\ (forall g, In g (gs_cryst b) <->
        (In g (gs_cryst (sp_base G)) /\ len2 U (vadd (gvec g) k) <= 2 * e))
  /\ take (0,0,0)%Z (gs_cryst b) (gs_idxsort b)
     = take (0,0,0)%Z (take (0,0,0)%Z (gs_cryst (sp_base G)) (gs_idxsort (sp_base G))) idx.
Proof. exact gkspace_new_inv. Qed.
Print Assumptions C09_gkspace_is_sphere.

(** C11: the minimal grid has an admissible index for every integer vector of the
    sphere. *)
Theorem C11_minimal_grid_contains_sphere : forall P L ecut m g,
  mk_lattice P = Ok L -> minimal_grid_shape L ecut = Ok m ->
  vdot (cryst2cart L (gvec g)) (cryst2cart L (gvec g)) <= 2 * ecut ->
  g_ok m g = true /\ shape_ok m = true.
Proof. exact minimal_contains. Qed.
Print Assumptions C11_minimal_grid_contains_sphere.

(** C11: hence with the default grid no plane wave of the sphere is lost: the
    G-list is the whole sphere of the infinite lattice. *)
Theorem C11_default_grid_complete : forall P U unit_ ecut s,
  mk_ulattice unit_ P = Ok U -> gspace_new U ecut None = Ok s ->
  forall g, In g (gs_cryst (sp_base s)) <-> len2 U (gvec g) <= 2 * ecut.
Proof. exact default_grid_complete. Qed.
Print Assumptions C11_default_grid_complete.

(** C12, exact: an explicit grid shape of positive sizes is accepted whatever the minimal shape is, as soon as
    some grid vector lies outside and two lie inside the sphere; the G-space then holds the
    vectors of the sphere that fit the grid, and so misses exactly those that do not. *)
Theorem C12_any_grid_accepted : forall P U unit_ ecut sh,
  mk_ulattice unit_ P = Ok U -> 0 < ecut -> shape_ok sh = true ->
  (exists g, g_ok sh g = true /\ 2 * ecut < len2 U (gvec g)) ->
  (exists g h, g <> h /\ (forall x, x = g \/ x = h -> g_ok sh x = true /\ len2 U (gvec x) <= 2 * ecut)) ->
  exists s, gspace_new U ecut (Some sh) = Ok s /\ gs_shape (sp_base s) = sh
    /\ forall g, len2 U (gvec g) <= 2 * ecut -> (In g (gs_cryst (sp_base s)) <-> g_ok sh g = true).
Proof.
  intros P U u ecut sh HU He Hs Ho Hi. destruct (C09_gspace_total P U u ecut (Some sh) sh HU He Hs (or_introl eq_refl) Ho Hi) as (s & E).
  exists s. destruct (C09_gspace_is_sphere P U u ecut (Some sh) s HU E) as (_ & _ & _ & _ & Esh & _ & Hin & _).
  split; [exact E|]. rewrite <- (Esh sh eq_refl) at 1. split; [reflexivity|]. intros g Hg. rewrite Hin, (Esh sh eq_refl). tauto.
Qed.
Print Assumptions C12_any_grid_accepted.

(** C12 is false of the code: the size check accepts every positive shape, and
    there is a lattice, cutoff and too-small grid for which GSpace succeeds while
    losing a vector inside the cutoff. *)
Theorem C12_small_grid_check_refuted :
  (forall L ecut sh, 0 < ecut -> shape_ok sh = true -> check_grid_shape L ecut sh = Ok tt)
  /\ exists U s, mk_ulattice 1 mid = Ok U
    /\ minimal_grid_shape (u_lat U) 8 = Ok (9, 9, 9)%Z
    /\ gspace_new U 8 (Some (7, 9, 9)%Z) = Ok s
    /\ len2 U (gvec (4,0,0)%Z) <= 2 * 8
    /\ ~ In (4,0,0)%Z (gs_cryst (sp_base s)).
Proof. exact (conj check_grid_shape_accepts_all small_grid_witness). Qed.
Print Assumptions C12_small_grid_check_refuted.

(** Non-vacuity: the witness above is a successful construction for C09; and
    for the default grid: *)
Example C09_C11_witness : exists U s, mk_ulattice 1 mid = Ok U /\ gspace_new U 8 None = Ok s.
Proof. exact default_grid_witness. Qed.

(** Finding: with the default grid, cutoffs for which the 3x3x3 grid lies wholly
    inside the sphere are refused as "ecut too large for grid_shape". *)
Theorem C09_default_grid_refused_finding :
  exists U, mk_ulattice 1 mid = Ok U /\ gspace_new U (18 / 10) None = Err ValueError.
Proof. exact default_grid_can_be_refused. Qed.
Print Assumptions C09_default_grid_refused_finding.
