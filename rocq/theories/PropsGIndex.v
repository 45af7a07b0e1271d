(** C06, C07, C08, C10: FFT-grid indexing and G-vector ordering.  Statements
    only; proofs in GIndexProofs.v. *)
From Verif Require Import Base SortModel GIndexModel SortProofs GIndexProofs.

(** C06: the index map succeeds exactly on admissible input, elementwise. *)
Theorem C06_index_map_domain : forall sh gs idx,
  cryst2idxgrid sh gs = Ok idx <->
  (shape_ok sh = true /\ forallb (g_ok sh) gs = true /\ idx = map (gidx sh) gs).
Proof. exact cryst2idxgrid_ok. Qed.
Print Assumptions C06_index_map_domain.

(** C06: out-of-range vectors or a bad shape are refused. *)
Theorem C06_index_map_rejects : forall sh gs,
  (shape_ok sh = false \/ exists g, In g gs /\ g_ok sh g = false) ->
  cryst2idxgrid sh gs = Err AssertionError.
Proof. exact cryst2idxgrid_bad. Qed.
Print Assumptions C06_index_map_rejects.

(** C06: distinct admissible vectors never share a grid point ... *)
Theorem C06_index_map_injective : forall sh g h,
  shape_ok sh = true -> g_ok sh g = true -> g_ok sh h = true ->
  gidx sh g = gidx sh h -> g = h.
Proof. exact gidx_inj. Qed.
Print Assumptions C06_index_map_injective.

(** C06: ... and every grid point 0 .. n1*n2*n3-1 is reached. *)
Theorem C06_index_map_surjective : forall sh x,
  shape_ok sh = true -> (let '(n1, n2, n3) := sh in 0 <= x < n1 * n2 * n3) ->
  exists g, g_ok sh g = true /\ gidx sh g = x.
Proof. exact gidx_surj. Qed.
Print Assumptions C06_index_map_surjective.

(** C06: the index is that of the grid point congruent to G modulo the shape,
    in row-major order: this pins down which grid point it is. *)
Theorem C06_index_map_value : forall n1 n2 n3 i1 i2 i3,
  shape_ok (n1, n2, n3) = true -> g_ok (n1, n2, n3) (i1, i2, i3) = true ->
  gidx (n1, n2, n3) (i1, i2, i3)
    = (i1 mod n1 * n2 + i2 mod n2) * n3 + i3 mod n3
  /\ 0 <= gidx (n1, n2, n3) (i1, i2, i3) < n1 * n2 * n3.
Proof. exact gidx_value. Qed.
Print Assumptions C06_index_map_value.

Example C06_witness :
  cryst2idxgrid (4, 3, 5) [(0, 0, 0); (-2, 1, -1); (1, -1, 2)] = Ok [0; 39; 27]
  /\ cryst2idxgrid (4, 3, 5) [(2, 0, 0)] = Err AssertionError.
Proof. vm_compute. split; reflexivity. Qed.

(** C07: a G-space exists for every list of distinct admissible vectors ... *)
Theorem C07_gspace_accepts : forall sh gs,
  shape_ok sh = true -> forallb (g_ok sh) gs = true -> NoDup gs -> gs <> [] ->
  exists s, gspace_base sh gs = Ok s.
Proof. exact gspace_base_total. Qed.
Print Assumptions C07_gspace_accepts.

(** ... and then: stored vectors are a rearrangement of the (distinct) input,
    idxgrid are their indices, they are sorted by the grid coordinates
    (iy, iz, ix), and idxsort recovers the caller's order. *)
Theorem C07_gspace_sorted_permutation : forall sh gs s,
  gspace_base sh gs = Ok s ->
  Permutation (gs_cryst s) gs
  /\ NoDup gs
  /\ gs_idxgrid s = map (gidx sh) (gs_cryst s)
  /\ StronglySorted (fun a b => lex_leb (yzx sh a) (yzx sh b) = true) (gs_cryst s)
  /\ take (0, 0, 0) (gs_cryst s) (gs_idxsort s) = gs
  /\ Permutation (gs_idxsort s) (seq 0 (length gs)).
Proof. exact gspace_base_sorted. Qed.
Print Assumptions C07_gspace_sorted_permutation.

(** C07: for any data, converting caller order -> internal order (the order in
    which the stored vectors appear) -> caller order changes nothing. *)
Theorem C07_gspace_data_round_trip : forall sh gs s (A : Type) (d : A) (f : vec3 -> A),
  gspace_base sh gs = Ok s ->
  take d (map f (gs_cryst s)) (gs_idxsort s) = map f gs.
Proof. exact @gspace_base_data. Qed.
Print Assumptions C07_gspace_data_round_trip.

(** C08: G=0 is stored first exactly when present, and has_g0 says so. *)
Theorem C08_g0_first_iff_present : forall sh gs s,
  gspace_base sh gs = Ok s ->
  (gs_has_g0 s = true <-> In (0, 0, 0) gs)
  /\ (In (0, 0, 0) gs -> hd_error (gs_cryst s) = Some (0, 0, 0))
  /\ (hd_error (gs_cryst s) = Some (0, 0, 0) -> In (0, 0, 0) gs).
Proof. exact gspace_base_g0. Qed.
Print Assumptions C08_g0_first_iff_present.

Example C07_witness :
  gspace_base (4, 3, 5) [(1, -1, 2); (0, 0, 0); (-2, 1, -1); (1, 0, 0)]
  = Ok (MkGSpace (4, 3, 5) [(0, 0, 0); (1, 0, 0); (-2, 1, -1); (1, -1, 2)]
                 [0; 15; 39; 27] [3; 0; 2; 1]%nat true).
Proof. vm_compute. reflexivity. Qed.
Example C08_witness_absent :
  exists s, gspace_base (4, 3, 5) [(1, -1, 2); (-2, 1, -1)] = Ok s /\ gs_has_g0 s = false.
Proof. eexists. vm_compute. split; reflexivity. Qed.

(** C10: the dimension search stops (for any sufficient fuel, i.e. it does not
    depend on the fuel) at the least number >= n of the form 2^a 3^b 5^c, which
    is below 2 n + 1. *)
Theorem C10_optimal_grid_dimension : forall n, 0 < n ->
  exists m, n <= m <= 2 * n /\ smooth235 m /\ (forall j, n <= j < m -> ~ smooth235 j)
    /\ forall fuel inner, n + 1 <= Z.of_nat fuel -> 2 * n + 1 <= Z.of_nat inner ->
         optimal_dim fuel inner n = Some m.
Proof. exact optimal_dim_spec. Qed.
Print Assumptions C10_optimal_grid_dimension.

Example C10_witness : map (optimal_dim 100 200) [1; 7; 11; 17; 31; 49; 97]
  = map Some [1; 8; 12; 18; 32; 50; 100].
Proof. vm_compute. reflexivity. Qed.
