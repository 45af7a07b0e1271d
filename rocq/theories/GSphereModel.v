(** Model of plane-wave sphere selection.
    Sources: /repo/src/qtm/gspace/gspc.py and gkspc.py, over exact reals. *)
From Verif Require Import Base SortModel GIndexModel LatModel.
Open Scope R_scope.

Definition rleb (x y : R) : bool := if Rle_dec x y then true else false.
Definition rltb (x y : R) : bool := if Rlt_dec x y then true else false.

(** Integer crystal coordinates as a real vector. *)
Definition gvec (g : vec3) : rvec := let '(a, b, c) := g in V (IZR a) (IZR b) (IZR c).

(** [recilat.norm2(g_cryst)] (lattice.py 168-204, coords="cryst"). *)
Definition g_norm2 (L : lattice) (v : rvec) : R := vdot v (mv (metric L) v).

(** gspc.py lines 40-72, [minimal_grid_shape]. *)
Definition vnorm (v : rvec) : R := sqrt (vdot v v).
Definition minimal_grid_shape (L : lattice) (ecut : R) : res shape3 :=
  if rleb ecut 0 then Err ValueError else
  let omega := sqrt (2 * ecut) in
  let b1 := c1 (primvec L) in let b2 := c2 (primvec L) in let b3 := c3 (primvec L) in
  let r1 := cellvol L / vnorm (vcross b2 b3) in
  let r2 := cellvol L / vnorm (vcross b1 b3) in
  let r3 := cellvol L / vnorm (vcross b1 b2) in
  Ok (2 * rfloor (omega / r1) + 1, 2 * rfloor (omega / r2) + 1, 2 * rfloor (omega / r3) + 1)%Z.

(** gspc.py lines 75-88, [check_grid_shape].  The loop iterates over the minimal
    shape and compares it with itself. *)
Definition check_grid_shape (L : lattice) (ecut : R) (grid_shape : shape3) : res unit :=
  do m <- minimal_grid_shape L ecut;
  do _ <- assert_ (shape_ok grid_shape);
  let '(m1, m2, m3) := m in
  if ((m1 <? m1) || (m2 <? m2) || (m3 <? m3))%Z then Err ValueError else Ok tt.

(** gspc.py lines 23-37, [optimal_grid_shape]; the fuel is the one proved
    sufficient in GIndexProofs.optimal_dim_spec, the default is unreachable. *)
Definition optimal_dim_z (n : Z) : Z :=
  match optimal_dim (Z.to_nat (n + 1)) (Z.to_nat (2 * n + 1)) n with Some m => m | None => n end.
Definition optimal_grid_shape (sh : shape3) : shape3 :=
  let '(a, b, c) := sh in (optimal_dim_z a, optimal_dim_z b, optimal_dim_z c).

(** gspc.py lines 121-124: all points of the grid, [meshgrid(indexing="ij")]. *)
Definition dim_range (n : Z) : list Z := zrange (- (n / 2)) ((n + 1) / 2).
Definition grid_points (sh : shape3) : list vec3 :=
  let '(n1, n2, n3) := sh in
  flat_map (fun i => flat_map (fun j => map (fun k => (i, j, k)) (dim_range n3)) (dim_range n2))
           (dim_range n1).

(** [np.amax] of a non-empty list. *)
Fixpoint rmax_list (x : R) (l : list R) : R :=
  match l with [] => x | y :: t => rmax_list (Rmax x y) t end.
Definition ramax (l : list R) : R := match l with [] => 0 | x :: t => rmax_list x t end.

(** [np.around(x, 6)]: the sort key uses rint(x * 10^6), which orders equally. *)
Definition round_key (x : R) : Z := rint (x * 1000000).

(** A constructed GSpace: the base object plus what GkSpace reads from it. *)
Record gsphere := MkGSphere { sp_lat : ulattice; sp_ecut : R; sp_base : gspace }.

(** gspc.py lines 91-151, [GSpace.__init__]. *)
Definition gspace_new (U : ulattice) (ecut : R) (grid_arg : option shape3) : res gsphere :=
  let L := u_lat U in
  if rleb ecut 0 then Err ValueError else
  do sh <- (match grid_arg with
            | None => do m <- minimal_grid_shape L ecut; Ok (optimal_grid_shape m)
            | Some sh => if negb (shape_ok sh) then Err ValueError else
                         do _ <- check_grid_shape L ecut sh; Ok sh
            end);
  let pts := grid_points sh in
  let g2 := fun g => g_norm2 L (gvec g) in
  let ke_max := / 2 * ramax (map g2 pts) in
  if rleb ke_max ecut then Err ValueError else
  let icut := filter (fun g => rleb (g2 g) (2 * ecut)) pts in
  if (Z.of_nat (length icut) <? 2)%Z then Err ValueError else
  let isort_ := argsort Z.leb (map (fun g => round_key (g2 g / u_unit U)) icut) in
  do b <- gspace_base sh (take (0, 0, 0)%Z icut isort_);
  Ok (MkGSphere U ecut b).

(** gkspc.py lines 19-50, [GkSpace.__init__]; [k] are the crystal coordinates of
    the k-point.  The second component is the published [idxgk]. *)
Definition gkspace_new (G : gsphere) (k : rvec) (ecutwfn : option R) : res (gspace * list nat) :=
  let e := match ecutwfn with None => sp_ecut G / 4 | Some e => e end in
  let gs := take (0, 0, 0)%Z (gs_cryst (sp_base G)) (gs_idxsort (sp_base G)) in
  let keep := fun g => rleb (g_norm2 (u_lat (sp_lat G)) (vadd (gvec g) k)) (2 * e) in
  let idxgk := filter (fun i => keep (nth i gs (0, 0, 0)%Z)) (seq 0 (length gs)) in
  do b <- gspace_base (gs_shape (sp_base G)) (take (0, 0, 0)%Z gs idxgk);
  Ok (b, idxgk).
