(** Model of /repo/src/qtm/lattice.py over exact real numbers (floating-point
    rounding is not modelled).  Vectors are triples, a 3x3 array is the triple of
    its columns: the source stores primitive vectors as columns. *)
From Coq Require Export Reals.
From Verif Require Import Base.
Open Scope R_scope.

Record rvec := V { vx : R; vy : R; vz : R }.
(** Columns of the matrix: the three primitive vectors. *)
Record mat := Mat { c1 : rvec; c2 : rvec; c3 : rvec }.

Definition vadd (u v : rvec) : rvec := V (vx u + vx v) (vy u + vy v) (vz u + vz v).
Definition vsub (u v : rvec) : rvec := V (vx u - vx v) (vy u - vy v) (vz u - vz v).
Definition vscale (a : R) (v : rvec) : rvec := V (a * vx v) (a * vy v) (a * vz v).
Definition vdot (u v : rvec) : R := vx u * vx v + vy u * vy v + vz u * vz v.
Definition vcross (u v : rvec) : rvec :=
  V (vy u * vz v - vz u * vy v) (vz u * vx v - vx u * vz v) (vx u * vy v - vy u * vx v).

(** [P @ v] *)
Definition mv (P : mat) (v : rvec) : rvec :=
  vadd (vadd (vscale (vx v) (c1 P)) (vscale (vy v) (c2 P))) (vscale (vz v) (c3 P)).
(** [P.T] *)
Definition mtrans (P : mat) : mat :=
  Mat (V (vx (c1 P)) (vx (c2 P)) (vx (c3 P)))
      (V (vy (c1 P)) (vy (c2 P)) (vy (c3 P)))
      (V (vz (c1 P)) (vz (c2 P)) (vz (c3 P))).
(** [P @ Q] *)
Definition mmul (P Q : mat) : mat := Mat (mv P (c1 Q)) (mv P (c2 Q)) (mv P (c3 Q)).
Definition mscale (a : R) (P : mat) : mat := Mat (vscale a (c1 P)) (vscale a (c2 P)) (vscale a (c3 P)).
Definition mid : mat := Mat (V 1 0 0) (V 0 1 0) (V 0 0 1).
(** [np.linalg.det] *)
Definition mdet (P : mat) : R := vdot (c1 P) (vcross (c2 P) (c3 P)).
(** [np.linalg.inv] in exact arithmetic (adjugate over determinant); raises
    LinAlgError exactly on a zero determinant, see [mk_lattice]. *)
Definition minv (P : mat) : mat :=
  mtrans (mscale (/ mdet P)
    (Mat (vcross (c2 P) (c3 P)) (vcross (c3 P) (c1 P)) (vcross (c1 P) (c2 P)))).

(** lattice.py lines 33-67, the attributes of [Lattice]. *)
Record lattice := MkLattice {
  primvec : mat; primvec_inv : mat; metric : mat; cellvol : R
}.

(** lattice.py lines 33-67, [Lattice.__init__] (shape/dtype test holds by
    construction). *)
Definition mk_lattice (P : mat) : res lattice :=
  if Req_EM_T (mdet P) 0 then Err ValueError
  else Ok {| primvec := P; primvec_inv := minv P; metric := mmul (mtrans P) P;
             cellvol := Rabs (mdet P) |}.

(** lattice.py lines 74-94 and 96-121 for one vector (axis=0; arrays of vectors
    are mapped elementwise). *)
Definition cart2cryst (L : lattice) (v : rvec) : rvec := mv (primvec_inv L) v.
Definition cryst2cart (L : lattice) (v : rvec) : rvec := mv (primvec L) v.

(** The [coords] argument; [Unit a] is 'alat' (RealLattice) or 'tpiba'
    (ReciLattice) with that unit length; [Bad] any other string. *)
Inductive coords : Type := Cryst | Cart | Scaled | Bad.

(** lattice.py lines 123-166 with the overrides 450-485 / 773-806. *)
Definition dot (L : lattice) (unit_ : R) (u v : rvec) (c : coords) : res R :=
  match c with
  | Cryst => Ok (vdot u (mv (metric L) v))
  | Cart => Ok (vdot u v)
  | Scaled => Ok (vdot u v * (unit_ * unit_))
  | Bad => Err ValueError
  end.
(** lattice.py lines 168-204 with the overrides 487-519 / 808-834. *)
Definition norm2 (L : lattice) (unit_ : R) (u : rvec) (c : coords) : res R :=
  match c with
  | Cryst => Ok (vdot u (mv (metric L) u))
  | Cart => Ok (vdot u u)
  | Scaled => Ok (vdot u u * (unit_ * unit_))
  | Bad => Err ValueError
  end.
(** lattice.py 206-231 and the override 521-555 of RealLattice. *)
Definition norm_real (L : lattice) (unit_ : R) (u : rvec) (c : coords) : res R :=
  match c with
  | Scaled => rmap (fun x => sqrt x * unit_) (norm2 L unit_ u Cart)
  | _ => rmap sqrt (norm2 L unit_ u c)
  end.
(** ReciLattice inherits Lattice.norm: sqrt of its own norm2. *)
Definition norm_reci (L : lattice) (unit_ : R) (u : rvec) (c : coords) : res R :=
  rmap sqrt (norm2 L unit_ u c).

(** RealLattice / ReciLattice: a lattice plus its unit ('alat' / 'tpiba'). *)
Record ulattice := MkULattice { u_unit : R; u_lat : lattice }.

(** lattice.py 368-386, 388-406, 408-426, 428-448 (and the tpiba twins
    738-770): conversions to and from scaled units. *)
Definition cart2unit (U : ulattice) (v : rvec) : rvec := vscale (/ u_unit U) v.
Definition unit2cart (U : ulattice) (v : rvec) : rvec := vscale (u_unit U) v.
Definition cryst2unit (U : ulattice) (v : rvec) : rvec :=
  vscale (/ u_unit U) (cryst2cart (u_lat U) v).
Definition unit2cryst (U : ulattice) (v : rvec) : rvec :=
  vscale (u_unit U) (cart2cryst (u_lat U) v).

Definition mk_ulattice (unit_ : R) (P : mat) : res ulattice :=
  rmap (MkULattice unit_) (mk_lattice P).

(** constants.py: TPI = 2*pi. *)
Definition TPI : R := 2 * PI.

(** lattice.py lines 714-730, [ReciLattice.from_reallat]. *)
Definition from_reallat (U : ulattice) : res ulattice :=
  mk_ulattice (TPI / u_unit U) (mscale TPI (mtrans (primvec_inv (u_lat U)))).
(** lattice.py lines 346-361, [RealLattice.from_recilat]. *)
Definition from_recilat (U : ulattice) : res ulattice :=
  mk_ulattice (TPI / u_unit U) (mscale TPI (mtrans (primvec_inv (u_lat U)))).

(** lattice.py 284-344: constructors from three axis vectors. *)
Definition from_bohr (alat : R) (a1 a2 a3 : rvec) : res ulattice := mk_ulattice alat (Mat a1 a2 a3).
Definition from_alat (alat : R) (a1 a2 a3 : rvec) : res ulattice :=
  mk_ulattice alat (mscale alat (Mat a1 a2 a3)).
(** lattice.py 69-72 and 363-366: [axes_cart], [axes_alat]. *)
Definition axes_cart (L : lattice) : list rvec := [c1 (primvec L); c2 (primvec L); c3 (primvec L)].
Definition axes_unit (U : ulattice) : list rvec :=
  map (vscale (/ u_unit U)) (axes_cart (u_lat U)).

(** [np.floor] and [np.rint] (round half to even) on reals. *)
Definition rfloor (x : R) : Z := Int_part x.
Definition rint (x : R) : Z :=
  let f := rfloor x in
  let d := x - IZR f in
  if Rlt_dec d (1 / 2) then f
  else if Rlt_dec (1 / 2) d then (f + 1)%Z
  else if Z.even f then f else (f + 1)%Z.

(** lattice.py lines 557-606, [RealLattice.get_mesh_coords]: the crystal
    coordinates of the mesh point (i1,i2,i3), for an origin given as an array
    already converted to crystal coordinates. *)
Definition mesh_wrap (x : R) : R := x - IZR (rint x).
Definition mesh_point (n1 n2 n3 : Z) (o : rvec) (i : Z * Z * Z) : rvec :=
  let '(i1, i2, i3) := i in
  V (mesh_wrap (IZR i1 / IZR n1 - vx o))
    (mesh_wrap (IZR i2 / IZR n2 - vy o))
    (mesh_wrap (IZR i3 / IZR n3 - vz o)).
(** How [origin] is passed: the default is a Python tuple, which has no
    [reshape]; [cart2cryst]/[alat2cryst] turn it into an array first. *)
Inductive origin_arg : Type := OTuple (v : rvec) | OArray (v : rvec).
Definition origin_val (o : origin_arg) : rvec := match o with OTuple v => v | OArray v => v end.
Definition get_mesh_coords (U : ulattice) (n1 n2 n3 : Z) (c : coords) (o : origin_arg)
  : res (list rvec) :=
  if negb ((0 <? n1) && (0 <? n2) && (0 <? n3))%Z then Err ValueError else
  do o_cryst <- (match c with
                 | Cart => Ok (cart2cryst (u_lat U) (origin_val o))
                 | Scaled => Ok (unit2cryst U (origin_val o))
                 | _ => match o with OTuple _ => Err AttributeError | OArray v => Ok v end
                 end);
  let pts := flat_map (fun i => flat_map (fun j => map (fun k => (i, j, k)) (zrange 0 n3))
                                         (zrange 0 n2)) (zrange 0 n1) in
  let r := map (mesh_point n1 n2 n3 o_cryst) pts in
  match c with
  | Cryst => Ok r
  | Cart => Ok (map (cryst2cart (u_lat U)) r)
  | Scaled => Ok (map (cryst2unit U) r)
  | Bad => Ok []   (* the function falls off its end and returns None *)
  end.
