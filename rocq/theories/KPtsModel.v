(** Model of /repo/src/qtm/kpts.py (KList, gen_monkhorst_pack_grid) and of
    KList.mpgrid / the weight helper in /repo/src/qtm/klist.py, over exact reals.
    A k-list is a list of (crystal coordinates, weight).  The reciprocal lattice is
    passed separately where it matters.  spglib's irreducible mesh is an argument
    (its mapping table and its integer grid addresses). *)
From Verif Require Import Base LatModel CrystalModel.
Open Scope R_scope.

(** [np.sum] of a float array. *)
Definition rsum (l : list R) : R := fold_right Rplus 0 l.

Definition klist := list (rvec * R).

(** kpts.py 18-23 = klist.py 13-18, [_sanitize_weights].  (A zero sum divides by
    zero and gives nan with a warning; the theorems assume a positive sum.) *)
Definition sanitize_weights (w : list R) : res (list R) :=
  if existsb (fun x => if Rlt_dec x 0 then true else false) w then Err ValueError
  else Ok (map (fun x => x / rsum w) w).

(** kpts.py 162-171: one axis of the mesh without symmetry.  Python parses
    [-ni // 2] as [(-ni) // 2], floor division. *)
Definition mp_axis (time_reversal : bool) (ni : Z) (si : bool) : list R :=
  map (fun i => (IZR i + / 2 * IZR (b2z si)) / IZR ni)
      (if time_reversal then zrange 0 (ni / 2 + 1)
       else zrange ((- ni) / 2 + 1) (ni / 2 + 1)).

(** klist.py 139-149: the same without the parentheses: only the shift is divided. *)
Definition mp_axis_old (time_reversal : bool) (ni : Z) (si : bool) : list R :=
  map (fun i => IZR i + / 2 * IZR (b2z si) / IZR ni)
      (if time_reversal then zrange 0 (ni / 2 + 1)
       else zrange ((- ni) / 2 + 1) (ni / 2 + 1)).

(** kpts.py 172-173 (= klist.py 150-151): meshgrid with indexing "ij", raveled. *)
Definition mesh3 (a b c : list R) : list rvec :=
  flat_map (fun x => flat_map (fun y => map (fun z => V x y z) c) b) a.

(** [np.unique(mapping, return_counts=True)] for non-negative integers. *)
Definition np_unique (m : list nat) : list nat :=
  filter (fun i => existsb (Nat.eqb i) m) (seq 0 (S (list_max m))).
Definition np_counts (m : list nat) : list nat :=
  map (fun i => count_occ Nat.eq_dec m i) (np_unique m).

(** What spglib.get_stabilized_reciprocal_mesh returns: for every mesh index its
    representative, and the integer addresses of the mesh points. *)
Record irmesh := MkIrMesh { ir_mapping : list nat; ir_grid : list (Z * Z * Z) }.

(** kpts.py 160: [(ir_grid + 0.5 * shifts) / grid_shape], one row. *)
Definition mp_point (n1 n2 n3 : Z) (s1 s2 s3 : bool) (g : Z * Z * Z) : rvec :=
  let '(a, b, c) := g in
  V ((IZR a + / 2 * IZR (b2z s1)) / IZR n1)
    ((IZR b + / 2 * IZR (b2z s2)) / IZR n2)
    ((IZR c + / 2 * IZR (b2z s3)) / IZR n3).

(** kpts.py 129-178, [gen_monkhorst_pack_grid]; [symm] is [Some] of spglib's answer
    when use_symm is set.  The two TypeErrors: the first one's message helper
    asserts that its argument is a type and raises AssertionError instead
    (msg_format.py 46). *)
Definition gen_monkhorst_pack_grid (grid_shape : list Z) (shifts : list bool)
    (symm : option irmesh) (is_time_reversal : bool) : res klist :=
  if negb (forallb (fun n => (0 <? n)%Z) grid_shape) then Err AssertionError else
  match grid_shape, shifts with
  | [n1; n2; n3], [s1; s2; s3] =>
      let '(k_cryst, weights) :=
        match symm with
        | Some ir =>
            let irred := np_unique (ir_mapping ir) in
            (map (fun i => mp_point n1 n2 n3 s1 s2 s3 (nth i (ir_grid ir) (0, 0, 0)%Z)) irred,
             map INR (np_counts (ir_mapping ir)))
        | None =>
            let k := mesh3 (mp_axis is_time_reversal n1 s1) (mp_axis is_time_reversal n2 s2)
                           (mp_axis is_time_reversal n3 s3) in
            (k, map (fun _ => 1 / INR (length k)) k)
        end in
      do weights <- sanitize_weights weights;
      Ok (combine k_cryst weights)
  | [_; _; _], _ => Err TypeError
  | _, _ => Err AssertionError
  end.

(** klist.py 118-157, [KList.mpgrid] (same, no argument checks, other axes). *)
Definition mpgrid_old (n1 n2 n3 : Z) (s1 s2 s3 : bool) (is_time_reversal : bool) : res klist :=
  let k := mesh3 (mp_axis_old is_time_reversal n1 s1) (mp_axis_old is_time_reversal n2 s2)
                 (mp_axis_old is_time_reversal n3 s3) in
  do weights <- sanitize_weights (map (fun _ => 1 / INR (length k)) k);
  Ok (combine k weights).

(** kpts.py 94-100: [k_cart] uses axis 0 of the (3, numkpts) array; [k_tpiba] passes
    axis=1, so lattice.py 113 asserts numkpts = 3 and then transforms the ROWS of
    the array.  Result: the columns of the returned (3, numkpts) array. *)
Definition k_cart (U : ulattice) (k : klist) : list rvec := map (fun kw => cryst2cart (u_lat U) (fst kw)) k.
Definition k_tpiba (U : ulattice) (k : klist) : res (list rvec) :=
  match map fst k with
  | [a; b; c] =>
      let M := mtrans (Mat a b c) in      (* columns of M are the rows of k_cryst *)
      let out := Mat (cryst2unit U (c1 M)) (cryst2unit U (c2 M)) (cryst2unit U (c3 M)) in
      let T := mtrans out in Ok [c1 T; c2 T; c3 T]
  | _ => Err AssertionError
  end.
