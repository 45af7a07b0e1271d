(** Model of /repo/src/qtm/interfaces/qe/ibrav2latvec.py and of the grid choice in
    /repo/src/qtm/interfaces/qe/parse_inp.py, over exact real numbers (rounding is
    not modelled).  A Python [dict] of cell parameters is a partial function from
    the integer key; reading a missing key raises KeyError. *)
From Coq Require Import Reals Lra.
From Verif Require Import Base GIndexModel LatModel GSphereModel.
Open Scope R_scope.

(** constants.py lines 31 and 50-56: ANGSTROM = 1e-10 / 5.29177210903e-11. *)
Definition ANGSTROM : R := (1 / 10 ^ 10) / (529177210903 / 10 ^ 22).

(** A [dict[int, float]]. *)
Definition dict := Z -> option R.
Definition dempty : dict := fun _ => None.
Definition dset (k : Z) (v : R) (d : dict) : dict := fun j => if (j =? k)%Z then Some v else d j.
(** [d[k]] *)
Definition dget (d : dict) (k : Z) : res R := match d k with Some v => Ok v | None => Err KeyError end.

(** A Numpy result that may hold nan/inf: [None] stands for "some entry is not
    finite".  [np.sqrt] of a negative float64 is nan with a warning, not an
    exception, and so is a float64 division by zero. *)
Definition npsqrt (x : R) : option R := if Rlt_dec x 0 then None else Some (sqrt x).
Definition npdiv (x y : R) : option R := if Req_EM_T y 0 then None else Some (x / y).
Definition obind {A B} (x : option A) (f : A -> option B) : option B :=
  match x with Some a => f a | None => None end.
Notation "'ndo' x <- e ; k" := (obind e (fun x => k)) (at level 200, x name, e at level 100, k at level 200).

Definition basis := res (option (rvec * rvec * rvec)).
Definition fin (v1 v2 v3 : rvec) : basis := Ok (Some (v1, v2, v3)).

(** ibrav2latvec.py lines 94-99, ibrav = 1. *)
Definition basis_cubic_p (celldm : dict) : basis :=
  do a <- dget celldm 1;
  fin (V a 0 0) (V 0 a 0) (V 0 0 a).
(** lines 102-107, ibrav = 2. *)
Definition basis_cubic_f (celldm : dict) : basis :=
  do a <- dget celldm 1;
  let aby2 := a / 2 in
  fin (V (- aby2) 0 aby2) (V 0 aby2 aby2) (V (- aby2) aby2 0).
(** lines 110-115, ibrav = 3. *)
Definition basis_cubic_i (celldm : dict) : basis :=
  do a <- dget celldm 1;
  let aby2 := a / 2 in
  fin (V aby2 aby2 aby2) (V (- aby2) aby2 aby2) (V (- aby2) (- aby2) aby2).
(** lines 118-123, ibrav = -3. *)
Definition basis_cubic_i_symm (celldm : dict) : basis :=
  do a <- dget celldm 1;
  let aby2 := a / 2 in
  fin (V (- aby2) aby2 aby2) (V aby2 (- aby2) aby2) (V aby2 aby2 (- aby2)).
(** lines 126-132, ibrav = 4. *)
Definition basis_hexagonal (celldm : dict) : basis :=
  do a <- dget celldm 1;
  do ca <- dget celldm 3;
  let c := a * ca in
  fin (V a 0 0) (V (- a / 2) (a * sqrt 3 / 2) 0) (V 0 0 c).
(** lines 135-146, ibrav = 5. *)
Definition basis_trigonal_r_c (celldm : dict) : basis :=
  do a <- dget celldm 1;
  do cosg <- dget celldm 4;
  Ok (ndo tx <- npsqrt ((1 - cosg) / 2);
      ndo ty <- npsqrt ((1 - cosg) / 6);
      ndo tz <- npsqrt ((1 + 2 * cosg) / 3);
      Some (V (a * tx) (- a * ty) (a * tz), V 0 (2 * a * ty) (a * tz), V (- a * tx) (- a * ty) (a * tz))).
(** lines 149-163, ibrav = -5. *)
Definition basis_trigonal_r_111 (celldm : dict) : basis :=
  do a <- dget celldm 1;
  do cosg <- dget celldm 4;
  Ok (ndo ty <- npsqrt ((1 - cosg) / 6);
      ndo tz <- npsqrt ((1 + 2 * cosg) / 3);
      let aa := a / sqrt 3 in
      let u := tz - 2 * sqrt 2 * ty in
      let v := tz + sqrt 2 * ty in
      Some (V (aa * u) (aa * v) (aa * v), V (aa * v) (aa * u) (aa * v), V (aa * v) (aa * v) (aa * u))).
(** lines 166-172, ibrav = 6. *)
Definition basis_tetragonal_p (celldm : dict) : basis :=
  do a <- dget celldm 1;
  do ca <- dget celldm 3;
  let c := ca * a in
  fin (V a 0 0) (V 0 a 0) (V 0 0 c).
(** lines 175-181, ibrav = 7. *)
Definition basis_tetragonal_i (celldm : dict) : basis :=
  do a <- dget celldm 1;
  do ca <- dget celldm 3;
  let c := ca * a in
  fin (V (a / 2) (- a / 2) (c / 2)) (V (a / 2) (a / 2) (c / 2)) (V (- a / 2) (- a / 2) (c / 2)).
(** The three axis lengths of lines 185-187 (repeated at the start of each
    of the functions below). *)
Definition abc (celldm : dict) (k : R -> R -> R -> basis) : basis :=
  do a <- dget celldm 1;
  do ba <- dget celldm 2;
  do ca <- dget celldm 3;
  k a (ba * a) (ca * a).
(** lines 184-191, ibrav = 8. *)
Definition basis_orthorhombic_p (celldm : dict) : basis :=
  abc celldm (fun a b c => fin (V a 0 0) (V 0 b 0) (V 0 0 c)).
(** lines 194-201, ibrav = 9. *)
Definition basis_orthorhombic_bco (celldm : dict) : basis :=
  abc celldm (fun a b c => fin (V (a / 2) (b / 2) 0) (V (- a / 2) (b / 2) 0) (V 0 0 c)).
(** lines 204-211, ibrav = -9. *)
Definition basis_orthorhombic_bco_alt (celldm : dict) : basis :=
  abc celldm (fun a b c => fin (V (a / 2) (- b / 2) 0) (V (a / 2) (b / 2) 0) (V 0 0 c)).
(** lines 214-221, ibrav = 91. *)
Definition basis_orthorhombic_bca (celldm : dict) : basis :=
  abc celldm (fun a b c => fin (V a 0 0) (V 0 (b / 2) (- c / 2)) (V 0 (b / 2) (c / 2))).
(** lines 224-231, ibrav = 10. *)
Definition basis_orthorhombic_face (celldm : dict) : basis :=
  abc celldm (fun a b c => fin (V (a / 2) 0 (c / 2)) (V (a / 2) (b / 2) 0) (V 0 (b / 2) (c / 2))).
(** lines 234-241, ibrav = 11. *)
Definition basis_orthorhombic_body (celldm : dict) : basis :=
  abc celldm (fun a b c =>
    fin (V (a / 2) (b / 2) (c / 2)) (V (- a / 2) (b / 2) (c / 2)) (V (- a / 2) (- b / 2) (c / 2))).
(** lines 244-253, ibrav = 12. *)
Definition basis_monoclinic_p_c (celldm : dict) : basis :=
  abc celldm (fun a b c =>
    do cosAB <- dget celldm 4;
    Ok (ndo sinAB <- npsqrt (1 - cosAB ^ 2);
        Some (V a 0 0, V (b * cosAB) (b * sinAB) 0, V 0 0 c))).
(** lines 256-265, ibrav = -12. *)
Definition basis_moniclinic_p_b (celldm : dict) : basis :=
  abc celldm (fun a b c =>
    do cosAC <- dget celldm 5;
    Ok (ndo sinAC <- npsqrt (1 - cosAC ^ 2);
        Some (V a 0 0, V 0 b 0, V (c * cosAC) 0 (c * sinAC)))).
(** lines 268-277, ibrav = 13. *)
Definition basis_monoclinic_base_c (celldm : dict) : basis :=
  abc celldm (fun a b c =>
    do cosg <- dget celldm 4;
    Ok (ndo sing <- npsqrt (1 - cosg ^ 2);
        Some (V (a / 2) 0 (- c / 2), V (b * cosg) (b * sing) 0, V (a / 2) 0 (c / 2)))).
(** lines 280-289, ibrav = -13. *)
Definition basis_monoclinic_base_b (celldm : dict) : basis :=
  abc celldm (fun a b c =>
    do cosb <- dget celldm 5;
    Ok (ndo sinb <- npsqrt (1 - cosb ^ 2);
        Some (V (a / 2) (b / 2) 0, V (- a / 2) (b / 2) 0, V (c * cosb) 0 (c * sinb)))).
(** lines 292-309, ibrav = 14 (the radicand is the source's: cosAB twice, cosBC never). *)
Definition basis_triclinic (celldm : dict) : basis :=
  abc celldm (fun a b c =>
    do cosBC <- dget celldm 4;
    do cosAC <- dget celldm 5;
    do cosAB <- dget celldm 6;
    Ok (ndo sinAB <- npsqrt (1 - cosAB ^ 2);
        ndo y <- npdiv (c * (cosBC - cosAC * cosAB)) sinAB;
        ndo r <- npsqrt (1 + 2 * cosBC * cosAC * cosAB - cosAB ^ 2 - cosAC ^ 2 - cosAB ^ 2);
        ndo z <- npdiv (c * r) sinAB;
        Some (V a 0 0, V (b * cosAB) (b * sinAB) 0, V (c * cosAC) y z))).

(** lines 312-333, the dispatch table [ibrav_list]; [None]: key absent. *)
Definition ibrav_list (ibrav : Z) : option (dict -> basis) :=
  match ibrav with
  | 1 => Some basis_cubic_p
  | 2 => Some basis_cubic_f
  | 3 => Some basis_cubic_i
  | -3 => Some basis_cubic_i_symm
  | 4 => Some basis_hexagonal
  | 5 => Some basis_trigonal_r_c
  | -5 => Some basis_trigonal_r_111
  | 6 => Some basis_tetragonal_p
  | 7 => Some basis_tetragonal_i
  | 8 => Some basis_orthorhombic_p
  | 9 => Some basis_orthorhombic_bco
  | -9 => Some basis_orthorhombic_bco_alt
  | 91 => Some basis_orthorhombic_bca
  | 10 => Some basis_orthorhombic_face
  | 11 => Some basis_orthorhombic_body
  | 12 => Some basis_monoclinic_p_c
  | -12 => Some basis_moniclinic_p_b
  | 13 => Some basis_monoclinic_base_c
  | -13 => Some basis_monoclinic_base_b
  | 14 => Some basis_triclinic
  | _ => None
  end%Z.

(** What the call returns: Python's [None] for an unlisted [ibrav], otherwise
    (alat, latvec), [latvec] holding the vectors as columns, or an array with
    non-finite entries. *)
Inductive latout : Type :=
| Vectors (alat : R) (latvec : mat)
| NotFinite
| PyNone.

(** lines 336-351, [ibrav2latvec].  The bare [except] builds an error message that
    reads celldm[1] .. celldm[6], which raises KeyError itself when one of them is
    missing; the ValueError is only reached when all six are there. *)
Definition handler {A} (celldm : dict) : res A :=
  do _ <- dget celldm 1; do _ <- dget celldm 2; do _ <- dget celldm 3;
  do _ <- dget celldm 4; do _ <- dget celldm 5; do _ <- dget celldm 6;
  Err ValueError.
Definition ibrav2latvec (ibrav : Z) (celldm : dict) : res latout :=
  do alat <- dget celldm 1;
  match ibrav_list ibrav with
  | None => Ok PyNone
  | Some f =>
      match f celldm with
      | Err _ => handler celldm
      | Ok None => Ok NotFinite
      | Ok (Some (v1, v2, v3)) => Ok (Vectors alat (Mat v1 v2 v3))
      end
  end.

(** lines 54-91, [trad2celldm]; the arguments that may be Python's None are options. *)
(** Python's [x / y] on floats. *)
Definition fdiv (x y : R) : res R := if Req_EM_T y 0 then Err ZeroDivisionError else Ok (x / y).
(** [x in [..]] *)
Definition zin (x : Z) (l : list Z) : bool := existsb (Z.eqb x) l.
Definition trad2celldm (ibrav : Z) (a : R) (b c cosab cosbc cosac : option R) : res dict :=
  let celldm := dset 1 (a * ANGSTROM) dempty in
  do celldm <- (if zin ibrav [8; 9; -9; 91; 10; 11; 12; -12; 13; -13; 14]%Z
                then match b with None => Err ValueError | Some b => do q <- fdiv b a; Ok (dset 2 q celldm) end
                else Ok celldm);
  do celldm <- (if zin ibrav [4; 6; 7; 8; 9; -9; 91; 10; 11; 12; -12; 13; -13; 14]%Z
                then match c with None => Err ValueError | Some c => do q <- fdiv c a; Ok (dset 3 q celldm) end
                else Ok celldm);
  do celldm <- (if zin ibrav [5; -5; 12; 13]%Z
                then match cosab with None => Err ValueError | Some x => Ok (dset 4 x celldm) end
                else if zin ibrav [14]%Z
                then match cosbc with None => Err ValueError | Some x => Ok (dset 4 x celldm) end
                else Ok celldm);
  do celldm <- (if zin ibrav [-12; -13; 14]%Z
                then match cosac with None => Err ValueError | Some x => Ok (dset 5 x celldm) end
                else Ok celldm);
  (if zin ibrav [14]%Z
   then match cosab with None => Err ValueError | Some x => Ok (dset 6 x celldm) end
   else Ok celldm).

(** The option of the CELL_PARAMETERS card: the two strings the code looks for, or
    anything else ('bohr', a missing option, a misspelling). *)
Inductive cellopt : Type := OAngstrom | OAlat | OOther.

(** lines 8-52, [cellparam2latvec]; [rows] are the three lines of the card.
    [celldm[1]] is read (KeyError when absent) before [a] is looked at; a stored
    value is a float, never None, so the branch that would use [a] is dead. *)
Definition cellparam2latvec (option_ : cellopt) (r1 r2 r3 : rvec) (celldm : dict) (a : option R)
  : res (R * mat) :=
  match option_ with
  | OAlat =>
      do celldm_1 <- dget celldm 1;
      Ok (celldm_1, mscale celldm_1 (Mat r1 r2 r3))
  | OAngstrom =>
      let latvec := mscale ANGSTROM (Mat r1 r2 r3) in
      Ok (vnorm (c1 latvec), latvec)
  | OOther =>
      let latvec := Mat r1 r2 r3 in
      Ok (vnorm (c1 latvec), latvec)
  end.

(** parse_inp.py lines 91-117, the lattice part of [parse_inp]: [celldm] is the
    dictionary of the SYSTEM namelist, [card] the CELL_PARAMETERS card.  Result:
    the lattice and the dictionary's contents after the call (updated in place by
    lines 99 and 115-117 when it is the one passed in, i.e. unless line 113 made a
    new one).  A [PyNone] cannot occur after the membership test of line 101. *)
Record lattice_in := { li_ibrav : Z; li_celldm : dict; li_a : option R; li_b : option R;
  li_c : option R; li_cosab : option R; li_cosac : option R; li_cosbc : option R;
  li_card : option (cellopt * (rvec * rvec * rvec)) }.
(** lines 115-117: missing entries are filled with 0.0. *)
Definition fill (d : dict) : dict :=
  fun k => match d k with
           | Some v => Some v
           | None => if (1 <=? k)%Z && (k <=? 6)%Z then Some 0 else None
           end.
Definition parse_lattice (i : lattice_in) : res (latout * dict) :=
  if (li_ibrav i =? 0)%Z then
    match li_card i with
    | None => Err TypeError (* unpacking None *)
    | Some (opt, (r1, r2, r3)) =>
        do r <- cellparam2latvec opt r1 r2 r3 (li_celldm i) (li_a i);
        Ok (Vectors (fst r) (snd r), fill (dset 1 (fst r) (li_celldm i)))
    end
  else
    match ibrav_list (li_ibrav i) with
    | None => Err ValueError
    | Some _ =>
        do _ <- dget (li_celldm i) 1;
        (* a stored value is a float: [is None] is False, lines 104-113 are dead *)
        do r <- ibrav2latvec (li_ibrav i) (li_celldm i);
        Ok (r, fill (li_celldm i))
    end.

(** read_inp.py lines 18-30: [celldm: dict[int, float] = {}] is a class-level
    default, one object for the whole process.  A job states its own celldm entries
    ([Some d], a fresh dictionary built at lines 176-180) or none ([None]: the
    shared default object, which lines 99 and 115-117 of parse_inp.py then modify in
    place).  A job that raises leaves the default as it was (nothing is written
    before the lattice is known). *)
Record job := { j_celldm : option dict; j_in : dict -> lattice_in }.
Definition with_celldm (ibrav : Z) (a b c cosab cosac cosbc : option R)
    (card : option (cellopt * (rvec * rvec * rvec))) (d : dict) : lattice_in :=
  {| li_ibrav := ibrav; li_celldm := d; li_a := a; li_b := b; li_c := c;
     li_cosab := cosab; li_cosac := cosac; li_cosbc := cosbc; li_card := card |}.
Definition run_job (shared : dict) (j : job) : res latout * dict :=
  match j_celldm j with
  | Some d => (rmap fst (parse_lattice (j_in j d)), shared)
  | None => match parse_lattice (j_in j shared) with
            | Ok (r, d) => (Ok r, d)
            | Err e => (Err e, shared)
            end
  end.
Fixpoint run_jobs (shared : dict) (js : list job) : list (res latout) * dict :=
  match js with
  | [] => ([], shared)
  | j :: t => let '(r, s) := run_job shared j in
              let '(rs, s') := run_jobs s t in (r :: rs, s')
  end.

(** [int(np.ceil(x))] *)
Definition rceil (x : R) : Z := (- rfloor (- x))%Z.
(** parse_inp.py lines 36-39: the smallest dimension wanted along one axis. *)
Definition grid_min (ecutwfc : R) (v : rvec) : Z :=
  rceil (2 * sqrt (2 * ecutwfc) / PI * vnorm v).
(** parse_inp.py lines 36-59, [gen_grid_shape].  The loop of lines 43-57 is, statement
    for statement, the one of gspace/gspc.py lines 23-37, modelled by
    [optimal_dim_z]. *)
Definition gen_grid_shape (P : mat) (ecutwfc : R) : shape3 :=
  (optimal_dim_z (grid_min ecutwfc (c1 P)), optimal_dim_z (grid_min ecutwfc (c2 P)),
   optimal_dim_z (grid_min ecutwfc (c3 P))).
