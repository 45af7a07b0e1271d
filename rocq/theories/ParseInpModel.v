(** Model of /repo/src/qtm/interfaces/qe/parse_inp.py, [parse_inp] (lines 62-370): from the sections of a pw.x
    input file (read_inp.py, modelled in QeInpModel.v) to the lattice, atoms, electronic parameters and k-points.
    Numbers are exact.  Warnings and prints are not modelled.  Reading a UPF file is a parameter ([None]: the file
    is missing or [UPFv2Data.from_file] raised, both are turned into ValueError, lines 133-141), and so is spglib's
    answer used by gen_monkhorst_pack_grid.  [Crystal] (line 203) also runs spglib's symmetry search, not
    modelled here.  A namedtuple attribute cannot be assigned: AttributeError. *)
From Coq Require Import Reals Ascii String.
From Verif Require Import Base LatModel CrystalModel KPtsModel IbravModel QeInpModel UpfModel.
Local Open Scope nat_scope.

(** What parse_inp uses of a pseudopotential: upf.py lines 52-53. *)
Record pseudo := MkPseudo { pp_functional : text; pp_z : R }.

(** read_inp.py lines 4-95, the fields parse_inp looks at.  [p_lat] holds ibrav, celldm, a .. cosbc and the
    CELL_PARAMETERS card; a row of ATOMIC_POSITIONS is a label, three numbers and the number of surplus words. *)
Record pwin := MkIn {
  p_calculation : text; p_verbosity : text; p_restart : text; p_iprint : Z; p_max_seconds : R; p_dir_exists : bool;
  p_lat : lattice_in; p_ecutwfc : R; p_ecutrho : option R; p_nr : option Z * option Z * option Z;
  p_species : list (text * (R * text)); p_pos_option : text; p_pos : list (text * (rvec * nat));
  p_input_dft : option text; p_noncolin : bool; p_occupations : text; p_nspin : Z; p_nbnd : option Z;
  p_smearing : text; p_degauss : R; p_mag : list (Z * R);
  p_maxstep : Z; p_conv_thr : R; p_mixing_mode : text; p_mixing_beta : R; p_mixing_ndim : Z; p_diag : text;
  p_david_ndim : Z; p_thr_init : R; p_startingpot : text; p_startingwfc : text;
  p_k_option : text; p_k_rows : list text; p_nosym : bool; p_noinv : bool }.

(** The returned triple: the updated input (the fields that parse_inp sets), the crystal, the k-points. *)
Record atoms := MkAtoms { a_label : text; a_pp : pseudo; a_mass : R; a_r : list rvec }.
Record setup := MkSetup {
  s_lattice : ulattice; s_celldm : dict; s_ecutrho : R; s_grid : Z * Z * Z; s_atoms : list atoms;
  s_dft : text * text; s_numel : R; s_nbnd : Z; s_smearing : text; s_mag : list (Z * R); s_kpts : klist }.

Definition one_of (t : text) (l : list text) : bool := existsb (teqb t) l.
Definition guard (b : bool) (e : exn) : res unit := if b then Ok tt else Err e.
Definition rle (x y : R) : bool := if Rle_dec x y then true else false.
Definition rlt (x y : R) : bool := if Rlt_dec x y then true else false.

(** lines 65-88 *)
Definition check_control (i : pwin) : res unit :=
  do _ <- guard (one_of (p_calculation i) [T "scf"; T "nscf"; T "bands"]) ValueError;
  do _ <- guard (one_of (p_verbosity i) [T "high"; T "low"]) AttributeError;
  do _ <- guard (one_of (p_restart i) [T "from_scratch"; T "restart"]) ValueError;
  do _ <- guard (negb (p_iprint i <=? 0)%Z) AttributeError;
  do _ <- guard (negb (rle (p_max_seconds i) 0)) AttributeError;
  guard (p_dir_exists i) ValueError.

(** lines 90-118; non-finite lattice vectors are not followed further. *)
Definition make_lattice (i : pwin) : res (ulattice * dict) :=
  do l <- parse_lattice (p_lat i);
  match fst l with
  | Vectors alat latvec => do U <- mk_ulattice alat latvec; Ok (U, snd l)
  | _ => Err TypeError
  end.
(** lines 127-129; [RYDBERG] is 1/2. *)
Definition make_grid (i : pwin) (U : ulattice) : Z * Z * Z :=
  match p_nr i with
  | (Some n1, Some n2, Some n3) => (n1, n2, n3)
  | _ => gen_grid_shape (primvec (u_lat U)) (p_ecutwfc i * rydberg)
  end.
(** lines 131-154: the dictionary of species, then the atoms appended to their species. *)
Definition add_species (upf : text -> option pseudo) (d : list (text * (R * pseudo * list (rvec * nat)))) (row : text * (R * text)) :=
  match upf (snd (snd row)) with
  | None => Err ValueError
  | Some pp => Ok (upd (fst row) (fst (snd row), pp, []) d)
  end.
Definition add_atom (d : list (text * (R * pseudo * list (rvec * nat)))) (row : text * (rvec * nat)) :=
  match assoc (fst row) d with
  | None => Err ValueError
  | Some (m, pp, l) => Ok (upd (fst row) (m, pp, l ++ [snd row]) d)
  end.
(** lines 159-175: the crystal coordinates of one species.  A species without atoms, or rows with surplus
    words (QE's if_pos), do not give a (3, n) array of numbers. *)
Definition uniform (rows : list (rvec * nat)) : bool :=
  match rows with [] => true | r :: t => forallb (fun r' => snd r' =? snd r) t end.
Definition plain (rows : list (rvec * nat)) : bool :=
  match rows with [] => false | _ => forallb (fun r => snd r =? 0) rows end.
Definition to_cryst (opt : text) (celldm : dict) (U : ulattice) (rows : list (rvec * nat)) : res (list rvec) :=
  if teqb opt (T "crystal") then
    if uniform rows then if plain rows then Ok (map fst rows) else Err ValueError else Err ValueError
  else if one_of opt [T "alat"; T "bohr"; T "angstrom"] then
    do f <- (if teqb opt (T "alat") then dget celldm 1 else if teqb opt (T "angstrom") then Ok ANGSTROM else Ok 1%R);
    if uniform rows then
      if plain rows then Ok (map (fun r => cart2cryst (u_lat U) (vscale f (fst r))) rows)
      else match rows with [] => Err ValueError | _ => Err TypeError end
    else Err ValueError
  else Err ValueError.
Definition make_atoms (opt : text) (celldm : dict) (U : ulattice) (e : text * (R * pseudo * list (rvec * nat))) : res atoms :=
  let '(label, (m, pp, rows)) := e in
  do r <- to_cryst opt celldm U rows;
  do _ <- guard (negb (rlt m 0)) TypeError;
  Ok (MkAtoms label pp m r).
(** lines 177-202: exchange-correlation functional.  Overriding it formats a message with the attribute
    [ppdata.fname], which does not exist (basis_atoms.py line 30: filename). *)
Definition pair_eqb (a b : text * text) : bool := teqb (fst a) (fst b) && teqb (snd a) (snd b).
Definition lookup_dft (f : text) : res (text * text) := match libxc_map f with Some p => Ok p | None => Err KeyError end.
Definition choose_dft (i : pwin) (l : list atoms) : res (text * text) :=
  do fs <- sequence (map (fun a => lookup_dft (lower (pp_functional (a_pp a)))) l);
  match p_input_dft i with
  | None => match fs with
            | [] => Err IndexError
            | f :: t => if forallb (pair_eqb f) t then Ok f else Err ValueError
            end
  | Some d => do d' <- lookup_dft d; match l with [] => Ok d' | _ => Err AttributeError end
  end.
(** lines 209-211 *)
Definition count_el (l : list atoms) : R := fold_left (fun n a => n + INR (List.length (a_r a)) * pp_z (a_pp a))%R l 0%R.
(** Python's x // 2 and x % 2 for floats (exact). *)
Definition half (x : R) : Z := rfloor (x / 2).
Definition rem2 (x : R) : R := (x - 2 * IZR (half x))%R.
Definition EPS5 : R := (/ 100000)%R.
(** lines 229-236 *)
Definition smearing_name (s : text) : res text :=
  if one_of s [T "gaussian"; T "gauss"] then Ok (T "gauss")
  else if one_of s [T "methfessel-paxton"; T "m-p"; T "mp"] then Ok (T "mp")
  else if one_of s [T "marzari-vanderbilt"; T "cold"; T "m-v"; T "mv"] then Ok (T "mv")
  else if one_of s [T "fermi-dirac"; T "f-d"; T "fd"] then Ok (T "fd")
  else Err ValueError.
(** lines 213-272: number of bands and smearing; int() truncates, the argument is positive. *)
Definition electrons (i : pwin) (numel : R) : res (Z * text) :=
  do _ <- guard (one_of (p_occupations i) [T "fixed"; T "smearing"]) ValueError;
  if teqb (p_occupations i) (T "fixed") then
    do _ <- guard (negb (p_nspin i =? 2)%Z) NotImplementedError;
    do _ <- guard (negb ((p_nspin i =? 1)%Z && rlt EPS5 (Rabs (rem2 numel)))) ValueError;
    Ok (half numel, p_smearing i)
  else
    do s <- smearing_name (p_smearing i);
    do _ <- guard (negb (rle (p_degauss i) EPS5)) ValueError;
    match p_nbnd i with
    | Some n => do _ <- guard (negb (rlt (2 * IZR n) numel)) ValueError; Ok (n, s)
    | None => Ok (rfloor (Rmax (12 / 10 * (numel / 2)) (numel / 2 + 4)), s)
    end.
(** lines 274-292 *)
Fixpoint zassoc (k : Z) (l : list (Z * R)) : option R :=
  match l with [] => None | (k', v) :: t => if (k' =? k)%Z then Some v else zassoc k t end.
Definition clip (x : R) : R := if Rlt_dec x (-1) then (-1)%R else if Rlt_dec 1 x then 1%R else x.
Definition set_mag (d : list (Z * R)) (k : Z) : list (Z * R) :=
  zupd k (clip (match zassoc k d with Some x => x | None => 0%R end)) d.
Definition magnetization (i : pwin) : res (list (Z * R)) :=
  if (p_nspin i =? 2)%Z && teqb (p_startingpot i) (T "atomic") then
    do _ <- guard (negb (List.length (p_mag i) =? 0)) ValueError;
    do _ <- guard (forallb (fun e => (0 <=? fst e - 1)%Z && (fst e - 1 <? Z.of_nat (List.length (p_species i)))%Z) (p_mag i)) ValueError;
    Ok (fold_left set_mag (map (fun k => Z.of_nat k + 1)%Z (seq 0 (List.length (p_species i)))) (p_mag i))
  else Ok (p_mag i).
(** lines 299-337 *)
Definition check_electrons (i : pwin) : res unit :=
  do _ <- guard (negb (p_maxstep i <=? 0)%Z) ValueError;
  do _ <- guard (negb (rle (p_conv_thr i) 0)) ValueError;
  do _ <- guard (one_of (p_mixing_mode i) [T "plain"]) ValueError;
  do _ <- guard (negb (rlt (p_mixing_beta i) 0 || rlt 1 (p_mixing_beta i))) ValueError;
  do _ <- guard (negb (p_mixing_ndim i <? 0)%Z) ValueError;
  do _ <- guard (one_of (p_diag i) [T "david"]) ValueError;
  do _ <- guard (negb (p_david_ndim i <? 0)%Z) ValueError;
  do _ <- guard (negb (rle (p_thr_init i) 0)) ValueError;
  do _ <- guard (one_of (p_startingpot i) [T "atomic"]) ValueError;
  guard (one_of (p_startingwfc i) [T "random"]) ValueError.
(** lines 339-368.  The two explicit lists end in [cryst.recispc], an attribute [Crystal] does not have. *)
Definition kpoints (mesh : list Z -> list bool -> bool -> irmesh) (i : pwin) : res klist :=
  do _ <- guard (one_of (p_k_option i) [T "tpiba"; T "automatic"; T "crystal"]) ValueError;
  if teqb (p_k_option i) (T "automatic") then
    match p_k_rows i with
    | [] => Err IndexError
    | row :: _ =>
        let ws := words row in
        do _ <- guard (List.length ws =? 6) ValueError;
        do shape <- sequence (map py_int (firstn 3 ws));
        do sh <- sequence (map (fun w => rmap (fun z => negb (z =? 0)%Z) (py_int w)) (skipn 3 ws));
        gen_monkhorst_pack_grid shape sh (if negb (p_nosym i) then Some (mesh shape sh (negb (p_noinv i))) else None) (negb (p_noinv i))
    end
  else
    do _ <- sequence (map (fun row => do _ <- guard (4 <=? List.length (words row)) ValueError; sequence (map py_float (firstn 4 (words row)))) (p_k_rows i));
    Err AttributeError.

(** lines 62-370 *)
Definition parse_inp (upf : text -> option pseudo) (mesh : list Z -> list bool -> bool -> irmesh) (i : pwin) : res setup :=
  do _ <- check_control i;
  do Ld <- make_lattice i;
  do _ <- guard (negb (rle (p_ecutwfc i) 0)) ValueError;
  do d <- foldm (add_species upf) [] (p_species i);
  do d' <- foldm add_atom d (p_pos i);
  do l <- sequence (map (make_atoms (p_pos_option i) (snd Ld) (fst Ld)) d');
  do xc <- choose_dft i l;
  do _ <- guard (negb (p_noncolin i)) AttributeError;
  let n := count_el l in
  do bs <- electrons i n;
  do m <- magnetization i;
  do _ <- check_electrons i;
  do k <- kpoints mesh i;
  Ok (MkSetup (fst Ld) (snd Ld) (4 * p_ecutwfc i)%R (make_grid i (fst Ld)) l xc n (fst bs) (snd bs) m k).
