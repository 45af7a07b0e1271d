(** Model of /repo/src/qtm/interfaces/qe/read_inp.py, [PWscfIn.from_file]: the reader of
    Quantum ESPRESSO input files.  The file is its list of lines over ASCII; opening the file
    (lines 96-100) and non-ASCII text are not modelled.  [int()] and [float()] are modelled on
    decimal notation; the underscores, "inf" and "nan" that Python also accepts are rejected
    here.  Numbers are exact. *)
From Coq Require Import Reals Ascii String.
From Verif Require Import Base.
Local Open Scope nat_scope.

Definition text := list ascii.
Definition T (s : string) : text := list_ascii_of_string s.
Definition teqb (a b : text) : bool := if list_eq_dec ascii_dec a b then true else false.
Definition ch (n : nat) : ascii := ascii_of_nat n.

(** ---- Python string methods (ASCII) ---- *)
(** [str.isspace] characters, the ones [strip()] removes. *)
Definition is_ws (c : ascii) : bool :=
  let n := nat_of_ascii c in ((9 <=? n) && (n <=? 13)) || ((28 <=? n) && (n <=? 32)).
Definition lower1 (c : ascii) : ascii :=
  let n := nat_of_ascii c in if (65 <=? n) && (n <=? 90) then ch (n + 32) else c.
Definition lower (t : text) : text := map lower1 t.
Fixpoint lstrip_p (p : ascii -> bool) (t : text) : text :=
  match t with [] => [] | c :: r => if p c then lstrip_p p r else t end.
Definition rstrip_p (p : ascii -> bool) (t : text) : text := rev (lstrip_p p (rev t)).
Definition strip_p (p : ascii -> bool) (t : text) : text := rstrip_p p (lstrip_p p t).
Definition is_c (c d : ascii) : bool := Ascii.eqb d c.
Definition strip (t : text) : text := strip_p is_ws t.
Definition lstrip (t : text) : text := lstrip_p is_ws t.
(** [t.split(c)] for a one-character separator. *)
Fixpoint split_on (c : ascii) (t : text) : list text :=
  match t with
  | [] => [[]]
  | d :: r => if Ascii.eqb d c then [] :: split_on c r
              else match split_on c r with [] => [[d]] | h :: l => (d :: h) :: l end
  end.
(** [t.split()]: maximal runs of non-space characters. *)
Fixpoint words_acc (acc t : text) : list text :=
  match t with
  | [] => match acc with [] => [] | _ => [rev acc] end
  | c :: r => if is_ws c then match acc with [] => words_acc [] r | _ => rev acc :: words_acc [] r end
              else words_acc (c :: acc) r
  end.
Definition words (t : text) : list text := words_acc [] t.
Definition mem_c (c : ascii) (t : text) : bool := existsb (Ascii.eqb c) t.

Definition is_digit (c : ascii) : bool := let n := nat_of_ascii c in (48 <=? n) && (n <=? 57).
Definition digit (c : ascii) : Z := (Z.of_nat (nat_of_ascii c) - 48)%Z.
Fixpoint span_digits (t : text) : text * text :=
  match t with
  | [] => ([], [])
  | c :: r => if is_digit c then let '(a, b) := span_digits r in (c :: a, b) else ([], t)
  end.
Definition digits_val (t : text) : Z := fold_left (fun a c => 10 * a + digit c)%Z t 0%Z.
Definition take_sign (t : text) : bool * text :=
  match t with
  | c :: r => if Ascii.eqb c "-" then (true, r) else if Ascii.eqb c "+" then (false, r) else (false, t)
  | [] => (false, [])
  end.
Definition sgnz (neg : bool) (z : Z) : Z := if neg then (- z)%Z else z.
(** [int(t)] *)
Definition py_int (t : text) : res Z :=
  let '(neg, r) := take_sign (strip t) in
  let '(d, rest) := span_digits r in
  match d, rest with _ :: _, [] => Ok (sgnz neg (digits_val d)) | _, _ => Err ValueError end.
(** [float(t)] *)
Definition py_exponent (t : text) : res Z :=
  match t with
  | [] => Ok 0%Z
  | c :: r => if Ascii.eqb c "e" || Ascii.eqb c "E" then
                let '(neg, r') := take_sign r in
                let '(d, rest) := span_digits r' in
                match d, rest with _ :: _, [] => Ok (sgnz neg (digits_val d)) | _, _ => Err ValueError end
              else Err ValueError
  end.
Definition pow10 (z : Z) : R := powerRZ 10 z.
Definition py_float (t : text) : res R :=
  let '(neg, r) := take_sign (strip t) in
  let '(ip, r1) := span_digits r in
  let '(fp, r2) := match r1 with c :: r' => if Ascii.eqb c "." then span_digits r' else ([], r1) | [] => ([], []) end in
  match ip ++ fp with
  | [] => Err ValueError
  | ds => do e <- py_exponent r2;
          Ok (IZR (sgnz neg (digits_val ds)) * pow10 (e - Z.of_nat (List.length fp)))%R
  end.

(** ---- lines 4-88: the namelists, their fields, types and defaults ---- *)
Inductive typ := TInt | TFloat | TBool | TStr | TDict.
Inductive value :=
| VStr (t : text) | VInt (z : Z) | VFloat (x : R) | VBool (b : bool) | VNone | VDict (d : list (Z * R)).
(** A field: name, type (Optional[t] is t), default ([None]: required). *)
Definition fields := list (text * (typ * option value)).
Definition control_fields : fields :=
  [(T "calculation", (TStr, Some (VStr (T "scf")))); (T "title", (TStr, Some (VStr [])));
   (T "verbosity", (TStr, Some (VStr (T "low")))); (T "restart_mode", (TStr, Some (VStr (T "from_scratch"))));
   (T "iprint", (TInt, Some (VInt 100000))); (T "outdir", (TStr, Some (VStr (T "./"))));
   (T "prefix", (TStr, Some (VStr (T "QuantumMASALA")))); (T "max_seconds", (TFloat, Some (VFloat 10000000)));
   (T "disk_io", (TStr, Some (VStr (T "low")))); (T "pseudo_dir", (TStr, Some (VStr (T "./"))))].
Definition system_fields : fields :=
  [(T "ibrav", (TInt, None)); (T "nat", (TInt, None)); (T "ntyp", (TInt, None)); (T "ecutwfc", (TFloat, None));
   (T "celldm", (TDict, Some (VDict [])));
   (T "a", (TFloat, Some VNone)); (T "b", (TFloat, Some VNone)); (T "c", (TFloat, Some VNone));
   (T "cosab", (TFloat, Some VNone)); (T "cosac", (TFloat, Some VNone)); (T "cosbc", (TFloat, Some VNone));
   (T "ecutrho", (TFloat, Some VNone)); (T "nr1", (TInt, Some VNone)); (T "nr2", (TInt, Some VNone)); (T "nr3", (TInt, Some VNone));
   (T "nspin", (TInt, Some (VInt 1))); (T "noncolin", (TBool, Some (VBool false))); (T "nbnd", (TInt, Some VNone));
   (T "starting_magnetization", (TDict, Some (VDict []))); (T "occupations", (TStr, Some (VStr (T "fixed"))));
   (T "degauss", (TFloat, Some (VFloat 0))); (T "smearing", (TStr, Some (VStr (T "gaussian"))));
   (T "nosym", (TBool, Some (VBool false))); (T "nosym_evc", (TBool, Some (VBool false)));
   (T "noinv", (TBool, Some (VBool false))); (T "input_dft", (TStr, Some VNone))].
Definition electrons_fields : fields :=
  [(T "electron_maxstep", (TInt, Some (VInt 100))); (T "conv_thr", (TFloat, Some (VFloat (/ 1000000))));
   (T "mixing_mode", (TStr, Some (VStr (T "plain")))); (T "mixing_beta", (TFloat, Some (VFloat (7 / 10))));
   (T "mixing_ndim", (TInt, Some (VInt 8))); (T "diagonalization", (TStr, Some (VStr (T "david"))));
   (T "diago_thr_init", (TFloat, Some (VFloat (/ 100)))); (T "diago_david_ndim", (TInt, Some (VInt 4)));
   (T "diago_full_acc", (TBool, Some (VBool false))); (T "startingpot", (TStr, Some (VStr (T "atomic"))));
   (T "startingwfc", (TStr, Some (VStr (T "random"))))].
(** lines 77-92: the annotations of PWscfIn.  Cards have an option type ([true]: str, [false]: None)
    and row types ([None]: the row is kept as a string). *)
Inductive section_kind := Namelist (f : fields) | Card (has_option : bool) (row : option (list typ)).
Definition annotations : list (text * section_kind) :=
  [(T "control", Namelist control_fields); (T "system", Namelist system_fields); (T "electrons", Namelist electrons_fields);
   (T "atomic_species", Card false (Some [TStr; TFloat; TStr]));
   (T "atomic_positions", Card true (Some [TStr; TFloat; TFloat; TFloat]));
   (T "k_points", Card true None);
   (T "cell_parameters", Card true (Some [TFloat; TFloat; TFloat]));
   (T "ions", Namelist []); (T "cell", Namelist []); (T "fcp", Namelist []); (T "rism", Namelist [])].
(** Lookup in / assignment to a Python dict with text keys. *)
Fixpoint assoc {A} (k : text) (l : list (text * A)) : option A :=
  match l with [] => None | (k', v) :: t => if teqb k' k then Some v else assoc k t end.
Fixpoint upd {A} (k : text) (v : A) (l : list (text * A)) : list (text * A) :=
  match l with [] => [(k, v)] | (k', v') :: t => if teqb k' k then (k', v) :: t else (k', v') :: upd k v t end.
Fixpoint zupd (k : Z) (v : R) (l : list (Z * R)) : list (Z * R) :=
  match l with [] => [(k, v)] | (k', v') :: t => if (k' =? k)%Z then (k', v) :: t else (k', v') :: zupd k v t end.

(** ---- lines 161-184: [parse_typ] ---- *)
Definition replace_d (t : text) : text := map (fun c => if Ascii.eqb c "d" then "e"%char else c) t.
Definition parse_typ (ty : typ) (v : text) : res value :=
  match ty with
  | TBool => if teqb v (T ".true") then Ok (VBool true)
             else if teqb v (T ".false") then Ok (VBool false) else Err ValueError
  | TFloat => rmap VFloat (py_float (replace_d v))
  | TInt => rmap VInt (py_int v)
  | TStr => Ok (VStr v)
  | TDict => Err TypeError
  end.
(** lines 141-200: one [key=value] substring.  A dict key without index calls [int(None)]: TypeError. *)
Definition assignment (fs : fields) (data : list (text * value)) (parval : text) : res (list (text * value)) :=
  match split_on "=" parval with
  | [par; v] =>
      let par := strip par in let v := strip_p (is_c "'") (strip v) in
      do pi <- (if mem_c "(" par
                then match split_on "(" par with
                     | [p; i] => Ok (p, Some (rstrip_p (is_c ")") i))
                     | _ => Err ValueError end
                else Ok (par, None));
      match assoc (fst pi) fs with
      | None => Err ValueError
      | Some (TDict, _) =>
          match snd pi with
          | None => Err TypeError
          | Some i => do k <- py_int i;
                      do x <- py_float (replace_d v);
                      let old := match assoc (fst pi) data with Some (VDict d) => d | _ => [] end in
                      Ok (upd (fst pi) (VDict (zupd k x old)) data)
          end
      | Some (ty, _) => do x <- parse_typ ty v; Ok (upd (fst pi) x data)
      end
  | _ => Err ValueError
  end.
Fixpoint foldm {A B} (f : A -> B -> res A) (a : A) (l : list B) : res A :=
  match l with [] => Ok a | b :: t => do a' <- f a b; foldm f a' t end.
(** lines 139-200: a line of assignments *)
Definition assign_line (fs : fields) (data : list (text * value)) (line : text) : res (list (text * value)) :=
  foldm (assignment fs) data (split_on "," line).
(** lines 129-138: the body of a namelist; the end of the file reads as an empty line, whose first
    character does not exist. *)
Fixpoint namelist (fs : fields) (data : list (text * value)) (lines : list text)
  : res (list (text * value) * list text) :=
  match lines with
  | [] => Err IndexError
  | raw :: rest =>
      let line := rstrip_p (is_c ",") (strip (lower raw)) in
      match lstrip line with
      | [] => Err IndexError
      | c :: _ =>
          if Ascii.eqb c "!" || Ascii.eqb c "#" then namelist fs data rest
          else if Ascii.eqb c "/" then Ok (data, rest)
          else do data' <- assign_line fs data line; namelist fs data' rest
      end
  end.
(** lines 202-207: building the namelist object; missing required fields are a TypeError, which is
    not caught.  The object is its complete field list. *)
Definition build (fs : fields) (data : list (text * value)) : res (list (text * value)) :=
  sequence (map (fun f => match assoc (fst f) data with
                          | Some v => Ok (fst f, v)
                          | None => match snd (snd f) with Some d => Ok (fst f, d) | None => Err TypeError end
                          end) fs).

(** ---- cards, lines 209-271 ---- *)
Inductive section_data :=
| SNamelist (d : list (text * value))
| SCard (option_ : option text) (rows : list (list value)).
Definition cell_value (ty : typ) (w : text) : res value :=
  match ty with TFloat => rmap VFloat (py_float w) | TInt => rmap VInt (py_int w) | _ => Ok (VStr w) end.
(** lines 262-265: convert the first columns in place; surplus words stay strings. *)
Fixpoint convert_row (tys : list typ) (ws : list text) : res (list value) :=
  match tys, ws with
  | [], _ => Ok (map VStr ws)
  | _ :: _, [] => Err IndexError
  | ty :: tys', w :: ws' => do v <- cell_value ty w; do r <- convert_row tys' ws'; Ok (v :: r)
  end.
(** lines 255-266 *)
Fixpoint card_rows (row : option (list typ)) (case_sensitive : bool) (n : nat) (lines : list text)
  : res (list (list value) * list text) :=
  match n with
  | O => Ok ([], lines)
  | S n' =>
      match lines with
      | [] => Err ValueError
      | raw :: rest =>
          let line := strip (if case_sensitive then raw else lower raw) in
          match line with
          | [] => Err ValueError
          | _ => do r <- match row with None => Ok [VStr line] | Some tys => convert_row tys (words line) end;
                 do rr <- card_rows row case_sensitive n' rest;
                 Ok (r :: fst rr, snd rr)
          end
      end
  end.
Definition positive (v : res value) : res nat :=
  match v with
  | Ok (VInt z) => if (z <=? 0)%Z then Err ValueError else Ok (Z.to_nat z)
  | Ok _ => Err TypeError
  | Err e => Err e
  end.
Definition sys_field (all : list (text * section_data)) (k : text) : res value :=
  match assoc (T "system") all with
  | Some (SNamelist d) => match assoc k d with Some v => Ok v | None => Err AttributeError end
  | _ => Err KeyError
  end.
(** lines 210-254: header of a card and number of its lines; returns the card name, option, row type, case
    sensitivity, count and the lines that remain after the count line of K_POINTS. *)
Definition card (all : list (text * section_data)) (line : text) (lines : list text)
  : res (text * section_data * list text) :=
  let cardopt := if mem_c "{" line then split_on "{" line else words line in
  match cardopt with
  | [] => Err ValueError
  | _ :: _ :: _ :: _ => Err ValueError
  | c :: opt =>
      let name := lower (strip c) in
      let option_ := match opt with o :: _ => Some (lower (strip (rstrip_p (is_c "}") o))) | [] => None end in
      match assoc name annotations with
      | None => Err KeyError
      | Some (Namelist _) => Err AttributeError
      | Some (Card has_option row) =>
          let option_ := if has_option then Some (match option_ with Some o => o | None => T "None" end) else option_ in
          do nrest <-
            (if teqb name (T "atomic_species") then do n <- positive (sys_field all (T "ntyp")); Ok (n, lines)
             else if teqb name (T "atomic_positions") then do n <- positive (sys_field all (T "nat")); Ok (n, lines)
             else if teqb name (T "k_points") then
               match option_ with
               | Some o => if teqb o (T "automatic") then Ok (1, lines)
                           else match lines with
                                | [] => Err ValueError
                                | l :: rest => do n <- positive (rmap VInt (py_int (strip (lower l)))); Ok (n, rest)
                                end
               | None => Err ValueError
               end
             else Ok (3, lines));
          let cs := teqb name (T "atomic_species") || teqb name (T "atomic_positions") in
          do rr <- card_rows row cs (fst nrest) (snd nrest);
          Ok (name, SCard option_ (fst rr), snd rr)
      end
  end.

(** ---- lines 117-273: the file.  [fuel] bounds the iterations; every iteration consumes a line, so
    the number of lines is enough (theorem C51_fuel). ---- *)
Fixpoint file_loop (fuel : nat) (all : list (text * section_data)) (lines : list text) : res (list (text * section_data)) :=
  match fuel with
  | O => Ok all
  | S fuel' =>
      match lines with
      | [] => Ok all
      | raw :: rest =>
          let line := strip (lower raw) in
          match line with
          | [] => file_loop fuel' all rest
          | c :: name =>
              if Ascii.eqb c "&" then
                match assoc name annotations with
                | None => Err ValueError
                | Some (Card _ _) => Err AttributeError
                | Some (Namelist fs) =>
                    do dr <- namelist fs [] rest;
                    do obj <- build fs (fst dr);
                    file_loop fuel' (upd name (SNamelist obj) all) (snd dr)
                end
              else
                do nr <- card all line rest;
                file_loop fuel' (upd (fst (fst nr)) (snd (fst nr)) all) (snd nr)
          end
      end
  end.
(** line 273: the missing sections of PWscfIn raise TypeError. *)
Definition required_sections : list text :=
  [T "control"; T "system"; T "electrons"; T "atomic_species"; T "atomic_positions"; T "k_points"].
Definition from_file (lines : list text) : res (list (text * section_data)) :=
  do all <- file_loop (List.length lines) [] lines;
  if forallb (fun k => match assoc k all with Some _ => true | None => false end) required_sections
  then Ok all else Err TypeError.
