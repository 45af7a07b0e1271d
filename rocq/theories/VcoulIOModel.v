(** Model of the text tables of the GW part: /repo/src/qtm/gw/vcoul.py 568-606 ([load_vcoul],
    [write_vcoul]) and /repo/src/qtm/interfaces/bgw/inp.py 106-127 ([read_vxc]).  A file is its text
    (ASCII, lines ended by "\n"); numbers are exact, so a printed number is rounded once, by the
    format.  Not modelled: carriage returns as line ends, negative list indices, and the texts
    "inf"/"nan" on input, which [float] also accepts; a Coulomb factor that is nan or inf is None,
    written "NAN" here (Python writes "INF" for inf), and read back as None. *)
From Coq Require Import Reals Ascii String.
From Verif Require Import Base LatModel QeInpModel SigmaHpModel.
Import ListNotations.
Local Open Scope nat_scope.

(** ---- Python format specifications ---- *)
Definition dchar (n : nat) : ascii := ascii_of_nat (48 + n).
(** The last [k] decimal digits of [z] >= 0. *)
Fixpoint padded (k : nat) (z : Z) : text :=
  match k with O => [] | Datatypes.S k' => padded k' (z / 10) ++ [dchar (Z.to_nat (z mod 10))] end.
(** [str(z)] for z >= 0; the fuel only has to exceed the number of digits. *)
Fixpoint decimal_f (fuel : nat) (z : Z) : text :=
  match fuel with
  | O => []
  | Datatypes.S f => (if (z <? 10)%Z then [] else decimal_f f (z / 10)) ++ [dchar (Z.to_nat (z mod 10))]
  end.
Definition decimal (z : Z) : text := decimal_f (Datatypes.S (Z.to_nat (Z.log2 z))) z.
Definition minus_if (b : bool) : text := if b then ["-"%char] else [].
Definition neg_r (x : R) : bool := if Rlt_dec x 0 then true else false.
(** "d" *)
Definition fmt_int (z : Z) : text := minus_if (z <? 0)%Z ++ decimal (Z.abs z).
(** ".8f": rounded half to even on the exact value; negative numbers keep their sign even when they
    round to zero. *)
Definition fmt_f8 (x : R) : text :=
  let n := rint (Rabs x * 10 ^ 8) in
  minus_if (neg_r x) ++ decimal (n / 10 ^ 8) ++ "."%char :: padded 8 (n mod 10 ^ 8).
(** ".7E": one digit before the point, at least two in the exponent. *)
Definition exponent10 (x : R) : Z := rfloor (ln (Rabs x) / ln 10).
Definition fmt_E7 (x : R) : text :=
  if Req_EM_T x 0 then T "0.0000000E+00"
  else
    let e0 := exponent10 x in
    let m0 := rint (Rabs x * pow10 (7 - e0)) in
    let '(m, e) := if (m0 =? 10 ^ 8)%Z then ((10 ^ 7)%Z, (e0 + 1)%Z) else (m0, e0) in
    minus_if (neg_r x) ++ padded 1 (m / 10 ^ 7) ++ "."%char :: padded 7 (m mod 10 ^ 7) ++ "E"%char ::
    (if (e <? 0)%Z then "-"%char else "+"%char) :: (if (Z.abs e <? 100)%Z then padded 2 (Z.abs e) else decimal (Z.abs e)).
Definition fmt_v (v : option R) : text := match v with Some x => fmt_E7 x | None => T "NAN" end.
(** ">w" *)
Definition rjust (w : nat) (t : text) : text := repeat " "%char (w - List.length t) ++ t.
Definition newline : ascii := ascii_of_nat 10.

(** ---- vcoul.py 581-606 ---- *)
Definition ivec := (Z * Z * Z)%type.
Record table := MkTable {
  t_cryst : list rvec;               (* self.qpts.cryst *)
  t_q0 : option nat;                 (* self.qpts.index_q0 *)
  t_q0vec : rvec;                    (* self.qpts.q0vec *)
  t_g : list (list ivec);            (* self.l_gspace_q[i].g_cryst.T *)
  t_v : list (list (option R)) }.    (* self.vcoul *)
(** 604, the f-string *)
Definition line_of (q : rvec) (g : ivec) (v : option R) : text :=
  let '(g1, g2, g3) := g in
  rjust 11 (fmt_f8 (vx q)) ++ T " " ++ rjust 11 (fmt_f8 (vy q)) ++ T " " ++ rjust 11 (fmt_f8 (vz q)) ++ T "  "
  ++ rjust 6 (fmt_int g1) ++ T " " ++ rjust 6 (fmt_int g2) ++ T " " ++ rjust 6 (fmt_int g3) ++ T "       "
  ++ fmt_v v ++ [newline].
(** 598-602: [i_q == None] is false *)
Definition qvec_of (A : table) (i : nat) : res rvec :=
  match t_q0 A with
  | Some j => if i =? j then Ok (t_q0vec A) else item_ (t_cryst A) i
  | None => item_ (t_cryst A) i
  end.
(** 596-605; [gs] with the number of vectors already written *)
Definition write_point (A : table) (i : nat) : res text :=
  do gs <- item_ (t_g A) i;
  foldm (fun acc jg => do q <- qvec_of A i; do vs <- item_ (t_v A) i; do v <- item_ vs (fst jg);
                       Ok (acc ++ line_of q (snd jg) v)) []
        (combine (seq 0 (List.length gs)) gs).
(** 593-606, [write_vcoul] *)
Definition write_vcoul (A : table) (sel : option (list nat)) : res text :=
  foldm (fun acc i => do t <- write_point A i; Ok (acc ++ t)) []
        (match sel with Some l => l | None => seq 0 (List.length (t_cryst A)) end).

(** ---- vcoul.py 568-579 ---- *)
(** [np.genfromtxt] with its defaults: "#" starts a comment, blank lines are skipped, all rows need
    the number of words of the first (else ValueError), a word that is not a number becomes nan.
    The result is squeezed: it has two dimensions only with at least two rows and two columns. *)
Definition uncomment (l : text) : text := hd [] (split_on "#"%char l).
Definition fields_of (t : text) : list (list text) :=
  filter (fun ws => negb (List.length ws =? 0)) (map (fun l => words (uncomment l)) (split_on newline t)).
Definition cell (w : text) : option R := match py_float w with Ok x => Some x | Err _ => None end.
Inductive loaded := TwoD (rows : list (list (option R))) | Flat.
Definition genfromtxt (t : text) : res loaded :=
  let rows := fields_of t in
  let cols := List.length (hd [] rows) in
  if forallb (fun r => List.length r =? cols) rows then
    Ok (if (2 <=? List.length rows) && (2 <=? cols) then TwoD (map (map cell) rows) else Flat)
  else Err ValueError.
(** 568-579: [a[:, :3]], [a[:, 3:6]], [a[:, 6]] *)
Definition load_vcoul (t : text) : res (list (list (option R)) * list (list (option R)) * list (option R)) :=
  do d <- genfromtxt t;
  match d with
  | Flat => Err IndexError
  | TwoD rows =>
      do last <- sequence (map (fun r => item_ r 6) rows);
      Ok (map (firstn 3) rows, map (fun r => firstn 3 (skipn 3 r)) rows, last)
  end.

(** ---- inp.py 106-127, [read_vxc] ---- *)
(** One k-point header: the three coordinates, the row count and the remaining words. *)
Definition header := (list R * Z * list text)%type.
(** 113-118 *)
Definition vxc_header (ws : list text) : res header :=
  do ks <- sequence (map py_float (firstn 3 ws));
  do w <- item_ ws 3; do n <- py_int w;
  Ok (ks, n, skipn 4 ws).
(** 121-122; at the end of the file [readline] gives the empty text *)
Fixpoint vxc_rows (n : nat) (lines : list text) : res (list R * list text) :=
  match n with
  | O => Ok ([], lines)
  | Datatypes.S n' =>
      do w <- item_ (words (strip (hd [] lines))) 2; do x <- py_float w;
      do p <- vxc_rows n' (tl lines); Ok (x :: fst p, snd p)
  end.
(** 112-123; every turn reads a line, so the number of lines bounds the turns *)
Fixpoint vxc_loop (fuel : nat) (lines : list text) : res (list header * list (list R)) :=
  match fuel with
  | O => Ok ([], [])
  | Datatypes.S f =>
      match words (strip (hd [] lines)) with
      | [] => Ok ([], [])
      | ws => do h <- vxc_header ws;
              do p <- vxc_rows (Z.to_nat (snd (fst h))) (tl lines);
              do r <- vxc_loop f (snd p);
              Ok (h :: fst r, fst p :: snd r)
      end
  end.
Definition read_vxc (t : text) : res (list header * list (list R)) :=
  let lines := split_on newline t in vxc_loop (Datatypes.S (List.length lines)) lines.
