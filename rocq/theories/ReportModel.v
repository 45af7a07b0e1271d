(** Model of the printed report of a calculation: /repo/src/qtm/io_utils/dft_printers.py lines 11-61
    ([print_eigenvalues], [print_scf_status]), with EnergyData of /repo/src/qtm/dft/scf.py 39-54.  Exact
    reals: division by the units and decimal formatting are exact up to the printed digit; nan and inf are
    not modelled.  The result is the list of printed lines (what was printed before an exception is not
    kept). *)
From Coq Require Import Reals Ascii String.
From Verif Require Import Base LatModel QeInpModel VcoulIOModel.
Import ListNotations.
Local Notation length := List.length.
Local Notation ln := Rpower.ln.
Local Open Scope R_scope.

(** constants.py 31, 34, 37-43, 52-55 *)
Definition ELECTRON_SI : R := 1602176634 / 10 ^ 28.
Definition HARTREE_SI : R := 43597447222071 / 10 ^ 31.
Definition ELECTRONVOLT : R := ELECTRON_SI / HARTREE_SI.
Definition RYDBERG : R := 1 / 2.

(** Format ".kf": rounded half to even on the exact value. *)
Definition fmt_f (k : nat) (x : R) : text :=
  let p := (10 ^ Z.of_nat k)%Z in
  let n := rint (Rabs x * 10 ^ k) in
  minus_if (neg_r x) ++ decimal (n / p) ++ "."%char :: padded k (n mod p).
(** Format ".ke". *)
Definition fmt_e (k : nat) (x : R) : text :=
  let p := (10 ^ Z.of_nat k)%Z in
  let '(m, e) :=
    if Req_EM_T x 0 then (0%Z, 0%Z) else
    let e0 := exponent10 x in
    let m0 := rint (Rabs x * pow10 (Z.of_nat k - e0)) in
    if (m0 =? 10 * p)%Z then (p, (e0 + 1)%Z) else (m0, e0) in
  minus_if (neg_r x) ++ padded 1 (m / p) ++ "."%char :: padded k (m mod p) ++ "e"%char ::
  (if (e <? 0)%Z then "-"%char else "+"%char) :: (if (Z.abs e <? 100)%Z then padded 2 (Z.abs e) else decimal (Z.abs e)).

(** scf.py 39-54; [None] is Python's None. *)
Record energies := MkEn {
  en_total : R; en_one_el : R; en_ewald : R; en_hartree : R; en_xc : R;
  en_fermi : option R; en_smear : option R; en_internal : option R; en_HO : option R; en_LU : option R }.

(** One line: label, number right-justified in 17 columns with eight decimals, unit. *)
Definition qty (label : text) (unit_ : R) (x : R) (u : text) : text := label ++ rjust 17 (fmt_f 8 (x / unit_)) ++ u.
Definition ry (label : text) (x : R) : text := qty label RYDBERG x (T " Ry").
Definition ev (label : text) (x : R) : text := qty label ELECTRONVOLT x (T " eV").
Definition opt_ry (label : text) (x : option R) : list text := match x with Some v => [ry label v] | None => [] end.
(** dft_printers.py 54-59: [None / float] is a TypeError. *)
Definition levels (en : energies) : res (list text) :=
  match en_fermi en with
  | Some f => Ok [ev (T " Fermi Level:     ") f]
  | None => match en_HO en with
            | None => Err TypeError
            | Some h => Ok (ev (T "    HO Level:     ") h :: match en_LU en with Some l => [ev (T "    LU Level:     ") l] | None => [] end)
            end
  end.
(** dft_printers.py 26-61 *)
Definition print_scf_status (idxiter : Z) (runtime : R) (converged : bool) (e_error diago_thr avgiter : R) (en : energies)
  : res (list text) :=
  do lv <- levels en;
  Ok ([ T "Iteration # " ++ fmt_int (idxiter + 1) ++ T ", Run Time: " ++ rjust 5 (fmt_f 1 runtime) ++ T " sec";
        T "Convergence Status   : " ++ (if negb converged then T "NOT" else []) ++ T " Converged";
        T "SCF Error           : " ++ fmt_e 4 (e_error / RYDBERG) ++ T " Ry";
        T "Avg Diago Iterations: " ++ rjust 3 (fmt_f 1 avgiter);
        T "Diago Threshold     : " ++ fmt_e 2 (diago_thr / RYDBERG) ++ T " Ry";
        [];
        ry (T "Total Energy:     ") (en_total en) ]
      ++ opt_ry (T "    Internal:     ") (en_internal en)
      ++ [ [];
           ry (T "      one-el:     ") (en_one_el en); ry (T "     Hartree:     ") (en_hartree en);
           ry (T "          XC:     ") (en_xc en); ry (T "       Ewald:     ") (en_ewald en) ]
      ++ opt_ry (T "       Smear:     ") (en_smear en)
      ++ [] :: lv ++ [ repeat "-"%char 40; [] ]).

(** scf.py 441-453: the energies of one iteration from its parts ([smear] is [None] for fixed occupations). *)
Definition assemble (one_el ewald hartree xc : R) (smear fermi ho lu : option R) : energies :=
  let t := one_el + ewald + hartree + xc in
  match smear with
  | Some s => MkEn (t + s) one_el ewald hartree xc fermi (Some s) (Some (t + s - s)) ho lu
  | None => MkEn t one_el ewald hartree xc fermi None None ho lu
  end.

(** dft_printers.py 11-23: per wavefunction the header texts (representations of tuples and floats, not
    modelled), the eigenvalues and occupations; arrays shorter than [numbnd] are an IndexError. *)
Record kswfn_out := MkOut { ko_k : text; ko_weight : text; ko_size : Z; ko_numbnd : nat; ko_evl : list R; ko_occ : list R }.
Definition band_line (i : nat) (e o : R) : text :=
  T "  " ++ rjust 4 (fmt_int (Z.of_nat i + 1)) ++ T "  " ++ rjust 14 (fmt_f 8 (e / ELECTRONVOLT)) ++ T "  " ++ rjust 10 (fmt_f 6 o).
Fixpoint band_lines (i n : nat) (w : kswfn_out) : res (list text) :=
  match n with
  | O => Ok []
  | Datatypes.S m =>
      match nth_error (ko_evl w) i, nth_error (ko_occ w) i with
      | Some e, Some o => do t <- band_lines (Datatypes.S i) m w; Ok (band_line i e o :: t)
      | _, _ => Err IndexError
      end
  end.
Definition wfn_lines (w : kswfn_out) : res (list text) :=
  do b <- band_lines 0 (ko_numbnd w) w;
  Ok ([ []; T "k-point:    " ++ ko_k w; T "weight:     " ++ ko_weight w; T "Basis size: " ++ fmt_int (ko_size w);
        T "  Band  Eigenvalue (eV)  Occupation" ] ++ b).
Definition print_eigenvalues (l : list (list kswfn_out)) : res (list text) :=
  do b <- sequence (map wfn_lines (List.concat l)); Ok (T "Printing eigenvalues:" :: List.concat b).
