(** Vocabulary for C107 (no code modelled): finding a line of the report by its label and reading its number. *)
From Coq Require Import Reals Ascii String.
From Verif Require Import Base QeInpModel VcoulIOModel ReportModel.
Import ListNotations.
Local Open Scope R_scope.

Fixpoint starts_with (p t : list ascii) : bool :=
  match p, t with
  | [], _ => true
  | a :: p', b :: t' => Ascii.eqb a b && starts_with p' t'
  | _ :: _, [] => false
  end.
Definition grep (label : string) (lines : list (list ascii)) : list (list ascii) := filter (starts_with (T label)) lines.
(** Exactly one line begins with the label; between label and unit stands a text that Python's float() reads as [y]. *)
Definition shown (lines : list (list ascii)) (label unit_ : string) (y : R) : Prop :=
  exists num, grep label lines = [T label ++ num ++ T unit_] /\ py_float num = Ok y.
(** Units in hartree: 1 Ry is half a hartree; 1 eV = 1.602176634e-19 J, 1 hartree = 4.3597447222071e-18 J. *)
Definition one_Ry : R := / 2.
Definition one_eV : R := (1602176634 / 10 ^ 28) / (43597447222071 / 10 ^ 31).
(** [y] has at most [k] decimals. *)
Definition decimals (k : nat) (y : R) : Prop := exists z : Z, y = IZR z / 10 ^ k.

(** What the report of given energies (in hartree) has to show: label, number, unit. *)
Definition opt_row (label : string) (x : option R) (f : R -> R) (u : string) : list (string * R * string) :=
  match x with Some v => [(label, f v, u)] | None => [] end.
Definition in_Ry (x : R) : R := x / one_Ry.
Definition in_eV (x : R) : R := x / one_eV.
Definition level_rows (en : energies) : list (string * R * string) :=
  match en_fermi en with
  | Some f => [(" Fermi Level:     ", in_eV f, " eV")%string]
  | None => opt_row "    HO Level:     " (en_HO en) in_eV " eV" ++ opt_row "    LU Level:     " (en_LU en) in_eV " eV"
  end.
Definition contents (en : energies) : list (string * R * string) :=
  [ ("Total Energy:     ", in_Ry (en_total en), " Ry"); ("      one-el:     ", in_Ry (en_one_el en), " Ry");
    ("     Hartree:     ", in_Ry (en_hartree en), " Ry"); ("          XC:     ", in_Ry (en_xc en), " Ry");
    ("       Ewald:     ", in_Ry (en_ewald en), " Ry") ]%string
  ++ opt_row "    Internal:     " (en_internal en) in_Ry " Ry" ++ opt_row "       Smear:     " (en_smear en) in_Ry " Ry"
  ++ level_rows en.
(** All labels of numbers. *)
Definition labels : list string :=
  [ "Total Energy:     "; "      one-el:     "; "     Hartree:     "; "          XC:     "; "       Ewald:     ";
    "    Internal:     "; "       Smear:     "; " Fermi Level:     "; "    HO Level:     "; "    LU Level:     " ]%string.
(** A line of the eigenvalue table, read by splitting at white space: one-based band index, energy in eV, occupation. *)
Definition band_row (i : nat) (e o : R) (line : list ascii) : Prop :=
  exists wi we wo ye yo, words line = [wi; we; wo] /\ py_int wi = Ok (Z.of_nat i + 1)%Z
    /\ py_float we = Ok ye /\ Rabs (ye - in_eV e) <= 5 / 10 ^ 9 /\ py_float wo = Ok yo /\ Rabs (yo - o) <= 5 / 10 ^ 7.
(** The block of one k-point: five heading lines, then one line per band in order. *)
Definition block_of (w : kswfn_out) (b : list (list ascii)) : Prop :=
  exists rows, b = [ []; T "k-point:    " ++ ko_k w; T "weight:     " ++ ko_weight w; T "Basis size: " ++ VcoulIOModel.fmt_int (ko_size w);
                     T "  Band  Eigenvalue (eV)  Occupation" ] ++ rows
    /\ List.length rows = ko_numbnd w
    /\ forall i e o line, nth_error (ko_evl w) i = Some e -> nth_error (ko_occ w) i = Some o -> nth_error rows i = Some line -> band_row i e o line.
