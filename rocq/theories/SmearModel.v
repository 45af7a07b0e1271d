(** Model of the smearing functions of /repo/src/qtm/dft/occup/smear.py over exact reals;
    [erf] and [erfc] (scipy.special) are those of ErfBase.  The routines that use them are
    in OccModel, generic in the pair of functions. *)
From Coq Require Import Reals String.
From Coquelicot Require Import Coquelicot.
From Verif Require Import Base LatModel KPtsModel ErfBase OccModel.
Open Scope R_scope.

(** smear.py 17-18 *)
Definition gauss_occ (f : R) : R := / 2 * erfc f.
(** smear.py 21-22 (constants.py: SQRT_PI) *)
Definition gauss_en (f : R) : R := - / 2 * exp (- (f * f)) / sqrt PI.
(** smear.py 34-36 *)
Definition mv_occ (f : R) : R :=
  let g := - (f + 1 / sqrt 2) in
  / 2 * (erf g + 1) + 1 / sqrt (2 * PI) * exp (- (g * g)).
(** smear.py 39-41 (constants.py: TPI) *)
Definition mv_en (f : R) : R :=
  let g := - (f + 1 / sqrt 2) in
  1 / sqrt (2 * PI) * g * exp (- (g * g)).

(** smear.py 44-48 [l_smear_func], and the check of line 80: any other name stops the
    routine with an AssertionError before anything is computed. *)
Definition l_smear_func (smear_typ : string) : option ((R -> R) * (R -> R)) :=
  if String.eqb smear_typ "gauss" then Some (gauss_occ, gauss_en)
  else if String.eqb smear_typ "fd" then Some (fd_occ, fd_en)
  else if String.eqb smear_typ "mv" then Some (mv_occ, mv_en)
  else None.

(** smear.py 68-134, [compute_occ] with the smearing selected by name. *)
Definition compute_occ (fuel : nat) (world : list kgroup) (numel : R) (smear_typ : string) (degauss : R)
  : res (option (list kgroup * (R * R))) :=
  match l_smear_func smear_typ with
  | None => Err AssertionError
  | Some (occf, enf) => smear_compute_occ occf enf degauss fuel world numel
  end.
