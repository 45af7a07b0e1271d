(** Model of /repo/src/qtm/interfaces/qe/pw.py, the command-line driver: its arguments (lines
    27-67), the process layout (79-86) and the choice of the G-space (95-101).  Reading the
    input file (70-76) is QeInpModel.v / ParseInpModel.v, the call of scf (126-144) is the
    subject of other models.  Printing is not modelled.  mpi4py is installed. *)
From Coq Require Import Reals Ascii String.
From Verif Require Import Base QeInpModel SortModel GIndexModel CommModel CBase FFTModel DistModel.
Local Open Scope nat_scope.

(** [argstr in sys.argv] and [sys.argv.index(argstr)] (36-37). *)
Fixpoint index_of (a : text) (l : list text) : option nat :=
  match l with
  | [] => None
  | x :: r => if teqb x a then Some 0 else option_map S (index_of a r)
  end.

(** pw.py lines 34-41, [fetch_arg]. *)
Definition fetch_arg (argv : list text) (a : text) : option text :=
  match index_of a argv with
  | None => None
  | Some i => nth_error argv (i + 1)
  end.

(** pw.py lines 43-59, [fetch_arg_long_short_default]. *)
Definition fetch2 {A} (argv : list text) (longname shortname : text) (default : A)
  (cast : text -> res A) : res A :=
  match fetch_arg argv (T "-" ++ shortname) with
  | Some v => cast v
  | None =>
    match fetch_arg argv (T "-" ++ longname) with
    | Some v => cast v
    | None => Ok default
    end
  end.

Record pw_args := MkArgs { a_file : option text; a_npools : Z; a_ntg : Z; a_nband : Z }.

(** pw.py lines 27-67.  [sys.argv[0]] is the program. *)
Definition read_args (argv : list text) : res pw_args :=
  let filename := if 1 <? length argv then nth_error argv 1 else None in
  do f <- fetch2 argv (T "in") (T "in") filename (fun t => Ok (Some t));
  do npools <- fetch2 argv (T "npools") (T "nk") 1%Z py_int;
  do ntg <- fetch2 argv (T "ntg") (T "nt") 1%Z py_int;
  do nband <- fetch2 argv (T "nband") (T "nb") 1%Z py_int;
  Ok (MkArgs f npools ntg nband).

(** Python [a // b]. *)
Definition floordiv (a b : Z) : res Z := if (b =? 0)%Z then Err ZeroDivisionError else Ok (a / b)%Z.

(** pw.py line 79. *)
Definition pwgrp_size (size : Z) (a : pw_args) : res Z :=
  do x <- floordiv size (a_npools a); floordiv x (a_nband a).

(** pw.py lines 79-86 on process [r] of [size]. *)
Definition pw_layout (size : Z) (a : pw_args) (r : Z) : res dftcomm :=
  do pw <- pwgrp_size size a;
  dft_comm_mod size (Some (a_npools a)) pw r.

(** pw.py lines 95-101: the G-vectors process [r] works with.  [s] is the serial G-space;
    the distributed one is built over [comm_world]. *)
Definition pw_held (nx ny nz : nat) (s : gspace) (norm : bool) (size : Z) (c : dftcomm)
  (gx gyz : nat -> worker) (r : Z) : res (list vec3) :=
  if (n_pwgrp c =? size)%Z then Ok (gs_cryst s)
  else
    do o <- dist_init nx ny nz (map Z.to_nat (gs_idxgrid s)) norm (Z.to_nat size) (Z.to_nat r)
                      (gx (Z.to_nat r)) (gyz (Z.to_nat r));
    Ok (slice (d_ig o) (gs_cryst s)).
