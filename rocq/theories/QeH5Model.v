(** Model of /repo/src/qtm/interfaces/qe/h5_io.py: [read_chargeden] (lines 8-50),
    [read_wfc] (lines 90-137), the exchange of charge
    densities and wavefunctions with Quantum ESPRESSO through HDF5 files.  [write_chargeden]
    (lines 53-87) is not modelled: it asks the field for an attribute grho that FieldGType does
    not have, and line 71 gives create_dataset its type twice (TypeError).
    The arguments are objects found by attribute name only (Python does not check their
    classes), so they are records of the attributes the code reads; an attribute the class may
    lack is an option.  Numbers are exact.  A missing file is [RuntimeError] here (the code
    raises FileNotFoundError, which the common exception type does not have). *)
From Coq Require Import Reals String Decimal DecimalString DecimalNat.
From Verif Require Import Base LatModel CheckModel SortModel WfnIOModel WfnPyModel CBase.
Open Scope R_scope.

(** An HDF5 file of one k-point (and spin): attributes bg1..bg3 of MillerIndices (indexed
    0..2 here), xk, igwx, and the data sets MillerIndices and evc (one row of interleaved real
    and imaginary parts for each band). *)
Record wfc_file := MkWfc {
  w_bg : nat -> rvec;  w_xk : rvec;  w_igwx : nat;
  w_miller : list z3;  w_evc : list (list R)
}.

(** What [read_wfc] reads from its argument [wfc]: gspc.recispc.axes_cart, gspc.cryst (one
    vector for each plane wave), kpts.numk, kpts.cart.T, kpts.l_idxk, numspin, gwfc.l_numg_k,
    gwfc.l_idxg and the band positions the slice idx selects. *)
Record wfc_args := MkWfcArgs {
  a_axes : nat -> rvec;  a_cryst : list z3;
  a_numk : nat;  a_kcart : nat -> rvec;  a_idxk : nat -> nat;  a_numspin : nat;
  a_numg : nat -> nat;  a_idxg : nat -> list nat;  a_bands : list nat
}.

(** np.allclose on arrays of three numbers. *)
Definition vclose (a b : rvec) : bool :=
  closeb (vx a) (vx b) && closeb (vy a) (vy b) && closeb (vz a) (vz b).
(** lines 13-19 and 112-118. *)
Definition bg_ok (bg axes : nat -> rvec) : bool := forallb (fun i => vclose (bg i) (axes i)) (seq 0 3).

(** [row.view("c16")]: consecutive pairs; an odd number of floats raises ValueError. *)
Fixpoint view_c16 (row : list R) : res (list (R * R)) :=
  match row with
  | [] => Ok []
  | [_] => Err ValueError
  | a :: b :: t => do r <- view_c16 t; Ok ((a, b) :: r)
  end.
Fixpoint mapR {A B} (f : A -> res B) (l : list A) : res (list B) :=
  match l with [] => Ok [] | x :: t => do y <- f x; do r <- mapR f t; Ok (y :: r) end.
(** [row[idx]]; a position beyond the end raises IndexError. *)
Definition pick {A} (l : list A) (i : nat) : res A :=
  match nth_error l i with Some x => Ok x | None => Err IndexError end.

Definition mat := list (list (R * R)).

(** Lines 103-109: the file name.  The test in line 107 is for numspin, not for the spin. *)
Definition file_name (numspin idxk : nat) : string :=
  let n := NilZero.string_of_uint (Nat.to_uint (S idxk)) in
  (if Nat.eqb numspin 1 then String.append "wfc" (String.append n ".hdf5")
   else String.append "wfc" (String.append (if Nat.eqb numspin 0 then "up" else "dw")
                                            (String.append n ".hdf5")))%string.

(** Lines 110-137, one file; [old] is the matrix l_evc_gk[ik][isp] that is overwritten.  A
    value of another shape raises ValueError (NumPy would repeat a value with a single row or
    column; with the number of plane waves checked this needs a one-band or one-wave value). *)
Definition load_one (A : wfc_args) (ik : nat) (f : wfc_file) (old : mat) : res mat :=
  if negb (bg_ok (w_bg f) (a_axes A)) then Err ValueError else
  if negb (vclose (w_xk f) (a_kcart A ik)) then Err ValueError else
  if negb (Nat.eqb (a_numg A ik) (w_igwx f)) then Err ValueError else
  let idxsort := lexsort (w_miller f) in
  do same <- rows_close (take z0 (w_miller f) idxsort) (take z0 (a_cryst A) (a_idxg A ik));
  if negb same then Err ValueError else
  do evc <- mapR view_c16 (w_evc f);
  do rows <- mapR (pick evc) (a_bands A);
  do value <- mapR (fun row => mapR (pick row) idxsort) rows;
  if (Nat.eqb (length old) (length value)
      && forallb (fun p => Nat.eqb (length (fst p)) (length (snd p))) (combine old value))%bool
  then Ok value else Err ValueError.

(** l_evc_gk as a function of k-point and spin. *)
Definition store := nat -> nat -> mat.
Definition upd (s : store) (ik isp : nat) (m : mat) : store :=
  fun i j => if (Nat.eqb i ik && Nat.eqb j isp)%bool then m else s i j.

(** Lines 99-137: k-points outside, spins inside.  The store after an exception is kept. *)
Fixpoint load_all (A : wfc_args) (fs : string -> option wfc_file) (todo : list (nat * nat)) (s : store)
  : store * res unit :=
  match todo with
  | [] => (s, Ok tt)
  | (ik, isp) :: t =>
      match fs (file_name (a_numspin A) (a_idxk A ik)) with
      | None => (s, Err RuntimeError)
      | Some f =>
          match load_one A ik f (s ik isp) with
          | Ok m => load_all A fs t (upd s ik isp m)
          | Err e => (s, Err e)
          end
      end
  end.
Definition read_wfc (A : wfc_args) (fs : string -> option wfc_file) (s : store) : store * res unit :=
  load_all A fs (flat_map (fun ik => map (fun isp => (ik, isp)) (seq 0 (a_numspin A))) (seq 0 (a_numk A))) s.

(** A charge-density file: bg, the attributes ngm and nspin (None: absent), MillerIndices, and
    whether the data sets rhotot_g and rhodiff_f exist. *)
Record cd_file := MkCd {
  c_bg : nat -> rvec;  c_ngm : option nat;  c_nspin : option nat;  c_miller : list z3;
  c_has_rhotot_g : bool;  c_has_rhodiff_f : bool
}.
(** The field given: the axes and vectors of its G-space, and whether it has a method
    update_rho. *)
Record cd_field := MkField { d_axes : nat -> rvec;  d_cryst : list z3;  d_has_update_rho : bool }.

(** Lines 8-50.  [miller_indices.T] has three rows and is indexed with one position for each
    plane wave.  For three plane waves or fewer the comparison of line 32 is the argument
    [cmp] (not modelled further); the values handed to update_rho are not modelled. *)
Definition read_chargeden (cmp : res bool) (r : cd_field) (f : cd_file) : res unit :=
  if negb (bg_ok (c_bg f) (d_axes r)) then Err ValueError else
  match c_ngm f with
  | None => Err KeyError
  | Some n =>
    (* the message of line 24 looks up a data set named ngm *)
    if negb (Nat.eqb n (length (d_cryst r))) then Err KeyError else
    let idxsort := lexsort (c_miller f) in
    do _ <- mapR (pick (seq 0 3)) idxsort;
    do same <- cmp;
    if negb same then Err ValueError else
    match c_nspin f with
    | None => Err KeyError
    | Some ns =>
      if negb (c_has_rhotot_g f) then Err KeyError else
      if (Nat.eqb ns 2 && negb (c_has_rhodiff_f f))%bool then Err KeyError else
      if negb (d_has_update_rho r) then Err AttributeError else Ok tt
    end
  end.
