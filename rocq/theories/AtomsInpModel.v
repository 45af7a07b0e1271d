(** Model of the constructors of /repo/src/qtm/crystal/basis_atoms.py (BasisAtoms), lines 86-131 and
    145-247: from_cart, from_cryst, from_alat, from_angstrom, from_bohr, over exact reals.  Positions are
    numbers or sequences of numbers; deeper nesting (which ends in arrays of three or more axes, refused
    with ValueError) is not modelled. *)
From Verif Require Import Base LatModel CrystalModel IbravModel.
Import ListNotations.
Local Open Scope nat_scope.

(** One positional argument. *)
Inductive pyarg := Num (x : R) | Pt (v : list R).
(** The transposed array: one axis, or shape (k, n) given by its n columns of length k. *)
Inductive arr := A1 (v : list R) | A2 (k : nat) (cols : list (list R)).
Definition as_num (a : pyarg) : option R := match a with Num x => Some x | Pt _ => None end.
Definition as_pt (k : nat) (a : pyarg) : option (list R) :=
  match a with Pt v => if length v =? k then Some v else None | Num _ => None end.
Fixpoint collect {A B} (f : A -> option B) (l : list A) : option (list B) :=
  match l with
  | [] => Some []
  | a :: l' => match f a, collect f l' with Some b, Some bs => Some (b :: bs) | _, _ => None end
  end.
(** [np.array(args, dtype="f8").T]: all numbers give one axis, sequences of one length k a (k, n) array,
    anything else is an inhomogeneous shape (ValueError). *)
Definition np_array_T (args : list pyarg) : res arr :=
  match args with
  | [] => Ok (A1 [])
  | Num _ :: _ => match collect as_num args with Some v => Ok (A1 v) | None => Err ValueError end
  | Pt v :: _ => match collect (as_pt (length v)) args with Some c => Ok (A2 (length v) c) | None => Err ValueError end
  end.
Definition arr_scale (s : R) (a : arr) : arr :=
  match a with A1 v => A1 (map (Rmult s) v) | A2 k c => A2 k (map (map (Rmult s)) c) end.
Definition of_rvec (v : rvec) : list R := [vx v; vy v; vz v].
Definition to_rvec (l : list R) : rvec := V (nth 0 l 0%R) (nth 1 l 0%R) (nth 2 l 0%R).
(** lattice.py 92-94, [cart2cryst]: the coordinate axis of length k is broadcast against the three rows of
    the inverse matrix, so k = 1 is repeated three times; other lengths than 1 and 3 are a ValueError. *)
Definition broadcast3 (k : nat) (l : list R) : rvec :=
  if k =? 1 then V (nth 0 l 0%R) (nth 0 l 0%R) (nth 0 l 0%R) else to_rvec l.
Definition arr_cart2cryst (L : lattice) (a : arr) : res arr :=
  match a with
  | A1 v => if (length v =? 1) || (length v =? 3) then Ok (A1 (of_rvec (cart2cryst L (broadcast3 (length v) v)))) else Err ValueError
  | A2 k c => if (k =? 1) || (k =? 3) then Ok (A2 3 (map (fun l => of_rvec (cart2cryst L (broadcast3 k l))) c)) else Err ValueError
  end.
(** basis_atoms.py 86-131, [__init__] with the shape tests: first the pseudopotential and the mass, then
    the array must have two axes, the first of length three. *)
Definition init_atoms (label : nat) (pp : ppdata) (m : mass_arg) (U : ulattice) (a : arr) : res species :=
  do _ <- mk_species label pp m U [];
  match a with
  | A1 _ => Err ValueError
  | A2 k c => if k =? 3 then mk_species label pp m U (map to_rvec c) else Err ValueError
  end.
(** 151-182 *)
Definition atoms_from_cart label pp m U (args : list pyarg) : res species :=
  do a <- np_array_T args; do c <- arr_cart2cryst (u_lat U) a; init_atoms label pp m U c.
(** 184-199 *)
Definition atoms_from_cryst label pp m U (args : list pyarg) : res species :=
  do a <- np_array_T args; init_atoms label pp m U a.
(** 201-217: the sequence of positions is one argument; lattice.py 428-448 multiplies by alat last. *)
Definition atoms_from_alat label pp m U (seq : list pyarg) : res species :=
  do a <- np_array_T seq; do c <- arr_cart2cryst (u_lat U) a; init_atoms label pp m U (arr_scale (u_unit U) c).
(** 219-235 *)
Definition atoms_from_angstrom label pp m U (args : list pyarg) : res species :=
  do a <- np_array_T args; do c <- arr_cart2cryst (u_lat U) (arr_scale ANGSTROM a); init_atoms label pp m U c.
(** 237-247 *)
Definition atoms_from_bohr label pp m U (args : list pyarg) : res species := atoms_from_cart label pp m U args.
(** 145-149 *)
Definition r_alat (sp : species) : list rvec := map (cryst2unit (sp_lat sp)) (sp_r sp).
