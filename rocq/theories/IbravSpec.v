(** What the Quantum ESPRESSO manual says a value of [ibrav] means, written without
    reference to the code: a conventional cell (three lengths and three cosines) and
    a centring.  The lattice is the set of integer combinations of the conventional
    axes plus the centring translations. *)
From Coq Require Import Reals Lra.
From Verif Require Import Base LatModel.
Open Scope R_scope.

(** [x] is an integer combination of the columns of [P]. *)
Definition in_lattice (P : mat) (x : rvec) : Prop :=
  exists i j k : Z,
    x = vadd (vadd (vscale (IZR i) (c1 P)) (vscale (IZR j) (c2 P))) (vscale (IZR k) (c3 P)).

Inductive centring : Type := CP | CI | CF | CA | CB | CC.
(** Centring translations in halves of the conventional axes. *)
Definition translations (c : centring) : list (Z * Z * Z) :=
  match c with
  | CP => [(0, 0, 0)]
  | CI => [(0, 0, 0); (1, 1, 1)]
  | CF => [(0, 0, 0); (0, 1, 1); (1, 0, 1); (1, 1, 0)]
  | CA => [(0, 0, 0); (0, 1, 1)]
  | CB => [(0, 0, 0); (1, 0, 1)]
  | CC => [(0, 0, 0); (1, 1, 0)]
  end%Z.

(** A conventional cell by its shape: lengths of the axes and the cosines of the
    angles (B,C), (A,C), (A,B). *)
Record cell := Cell { la : R; lb : R; lc : R; cbc : R; cac : R; cab : R }.
Definition has_shape (s : cell) (A B C : rvec) : Prop :=
  vdot A A = la s * la s /\ vdot B B = lb s * lb s /\ vdot C C = lc s * lc s /\
  vdot B C = lb s * lc s * cbc s /\ vdot A C = la s * lc s * cac s /\
  vdot A B = la s * lb s * cab s.
(** Volume of a cell from its shape. *)
Definition shape_volume (s : cell) : R :=
  la s * lb s * lc s *
  sqrt (1 + 2 * cbc s * cac s * cab s - cbc s * cbc s - cac s * cac s - cab s * cab s).

(** [x] is a point of the centred lattice of the conventional axes A, B, C. *)
Definition in_centred (c : centring) (A B C x : rvec) : Prop :=
  exists t1 t2 t3 : Z, In (t1, t2, t3) (translations c) /\ exists n1 n2 n3 : Z,
    x = vadd (vadd (vscale (IZR n1 + IZR t1 / 2) A) (vscale (IZR n2 + IZR t2 / 2) B))
             (vscale (IZR n3 + IZR t3 / 2) C).

(** The columns of [P] are a right-handed primitive basis of the centred lattice of
    some conventional cell of shape [s]; the primitive cell's volume is the
    conventional one divided by the number of centring translations. *)
Definition primitive_basis (c : centring) (s : cell) (P : mat) : Prop :=
  exists A B C, has_shape s A B C /\ 0 < vdot A (vcross B C) /\
    (forall x, in_lattice P x <-> in_centred c A B C x) /\
    0 < mdet P /\ mdet P * INR (length (translations c)) = shape_volume s.

(** The manual's table: for each [ibrav], the cell parameters it uses and what they
    mean.  [p k] is celldm(k): p 1 = a (bohr), p 2 = b/a, p 3 = c/a; cosines in
    p 4 .. p 6 as documented per lattice. *)
Definition manual (ibrav : Z) (p : Z -> R) : option (centring * cell) :=
  let a := p 1%Z in let b := p 2%Z * a in let c := p 3%Z * a in
  match ibrav with
  | 1 => Some (CP, Cell a a a 0 0 0)                      (* cubic P *)
  | 2 => Some (CF, Cell a a a 0 0 0)                      (* cubic F *)
  | 3 | -3 => Some (CI, Cell a a a 0 0 0)                 (* cubic I *)
  | 4 => Some (CP, Cell a a c 0 0 (- / 2))                (* hexagonal P *)
  | 5 | -5 => Some (CP, Cell a a a (p 4) (p 4) (p 4))     (* trigonal R *)
  | 6 => Some (CP, Cell a a c 0 0 0)                      (* tetragonal P *)
  | 7 => Some (CI, Cell a a c 0 0 0)                      (* tetragonal I *)
  | 8 => Some (CP, Cell a b c 0 0 0)                      (* orthorhombic P *)
  | 9 | -9 => Some (CC, Cell a b c 0 0 0)                 (* orthorhombic C-centred *)
  | 91 => Some (CA, Cell a b c 0 0 0)                     (* orthorhombic A-centred *)
  | 10 => Some (CF, Cell a b c 0 0 0)                     (* orthorhombic F *)
  | 11 => Some (CI, Cell a b c 0 0 0)                     (* orthorhombic I *)
  | 12 => Some (CP, Cell a b c 0 0 (p 4))                 (* monoclinic P, unique axis c *)
  | -12 => Some (CP, Cell a b c 0 (p 5) 0)                (* monoclinic P, unique axis b *)
  | 13 => Some (CB, Cell a b c 0 0 (p 4))                 (* monoclinic B-centred, unique axis c *)
  | -13 => Some (CC, Cell a b c 0 (p 5) 0)                (* monoclinic C-centred, unique axis b *)
  | 14 => Some (CP, Cell a b c (p 4) (p 5) (p 6))         (* triclinic *)
  | _ => None
  end%Z.

(** The celldm entries a given [ibrav] needs besides celldm(1). *)
Definition needs (ibrav : Z) : list Z :=
  match ibrav with
  | 1 | 2 | 3 | -3 => []
  | 4 | 6 | 7 => [3]
  | 5 | -5 => [4]
  | 8 | 9 | -9 | 91 | 10 | 11 => [2; 3]
  | 12 | 13 => [2; 3; 4]
  | -12 | -13 => [2; 3; 5]
  | 14 => [2; 3; 4; 5; 6]
  | _ => []
  end%Z.

(** A cell exists: positive lengths and a positive Gram determinant with proper cosines. *)
Definition admissible (s : cell) : Prop :=
  0 < la s /\ 0 < lb s /\ 0 < lc s /\
  -1 < cbc s < 1 /\ -1 < cac s < 1 /\ -1 < cab s < 1 /\
  0 < 1 + 2 * cbc s * cac s * cab s - cbc s * cbc s - cac s * cac s - cab s * cab s.


(** The same table in the traditional constants A, B, C (angstrom) and cosines;
    [u] is one angstrom in bohr. *)
Definition manual_abc (ibrav : Z) (u A B C cosAB cosAC cosBC : R) : option (centring * cell) :=
  manual ibrav (fun k =>
    match k with
    | 1 => (A * u)%R
    | 2 => (B / A)%R
    | 3 => (C / A)%R
    | 4 => if (ibrav =? 14)%Z then cosBC else cosAB
    | 5 => cosAC
    | _ => cosAB
    end%Z).

(** One angstrom in bohr: the Bohr radius is 0.529177210903 angstrom (CODATA 2018). *)
Definition angstrom_in_bohr : R := / (529177210903 / 10 ^ 12).
