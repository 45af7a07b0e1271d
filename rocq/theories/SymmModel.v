(** Model of the crystal symmetry list and of density symmetrisation.
    Source: /repo/src/qtm/crystal/crystal.py lines 126-214 (class CrystalSymm) and
    /repo/src/qtm/symm/symmetrize_field.py (class SymmFieldMod).

    Simplifications.  Real numbers are exact.  spglib's get_symmetry is an input: the
    list of (rotation, translation) pairs it returns.  The inverse transpose of a
    rotation is taken in integers (cofactors times determinant), which equals
    [np.linalg.inv(rot.T)] whenever the determinant is 1 or -1, as spglib guarantees;
    [astype("i4")] then changes nothing.  Arrays over the G-vectors are functions of the
    position.  The distributed branch of [symmetrize] is in
    DistSymmModel.v. *)
From Verif Require Import Base SortModel LatModel GIndexModel GSphereModel CBase.
Open Scope Z_scope.

(* ---------------- integer 3x3 matrices (tuple of rows) ---------------- *)
Definition imat : Type := (vec3 * vec3 * vec3)%type.
Definition idot (a b : vec3) : Z :=
  let '(a1, a2, a3) := a in let '(b1, b2, b3) := b in a1 * b1 + a2 * b2 + a3 * b3.
Definition icross (a b : vec3) : vec3 :=
  let '(a1, a2, a3) := a in let '(b1, b2, b3) := b in
  (a2 * b3 - a3 * b2, a3 * b1 - a1 * b3, a1 * b2 - a2 * b1).
Definition iscale (k : Z) (a : vec3) : vec3 := let '(a1, a2, a3) := a in (k * a1, k * a2, k * a3).
(** [W @ g] *)
Definition imv (W : imat) (g : vec3) : vec3 :=
  let '(r1, r2, r3) := W in (idot r1 g, idot r2 g, idot r3 g).
Definition idet (W : imat) : Z := let '(r1, r2, r3) := W in idot r1 (icross r2 r3).
Definition iid : imat := ((1, 0, 0), (0, 1, 0), (0, 0, 1)).
(** crystal.py 166-168: [np.linalg.inv(W.T)], for a determinant of 1 or -1. *)
Definition recip (W : imat) : imat :=
  let '(r1, r2, r3) := W in let d := idet W in
  (iscale d (icross r2 r3), iscale d (icross r3 r1), iscale d (icross r1 r2)).
(** [W @ x] and [g . x] for a real vector x. *)
Definition zrdot (g : vec3) (x : rvec) : R :=
  let '(a, b, c) := g in (IZR a * vx x + IZR b * vy x + IZR c * vz x)%R.
Definition imr (W : imat) (x : rvec) : rvec :=
  let '(r1, r2, r3) := W in V (zrdot r1 x) (zrdot r2 x) (zrdot r3 x).

Definition vec3_eqb (a b : vec3) : bool :=
  let '(a1, a2, a3) := a in let '(b1, b2, b3) := b in (a1 =? b1) && (a2 =? b2) && (a3 =? b3).
Definition imat_eqb (A B : imat) : bool :=
  let '(a1, a2, a3) := A in let '(b1, b2, b3) := B in vec3_eqb a1 b1 && vec3_eqb a2 b2 && vec3_eqb a3 b3.

(* ---------------- CrystalSymm ---------------- *)
(** crystal.py 171-186: one element of the structured array [symm]. *)
Record symop := MkOp { reallat_rot : imat; reallat_trans : rvec; recilat_rot : imat }.

(** crystal.py 129: the class attribute [symprec]. *)
Definition symprec : R := (1 / 100000)%R.
(** [np.linalg.norm(x) <= symprec] *)
Definition tiny (x : rvec) : bool := rleb (vnorm x) symprec.

(** crystal.py 133-187, [CrystalSymm.__init__], from the list returned by spglib.  With
    several pure translations (a supercell) only the operations without translation are
    kept (check_supercell is True).  The branch for a missing spglib result is not
    reachable (the entry "equivalent_atoms" of None is deleted before the test for None). *)
Definition crystal_symm (dataset : list (imat * rvec)) : list symop :=
  let n_identity := length (filter (fun p => imat_eqb (fst p) iid) dataset) in
  let kept := if Nat.eqb n_identity 1 then dataset else filter (fun p => tiny (snd p)) dataset in
  map (fun p => MkOp (fst p) (snd p) (recip (fst p))) kept.

(** crystal.py 206-214, [filter_frac_trans] (use_all_frac is False): it replaces the
    crystal's list. *)
Definition on_grid (sh : shape3) (t : rvec) : bool :=
  let '(n1, n2, n3) := sh in
  let fx := (vx t * IZR n1)%R in let fy := (vy t * IZR n2)%R in let fz := (vz t * IZR n3)%R in
  tiny (V (fx - IZR (rint fx)) (fy - IZR (rint fy)) (fz - IZR (rint fz))).
Definition filter_frac_trans (sh : shape3) (ops : list symop) : list symop :=
  filter (fun o => on_grid sh (reallat_trans o)) ops.

(* ---------------- NumPy helpers on integer keys ---------------- *)
(** Position of the first entry equal to [v]. *)
Fixpoint index_of (v : Z) (l : list Z) : nat :=
  match l with
  | [] => 0
  | x :: t => if x =? v then 0 else S (index_of v t)
  end.
Fixpoint zdrop_adjacent (l : list Z) : list Z :=
  match l with
  | [] => []
  | x :: t => match t with
              | [] => [x]
              | y :: _ => if x =? y then zdrop_adjacent t else x :: zdrop_adjacent t
              end
  end.
(** [np.unique(l)] and the second result of [np.unique(l, return_index=True)]. *)
Definition zunique (l : list Z) : list Z := zdrop_adjacent (isort Z.leb l).
Definition unique_index (l : list Z) : list nat := map (fun v => index_of v l) (zunique l).
(** [np.searchsorted(a, v)] *)
Definition zsearchsorted (a : list Z) (v : Z) : nat := length (filter (fun x => x <? v) a).
(** [np.split(l, at)[1:]] for increasing positions: the pieces starting at each position. *)
Fixpoint split_at {A} (l : list A) (at_ : list nat) : list (list A) :=
  match at_ with
  | [] => []
  | i :: t => match t with
              | [] => [skipn i l]
              | j :: _ => firstn (j - i) (skipn i l) :: split_at l t
              end
  end.
(** [np.amin] of a non-empty list; the default is never used on one. *)
Definition zamin (l : list Z) : Z := match l with [] => 0 | x :: t => fold_left Z.min t x end.

(* ---------------- SymmFieldMod ---------------- *)
(** The columns of [shells_ig] / [shells_phase]: for each operation, the position of the
    rotated vector and its phase. *)
Definition column : Type := list (nat * C).

Section SymmField.
  (** [gs]: the G-space (its grid shape and g_cryst); [ops]: crystal.symm after the
      filter; [nkey g]: np.around(g_norm2, 6) of a vector, as an integer number of
      millionths (it is only compared). *)
  Variables (sh : shape3) (g_cryst : list vec3) (ops : list symop) (nkey : vec3 -> Z).

  Definition gat (i : nat) : vec3 := nth i g_cryst (0, 0, 0).

  (** symmetrize_field.py 50-57: lexsort keys, primary first. *)
  Definition lex4_leb (a b : Z * vec3) : bool :=
    (fst a <? fst b) || ((fst a =? fst b) && lex_leb (snd a) (snd b)).
  Definition shell_key (g : vec3) : Z * vec3 :=
    let '(n1, n2, n3) := sh in let '(i1, i2, i3) := g in
    (nkey g, (i1 + n1 * b2z (i1 <? 0), i2 + n2 * b2z (i2 <? 0), i3 + n3 * b2z (i3 <? 0))).
  Definition shell_sort : list nat := argsort lex4_leb (map shell_key g_cryst).

  (** symmetrize_field.py 60, 66: the shells. *)
  Definition shells : list (list nat) :=
    split_at shell_sort (unique_index (map (fun i => nkey (gat i)) shell_sort)).

  (** symmetrize_field.py 68-77: rotated vectors of one shell and their grid indices. *)
  Definition rot_idx (o : symop) (i : nat) : Z := gidx sh (imv (recilat_rot o) (gat i)).
  (** symmetrize_field.py 90: the columns kept, one per orbit. *)
  Definition idx_red (ig : list nat) : list nat :=
    unique_index (map (fun i => zamin (map (fun o => rot_idx o i) ops)) ig).

  (** symmetrize_field.py 92-103 for the column of [ig[c]]: position of each rotated
      vector (IndexError when the search runs past the shell) and its phase. *)
  Definition shell_entry (ig : list nat) (i : nat) (o : symop) : res (nat * C) :=
    let id_row := match ops with [] => [] | o0 :: _ => map (rot_idx o0) ig end in
    let p := zsearchsorted id_row (rot_idx o i) in
    match nth_error ig p with
    | None => Err IndexError
    | Some j => Ok (j, cis (2 * PI * zrdot (imv (recilat_rot o) (gat i)) (reallat_trans o)))
    end.
  Definition shell_column (ig : list nat) (c : nat) : res column :=
    sequence (map (shell_entry ig (nth c ig 0%nat)) ops).
  (** symmetrize_field.py 62-107: all columns of all shells. *)
  Definition columns : res (list column) :=
    do cols <- sequence (map (fun ig => sequence (map (shell_column ig) (idx_red ig))) shells);
    Ok (concat cols).

  (** [a[idx] = vals], later entries win. *)
  Definition fassign (a : nat -> C) (l : list (nat * C)) : nat -> C :=
    fold_left (fun b p => fun i => if Nat.eqb i (fst p) then snd p else b i) l a.
  (** [a[idx] += vals]: repeated positions are added only once. *)
  Definition fadd (a : nat -> C) (l : list (nat * C)) : nat -> C :=
    fassign a (map (fun p => (fst p, (a (fst p) + snd p)%C)) l).

  (** Row [s] of the two arrays (one operation, all columns). *)
  Definition row (cols : list column) (s : nat) : list (nat * C) :=
    map (fun c => nth s c (0%nat, RtoC 0)) cols.

  (** symmetrize_field.py 109-114: [g_phaseconj]. *)
  Definition g_phase (cols : list column) : nat -> C :=
    fold_left (fun a s => fadd a (row cols s)) (seq 0 (length ops)) (fun _ => RtoC 0).
  Definition g_count (cols : list column) : nat -> C :=
    fold_left (fun a s => fadd a (map (fun p => (fst p, RtoC 1)) (row cols s)))
              (seq 0 (length ops)) (fun _ => RtoC 0).
  Definition g_phaseconj (cols : list column) (i : nat) : C :=
    (Cconj (g_phase cols i) / g_count cols i)%C.

  (** symmetrize_field.py 117-119: the mean over the operations, one value per column. *)
  Definition col_mean (arr : nat -> C) (c : column) : C :=
    (fold_right Cplus (RtoC 0) (map (fun p => (arr (fst p) * snd p)%C) c) / RtoC (INR (length ops)))%C.
  (** symmetrize_field.py 116-122, [_symmetrize]; [junk] is the content of np.empty_like. *)
  Definition symmetrize_arr (cols : list column) (junk arr : nat -> C) : nat -> C :=
    let out := fassign junk
      (flat_map (fun s => map (fun c => (fst (nth s c (0%nat, RtoC 0)), col_mean arr c)) cols)
                (seq 0 (length ops))) in
    fun i => (out i * g_phaseconj cols i)%C.
End SymmField.

(** The crystal's operation list is a mutable attribute: constructing a SymmFieldMod
    replaces it (symmetrize_field.py 41-42).  The result is the module's data and the new
    list.  [nkey] is computed from the G-space (38). *)
Record symmod := MkSymMod { sm_ops : list symop; sm_g : list vec3; sm_cols : list column }.
Definition symmod_new (ops : list symop) (S : gsphere) : res (symmod * list symop) :=
  let sh := gs_shape (sp_base S) in
  let g := gs_cryst (sp_base S) in
  let ops' := filter_frac_trans sh ops in
  let nkey v := round_key (g_norm2 (u_lat (sp_lat S)) (gvec v)) in
  do cols <- columns sh g ops' nkey;
  Ok (MkSymMod ops' g cols, ops').
(** symmetrize_field.py 124-150, [symmetrize] of one field on the module's G-space. *)
Definition symmetrize (M : symmod) (junk rho : nat -> C) : nat -> C :=
  symmetrize_arr (sm_ops M) (sm_cols M) junk rho.
