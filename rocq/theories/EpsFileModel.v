(** Model of the dielectric-matrix files and of the generic HDF5 helpers:
    /repo/src/qtm/interfaces/bgw/epsmat_read_write.py lines 100-188,
    /repo/src/qtm/interfaces/bgw/h5_utils.py lines 27-38, 75-84 and 111-120, and
    /repo/src/qtm/gw/epsilon.py lines 424-450, over exact complex numbers. *)
From Coq Require Import String.
From Verif Require Import Base CBase.
Open Scope R_scope.

(** A two-dimensional array: shape and entries (read only inside the shape). *)
Record mat := MkMat { m_rows : nat; m_cols : nat; m_at : nat -> nat -> C }.

(** np.allclose(x, 0) on one entry: |x| <= atol + rtol * 0, atol = 1e-8. *)
Definition negligible (x : C) : bool := if Rle_dec (Cmod x) (/ 10 ^ 8) then true else false.

(** [np.allclose(arr[i, :], 0)] and [np.allclose(arr[:, j], 0)]. *)
Definition row_negligible (m : mat) (i : nat) : bool := forallb (fun j => negligible (m_at m i j)) (seq 0 (m_cols m)).
Definition col_negligible (m : mat) (j : nat) : bool := forallb (fun i => negligible (m_at m i j)) (seq 0 (m_rows m)).

(** epsmat_read_write.py 101-106: drop trailing negligible rows.  [n] counts down from
    shape[-2]; the entries of the remaining rows do not change. *)
Fixpoint drop_rows (n : nat) (m : mat) : mat :=
  match n with
  | O => m
  | S i => if row_negligible m i then drop_rows i (MkMat i (m_cols m) (m_at m)) else m
  end.
(** 108-113: drop trailing negligible columns (of the rows that are left). *)
Fixpoint drop_cols (n : nat) (m : mat) : mat :=
  match n with
  | O => m
  | S j => if col_negligible m j then drop_cols j (MkMat (m_rows m) j (m_at m)) else m
  end.
(** 100-119, [unpad_array]: finally the leading square block. *)
Definition unpad_array (m : mat) : mat :=
  let m := drop_rows (m_rows m) m in
  let m := drop_cols (m_cols m) m in
  let d := Nat.min (m_rows m) (m_cols m) in
  MkMat d d (m_at m).

(** The dataset mats/matrix: one (dim, dim) block of (re, im) pairs per matrix. *)
Record dataset := MkDataset { ds_dim : nat; ds_blocks : list (nat -> nat -> R * R) }.

(** np.pad(mat, ((0, dim - rows), (0, dim - cols)), constant 0). *)
Definition pad (m : mat) (i j : nat) : C :=
  if (Nat.ltb i (m_rows m) && Nat.ltb j (m_cols m))%bool then m_at m i j else RtoC 0.

(** 122-171, [write_mats]: the common size is the largest extent of all matrices (Python's
    [max] of an empty list raises ValueError), all are padded to it and stored as (re, im)
    pairs (h5_utils.py 27-31).  The header template and the optional copy of mf_header do not
    touch this dataset. *)
Definition write_mats (mats : list mat) : res dataset :=
  match mats with
  | [] => Err ValueError
  | _ =>
      let dim := fold_right Nat.max 0%nat (map (fun m => Nat.max (m_rows m) (m_cols m)) mats) in
      Ok (MkDataset dim (map (fun m i j => (fst (pad m i j), snd (pad m i j))) mats))
  end.

(** 174-188, [read_mats]: pairs to complex numbers (h5_utils.py 34-38), conjugation, then
    [unpad_array] matrix by matrix. *)
Definition read_mats (f : dataset) : list mat :=
  map (fun b => unpad_array (MkMat (ds_dim f) (ds_dim f) (fun i j => Cconj (fst (b i j), snd (b i j))))) (ds_blocks f).

(** gw/epsilon.py 424-436, [Epsilon.write_epsmat]: nothing is written for an empty list
    ([None]: the file is left as it was). *)
Definition write_epsmat (epsinvmats : list mat) : res (option dataset) :=
  if Nat.ltb 0 (length epsinvmats) then do d <- write_mats epsinvmats; Ok (Some d) else Ok None.

(* ------------------------------------------------------------------ *)

(** Nested dictionaries of arrays, and HDF5 groups: both are trees; [A] is the type of a
    dataset's contents.  Keys are names without '/' (h5py would create intermediate groups). *)
Inductive tree (A : Type) : Type :=
| Leaf (a : A)
| Node (children : list (string * tree A)).
Arguments Leaf {A}. Arguments Node {A}.

(** A group lists its members in alphabetical order (h5py's default). *)
Fixpoint insert_member {A} (k : string) (v : tree A) (l : list (string * tree A)) : list (string * tree A) :=
  match l with
  | [] => [(k, v)]
  | (k', v') :: l' => if String.ltb k k' then (k, v) :: l else (k', v') :: insert_member k v l'
  end.

(** [create_group] / [create_dataset]: an existing name raises ValueError. *)
Definition create {A} (k : string) (v : tree A) (l : list (string * tree A)) : res (list (string * tree A)) :=
  if existsb (fun p => String.eqb (fst p) k) l then Err ValueError else Ok (insert_member k v l).

(** h5_utils.py 75-84, [write_recursive_h5] with the default sourcetype=dict on a dict: the
    members of the group written, in the order of the dict's items.  (create_group, then the
    recursive call fills the new group.) *)
Fixpoint write_dict {A} (d : tree A) : res (tree A) :=
  match d with
  | Leaf a => Ok (Leaf a)
  | Node l =>
      do members <- (fix go (l : list (string * tree A)) (acc : list (string * tree A)) {struct l} :=
         match l with
         | [] => Ok acc
         | (k, v) :: l' =>
             do _ <- (if existsb (fun p => String.eqb (fst p) k) acc then Err ValueError else Ok tt);
             do v' <- write_dict v;
             do acc' <- create k v' acc;
             go l' acc'
         end) l [];
      Ok (Node members)
  end.

(** h5_utils.py 111-120, [retrieve_dict]: groups to dicts, datasets to arrays, in the order of
    [source.keys()]. *)
Fixpoint retrieve_dict {A} (g : tree A) : tree A :=
  match g with
  | Leaf a => Leaf a
  | Node l => Node ((fix go (l : list (string * tree A)) :=
                match l with [] => [] | (k, v) :: l' => (k, retrieve_dict v) :: go l' end) l)
  end.

(** h5_utils.py 75-84 as called from epsmat_read_write.py 132-136 with
    sourcetype=h5py.Group on a group: subgroups of the top level are recognised, but the
    recursive call forgets the argument, so that a group inside them is passed to
    [create_dataset], which raises TypeError. *)
Definition copy_dataset {A} (v : tree A) : res (tree A) :=
  match v with Leaf a => Ok (Leaf a) | Node _ => Err TypeError end.
Definition copy_subgroup {A} (l : list (string * tree A)) : res (list (string * tree A)) :=
  sequence (map (fun p => do v <- copy_dataset (snd p); Ok (fst p, v)) l).
Definition copy_header {A} (l : list (string * tree A)) : res (list (string * tree A)) :=
  sequence (map (fun p => match snd p with
                          | Leaf a => Ok (fst p, Leaf a)
                          | Node sub => do s <- copy_subgroup sub; Ok (fst p, Node s)
                          end) l).
