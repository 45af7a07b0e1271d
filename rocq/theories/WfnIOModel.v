(** Model of the wavefunction input code: /repo/src/qtm/dft/kswfn.py
    ([f8_to_c16_interleaved], [init_from_hdf5], [gcryst2int], [overlap]) and
    /repo/src/qtm/interfaces/bgw/h5_utils.py (complex <-> real conversions,
    [parse_wfns]).  HDF5 files are represented by the arrays they hold; numbers are exact. *)
From Coq Require Import Reals Lra.
From Verif Require Import Base CBase.
Open Scope R_scope.

Definition z3 := (Z * Z * Z)%type.
Definition z3eqb (a b : z3) : bool :=
  let '(a1, a2, a3) := a in let '(b1, b2, b3) := b in (a1 =? b1)%Z && (a2 =? b2)%Z && (a3 =? b3)%Z.

(** [l[::2]] and [l[1::2]] *)
Fixpoint evens {A} (l : list A) : list A :=
  match l with [] => [] | a :: t => match t with [] => [a] | _ :: t' => a :: evens t' end end.
Definition odds {A} (l : list A) : list A := match l with [] => [] | _ :: t => evens t end.

(** NumPy [real + 1j * imag] along one axis, with broadcasting of length 1. *)
Definition to_c (re im : R) : C := (re, im).
Definition zipc (re im : list R) : list C := map (fun p => to_c (fst p) (snd p)) (combine re im).
Definition add_1j (re im : list R) : res (list C) :=
  if (length re =? length im)%nat then Ok (zipc re im)
  else match re, im with
       | [r], _ => Ok (map (fun i => to_c r i) im)
       | _, [i] => Ok (map (fun r => to_c r i) re)
       | _, _ => Err ValueError
       end.
(** kswfn.py lines 35-39, [f8_to_c16_interleaved], on the last axis. *)
Definition f8_to_c16_interleaved (data : list R) : res (list C) := add_1j (evens data) (odds data).

(** h5_utils.py lines 27-31, [cplx_to_real]: the last axis of the result holds (re, im). *)
Definition cplx_to_real (arr : list C) : list (list R) := map (fun z => [fst z; snd z]) arr.
(** lines 34-38, [real_to_cplx]: entries 0 and 1 of the last axis (IndexError when short). *)
Definition real_to_cplx (arr : list (list R)) : res (list C) :=
  sequence (map (fun p => match p with r :: i :: _ => Ok (to_c r i) | _ => Err IndexError end) arr).
(** What [h5_to_arr] may return: the stored real array (trailing axis included) or
    complex numbers. *)
Inductive loaded : Type := RealArr (d : list (list R)) | CplxArr (d : list C).
(** lines 55-62, [arr_to_h5] with [cplx=True]: the dataset written. *)
Definition arr_to_h5 (arr : list C) : list (list R) := cplx_to_real arr.
(** lines 44-52, [h5_to_arr] on such a dataset: the conversion is skipped when [addr] is given. *)
Definition h5_to_arr (f : list (list R)) (cplx addr : bool) : res loaded :=
  if addr then Ok (RealArr f)
  else if cplx then rmap CplxArr (real_to_cplx f)
  else Ok (RealArr f).

(** lines 139-145, [parse_wfns]: [coeffs] has axes (band, spin, G, 2); [ngk] the number
    of plane waves of each k-point.  [np.split] at the running sums without the last. *)
Fixpoint split_at (sizes : list nat) {A} (l : list A) : list (list A) :=
  match sizes with
  | [] => [l]
  | n :: t => firstn n l :: split_at t (skipn n l)
  end.
Definition np_split {A} (ngk : list nat) (l : list A) : list (list A) := split_at (removelast ngk) l.
Definition swap_c (p : R * R) : C := to_c (snd p) (fst p).
Definition parse_wfns (coeffs : list (list (list (R * R)))) (gvecs : list z3) (ngk : list nat)
  : res (list (list (list C)) * list (list z3)) :=
  do rows <- sequence (map (fun band => match band with sp0 :: _ => Ok (map swap_c sp0) | [] => Err IndexError end) coeffs);
  (* axis=1: every band is split at the same places; result indexed [k][band] *)
  Ok (map (fun k => map (fun row => nth k (np_split ngk row) []) rows) (seq 0 (length (np_split ngk gvecs))),
      np_split ngk gvecs).

(** kswfn.py lines 212-244, [init_from_hdf5].  [G]: the vectors of the G+k space; [old]:
    the coefficients before the call, one list per band; [miller], [evc]: the datasets.
    [np.where] returns a 1-tuple, so the test of line 235 is always true and a missing
    vector is IndexError from [idx[0][0]]. *)
Definition set_nth {A} (k : nat) (x : A) (l : list A) : list A := firstn k l ++ x :: skipn (S k) l.
Fixpoint find_pos (p : z3) (G : list z3) : option nat :=
  match G with
  | [] => None
  | g :: t => if z3eqb g p then Some O else option_map S (find_pos p t)
  end.
(** [self.evc_gk.data[:, k] = col] *)
Definition set_col (k : nat) (col : list C) (rows : list (list C)) : res (list (list C)) :=
  if (length col =? length rows)%nat
  then Ok (map (fun p => set_nth k (fst p) (snd p)) (combine col rows))
  else match col with
       | [c] => Ok (map (set_nth k c) rows)
       | _ => Err ValueError
       end.
(** [evc[:, i]] *)
Definition get_col (i : nat) (rows : list (list C)) : res (list C) :=
  sequence (map (fun r => match nth_error r i with Some c => Ok c | None => Err IndexError end) rows).
Fixpoint scatter (G miller : list z3) (i : nat) (evc data : list (list C)) : res (list (list C)) :=
  match miller with
  | [] => Ok data
  | m :: t =>
      match find_pos m G with
      | None => Err IndexError
      | Some k => do col <- get_col i evc; do data' <- set_col k col data; scatter G t (S i) evc data'
      end
  end.
(** containers/wavefun.py lines 91-108, [normalize]; [None]: a row of nan (norm zero). *)
Definition norm2 (row : list C) : R := fold_right (fun z s => fst z * fst z + snd z * snd z + s) 0 row.
Definition normalize (row : list C) : option (list C) :=
  if Req_EM_T (norm2 row) 0 then None else Some (map (fun z => (z / RtoC (sqrt (norm2 row)))%C) row).
Definition nprod (sh : z3) : R := let '(a, b, c) := sh in IZR a * IZR b * IZR c.
Definition init_from_hdf5 (sh : z3) (G : list z3) (old : list (list C)) (miller : list z3)
    (evc : list (list R)) : res (list (option (list C))) :=
  do rows <- sequence (map f8_to_c16_interleaved evc);
  let rows := map (map (fun z => (z * RtoC (nprod sh))%C)) rows in
  if negb (length G =? length miller)%nat then Err ValueError else
  do data <- scatter G miller 0 rows old;
  Ok (map normalize data).

(** kswfn.py lines 201-210, [gcryst2int] for one vector. *)
Definition gcryst2int (sh : z3) (umklapp g : z3) : Z :=
  let '(n0, n1, n2) := sh in let '(u0, u1, u2) := umklapp in let '(x, y, z) := g in
  ((x + u0) mod n0 + ((y + u1) mod n1) * n0 + ((z + u2) mod n2) * n0 * n1)%Z.
(** A Python dict as an association list in insertion order. *)
Fixpoint dict_set {A} (k : Z) (v : A) (d : list (Z * A)) : list (Z * A) :=
  match d with
  | [] => [(k, v)]
  | (k', v') :: t => if (k' =? k)%Z then (k', v) :: t else (k', v') :: dict_set k v t
  end.
Fixpoint dict_get {A} (k : Z) (d : list (Z * A)) : option A :=
  match d with [] => None | (k', v) :: t => if (k' =? k)%Z then Some v else dict_get k t end.
(** A set of states at one k-point: grid, vectors, coefficient of band b at vector i. *)
Record states := { st_shape : z3; st_g : list z3; st_c : nat -> nat -> C }.
(** lines 173-181, [idxgrid_to_dict]: the value stored is the index i of the vector (the
    code stores the column [data[bands, i]]). *)
Definition idxgrid_to_dict (S_ : states) (umkl : z3) : list (Z * nat) :=
  fold_left (fun d p => dict_set (gcryst2int (st_shape S_) umkl (snd p)) (fst p) d)
    (combine (seq 0 (length (st_g S_))) (st_g S_)) [].
(** lines 159-191, [overlap] for lists of bands; entry (a, b) of the result. *)
Definition overlap (bra ket : states) (umklapp : z3) (a b : nat) : C :=
  let bd := idxgrid_to_dict bra (0, 0, 0)%Z in
  let kd := idxgrid_to_dict ket umklapp in
  fold_left (fun dot kv => match dict_get (fst kv) kd with
    | Some j => (dot + Cconj (st_c bra a (snd kv)) * st_c ket b j)%C
    | None => dot end) bd (RtoC 0).
