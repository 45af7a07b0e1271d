(** Model of /repo/src/qtm/mpi/containers.py (the containers over a distributed G-space and
    their collective NumPy protocol) and of the methods of containers/wavefun.py and
    containers/field.py that communicate when distributed.
    All ranks of the plane-wave group are modelled together: a collective call maps the list
    of per-rank arguments to the list of per-rank outcomes.  Arrays are those of BufferModel.v
    (value types and memory layout are not modelled, nor GPU arrays). *)
From Verif Require Import Base BufferModel CBase.
Open Scope nat_scope.

Section DistBuffer.
  Context {T : Type}.

  (** NumPy's [op.reduce] over the last [k] axes of one array ([axis=-1] is k = 1,
      [axis=None] all axes): the values at all trailing indices, in C order. *)
  Fixpoint indices (sh : list nat) : list (list nat) :=
    match sh with
    | [] => [[]]
    | n :: sh' => flat_map (fun i => map (cons i) (indices sh')) (seq 0 n)
    end.
  Definition raw_reduce_tail (k : nat) (f : T -> T -> T) (e : T) (xs : list (T + nd T)) : res (nd T) :=
    match xs with
    | [inr a] =>
        let n := length (shape a) in
        if n <? k then Err ValueError else
        Ok (MkNd (firstn (n - k) (shape a)) (fun js =>
              fold_right f e (map (fun ks => at_ a (js ++ ks)) (indices (skipn (n - k) (shape a))))))
    | _ => Err ValueError
    end.

  (** NumPy's [matmul] of two-dimensional arrays, with the given addition, zero and product. *)
  Definition raw_matmul (add mul : T -> T -> T) (zero : T) (xs : list (T + nd T)) : res (nd T) :=
    match xs with
    | [inr a; inr b] =>
        match shape a, shape b with
        | [m; n], [n'; k] =>
            if n =? n' then Ok (MkNd [m; k] (fun js => fold_right add zero
                 (map (fun j => mul (at_ a [nth 0 js 0; j]) (at_ b [j; nth 1 js 0])) (seq 0 n)))) else Err ValueError
        | _, _ => Err ValueError
        end
    | _ => Err ValueError
    end.

  (** The universal functions told apart by the table of MPI operations (containers.py 49-60)
      and by what happens to a user-defined operation.  The table's entry for products is keyed
      by the Python function np.prod, so np.multiply is not in it. *)
  Inductive uf : Type := UAdd (f : T -> T -> T) | UMaximum | UMinimum | UMatmul | UOther (f : T -> T -> T).
  (** How MPI combines the buffers of two ranks: the built-in MPI.SUM; MPI.MAX and MPI.MIN,
      not defined by the MPI standard for the complex arrays of containers; a user operation
      calling the ufunc on two flat arrays (74-80), which np.matmul cannot write to its
      one-dimensional output (an exception inside the operation, on which mpi4py aborts). *)
  Inductive mpi_op : Type := OpFun (f : T -> T -> T) | OpInvalid | OpBreaks.
  Definition op_of (u : uf) : mpi_op :=
    match u with
    | UAdd f => OpFun f
    | UMaximum | UMinimum => OpInvalid
    | UMatmul => OpBreaks
    | UOther f => OpFun f
    end.

  (** What one rank does: return at once, raise, or enter the collective reduction with an
      array. *)
  Inductive move : Type := Give (v : value (T := T)) | Raises (e : exn) | Enters (a : nd T).
  (** What becomes of it.  [Blocked]: the rank waits in an Allreduce that other ranks do not
      take part in.  [Aborts]: the MPI library raises or aborts (invalid operation, unequal
      counts). *)
  Inductive outcome : Type := Gives (v : value (T := T)) | Fails (e : exn) | Blocked | Aborts.

  (** MPI_Allreduce in place of equally long buffers, elementwise in rank order; every rank
      keeps the shape of its own array (88).  The reshaping of scalars to one-element arrays
      and back (84-89) leaves the shape unchanged. *)
  Definition size (a : nd T) : nat := fold_right Nat.mul 1 (shape a).
  Definition reduced (f : T -> T -> T) (parts : list (nd T)) (a : nd T) : nd T :=
    MkNd (shape a) (fun js =>
      let pos := ravel (shape a) js in
      match map (fun b => at_ b (unravel (shape b) pos)) parts with
      | [] => at_ a js
      | v :: vs => fold_left f vs v
      end).
  Definition entering (ms : list move) : list (nd T) :=
    flat_map (fun m => match m with Enters a => [a] | _ => [] end) ms.
  Definition allreduce (op : mpi_op) (ms : list move) : list outcome :=
    map (fun m =>
      match m with
      | Give v => Gives v
      | Raises e => Fails e
      | Enters a =>
          if length (entering ms) <? length ms then Blocked else
          match op with
          | OpInvalid => Aborts
          | OpBreaks => if length ms =? 1 then Gives (VArr a) else Aborts
          | OpFun f => if forallb (fun b => size b =? size a) (entering ms)
                       then Gives (VArr (reduced f (entering ms) a)) else Aborts
          end
      end) ms.

  (** Class attribute [basis_size] on each rank (gspace.py 104-117: the local number of
      G-vectors or grid points), and whether a class is a distributed one. *)
  Variable basis_size : nat -> nat -> nat.
  Variable is_dist : nat -> bool.

  (** containers.py 62-66 on rank [r], followed by NumPy's override protocol: the containers
      among the arguments are asked in order.  When BufferType.__array_ufunc__ (BufferModel.v)
      answers NotImplemented, a distributed class does not pass the answer on: it reads
      [out.shape] (85) of it, an AttributeError. *)
  Fixpoint ask_rank (r : nat) (cs : list (buffer T)) (sm : bool) (m : method)
      (raw : list (T + nd T) -> res (nd T)) (inputs : list (arg T)) : move :=
    match cs with
    | [] => Raises TypeError
    | c :: cs' =>
        match array_ufunc (basis_size r) (typ c) sm m raw inputs with
        | Reply (Err e) => Raises e
        | Reply (Ok (VArr a)) => if is_dist (typ c) then Enters a else Give (VArr a)
        | Reply (Ok (VBuf b)) => Give (VBuf b)
        | NotImplemented => if is_dist (typ c) then Raises AttributeError
                            else ask_rank r cs' sm m raw inputs
        end
    end.
  (** One ufunc call made by all ranks; [inputs] lists the arguments rank by rank. *)
  Definition dist_ufunc (u : uf) (sm : bool) (m : method) (raw : list (T + nd T) -> res (nd T))
      (inputs : list (list (arg T))) : list outcome :=
    allreduce (op_of u)
      (map (fun p => ask_rank (fst p) (containers (snd p)) sm m raw (snd p))
           (combine (seq 0 (length inputs)) inputs)).

  (** The same call with the keyword [out] (and the in-place operators). *)
  Fixpoint ask_rank_out (cs : list (buffer T)) (sm : bool) (m : method)
      (raw : list (T + nd T) -> nd T -> res (nd T)) (inputs : list (arg T)) (out : arg T) : move :=
    match cs with
    | [] => Raises TypeError
    | c :: cs' =>
        match array_ufunc_out (typ c) sm m raw inputs out with
        | Reply (Err e) => Raises e
        | Reply (Ok (VArr a)) => if is_dist (typ c) then Enters a else Give (VArr a)
        | Reply (Ok (VBuf b)) => Give (VBuf b)
        | NotImplemented => if is_dist (typ c) then Raises AttributeError
                            else ask_rank_out cs' sm m raw inputs out
        end
    end.
  Definition dist_ufunc_out (u : uf) (sm : bool) (m : method) (raw : list (T + nd T) -> nd T -> res (nd T))
      (inputs : list (list (arg T) * arg T)) : list outcome :=
    allreduce (op_of u)
      (map (fun p => ask_rank_out (containers (fst p ++ [snd p])) sm m raw (fst p) (snd p)) inputs).

  (** containers.py 152-155, [data_g0]: every rank reads entry 0 of its own last axis (an
      IndexError when it has none) and receives that of rank 0.  A rank that raised leaves the
      broadcast incomplete: its error is reported for all. *)
  Definition take0 (a : nd T) : res (nd T) :=
    match shape a with
    | [] => Err IndexError
    | _ => if last (shape a) 0 =? 0 then Err IndexError
           else Ok (MkNd (removelast (shape a)) (fun js => at_ a (js ++ [0])))
    end.
  Definition data_g0_serial (b : buffer T) : res (nd T) := take0 (data b).
  Definition data_g0_dist (bs : list (buffer T)) : res (list (nd T)) :=
    do l <- sequence (map (fun b => take0 (data b)) bs);
    match l with
    | [] => Ok []
    | a :: _ => Ok (map (fun _ => a) l)
    end.
End DistBuffer.
Arguments move T : clear implicits.
Arguments outcome T : clear implicits.
Arguments uf T : clear implicits.

(** wavefun.py 110-152, [vdot] on one process: type test, then [zgemm] of the flattened rows
    (BLAS: sum over the basis of conj(bra) * ket), reshaped to bra.shape + ket.shape.  The three
    reshape branches (147-152) agree because the empty shape contributes nothing.  The test on
    gkspc (131) cannot fail for equal classes. *)
Definition braket (n : nat) (bra ket : nd C) : nd C :=
  let s1 := removelast (shape bra) in let s2 := removelast (shape ket) in
  let m2 := fold_right Nat.mul 1 s2 in
  MkNd (s1 ++ s2) (fun js =>
    let p := ravel (s1 ++ s2) js in
    csum n (fun g => Cconj (at_ bra (unravel (shape bra) (p / m2 * n + g)))
                     * at_ ket (unravel (shape ket) (p mod m2 * n + g)))%C).
Definition vdot_local (basis_size : nat -> nat) (bra ket : buffer C) : res (nd C) :=
  if typ ket =? typ bra then Ok (braket (basis_size (typ bra)) (data bra) (data ket)) else Err TypeError.
(** containers.py 182-186, [vdot] of a distributed wavefunction: the same locally, then the sum
    over the ranks. *)
Definition vdot_move (basis_size : nat -> nat) (bra ket : buffer C) : move C :=
  match vdot_local basis_size bra ket with Err e => Raises e | Ok a => Enters a end.
Definition vdot_dist (basis_size : nat -> nat -> nat) (args : list (buffer C * buffer C)) : list (outcome C) :=
  allreduce (OpFun Cplus)
    (map (fun p => vdot_move (basis_size (fst p)) (fst (snd p)) (snd (snd p)))
         (combine (seq 0 (length args)) args)).

(** wavefun.py 91-100, [norm2]: conjugate product of every row with itself, summed over the
    ranks when the space is distributed. *)
Definition norm2_local (n : nat) (a : nd C) : nd C :=
  let s := removelast (shape a) in
  MkNd s (fun js => let i := ravel s js in
    csum n (fun g => Cconj (at_ a (unravel (shape a) (i * n + g))) * at_ a (unravel (shape a) (i * n + g)))%C).
Definition norm2_dist (basis_size : nat -> nat -> nat) (bs : list (buffer C)) : list (outcome C) :=
  allreduce (OpFun Cplus)
    (map (fun p => Enters (norm2_local (basis_size (fst p) (typ (snd p))) (data (snd p))))
         (combine (seq 0 (length bs)) bs)).

(** field.py 95-114, [integrate_unitcell()] without [other] and with the default axis, on all
    ranks: the ufunc protocol's sum, times the volume element [dv]. *)
Definition scale (dv : R) (v : value (T := C)) : value (T := C) :=
  match v with
  | VArr a => VArr (MkNd (shape a) (fun js => (at_ a js * RtoC dv)%C))
  | VBuf b => VBuf (MkBuffer (typ b) (MkNd (shape (data b)) (fun js => (at_ (data b) js * RtoC dv)%C)))
  end.
Definition integrate_dist (basis_size : nat -> nat -> nat) (is_dist : nat -> bool) (dv : R) (bs : list (buffer C))
  : list (outcome C) :=
  map (fun o => match o with Gives v => Gives (scale dv v) | _ => o end)
    (dist_ufunc basis_size is_dist (UAdd Cplus) true MReduce (raw_reduce_tail 1 Cplus (RtoC 0)) (map (fun b => [ABuf b]) bs)).
(** field.py 108-112 with [other] a bare array of the same local shape (shape (m, n) here, so
    that both sums exist): sums over the basis and over the axis before it of the local data,
    no communication. *)
Definition integrate_other (dv : R) (a : nd C) (other : nd C) : res (nd C) :=
  match shape a with
  | [m; n] => Ok (MkNd [] (fun _ =>
      (csum m (fun i => csum n (fun j => at_ a [i; j] * at_ other [i; j])) * RtoC dv)%C))
  | _ => Err ValueError
  end.
