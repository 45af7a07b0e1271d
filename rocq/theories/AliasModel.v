(** Model of /repo/src/qtm/containers/buffer.py with memory: lines 80-87 (constructor, no copy), 121-127
    (real, imag), 129-172 (empty, zeros), 174-195 (from_array, copy), 197-200 (conj), 216-240 (reshape), 242-253
    (__getitem__), 255-265 (__setitem__, in-place operations), 267-274 (len, iteration).  Memory is a
    sequence of float64 cells; an array is a shape and the cell of each element (a complex element takes
    that cell and the next), so NumPy views are arrays over the same cells.  Arrays come from the model of
    C26 with cells as entries.  GPU arrays, single precision and read-only flags are not modelled. *)
From Verif Require Import Base BufferModel.
From Coq Require Import Reals.
Import ListNotations.
Local Open Scope nat_scope.

Definition complex : Type := R * R.
Record mem := MkMem { cells : nat -> R; next : nat }.
(** A container: element type (complex or real) and data. *)
Record cont := MkCont { cplx : bool; buf : buffer nat }.
Definition cshape (b : cont) : list nat := shape (data (buf b)).
Definition cell_of (b : cont) (ix : list nat) : nat := at_ (data (buf b)) ix.
Definition width (c : bool) : nat := if c then 2 else 1.
Definition get (m : mem) (b : cont) (ix : list nat) : complex :=
  if cplx b then (cells m (cell_of b ix), cells m (S (cell_of b ix))) else (cells m (cell_of b ix), 0%R).

(** All multi-indices of a shape, in C order. *)
Definition indices (sh : list nat) : list (list nat) := map (unravel sh) (seq 0 (fold_right Nat.mul 1 sh)).
(** Storing an element; a real array drops the imaginary part. *)
Definition put (c : bool) (h : nat -> R) (a : nat) (z : complex) : nat -> R :=
  fun x => if x =? a then fst z else if c && (x =? S a) then snd z else h x.
(** [data[...] = v], the write done by [__setitem__] (265) and by in-place operators: element by element. *)
Definition assign (m : mem) (b : cont) (v : list nat -> complex) : mem :=
  MkMem (fold_left (fun h ix => put (cplx b) h (cell_of b ix) (v ix)) (indices (cshape b)) (cells m)) (next m).

(** 129-152, [empty]: a new C-ordered block (the constructor wraps it without copying). *)
Definition alloc (m : mem) (t : nat) (c : bool) (sh : list nat) : mem * cont :=
  (MkMem (cells m) (next m + width c * fold_right Nat.mul 1 sh),
   MkCont c (MkBuffer t (MkNd sh (fun ix => next m + width c * ravel sh ix)))).
(** The [shape] argument: None, an int, a sequence (144-147). *)
Inductive shape_arg := SNone | SInt (n : nat) | SSeq (l : list nat).
Definition lead (s : shape_arg) : list nat := match s with SNone => [] | SInt n => [n] | SSeq l => l end.

Section Classes.
  Variable basis_size : nat -> nat.
  Definition c_empty (m : mem) (t : nat) (c : bool) (s : shape_arg) : mem * cont := alloc m t c (lead s ++ [basis_size t]).
  (** 154-172 *)
  Definition c_zeros (m : mem) (t : nat) (c : bool) (s : shape_arg) : mem * cont :=
    let r := c_empty m t c s in (assign (fst r) (snd r) (fun _ => (0, 0)%R), snd r).
  (** A new block of the same shape filled with values computed from the old ones: [ndarray.copy("C")] and
      ufuncs. *)
  Definition fresh (m : mem) (b : cont) (f : complex -> complex) : mem * cont :=
    let r := alloc m (typ (buf b)) (cplx b) (cshape b) in (assign (fst r) (snd r) (fun ix => f (get m b ix)), snd r).
  (** 174-190: [from_array] copies the caller's array [a]. *)
  Definition c_from_array (m : mem) (t : nat) (c : bool) (a : nd nat) : res (mem * cont) :=
    do b <- from_array basis_size t a; Ok (fresh m (MkCont c b) (fun z => z)).
  (** 192-195 *)
  Definition c_copy (m : mem) (b : cont) : mem * cont := fresh m b (fun z => z).
  (** 197-200: [ndarray.conj()] returns the array itself when it is real. *)
  Definition c_conj (m : mem) (b : cont) : mem * cont :=
    if cplx b then fresh m b (fun z => (fst z, - snd z)%R) else (m, b).
  (** 121-127: [.real] is a view, or the array itself; [.imag] of a real array is a new array of zeros. *)
  Definition c_real (b : cont) : cont := MkCont false (buf b).
  Definition c_imag (m : mem) (b : cont) : mem * cont :=
    if cplx b then (m, MkCont false (MkBuffer (typ (buf b)) (MkNd (cshape b) (fun ix => S (cell_of b ix)))))
    else fresh m b (fun _ => (0, 0)%R).
  (** 242-253: basic indexing makes a view. *)
  Definition c_getitem (b : cont) (its : list item) : res cont :=
    do b' <- getitem (buf b) its; Ok (MkCont (cplx b) b').
  (** 267-270 *)
  Definition c_len (b : cont) : res nat :=
    match cshape b with [] => Err IndexError | [_] => Err TypeError | n :: _ => Ok n end.
  (** 272-274: one container after the other; the first [next] raises if there is no length. *)
  Definition c_iter (b : cont) : res (list cont) :=
    do n <- c_len b; sequence (map (fun i => c_getitem b [IInt (Z.of_nat i)]) (seq 0 n)).
  (** 216-240, for shapes without -1: a view of C-ordered data, otherwise a copy (NumPy also finds views of
      some data that is not C-ordered: not modelled). *)
  Definition c_order (b : cont) : bool :=
    forallb (fun ix => cell_of b ix =? cell_of b (repeat 0 (length (cshape b))) + width (cplx b) * ravel (cshape b) ix) (indices (cshape b)).
  Definition c_reshape (m : mem) (b : cont) (sh : list nat) : res (mem * cont) :=
    if c_order b then do b' <- reshape basis_size (buf b) sh; Ok (m, MkCont (cplx b) b')
    else let r := c_copy m b in do b' <- reshape basis_size (buf (snd r)) sh; Ok (fst r, MkCont (cplx b) b').
End Classes.
