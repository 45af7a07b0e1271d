(** Model of /repo/src/qtm/containers/buffer.py: the container class wrapping an
    array whose last axis is the basis, and its NumPy protocol.  Arrays are a shape
    and a function from multi-indices to values; value types and memory layout are
    not modelled, nor GPU arrays.  Container classes (created once per G-space by the
    cached functions get_FieldG, get_FieldR, get_WavefunG, get_WavefunR, which never
    subclass one another) are identified by a number. *)
From Verif Require Import Base.
Open Scope nat_scope.

Section Buffer.
  Context {T : Type}.

  Record nd := MkNd { shape : list nat; at_ : list nat -> T }.

  (** Indexing items: an integer (possibly negative), a slice with positive step,
      numpy.newaxis, Ellipsis. *)
  Inductive item : Type :=
  | IInt (i : Z) | ISlice (start stop : option Z) (step : nat) | INew | IEll.
  Definition full_slice : item := ISlice None None 1.

  (** Python's [slice.indices(n)] bounds for a positive step. *)
  Definition clamp (n : nat) (z : Z) : nat :=
    if (z <? 0)%Z then Z.to_nat (z + Z.of_nat n) else Nat.min n (Z.to_nat z).
  Definition slice_start (n : nat) (o : option Z) : nat := match o with Some z => clamp n z | None => 0 end.
  Definition slice_stop (n : nat) (o : option Z) : nat := match o with Some z => clamp n z | None => n end.
  Definition slice_len (a b step : nat) : nat := (b - a + (step - 1)) / step.

  (** NumPy basic indexing once Ellipsis is expanded: resulting shape and the map
      from result indices to source indices. *)
  Fixpoint index (sh : list nat) (its : list item) : res (list nat * (list nat -> list nat)) :=
    match its, sh with
    | [], [] => Ok ([], fun _ => [])
    | INew :: its', _ =>
        do r <- index sh its'; Ok (1 :: fst r, fun js => snd r (tl js))
    | IInt i :: its', n :: sh' =>
        if ((- Z.of_nat n <=? i) && (i <? Z.of_nat n))%Z then
          do r <- index sh' its';
          Ok (fst r, fun js => Z.to_nat (if (i <? 0)%Z then i + Z.of_nat n else i) :: snd r js)
        else Err IndexError
    | ISlice a b st :: its', n :: sh' =>
        let a' := slice_start n a in let b' := slice_stop n b in
        do r <- index sh' its';
        Ok (slice_len a' b' st :: fst r, fun js => (a' + st * hd 0 js) :: snd r (tl js))
    | _, _ => Err IndexError
    end.

  Definition consumes (it : item) : nat := match it with IInt _ | ISlice _ _ _ => 1 | _ => 0 end.
  Definition consumed (its : list item) : nat := list_sum (map consumes its).
  Definition is_ell (it : item) : bool := match it with IEll => true | _ => false end.

  (** NumPy's expansion of one Ellipsis (two raise IndexError; none means one at
      the end); too many indices raise IndexError. *)
  Definition expand (ndim : nat) (its : list item) : res (list item) :=
    let its := if existsb is_ell its then its else its ++ [IEll] in
    if 1 <? length (filter is_ell its) then Err IndexError else
    if ndim <? consumed its then Err IndexError else
    Ok (flat_map (fun it => if is_ell it then repeat full_slice (ndim - consumed its) else [it]) its).

  Definition np_getitem (a : nd) (its : list item) : res (nd * (list nat -> list nat)) :=
    do e <- expand (length (shape a)) its;
    do r <- index (shape a) e;
    Ok (MkNd (fst r) (fun js => at_ a (snd r js)), snd r).

  (** A container: its class and its data array. *)
  Record buffer := MkBuffer { typ : nat; data : nd }.
  (** Class attribute [basis_size]. *)
  Variable basis_size : nat -> nat.

  (** buffer.py 242-253, [__getitem__]: appends (Ellipsis, slice(None)); any failure is
      re-raised as Exception (RuntimeError stands for it). *)
  Definition getitem (b : buffer) (its : list item) : res buffer :=
    match np_getitem (data b) (its ++ [IEll; full_slice]) with
    | Ok (a, _) => Ok (MkBuffer (typ b) a)
    | Err _ => Err RuntimeError
    end.

  (** buffer.py 255-265, [__setitem__] up to the write: the view that will be written. *)
  Definition setitem_view (b : buffer) (its : list item) : res (nd * (list nat -> list nat)) :=
    match np_getitem (data b) its with
    | Ok (v, g) => if (match shape v with [] => false | _ => last (shape v) 0 =? basis_size (typ b) end)
                   then Ok (v, g) else Err RuntimeError
    | Err _ => Err RuntimeError
    end.

  (** buffer.py 174-190, [from_array] (the array-type test holds by construction). *)
  Definition from_array (t : nat) (a : nd) : res buffer :=
    match shape a with
    | [] => Err IndexError
    | _ => if last (shape a) 0 =? basis_size t then Ok (MkBuffer t a) else Err AssertionError
    end.

  (** C-order position of a multi-index, and NumPy's [reshape] through it. *)
  Fixpoint ravel (sh js : list nat) : nat :=
    match sh, js with
    | _ :: sh', j :: js' => j * fold_right Nat.mul 1 sh' + ravel sh' js'
    | _, _ => 0
    end.
  Fixpoint unravel (sh : list nat) (i : nat) : list nat :=
    match sh with
    | [] => []
    | _ :: sh' => let m := fold_right Nat.mul 1 sh' in i / m :: unravel sh' (i mod m)
    end.
  (** buffer.py 216-240, [reshape] for shapes without -1. *)
  Definition reshape (b : buffer) (sh : list nat) : res buffer :=
    let sh' := sh ++ [basis_size (typ b)] in
    if fold_right Nat.mul 1 sh' =? fold_right Nat.mul 1 (shape (data b))
    then Ok (MkBuffer (typ b) (MkNd sh' (fun js => at_ (data b) (unravel (shape (data b)) (ravel sh' js)))))
    else Err RuntimeError.

  (** Arguments of a NumPy universal function. *)
  Inductive arg : Type := ANum (x : T) | AArr (a : nd) | ABuf (b : buffer) | AOther.
  Inductive method : Type := MCall | MReduce | MOtherMethod.
  Inductive value : Type := VArr (a : nd) | VBuf (b : buffer).
  (** Outcome of [__array_ufunc__]. *)
  Inductive reply : Type := NotImplemented | Reply (v : res value).

  (** buffer.py 276-335, [__array_ufunc__] of a container of class [t], for a ufunc with one
      output and no 'out' argument; [scalar_or_matmul] is the signature test,
      [raw inputs] the underlying NumPy call on bare numbers and arrays.  A returned
      NumPy scalar is an array of shape []. *)
  Definition unwrap (t : nat) (x : arg) : option (T + nd) :=
    match x with
    | ANum v => Some (inl v)
    | AArr a => Some (inr a)
    | ABuf b => if typ b =? t then Some (inr (data b)) else None
    | AOther => None
    end.
  Fixpoint unwrap_all (t : nat) (l : list arg) : option (list (T + nd)) :=
    match l with
    | [] => Some []
    | x :: l' => match unwrap t x, unwrap_all t l' with Some y, Some r => Some (y :: r) | _, _ => None end
    end.
  Definition array_ufunc (t : nat) (scalar_or_matmul : bool) (m : method)
      (raw : list (T + nd) -> res nd) (inputs : list arg) : reply :=
    match m with
    | MOtherMethod => Reply (Err NotImplementedError)
    | _ =>
      if negb scalar_or_matmul then Reply (Err NotImplementedError) else
      match unwrap_all t inputs with
      | None => NotImplemented
      | Some xs => Reply (do out <- raw xs;
                          if (0 <? length (shape out)) && (last (shape out) 0 =? basis_size t)
                          then Ok (VBuf (MkBuffer t out)) else Ok (VArr out))
      end
    end.

  (** NumPy's override protocol (NEP 13): the containers among the arguments are asked
      in order; if all answer NotImplemented a TypeError is raised. *)
  Definition containers (inputs : list arg) : list buffer :=
    flat_map (fun x => match x with ABuf b => [b] | _ => [] end) inputs.
  Fixpoint ask (cs : list buffer) (sm : bool) (m : method) (raw : list (T + nd) -> res nd) (inputs : list arg) : res value :=
    match cs with
    | [] => Err TypeError
    | c :: cs' => match array_ufunc (typ c) sm m raw inputs with
                  | Reply v => v
                  | NotImplemented => ask cs' sm m raw inputs
                  end
    end.
  Definition ufunc (sm : bool) (m : method) (raw : list (T + nd) -> res nd) (inputs : list arg) : res value :=
    ask (containers inputs) sm m raw inputs.

  (** buffer.py 302-314 and 325-326: the same call with the keyword [out] holding one
      object.  [raw xs o] is NumPy's call writing into the bare array [o]: the new
      contents of [o], whose shape it keeps.  A number is no place to write to: NumPy
      raises TypeError.  The object given as [out] itself is returned, so the result
      is that object (its class) with its new contents. *)
  Definition array_ufunc_out (t : nat) (scalar_or_matmul : bool) (m : method)
      (raw : list (T + nd) -> nd -> res nd) (inputs : list arg) (out : arg) : reply :=
    match m with
    | MOtherMethod => Reply (Err NotImplementedError)
    | _ =>
      if negb scalar_or_matmul then Reply (Err NotImplementedError) else
      match unwrap_all t inputs with
      | None => NotImplemented
      | Some xs =>
        match out with
        | ANum _ => Reply (Err TypeError)
        | AArr a => Reply (do new <- raw xs a; Ok (VArr new))
        | ABuf b => if typ b =? t then Reply (do new <- raw xs (data b); Ok (VBuf (MkBuffer (typ b) new)))
                    else NotImplemented
        | AOther => NotImplemented
        end
      end
    end.
  (** NEP 13: the objects asked are the inputs and then the outputs. *)
  Fixpoint ask_out (cs : list buffer) (sm : bool) (m : method) (raw : list (T + nd) -> nd -> res nd) (inputs : list arg) (out : arg) : res value :=
    match cs with
    | [] => Err TypeError
    | c :: cs' => match array_ufunc_out (typ c) sm m raw inputs out with
                  | Reply v => v
                  | NotImplemented => ask_out cs' sm m raw inputs out
                  end
    end.
  Definition ufunc_out (sm : bool) (m : method) (raw : list (T + nd) -> nd -> res nd) (inputs : list arg) (out : arg) : res value :=
    ask_out (containers (inputs ++ [out])) sm m raw inputs out.
  (** numpy.lib.mixins.NDArrayOperatorsMixin (buffer.py 18): [a op= y] is the ufunc with
      out=(a,); NumPy's elementwise write into an array of the same shape. *)
  Definition raw_binary_out (f : T -> T -> T) (xs : list (T + nd)) (o : nd) : res nd :=
    match xs with
    | [inr a; inr b] => if list_eq_dec Nat.eq_dec (shape a) (shape b)
                        then if list_eq_dec Nat.eq_dec (shape a) (shape o)
                             then Ok (MkNd (shape o) (fun js => f (at_ a js) (at_ b js))) else Err ValueError
                        else Err ValueError
    | [inr a; inl y] => if list_eq_dec Nat.eq_dec (shape a) (shape o)
                        then Ok (MkNd (shape o) (fun js => f (at_ a js) y)) else Err ValueError
    | _ => Err ValueError
    end.
  Definition inplace (f : T -> T -> T) (a : buffer) (y : arg) : res value :=
    ufunc_out true MCall (raw_binary_out f) [ABuf a; y] (ABuf a).

  (** NumPy's elementwise binary operation on two arrays of the same shape, used by the
      examples; and [op.reduce] over the last axis. *)
  Definition raw_binary (f : T -> T -> T) (xs : list (T + nd)) : res nd :=
    match xs with
    | [inr a; inr b] => if list_eq_dec Nat.eq_dec (shape a) (shape b)
                        then Ok (MkNd (shape a) (fun js => f (at_ a js) (at_ b js))) else Err ValueError
    | [inr a; inl y] => Ok (MkNd (shape a) (fun js => f (at_ a js) y))
    | [inl x; inr b] => Ok (MkNd (shape b) (fun js => f x (at_ b js)))
    | _ => Err ValueError
    end.
  Definition raw_reduce_last (f : T -> T -> T) (e : T) (xs : list (T + nd)) : res nd :=
    match xs with
    | [inr a] => match shape a with
                 | [] => Err ValueError
                 | _ => Ok (MkNd (removelast (shape a)) (fun js =>
                          fold_right f e (map (fun k => at_ a (js ++ [k])) (seq 0 (last (shape a) 0)))))
                 end
    | _ => Err ValueError
    end.
  (** [op.reduce] over axis 0. *)
  Definition raw_reduce_first (f : T -> T -> T) (e : T) (xs : list (T + nd)) : res nd :=
    match xs with
    | [inr a] => match shape a with
                 | [] => Err ValueError
                 | n :: sh => Ok (MkNd sh (fun js => fold_right f e (map (fun k => at_ a (k :: js)) (seq 0 n))))
                 end
    | _ => Err ValueError
    end.
End Buffer.
Arguments nd T : clear implicits.
Arguments buffer T : clear implicits.
Arguments arg T : clear implicits.
