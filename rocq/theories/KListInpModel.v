(** Model of explicitly given k- and q-point lists, over exact reals:
    /repo/src/qtm/klist.py lines 21-112 (KList: constructor, cart, tpiba, indexing, from_cart, from_cryst,
    from_tpiba, gamma), /repo/src/qtm/kpts.py lines 26-115 (KList: constructor, gamma, k_cart, indexing),
    /repo/src/qtm/gw/core.py lines 44-82 (QPoints).  Points are numbers or sequences of numbers (deeper
    nesting not modelled); arrays have one or two axes. *)
From Verif Require Import Base LatModel KPtsModel CrystalModel IbravModel AtomsInpModel GwModel.
Import ListNotations.
Local Open Scope nat_scope.

(** A weight as a float: [None] is nan. *)
Definition flt := option R.
(** A stored list: crystal coordinates and weight of every point. *)
Definition kpoints := list (rvec * flt).

(** klist.py 13-18, [_sanitize_weights]; a zero sum makes every quotient 0/0. *)
Definition norm_weights (w : list R) : res (list flt) :=
  if existsb (fun x => if Rlt_dec x 0 then true else false) w then Err ValueError
  else Ok (map (fun x => if Req_EM_T (rsum w) 0 then None else Some (x / rsum w)%R) w).
(** klist.py 22-43, [KList.__init__], on arrays from the three constructors below. *)
Definition klist_init (cryst : arr) (weights : list flt) : res kpoints :=
  match cryst with
  | A1 _ => Err ValueError
  | A2 k c =>
      if negb (length c =? length weights) then Err ValueError
      else if k =? 3 then Ok (combine (map to_rvec c) weights) else Err ValueError
  end.
(** lattice.py 92-94 with axis=1, on the list of points: two axes are needed, and a last axis of length 1 or 3. *)
Definition rows_cart2cryst (L : lattice) (a : arr) : res arr :=
  match a with
  | A1 _ => Err ValueError
  | A2 k c => if (k =? 1) || (k =? 3) then Ok (A2 3 (map (fun l => of_rvec (cart2cryst L (broadcast3 k l))) c)) else Err ValueError
  end.
(** klist.py 74-87 *)
Definition from_cart (U : ulattice) (l : list (pyarg * R)) : res kpoints :=
  do a <- np_array_T (map fst l); do c <- rows_cart2cryst (u_lat U) a; do w <- norm_weights (map snd l); klist_init c w.
(** klist.py 89-99 *)
Definition from_cryst (U : ulattice) (l : list (pyarg * R)) : res kpoints :=
  do a <- np_array_T (map fst l); do w <- norm_weights (map snd l); klist_init a w.
(** klist.py 101-112; lattice.py [tpiba2cryst] multiplies by tpiba last. *)
Definition from_tpiba (U : ulattice) (l : list (pyarg * R)) : res kpoints :=
  do a <- np_array_T (map fst l); do c <- rows_cart2cryst (u_lat U) a; do w <- norm_weights (map snd l);
  klist_init (arr_scale (u_unit U) c) w.
(** klist.py 114-118 *)
Definition gamma_old : kpoints := [(V 0 0 0, Some 1%R)].
(** klist.py 48-54 *)
Definition cart (U : ulattice) (k : kpoints) : list rvec := map (fun p => cryst2cart (u_lat U) (fst p)) k.
Definition tpiba (U : ulattice) (k : kpoints) : list rvec := map (fun p => cryst2unit U (fst p)) k.

(** Python slices: [slice.indices] for a sequence of [n] items, then [range]. *)
Definition slice_bound (n step : Z) (dflt : Z) (x : option Z) : Z :=
  let lower := if (step <? 0)%Z then (-1)%Z else 0%Z in
  let upper := if (step <? 0)%Z then (n - 1)%Z else n in
  match x with
  | None => dflt
  | Some v => if (v <? 0)%Z then Z.max (v + n) lower else Z.min v upper
  end.
Definition slice_indices (start stop : option Z) (step n : Z) : list Z :=
  let a := slice_bound n step (if (step <? 0)%Z then (n - 1)%Z else 0%Z) start in
  let b := slice_bound n step (if (step <? 0)%Z then (-1)%Z else n) stop in
  let len := (if (step <? 0)%Z then (a - b - step - 1) / (- step) else (b - a + step - 1) / step)%Z in
  map (fun j => (a + Z.of_nat j * step)%Z) (seq 0 (Z.to_nat len)).
(** What may stand between the brackets: a Python int, a slice, anything else (np.int64, a list, a mask). *)
Inductive index := IInt (i : Z) | ISlice (start stop step : option Z) | IOther.
Inductive item := Point (p : rvec * flt) | Sub (k : kpoints).
Definition pick (k : kpoints) (i : Z) : res (rvec * flt) :=
  let n := Z.of_nat (length k) in
  if ((i <? - n) || (n <=? i))%Z then Err IndexError
  else match nth_error k (Z.to_nat (if (i <? 0)%Z then i + n else i)%Z) with Some p => Ok p | None => Err IndexError end.
Fixpoint mapm {A B} (f : A -> res B) (l : list A) : res (list B) :=
  match l with [] => Ok [] | a :: t => do b <- f a; do bs <- mapm f t; Ok (b :: bs) end.
(** klist.py 61-72, [__getitem__] *)
Definition getitem (k : kpoints) (i : index) : res item :=
  match i with
  | IInt z => do p <- pick k z; Ok (Point p)
  | ISlice a b s =>
      let s := match s with Some v => v | None => 1%Z end in
      if (s =? 0)%Z then Err ValueError
      else do l <- mapm (pick k) (slice_indices a b s (Z.of_nat (length k))); Ok (Sub l)
  | IOther => Err TypeError
  end.
(** Iteration without [__iter__]: items 0, 1, ... until IndexError; [fuel] bounds the number of steps. *)
Fixpoint iterate (fuel : nat) (k : kpoints) (i : Z) : res (list (rvec * flt)) :=
  match fuel with
  | O => Ok []
  | S f => match getitem k (IInt i) with
           | Ok (Point p) => do t <- iterate f k (i + 1)%Z; Ok (p :: t)
           | Ok (Sub _) => Err TypeError
           | Err IndexError => Ok []
           | Err x => Err x
           end
  end.

(** kpts.py 27-80: the coordinate array of shape (k, n) by its columns.  An unknown [coords_typ] ends in
    the TypeError of the message formatter (msg_format.py). *)
Inductive coords_typ := TCryst | TCart | TTpiba | TBad.
Definition klist_new (U : ulattice) (coords : arr) (weights : list R) (t : coords_typ) : res (list (rvec * R)) :=
  match coords with
  | A1 _ => Err ValueError
  | A2 k c =>
      if negb (k =? 3) then Err ValueError else
      let v := map to_rvec c in
      do kc <- match t with
               | TCryst => Ok v
               | TCart => Ok (map (cart2cryst (u_lat U)) v)
               | TTpiba => Ok (map (unit2cryst U) v)
               | TBad => Err TypeError
               end;
      if length weights =? length c then Ok (combine kc weights) else Err ValueError
  end.
(** kpts.py 86-91: [k_weight] is not used. *)
Definition gamma_new (k_weight : R) : list (rvec * R) := [(V 0 0 0, 1%R)].

(** gw/core.py 44-82, [QPoints.from_cryst] and [__init__]: result (points with weights, index_q0, q0vec). *)
Definition qnorm (U : ulattice) (v : rvec) : R := match norm2 (u_lat U) (u_unit U) v Cryst with Ok x => x | Err _ => 0%R end.
Definition qpoints (U : ulattice) (is_q0 : option (list bool)) (rows : list (list R)) : res (kpoints * nat * rvec) :=
  let c := map (firstn 3) rows in
  do i <- index_q0 is_q0 (map (fun l => qnorm U (to_rvec l)) c);
  do k <- (if forallb (fun l => length l =? 3) c && negb (length c =? 0) then klist_init (A2 3 c) (map (fun _ => Some 1%R) c) else Err ValueError);
  match nth_error c i with Some v => Ok (k, i, to_rvec v) | None => Err IndexError end.
