(** Model of the cached container factories: /repo/src/qtm/containers/field.py 54-65, 81-92, 121-147,
    /repo/src/qtm/containers/wavefun.py 36-43, 83-92, 180-194, 226-252, /repo/src/qtm/mpi/containers.py 110-141
    (type tests only) and 143-201.  [functools.lru_cache(maxsize=None)] keys a call by its positional
    arguments followed by its keyword arguments in the order written, compared with ==; a call that raises
    stores nothing.  Every exception on these paths is a TypeError except the ValueError of [scatter]. *)
From Verif Require Import Base.
From Coq Require Import String.
Local Open Scope nat_scope.
Local Notation length := List.length.

(** A G-space object: [Plain] for GSpace (gk = false) / GkSpace (gk = true), [Dist] for DistGSpace / DistGkSpace
    around the space of the whole group.  [id] is the object's identity (no G-space class defines __eq__). *)
Inductive space := Plain (gk : bool) (id size_g size_r : nat) | Dist (gk : bool) (id size_g size_r : nat) (glob : space).
Definition is_gk (s : space) : bool := match s with Plain b _ _ _ | Dist b _ _ _ _ => b end.
Definition is_dist (s : space) : bool := match s with Plain _ _ _ _ => false | Dist _ _ _ _ _ => true end.
Definition size_g (s : space) : nat := match s with Plain _ _ a _ | Dist _ _ a _ _ => a end.
Definition size_r (s : space) : nat := match s with Plain _ _ _ b | Dist _ _ _ b _ => b end.
Definition space_dec (a b : space) : {a = b} + {a <> b}.
Proof. decide equality; try apply Nat.eq_dec; apply Bool.bool_dec. Defined.

(** Argument values: spaces, Python ints, bools, floats with an integral value, NumPy integers, other
    hashable objects, and unhashable ones. *)
Inductive pyval := VSpace (s : space) | VInt (z : Z) | VBool (b : bool) | VFloat (z : Z) | VNpInt (z : Z) | VOther (id : nat) | VUnhashable.
(** The value behind a number: 1 == True == 1.0 == np.int64(1), with equal hashes. *)
Definition number (v : pyval) : option Z :=
  match v with VInt z | VFloat z | VNpInt z => Some z | VBool b => Some (if b then 1 else 0)%Z | _ => None end.
(** [==] between key elements. *)
Definition val_eqb (a b : pyval) : bool :=
  match number a, number b with
  | Some x, Some y => Z.eqb x y
  | None, None => match a, b with
                  | VSpace s, VSpace t => if space_dec s t then true else false
                  | VOther i, VOther j => Nat.eqb i j
                  | _, _ => false
                  end
  | _, _ => false
  end.
Fixpoint vals_eqb (l m : list pyval) : bool :=
  match l, m with [], [] => true | a :: l', b :: m' => val_eqb a b && vals_eqb l' m' | _, _ => false end.
Definition kwarg : Type := string * pyval.
Fixpoint kws_eqb (l m : list kwarg) : bool :=
  match l, m with
  | [], [] => true
  | (n, a) :: l', (k, b) :: m' => String.eqb n k && val_eqb a b && kws_eqb l' m'
  | _, _ => false
  end.
Definition key : Type := list pyval * list kwarg.
Definition key_eqb (a b : key) : bool := vals_eqb (fst a) (fst b) && kws_eqb (snd a) (snd b).
Definition unhashable (v : pyval) : bool := match v with VUnhashable => true | _ => false end.

(** The eight factories: [Get k] of qtm.containers, [GetDist k] of qtm.mpi.containers. *)
Inductive kind := FieldG | FieldR | WavefunG | WavefunR.
Inductive factory := Get (k : kind) | GetDist (k : kind).
Definition kind_dec (a b : kind) : {a = b} + {a <> b}.
Proof. decide equality. Defined.
Definition factory_dec (a b : factory) : {a = b} + {a <> b}.
Proof. decide equality; apply kind_dec. Defined.
Definition is_wavefun (k : kind) : bool := match k with WavefunG | WavefunR => true | _ => false end.
Definition is_real (k : kind) : bool := match k with FieldR | WavefunR => true | _ => false end.
(** Parameter names (field.py 121, 136; wavefun.py 226, 241; mpi/containers.py 144, 161, 173, 192). *)
Definition params (f : factory) : list string :=
  match f with
  | Get k => if is_wavefun k then ["gkspc"; "numspin"]%string else ["gspc"]%string
  | GetDist k => if is_wavefun k then ["dist_gkspc"; "numspin"]%string else ["dist_gspc"]%string
  end.

(** A container class: its attributes gspc, numspin (wavefunctions only), basis_size, and [BufferType], the class
    over the global space, for the distributed ones. *)
Record cls := MkCls { c_kind : kind; c_dist : bool; c_space : space; c_numspin : option pyval; c_size : Z; c_global : option nat }.
(** The interpreter: classes created so far and the caches, newest entry first. *)
Record st := MkSt { classes : list cls; cache : list (factory * key * nat) }.
Definition st0 : st := MkSt [] [].
Fixpoint lookup (c : list (factory * key * nat)) (f : factory) (q : key) : option nat :=
  match c with
  | [] => None
  | (g, r, n) :: c' => if (if factory_dec f g then true else false) && key_eqb r q then Some n else lookup c' f q
  end.
(** lru_cache's wrapper around [body]; hashing the key of an unhashable argument raises TypeError. *)
Definition cached (f : factory) (q : key) (body : st -> st * res nat) (s : st) : st * res nat :=
  if existsb unhashable (fst q) || existsb (fun kv => unhashable (snd kv)) (snd q) then (s, Err TypeError)
  else match lookup (cache s) f q with
  | Some n => (s, Ok n)
  | None => let '(s1, r) := body s in
      match r with
      | Ok n => (MkSt (classes s1) ((f, q, n) :: cache s1), Ok n)
      | Err e => (s1, Err e)
      end
  end.

(** [isinstance(numspin, int) and numspin > 0] *)
Definition spin_ok (v : pyval) : option Z :=
  match v with VInt z => if (0 <? z)%Z then Some z else None | VBool true => Some 1%Z | _ => None end.
(** [class X(..., gspc=gspc)] / [class X(..., gkspc=gkspc, numspin=numspin)] with __init_subclass__
    (field.py 54-58, 81-85 [same code]; wavefun.py 36-43, 180-188): checks, then the class with its sizes. *)
Definition new_class (k : kind) (d : bool) (s : space) (ns : list pyval) (g : option nat) (m : st) : st * res nat :=
  if negb (Bool.eqb (is_gk s) (is_wavefun k)) then (m, Err TypeError) else
  let sz := Z.of_nat (if is_real k then size_r s else size_g s) in
  match (if is_wavefun k then match ns with v :: _ => match spin_ok v with Some z => Some (Some v, z * sz)%Z | None => None end | [] => None end
         else Some (None, sz)) with
  | None => (m, Err TypeError)
  | Some (v, n) => (MkSt (classes m ++ [MkCls k d s v n g]) (cache m), Ok (length (classes m)))
  end.
(** The body of [Get k] on a space: a distributed space of the right kind is passed on, positionally, to
    [GetDist k], whose class body first obtains the class of the global space. *)
Fixpoint get_body (k : kind) (s : space) (ns : list pyval) (m : st) {struct s} : st * res nat :=
  match s with
  | Dist b _ _ _ g =>
      if Bool.eqb b (is_wavefun k) then
        cached (GetDist k) (VSpace s :: ns, []) (fun m =>
          let '(m1, r) := cached (Get k) (VSpace g :: ns, []) (get_body k g ns) m in
          match r with Err e => (m1, Err e) | Ok n => new_class k true s ns (Some n) m1 end) m
      else new_class k false s ns None m
  | Plain _ _ _ _ => new_class k false s ns None m
  end.
(** The body of [GetDist k]. *)
Definition dist_body (k : kind) (s : space) (ns : list pyval) (m : st) : st * res nat :=
  match s with
  | Dist b _ _ _ g =>
      if Bool.eqb b (is_wavefun k) then
        let '(m1, r) := cached (Get k) (VSpace g :: ns, []) (get_body k g ns) m in
        match r with Err e => (m1, Err e) | Ok n => new_class k true s ns (Some n) m1 end
      else (m, Err TypeError)
  | Plain _ _ _ _ => (m, Err TypeError)
  end.
(** Binding of positional and keyword arguments to the parameters. *)
Fixpoint kw_get (n : string) (kw : list kwarg) : option pyval :=
  match kw with [] => None | (k, v) :: kw' => if String.eqb n k then Some v else kw_get n kw' end.
Fixpoint kw_del (n : string) (kw : list kwarg) : list kwarg :=
  match kw with [] => [] | (k, v) :: kw' => if String.eqb n k then kw' else (k, v) :: kw_del n kw' end.
Fixpoint bind_args (ps : list string) (pos : list pyval) (kw : list kwarg) : option (list pyval) :=
  match ps, pos with
  | [], [] => match kw with [] => Some [] | _ => None end
  | [], _ :: _ => None
  | p :: ps', v :: pos' => match kw_get p kw with Some _ => None | None => option_map (cons v) (bind_args ps' pos' kw) end
  | p :: ps', [] => match kw_get p kw with
                    | None => None
                    | Some v => option_map (cons v) (bind_args ps' [] (kw_del p kw))
                    end
  end.
(** One call of a factory. *)
Definition call (f : factory) (pos : list pyval) (kw : list kwarg) (m : st) : st * res nat :=
  cached f (pos, kw) (fun m =>
    match bind_args (params f) pos kw with
    | Some (VSpace s :: ns) => match f with Get k => get_body k s ns m | GetDist k => dist_body k s ns m end
    | _ => (m, Err TypeError)
    end) m.

(** field.py 60-63, 87-90; wavefun.py 83-86, 190-193: the class of [x.to_r()] / [x.to_g()] for x of class [c]. *)
Definition to_kind (real : bool) (k : kind) : kind :=
  match k with FieldG | FieldR => if real then FieldR else FieldG | _ => if real then WavefunR else WavefunG end.
Definition convert (real : bool) (c : nat) (m : st) : st * res nat :=
  match nth_error (classes m) c with
  | None => (m, Err TypeError)
  | Some a => if Bool.eqb (is_real (c_kind a)) real then (m, Ok c)
              else call (Get (to_kind real (c_kind a))) (VSpace (c_space a) :: match c_numspin a with Some v => [v] | None => [] end) [] m
  end.
(** mpi/containers.py 116-120: on the root, [scatter] of the distributed class [d] accepts a container of class [c]
    over the space [t]. *)
Definition scatter_accepts (d c : nat) (m : st) : res unit :=
  match nth_error (classes m) d, nth_error (classes m) c with
  | Some a, Some b =>
      match c_global a with
      | Some g => if negb (Nat.eqb c g) then Err TypeError
                  else match c_space a with
                       | Dist _ _ _ _ t => if space_dec t (c_space b) then Ok tt else Err ValueError
                       | Plain _ _ _ _ => Err TypeError
                       end
      | None => Err TypeError
      end
  | _, _ => Err TypeError
  end.
