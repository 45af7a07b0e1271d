(** Model of the batched transforms of a G-space (src/qtm/gspace/base.py 189-296)
    and of the containers that use them (src/qtm/containers/field.py 60-96,
    src/qtm/containers/wavefun.py 83-90 and 190-199), with arrays as strided views of
    one memory.  Complex arrays only; NumPy's [reshape] is modelled by its
    contract: a view when the merged axes are evenly spaced, a copy otherwise. *)
From Verif Require Import Base CBase FFTModel.
Open Scope nat_scope.

(** One address space holding complex numbers. *)
Definition mem : Type := Z -> C.

(** An argument: whether it is an instance of the backend's array class
    (fft/backend/base.py 113), its shape, the address of its first element and
    its strides, counted in elements (NumPy strides may be negative or zero). *)
Record view := MkView { v_nd : bool; v_shape : list nat; v_off : Z; v_str : list Z }.

(** numpy: address of the element with the given indices. *)
Fixpoint shift (str : list Z) (idx : list nat) : Z :=
  match str, idx with s :: str', i :: idx' => (Z.of_nat i * s + shift str' idx')%Z | _, _ => 0%Z end.
Definition cell (v : view) (idx : list nat) : Z := (v_off v + shift (v_str v) idx)%Z.

(** numpy: strides of a C-contiguous array. *)
Fixpoint c_strides (sh : list nat) : list Z :=
  match sh with [] => [] | _ :: sh' => Z.of_nat (fold_right Nat.mul 1 sh') :: c_strides sh' end.

(** The state: contents and the first unused address; [allocate_array]
    (base.py 189-202, fft/backend/numpy_.py 19-21, [np.empty] in C order) takes
    the next addresses and leaves whatever is there. *)
Record heap := MkHeap { h_mem : mem; h_brk : Z }.
Definition allocate (h : heap) (sh : list nat) : heap * view :=
  (MkHeap (h_mem h) (h_brk h + Z.of_nat (fold_right Nat.mul 1 sh)),
   MkView true sh (h_brk h) (c_strides sh)).

(** numpy [reshape]: axes of length one are ignored; two neighbouring axes merge
    without a copy exactly when the outer stride is the inner length times the
    inner stride. *)
Fixpoint collapse (axes : list (nat * Z)) : option (nat * Z) :=
  match axes with
  | [] => Some (1, 0%Z)
  | (d, s) :: rest =>
      if d =? 1 then collapse rest
      else match rest with
           | [] => Some (d, s)
           | _ =>
             match collapse rest with
             | Some (d', s') =>
                 if d' =? 1 then Some (d, s)
                 else if (s =? Z.of_nat d' * s')%Z then Some (d * d', s') else None
             | None => None
             end
           end
  end.

(** A row handed to the FFT object: cells of memory, or a private copy. *)
Definition row : Type := list Z + list C.
Definition fetch (m : mem) (r : row) : list C := match r with inl a => map m a | inr v => v end.
Fixpoint write (m : mem) (a : list Z) (vals : list C) : mem :=
  match a, vals with
  | p :: a', c :: vals' => write (fun q => if (q =? p)%Z then c else m q) a' vals'
  | _, _ => m
  end.
Definition deposit (m : mem) (r : row) (vals : list C) : mem :=
  match r with inl a => write m a vals | inr _ => m end.

(** All cells of an array in C order. *)
Fixpoint cells (off : Z) (sh : list nat) (str : list Z) : list Z :=
  match sh, str with
  | d :: sh', s :: str' => flat_map (fun i => cells (off + Z.of_nat i * s)%Z sh' str') (seq 0 d)
  | _, _ => [off]
  end.
Fixpoint chunks {A} (n rows : nat) (l : list A) : list (list A) :=
  match rows with 0 => [] | S k => firstn n l :: chunks n k (skipn n l) end.

(** [arr.reshape(-1, n)], and [arr.reshape(-1, nx, ny, nz)] with n = nx ny nz (the
    three axes of a row are kept flat, in C order), base.py 268-270 and 283-285.  Only
    the case that the callers produce is modelled: n divides the last axis
    ([ValueError] stands for the other cases); for n = 0 NumPy refuses the -1. *)
Definition reshape (m : mem) (v : view) (n : nat) : res (list row) :=
  let k := pred (length (v_shape v)) in
  let lead := firstn k (v_shape v) in
  let last := nth k (v_shape v) 0 in
  let s := nth k (v_str v) 0%Z in
  if (n =? 0) || negb (last mod n =? 0) then Err ValueError
  else
    let count := fold_right Nat.mul 1 lead * (last / n) in
    match collapse (combine lead (firstn k (v_str v)) ++ [(last / n, (Z.of_nat n * s)%Z)]) with
    | Some (_, t) =>
        Ok (map (fun r => inl (map (fun j => v_off v + Z.of_nat r * t + Z.of_nat j * s)%Z (seq 0 n)))
              (seq 0 count))
    | None => Ok (map inr (chunks n count (map m (cells (v_off v) (v_shape v) (v_str v)))))
    end.

(** fft/backend/utils.py 10-14: the FFT object of a G-space is of either kind. *)
Inductive fft3d := Full (o : full) | Sticks (o : sticks).
Definition fft_call (f : fft3d) (c : call) : fft3d * list C :=
  match f with
  | Full o => let (o', l) := full_call o c in (Full o', l)
  | Sticks o => let (o', l) := sticks_call o c in (Sticks o', l)
  end.

(** base.py 266-271 and 281-286: the loop of [_r2g] / [_g2r]; [zip] stops at the shorter
    list; every row is read when its turn comes. *)
Fixpoint loop (mk : list C -> call) (f : fft3d) (m : mem) (ins outs : list row) : fft3d * mem :=
  match ins, outs with
  | i :: ins', o :: outs' =>
      let (f', vals) := fft_call f (mk (fetch m i)) in
      loop mk f' (deposit m o vals) ins' outs'
  | _, _ => (f, m)
  end.

(** A G-space as far as the transforms use it: base.py 138-141 and 156-163. *)
Record space := MkSpace { sp_r : nat; sp_g : nat; sp_fft : fft3d }.

(** base.py 266-271 *)
Definition raw_r2g (sp : space) (h : heap) (arr_r arr_g : view) : res (space * heap) :=
  bind (reshape (h_mem h) arr_r (sp_r sp)) (fun ins =>
  bind (reshape (h_mem h) arr_g (sp_g sp)) (fun outs =>
  let (f, m) := loop R2G (sp_fft sp) (h_mem h) ins outs in
  Ok (MkSpace (sp_r sp) (sp_g sp) f, MkHeap m (h_brk h)))).
(** base.py 281-286 *)
Definition raw_g2r (sp : space) (h : heap) (arr_g arr_r : view) : res (space * heap) :=
  bind (reshape (h_mem h) arr_g (sp_g sp)) (fun ins =>
  bind (reshape (h_mem h) arr_r (sp_r sp)) (fun outs =>
  let (f, m) := loop G2R (sp_fft sp) (h_mem h) ins outs in
  Ok (MkSpace (sp_r sp) (sp_g sp) f, MkHeap m (h_brk h)))).

(** base.py 221-264 with fft/backend/base.py 100-116: type, then number of axes,
    then length of the last axis. *)
Definition check_array (size : nat) (v : view) : res unit :=
  if negb (v_nd v) then Err TypeError
  else if length (v_shape v) =? 0 then Err ValueError
  else if negb (nth (pred (length (v_shape v))) (v_shape v) 0 =? size) then Err ValueError
  else Ok tt.

(** base.py 273-280 *)
Definition r2g (sp : space) (h : heap) (arr_r : view) (arr_g : option view) : res (space * heap * view) :=
  bind (check_array (sp_r sp) arr_r) (fun _ =>
  match arr_g with
  | Some g =>
      bind (check_array (sp_g sp) g) (fun _ =>
      bind (raw_r2g sp h arr_r g) (fun '(sp', h') => Ok (sp', h', g)))
  | None =>
      let (h1, g) := allocate h (removelast (v_shape arr_r) ++ [sp_g sp]) in
      bind (raw_r2g sp h1 arr_r g) (fun '(sp', h') => Ok (sp', h', g))
  end).
(** base.py 288-296 *)
Definition g2r (sp : space) (h : heap) (arr_g : view) (arr_r : option view) : res (space * heap * view) :=
  bind (check_array (sp_g sp) arr_g) (fun _ =>
  match arr_r with
  | Some g =>
      bind (check_array (sp_r sp) g) (fun _ =>
      bind (raw_g2r sp h arr_g g) (fun '(sp', h') => Ok (sp', h', g)))
  | None =>
      let (h1, g) := allocate h (removelast (v_shape arr_g) ++ [sp_r sp]) in
      bind (raw_g2r sp h1 arr_g g) (fun '(sp', h') => Ok (sp', h', g))
  end).

(** field.py 60-63 / wavefun.py 83-86 and field.py 87-90 / wavefun.py 190-193: the container's
    array goes straight to the loop; [numspin] is 1 for a field.  The target is a
    new container of the same shape (containers/buffer.py 128-152). *)
Definition to_r (numspin : nat) (sp : space) (h : heap) (data : view) : res (space * heap * view) :=
  let (h1, out) := allocate h (removelast (v_shape data) ++ [numspin * sp_r sp]) in
  bind (raw_g2r sp h1 data out) (fun '(sp', h') => Ok (sp', h', out)).
Definition to_g (numspin : nat) (sp : space) (h : heap) (data : view) : res (space * heap * view) :=
  let (h1, out) := allocate h (removelast (v_shape data) ++ [numspin * sp_g sp]) in
  bind (raw_r2g sp h1 data out) (fun '(sp', h') => Ok (sp', h', out)).
