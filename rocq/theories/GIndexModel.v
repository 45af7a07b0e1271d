(** Model of the integer part of G-spaces: FFT-grid indexing and ordering.
    Source: /repo/src/qtm/gspace/base.py, gspc.py (optimal_grid_shape) and
    fft/base.py (check_g_idxgrid). *)
From Verif Require Import Base SortModel.

Definition vec3 : Type := (Z * Z * Z)%type.
Definition shape3 : Type := (Z * Z * Z)%type.

(** gspace/base.py lines 43-45: the shape must be three positive integers. *)
Definition shape_ok (sh : shape3) : bool :=
  let '(n1, n2, n3) := sh in (0 <? n1) && (0 <? n2) && (0 <? n3).

(** gspace/base.py lines 57-60: bounds test along one dimension,
    [-(n//2) <= g < (n+1)//2]. *)
Definition dim_ok (n g : Z) : bool := (- (n / 2) <=? g) && (g <? (n + 1) / 2).
Definition g_ok (sh : shape3) (g : vec3) : bool :=
  let '(n1, n2, n3) := sh in let '(i1, i2, i3) := g in
  dim_ok n1 i1 && dim_ok n2 i2 && dim_ok n3 i3.

(** gspace/base.py lines 25-60, [check_g_cryst] (dtype/ndim assertions are typing and
    hold by construction in the model). *)
Definition check_g_cryst (sh : shape3) (gs : list vec3) : res unit :=
  do _ <- assert_ (shape_ok sh);
  assert_ (forallb (g_ok sh) gs).

(** gspace/base.py lines 83-89: the flat index of one G-vector. *)
Definition gidx (sh : shape3) (g : vec3) : Z :=
  let '(n1, n2, n3) := sh in let '(i1, i2, i3) := g in
  n2 * n3 * (i1 + n1 * b2z (i1 <? 0))
  + n3 * (i2 + n2 * b2z (i2 <? 0))
  + (i3 + n3 * b2z (i3 <? 0)).

(** gspace/base.py lines 63-90, [cryst2idxgrid]. *)
Definition cryst2idxgrid (sh : shape3) (gs : list vec3) : res (list Z) :=
  do _ <- check_g_cryst sh gs;
  Ok (map (gidx sh) gs).

(** [np.unravel_index(idx, shape, order="C")] for an index in range. *)
Definition unravel (sh : shape3) (idx : Z) : vec3 :=
  let '(n1, n2, n3) := sh in
  (idx / (n2 * n3), (idx / n3) mod n2, idx mod n3).

(** gspace/base.py lines 93-111, [_sort_g]: lexsort with keys (ix, iz, iy), the last
    key (iy) being the primary one. *)
Definition lexkey (sh : shape3) (idx : Z) : vec3 :=
  let '(ix, iy, iz) := unravel sh idx in (iy, iz, ix).
Definition lex_leb (a b : vec3) : bool :=
  let '(a1, a2, a3) := a in let '(b1, b2, b3) := b in
  (a1 <? b1) || ((a1 =? b1) && ((a2 <? b2) || ((a2 =? b2) && (a3 <=? b3)))).
Definition sort_g (sh : shape3) (idxgrid : list Z) : list nat :=
  argsort lex_leb (map (lexkey sh) idxgrid).

(** fft/base.py lines 17-36, [check_g_idxgrid]: all indices unique and inside
    the grid. *)
Fixpoint all_unique (l : list Z) : bool :=
  match l with
  | [] => true
  | x :: t => negb (existsb (Z.eqb x) t) && all_unique t
  end.
Definition check_g_idxgrid (sh : shape3) (idx : list Z) : res unit :=
  let '(n1, n2, n3) := sh in
  do _ <- assert_ (all_unique idx);
  assert_ (forallb (fun i => (0 <=? i) && (i <? n1 * n2 * n3)) idx).

(** The observable attributes of a [GSpaceBase] object (gspace/base.py 126-155). *)
Record gspace := MkGSpace {
  gs_shape : shape3;
  gs_cryst : list vec3;      (* g_cryst, internal order *)
  gs_idxgrid : list Z;       (* idxgrid, internal order *)
  gs_idxsort : list nat;     (* idxsort: recovers the input order *)
  gs_has_g0 : bool
}.

(** gspace/base.py lines 117-163, [GSpaceBase.__init__].  Evaluating [has_g0] on an
    empty list is an IndexError; the FFT driver constructor runs
    check_g_idxgrid.  [(0,0,0)] is the (unreachable) default of fancy
    indexing. *)
Definition gspace_base (sh : shape3) (gs : list vec3) : res gspace :=
  do _ <- check_g_cryst sh gs;
  do idxgrid <- cryst2idxgrid sh gs;
  let idxsort := sort_g sh idxgrid in
  let g_cryst := take (0, 0, 0) gs idxsort in
  let idx := take 0 idxgrid idxsort in
  match g_cryst with
  | [] => Err IndexError
  | (a, b, c) :: _ =>
      do _ <- check_g_idxgrid sh idx;
      Ok {| gs_shape := sh; gs_cryst := g_cryst; gs_idxgrid := idx;
            gs_idxsort := argsort Nat.leb idxsort;
            gs_has_g0 := (a =? 0) && (b =? 0) && (c =? 0) |}
  end.

(** gspc.py lines 29-31: [while x % prime == 0: x = x / prime].  The code
    divides floats; every quotient is an exactly represented integer below
    2^53, so the model divides integers.  Fuel [None] = still looping. *)
Fixpoint strip (fuel : nat) (p x : Z) : option Z :=
  match fuel with
  | O => None
  | S k => if x mod p =? 0 then strip k p (x / p) else Some x
  end.
Fixpoint strip_all (fuel : nat) (primes : list Z) (x : Z) : option Z :=
  match primes with
  | [] => Some x
  | p :: t => match strip fuel p x with Some y => strip_all fuel t y | None => None end
  end.
(** gspc.py line 18, [GOOD_PRIMES]. *)
Definition good_primes : list Z := [2; 3; 5].
(** gspc.py lines 23-37, the search for one dimension. *)
Fixpoint optimal_dim (fuel : nat) (inner : nat) (ni : Z) : option Z :=
  match fuel with
  | O => None
  | S k => match strip_all inner good_primes ni with
           | None => None
           | Some x => if x =? 1 then Some ni else optimal_dim k inner (ni + 1)
           end
  end.
