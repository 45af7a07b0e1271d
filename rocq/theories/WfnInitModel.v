(** Model of the random starting wavefunctions: KSWfn.init_random
    (/repo/src/qtm/dft/kswfn.py lines 111-142) and the default [wfn_init] of the
    SCF driver (/repo/src/qtm/dft/scf.py lines 253-299). *)
From Verif Require Import Base ScatterModel CBase.
Open Scope R_scope.

(** NumPy's [Generator.random(shape)] for a generator whose stream of uniform
    numbers is [u] and which has already delivered [pos] of them: the array is
    filled in row-major order and the position advances by its size.  The
    stream itself (PCG64 seeded by SeedSequence) is not modelled: it is an
    arbitrary sequence, a function of the seed only. *)
Definition draw (u : nat -> R) (pos rows cols : nat) : list (list R) * nat :=
  (map (fun i => map (fun j => u (pos + i * cols + j)%nat) (seq 0 cols)) (seq 0 rows),
   (pos + rows * cols)%nat).

(** kswfn.py line 121, [chunk_size = max(1, 10)]. *)
Definition chunk_size : nat := Nat.max 1 10.

(** Python's [range(0, n, step)], step > 0. *)
Definition range_step (n step : nat) : list nat :=
  map (fun t => (step * t)%nat) (seq 0 ((n + step - 1) / step)).

(** kswfn.py line 130, [np.multiply(random_real, np.exp(TPIJ * random_imag))]
    on arrays of equal shape. *)
Definition polar (re im : list (list R)) : list (list C) :=
  map (fun p => map (fun q => (RtoC (fst q) * cis (2 * PI * snd q))%C) (combine (fst p) (snd p)))
      (combine re im).

(** kswfn.py lines 123-130, the loop over chunks of bands.  [data[chunk]] has
    [min(i + chunk_size, nb) - i] rows; the chunks are written one after the
    other, so the finished array is their concatenation (rows are never
    overwritten: [range] makes the slices adjacent). *)
Definition fill_chunks (u : nat -> R) (nb cols : nat) : list (list C) * nat :=
  fold_left (fun st i =>
      let rows := (Nat.min (i + chunk_size) nb - i)%nat in
      let '(re, p1) := draw u (snd st) rows cols in
      let '(im, p2) := draw u p1 rows cols in
      (fst st ++ polar re im, p2))
    (range_step nb chunk_size) ([], 0%nat).

(** kswfn.py line 142, [self.evc_gk /= 1 + self.gkspc.gk_norm2]: in-place
    division of a (bands, basis_size) array by a vector, which NumPy broadcasts
    along the bands if the lengths agree or the vector has one entry, and
    otherwise refuses. *)
Definition divide_rows (cols : nat) (data : list (list C)) (norm2 : list R) : res (list (list C)) :=
  if Nat.eqb (length norm2) cols then
    Ok (map (fun row => map (fun p => (fst p / RtoC (1 + snd p))%C) (combine row norm2)) data)
  else match norm2 with
       | [w] => Ok (map (fun row => map (fun c => (c / RtoC (1 + w))%C) row) data)
       | _ => Err ValueError
       end.

(** kswfn.py lines 111-142.  [numspin] is 1, or 2 for noncollinear
    wavefunctions, whose basis size is [numspin * size_g]
    (containers/wavefun.py line 42).  [norm2] holds |k+G|^2 for the vectors the
    process owns.  Lines 115-117 seed the stream from the k-point and the
    configured seed. *)
Definition init_random (u : nat -> R) (numspin nb : nat) (norm2 : list R) : res (list (list C)) :=
  let cols := (numspin * length norm2)%nat in
  divide_rows cols (fst (fill_chunks u nb cols)) norm2.

Definition kpoint : Type := (R * R * R)%type.

(** The generator's stream as a function of the k-point and of the configured
    seed (kswfn.py lines 116-117). *)
Definition streams : Type := kpoint -> Z -> nat -> R.

(** scf.py lines 259-265 and 270-297: one process's starting wavefunctions at
    one k-point; one channel, or two when spin-polarised and collinear.
    ([np.random.seed(ik)] seeds the legacy global generator, which
    [init_random] does not use.) *)
Definition wfn_start (U : streams) (seed : Z) (is_spin is_noncolin : bool) (numbnd : nat)
    (norm2 : kpoint -> list R) (k : kpoint) : res (list (list (list C))) :=
  if is_noncolin then
    do a <- init_random (U k seed) 2 (2 * numbnd) (norm2 k); Ok [a]
  else if is_spin then
    do a <- init_random (U k seed) 1 numbnd (norm2 k);
    do b <- init_random (U k seed) 1 numbnd (norm2 k); Ok [a; b]
  else do a <- init_random (U k seed) 1 numbnd (norm2 k); Ok [a].

(** scf.py lines 253 and 270-299: the k-points of group [i] of [n] and
    their starting wavefunctions, in order. *)
Definition start_group (U : streams) (seed : Z) (is_spin is_noncolin : bool) (numbnd : nat)
    (norm2 : kpoint -> list R) (kpts : list kpoint) (n i : Z) : res (list (list (list (list C)))) :=
  do ab <- scatter_slice (Z.of_nat (length kpts)) n i;
  sequence (map (wfn_start U seed is_spin is_noncolin numbnd norm2) (zslice (fst ab) (snd ab) kpts)).
