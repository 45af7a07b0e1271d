(** Model of the distributed G-space: /repo/src/qtm/mpi/gspace.py.
    All ranks of the plane-wave group are modelled together: a distributed object
    is the list of its per-rank parts and a collective method maps the list of
    per-rank arguments to the list of per-rank results. *)
From Verif Require Import Base ScatterModel SortModel GIndexModel CBase FFTModel.
Open Scope nat_scope.

(** scatter_len / scatter_slice (mpi/utils.py, ScatterModel.v) on naturals. *)
Definition nlen (len size rank : nat) : res nat :=
  rmap Z.to_nat (scatter_len (Z.of_nat len) (Z.of_nat size) (Z.of_nat rank)).
Definition nlen_all (len size : nat) : res (list nat) :=
  rmap (map Z.to_nat) (scatter_len_all (Z.of_nat len) (Z.of_nat size)).
Definition nslice (len size rank : nat) : res (nat * nat) :=
  rmap (fun s => (Z.to_nat (fst s), Z.to_nat (snd s)))
       (scatter_slice (Z.of_nat len) (Z.of_nat size) (Z.of_nat rank)).

(** [l[a:b]] for naturals. *)
Definition slice {A} (s : nat * nat) (l : list A) : list A :=
  firstn (snd s - fst s) (skipn (fst s) l).

(** [slice(np.searchsorted(iyz, loc[0]), np.searchsorted(iyz, loc[-1], "right"))]
    - gspace.py 68-71 and 126-131.  Indexing an empty array is an IndexError. *)
Definition ig_slice (iyz loc : list nat) : res (nat * nat) :=
  match loc with
  | [] => Err IndexError
  | first :: _ => Ok (searchsorted iyz first, searchsorted_right iyz (last loc 0))
  end.

(** The per-rank part of a [DistGSpaceBase] (gspace.py 26-135). *)
Record dist := MkDist {
  d_nx : nat; d_ny : nat; d_nz : nat; d_norm : bool;
  d_nsl : nat;                 (* numsticks_loc, 64 *)
  d_ig : nat * nat;            (* ig_loc, 68-71 *)
  d_nxl : nat;                 (* nx_loc, 73 *)
  d_ix : nat * nat;            (* ix_loc, 74 *)
  d_g2s : list nat;            (* _g2sticks_loc, 83-85 *)
  d_sticks_cnt : list nat;     (* _sticks_bufspecv, 95 *)
  d_trans_cnt : list nat;      (* _trans_bufspecv, 96 *)
  d_t2f : list nat;            (* _trans2full, 100 *)
  d_g_cnt : list nat;          (* _scatter_g_bufspec, 125-131 *)
  d_r_cnt : list nat;          (* _scatter_r_bufspec, 135 *)
  d_fftx : worker; d_fftyz : worker }.

(** [FFTBackend(shape, axes)] asserts positive dimensions (backend/base.py 49). *)
Definition backend_ok (shape : list nat) : res unit := assert_ (forallb (fun n => Nat.ltb 0 n) shape).

(** gspace.py 26-135; [idx] is [gspc.idxgrid] (in the sorted order of GSpaceBase),
    [gx], [gyz] uninitialised work memory.  The serial attributes inherited from
    GSpaceBase.__init__ on the local G-vectors (108-113) are [dist_local_gspace]. *)
Definition dist_init (nx ny nz : nat) (idx : list nat) (norm : bool) (P r : nat) (gx gyz : worker)
  : res dist :=
  let iyz := map (iyz_of ny nz) idx in
  let iyz_sticks := np_unique iyz in
  let numsticks := length iyz_sticks in
  do sl <- nslice numsticks P r;
  let loc := slice sl iyz_sticks in
  let nsl := length loc in
  do ig <- ig_slice iyz loc;
  do nxl <- nlen nx P r;
  do ix <- nslice nx P r;
  do _ <- backend_ok [nx; nsl];
  do xlens <- nlen_all nx P;
  do slens <- nlen_all numsticks P;
  do _ <- backend_ok [nxl; ny; nz];
  do gcnt <- sequence (map (fun r' =>
      do s <- nslice numsticks P r';
      do g <- ig_slice iyz (slice s iyz_sticks);
      Ok (snd g - fst g)) (seq 0 P));
  Ok {| d_nx := nx; d_ny := ny; d_nz := nz; d_norm := norm; d_nsl := nsl; d_ig := ig;
        d_nxl := nxl; d_ix := ix;
        d_g2s := map (fun i => ix_of ny nz i * nsl + searchsorted loc (iyz_of ny nz i)) (slice ig idx);
        d_sticks_cnt := map (fun n => n * nsl) xlens;
        d_trans_cnt := map (fun n => n * nxl) slens;
        d_t2f := map (fun p => (p / nz) * nz + p mod nz) iyz_sticks;
        d_g_cnt := gcnt;
        d_r_cnt := map (fun n => n * ny * nz) xlens;
        d_fftx := set_bwd gx zeros; d_fftyz := set_bwd gyz zeros |}.

(** [np.split(buf, np.cumsum(counts)[:-1])] when the counts add up to the length. *)
Fixpoint split_counts {A} (counts : list nat) (l : list A) : list (list A) :=
  match counts with
  | [] => []
  | n :: c => firstn n l :: split_counts c (skipn n l)
  end.

(** [chunk.reshape((rows, -1)).T] flattened. *)
Definition transpose (rows : nat) (l : list C) : list C :=
  let cols := length l / rows in
  map (fun k => nth ((k mod rows) * cols + k / rows) l (RtoC 0)) (seq 0 (length l)).

(** MPI_Alltoallv: rank i sends the j-th chunk of its buffer (split by its send
    counts) to rank j; rank j expects recv_counts_j[i] items from i.  A mismatch
    (or a short buffer) is an MPI error. *)
Definition alltoallv (send : list (list C * list nat)) (recv : list (list nat)) : res (list (list C)) :=
  sequence (map (fun jc =>
    let '(j, rc) := jc in
    let chunks := map (fun s => nth j (split_counts (snd s) (fst s)) []) send in
    if list_eq_dec Nat.eq_dec (map (@length C) chunks) rc
    then Ok (concat chunks) else Err RuntimeError)
    (combine (seq 0 (length recv)) recv)).

Definition d_set (o : dist) (wx wyz : worker) : dist :=
  MkDist (d_nx o) (d_ny o) (d_nz o) (d_norm o) (d_nsl o) (d_ig o) (d_nxl o) (d_ix o) (d_g2s o)
    (d_sticks_cnt o) (d_trans_cnt o) (d_t2f o) (d_g_cnt o) (d_r_cnt o) wx wyz.

(** gspace.py 170-172: local part before the communication; inp_bwd is not
    cleared between calls. *)
Definition g2r_local1 (o : dist) (inp : list C) : dist :=
  let wx := set_bwd (d_fftx o) (put (inp_bwd (d_fftx o)) (d_g2s o) inp) in
  d_set o (w_ifft (fun s => dft_cols s (d_nx o) (d_nsl o)) (d_nx o) (d_norm o) wx) (d_fftyz o).
(** gspace.py 174-192: local part after the communication.  The in-place
    [np.concatenate(..., out=...)] writes each transposed chunk onto its own
    memory range, so it is modelled as concatenation of the transposed chunks. *)
Definition g2r_local2 (o : dist) (recv : list C) : dist * list C :=
  let trans := concat (map (transpose (d_nxl o)) (split_counts (d_trans_cnt o) recv)) in
  let nyz := d_ny o * d_nz o in
  let wyz := set_bwd (d_fftyz o)
     (put_rowsT (inp_bwd (d_fftyz o)) (d_nxl o) nyz (d_t2f o) 0 (load trans)) in
  let wyz := w_ifft (fun s => dft_yz s (d_ny o) (d_nz o)) nyz (d_norm o) wyz in
  (d_set o (d_fftx o) wyz, store (d_nxl o * nyz) (w_out wyz)).
(** gspace.py 165-192, [_g2r] on every rank. *)
Definition dist_g2r (os : list dist) (inps : list (list C)) : res (list dist * list (list C)) :=
  let os1 := map (fun p => g2r_local1 (fst p) (snd p)) (combine os inps) in
  do recv <- alltoallv
     (map (fun o => (store (d_nx o * d_nsl o) (w_out (d_fftx o)), d_sticks_cnt o)) os1)
     (map d_trans_cnt os1);
  let res2 := map (fun p => g2r_local2 (fst p) (snd p)) (combine os1 recv) in
  Ok (map fst res2, map snd res2).

(** gspace.py 142-143 *)
Definition r2g_local1 (o : dist) (inp : list C) : dist :=
  let wyz := set_fwd (d_fftyz o) (load inp) in
  d_set o (d_fftx o) (w_fft (fun s => dft_yz s (d_ny o) (d_nz o)) wyz).
(** the send buffer [work_trans] of shape (numsticks, nx_loc), 144-145 *)
Definition r2g_send (o : dist) : list C :=
  store (length (d_t2f o) * d_nxl o)
    (take_rowsT (w_out (d_fftyz o)) (d_nxl o) (d_ny o * d_nz o) (d_t2f o)).
(** gspace.py 147-163 *)
Definition r2g_local2 (o : dist) (recv : list C) : dist * list C :=
  let sticks := concat (map (transpose (d_nsl o)) (split_counts (d_sticks_cnt o) recv)) in
  let wx := w_fft (fun s => dft_cols s (d_nx o) (d_nsl o)) (set_fwd (d_fftx o) (load sticks)) in
  (d_set o wx (d_fftyz o), taken (w_out wx) (d_g2s o)).
(** gspace.py 137-163, [_r2g] on every rank. *)
Definition dist_r2g (os : list dist) (inps : list (list C)) : res (list dist * list (list C)) :=
  let os1 := map (fun p => r2g_local1 (fst p) (snd p)) (combine os inps) in
  do recv <- alltoallv (map (fun o => (r2g_send o, d_trans_cnt o)) os1) (map d_sticks_cnt os1);
  let res2 := map (fun p => r2g_local2 (fst p) (snd p)) (combine os1 recv) in
  Ok (map fst res2, map snd res2).

(** A collective call on the distributed object with one argument per rank. *)
Inductive dcall := DR2G (data : list (list C)) | DG2R (data : list (list C)).
Definition dist_call (os : list dist) (c : dcall) : res (list dist * list (list C)) :=
  match c with DR2G d => dist_r2g os d | DG2R d => dist_g2r os d end.
Fixpoint dist_run (os : list dist) (h : list dcall) : res (list dist) :=
  match h with
  | [] => Ok os
  | c :: h' => do r <- dist_call os c; dist_run (fst r) h'
  end.

(** All ranks construct their part. *)
Definition dist_init_all (nx ny nz : nat) (idx : list nat) (norm : bool) (P : nat)
  (gx gyz : nat -> worker) : res (list dist) :=
  sequence (map (fun r => dist_init nx ny nz idx norm P r (gx r) (gyz r)) (seq 0 P)).

(** gspace.py 108-113: [GSpaceBase.__init__] runs again on the local G-vectors
    [g_cryst[:, ig_loc]], with the global grid shape; it re-sorts them. *)
Definition dist_local_gspace (s : gspace) (o : dist) : res gspace :=
  gspace_base (gs_shape s) (slice (d_ig o) (gs_cryst s)).

(** [range(np.prod(shape))]: NumPy's product over an empty tuple is the float
    1.0, which [range] rejects. *)
Definition batch_range (shape : list nat) : res (list nat) :=
  match shape with
  | [] => Err TypeError
  | _ => Ok (seq 0 (fold_right Nat.mul 1 shape))
  end.

(** MPI_Scatterv / MPI_Gatherv with the counts of the root. *)
Definition scatterv (counts : list nat) (l : list C) : list (list C) := split_counts counts l.
Definition gatherv (parts : list (list C)) : list C := concat parts.

(** gspace.py 269-291, [scatter_g] (and 202-224, [scatter_r]): the root array has
    shape (shape..., size), [rows] are its rows; the result lists, for every rank,
    its rows. *)
Definition scatter_rows (counts : list nat) (shape : list nat) (rows : list (list C))
  : res (list (list (list C))) :=
  do it <- batch_range shape;
  Ok (map (fun r => map (fun iarr => nth r (scatterv counts (nth iarr rows [])) []) it)
        (seq 0 (length counts))).
(** gspace.py 293-331, [gather_g] with allgather=False at the root (and 226-264). *)
Definition gather_rows (shape : list nat) (parts : list (list (list C))) : res (list (list C)) :=
  do it <- batch_range shape;
  Ok (map (fun iarr => gatherv (map (fun p => nth iarr p []) parts)) it).
