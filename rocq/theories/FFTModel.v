(** Model of the Fourier transforms between G-space coefficients and the real
    space grid.  Source: /repo/src/qtm/fft/base.py, full.py, sticks.py and
    fft/backend/*.py.  Arrays are total functions from flat (C-order) positions to
    exact complex numbers; a Python array of length n is read through
    [load]/[store]. *)
From Verif Require Import Base SortModel CBase.
Open Scope nat_scope.

Definition arr : Type := nat -> C.

(** [buf[:] = data] for a flat list of data. *)
Definition load (l : list C) : arr := fun i => nth i l (RtoC 0).
(** Contents of the first [n] positions. *)
Definition store (n : nat) (a : arr) : list C := map a (seq 0 n).
(** [buf.fill(0.0)] *)
Definition zeros : arr := fun _ => RtoC 0.
(** [buf.put(idx, vals)] / [buf.reshape(-1)[idx] = vals] with equally long
    operands: positions are written in order. *)
Definition upd (a : arr) (p : nat) (v : C) : arr := fun i => if Nat.eqb i p then v else a i.
Fixpoint put (a : arr) (idx : list nat) (vals : list C) : arr :=
  match idx, vals with
  | p :: idx', v :: vals' => put (upd a p v) idx' vals'
  | _, _ => a
  end.
(** [arr.take(idx)] on the flattened array. *)
Definition taken (a : arr) (idx : list nat) : list C := map a idx.

(** The DFT kernel exp(s 2 pi i j k / n); s = -1 forward, +1 backward. *)
Definition kern (s : Z) (n j k : nat) : C := root n (s * Z.of_nat j * Z.of_nat k).

(** What the FFT library computes (its documented contract; the libraries
    themselves are not modelled), for the four (shape, axes) combinations the
    code creates. *)
(** shape (nx, ny, nz), axes (0, 1, 2) - full.py 28-31 *)
Definition dft_xyz (s : Z) (nx ny nz : nat) (a : arr) : arr := fun i =>
  let kx := i / (ny * nz) in let ky := (i / nz) mod ny in let kz := i mod nz in
  csum nx (fun x => csum ny (fun y => csum nz (fun z =>
    Cmult (a ((x * ny + y) * nz + z))
          (Cmult (kern s nx x kx) (Cmult (kern s ny y ky) (kern s nz z kz)))))).
(** shape (_, ny, nz), axes (1, 2) - sticks.py 57, mpi/gspace.py 101 *)
Definition dft_yz (s : Z) (ny nz : nat) (a : arr) : arr := fun i =>
  let x := i / (ny * nz) in let ky := (i / nz) mod ny in let kz := i mod nz in
  csum ny (fun y => csum nz (fun z =>
    Cmult (a ((x * ny + y) * nz + z)) (Cmult (kern s ny y ky) (kern s nz z kz)))).
(** shape (rows, n), axes (1,) - sticks.py 48 *)
Definition dft_rows (s : Z) (n : nat) (a : arr) : arr := fun i =>
  csum n (fun j => Cmult (a (i / n * n + j)) (kern s n j (i mod n))).
(** shape (n, cols), axes (0,) - mpi/gspace.py 78 *)
Definition dft_cols (s : Z) (n cols : nat) (a : arr) : arr := fun i =>
  csum n (fun j => Cmult (a (j * cols + i mod cols)) (kern s n j (i / cols))).

(** backend/base.py 40-76: preallocated input buffers; [w_out] is PyFFTW's
    shared output array (pyfftw_.py 25, 57-70); NumPy and SciPy return a fresh
    array with the same contents. *)
Record worker := MkWorker { inp_fwd : arr; inp_bwd : arr; w_out : arr }.
Definition set_fwd (w : worker) (a : arr) := MkWorker a (inp_bwd w) (w_out w).
Definition set_bwd (w : worker) (a : arr) := MkWorker (inp_fwd w) a (w_out w).
(** [worker.fft()] / [worker.ifft(normalise)]; [dft] is the transform of the
    worker's axes, [n] the product of the lengths of those axes. *)
Definition w_fft (dft : Z -> arr -> arr) (w : worker) : worker :=
  MkWorker (inp_fwd w) (inp_bwd w) (dft (-1)%Z (inp_fwd w)).
Definition w_ifft (dft : Z -> arr -> arr) (n : nat) (normalise : bool) (w : worker) : worker :=
  MkWorker (inp_fwd w) (inp_bwd w)
    (fun i => if normalise then Cdiv (dft 1%Z (inp_bwd w) i) (RtoC (INR n))
              else dft 1%Z (inp_bwd w) i).

(** full.py 11-45, [FFT3DFull]: shape, idxgrid, normalise_idft, worker. *)
Record full := MkFull {
  f_nx : nat; f_ny : nat; f_nz : nat; f_idx : list nat; f_norm : bool; f_w : worker }.
Definition f_set (o : full) (w : worker) :=
  MkFull (f_nx o) (f_ny o) (f_nz o) (f_idx o) (f_norm o) w.
(** full.py 19-32: the buffers are uninitialised memory [g] except that inp_bwd
    is zeroed. *)
Definition full_init (nx ny nz : nat) (idx : list nat) (norm : bool) (g : worker) : full :=
  MkFull nx ny nz idx norm (set_bwd g zeros).
(** full.py 34-37 *)
Definition full_r2g (o : full) (arr_inp : list C) : full * list C :=
  let w := set_fwd (f_w o) (load arr_inp) in
  let w := w_fft (fun s => dft_xyz s (f_nx o) (f_ny o) (f_nz o)) w in
  (f_set o w, taken (w_out w) (f_idx o)).
(** full.py 39-45; the copy [arr_out[:] = ...] *)
Definition full_g2r_buf (o : full) (arr_inp : list C) : full :=
  let w := set_bwd (f_w o) zeros in
  let w := set_bwd w (put (inp_bwd w) (f_idx o) arr_inp) in
  f_set o (w_ifft (fun s => dft_xyz s (f_nx o) (f_ny o) (f_nz o))
             (f_nx o * f_ny o * f_nz o) (f_norm o) w).
Definition full_g2r (o : full) (arr_inp : list C) : full * list C :=
  let o' := full_g2r_buf o arr_inp in
  (o', store (f_nx o * f_ny o * f_nz o) (w_out (f_w o'))).

(** sticks.py 11-78, [FFT3DSticks]. *)
Record sticks := MkSticks {
  s_nx : nat; s_ny : nat; s_nz : nat; s_norm : bool;
  s_g2sticks : list nat;       (* sticks.py 45 *)
  s_sticks2full : list nat;    (* sticks.py 55 *)
  s_fftx : worker; s_fftyz : worker }.
Definition s_set (o : sticks) (wx wyz : worker) :=
  MkSticks (s_nx o) (s_ny o) (s_nz o) (s_norm o) (s_g2sticks o) (s_sticks2full o) wx wyz.

(** sticks.py 32-37: x index and y*nz+z index of a flat grid position. *)
Definition ix_of (ny nz i : nat) : nat := i / (ny * nz).
Definition iyz_of (ny nz i : nat) : nat := ((i / nz) mod ny) * nz + i mod nz.

(** sticks.py 19-59; [gx], [gyz] stand for uninitialised memory. *)
Definition sticks_init (nx ny nz : nat) (idx : list nat) (norm : bool) (gx gyz : worker) : sticks :=
  let iyz := map (iyz_of ny nz) idx in
  let iyz_sticks := np_unique iyz in
  MkSticks nx ny nz norm
    (map (fun i => nx * searchsorted iyz_sticks (iyz_of ny nz i) + ix_of ny nz i) idx)
    (map (fun p => (p / nz) * nz + p mod nz) iyz_sticks)
    (set_bwd gx zeros) (set_bwd gyz zeros).

(** [buf.reshape((nx, -1)).T[rows] = vals2d]: row r of the transposed view is
    the column r of the (nx, nyz) array; [vals] has shape (len(rows), nx). *)
Fixpoint put_rowsT (a : arr) (nx nyz : nat) (rows : list nat) (k : nat) (vals : arr) : arr :=
  match rows with
  | [] => a
  | r :: rows' =>
      put_rowsT (fun i => if Nat.eqb (i mod nyz) r then vals (k * nx + i / nyz) else a i)
        nx nyz rows' (S k) vals
  end.
(** [buf.reshape((nx, -1)).T.take(rows, axis=0)] of shape (len(rows), nx). *)
Definition take_rowsT (a : arr) (nx nyz : nat) (rows : list nat) : arr := fun i =>
  a ((i mod nx) * nyz + nth (i / nx) rows 0).

(** sticks.py 61-68 *)
Definition sticks_r2g (o : sticks) (arr_inp : list C) : sticks * list C :=
  let nyz := s_ny o * s_nz o in
  let wyz := set_fwd (s_fftyz o) (load arr_inp) in
  let wyz := w_fft (fun s => dft_yz s (s_ny o) (s_nz o)) wyz in
  let wx := set_fwd (s_fftx o) (take_rowsT (w_out wyz) (s_nx o) nyz (s_sticks2full o)) in
  let wx := w_fft (fun s => dft_rows s (s_nx o)) wx in
  (s_set o wx wyz, taken (w_out wx) (s_g2sticks o)).

(** sticks.py 70-78 *)
Definition sticks_g2r (o : sticks) (arr_inp : list C) : sticks * list C :=
  let nyz := s_ny o * s_nz o in
  let wx := set_bwd (s_fftx o) zeros in
  let wyz := set_bwd (s_fftyz o) zeros in
  let wx := set_bwd wx (put (inp_bwd wx) (s_g2sticks o) arr_inp) in
  let wx := w_ifft (fun s => dft_rows s (s_nx o)) (s_nx o) (s_norm o) wx in
  let wyz := set_bwd wyz (put_rowsT (inp_bwd wyz) (s_nx o) nyz (s_sticks2full o) 0 (w_out wx)) in
  let wyz := w_ifft (fun s => dft_yz s (s_ny o) (s_nz o)) nyz (s_norm o) wyz in
  (s_set o wx wyz, store (s_nx o * nyz) (w_out wyz)).

(** A call on an FFT object (base.py 78-104, the two abstract methods). *)
Inductive call := R2G (data : list C) | G2R (data : list C).
Definition full_call (o : full) (c : call) : full * list C :=
  match c with R2G d => full_r2g o d | G2R d => full_g2r o d end.
Definition sticks_call (o : sticks) (c : call) : sticks * list C :=
  match c with R2G d => sticks_r2g o d | G2R d => sticks_g2r o d end.
(** A history of calls on one object. *)
Definition full_run (o : full) (h : list call) : full := fold_left (fun o c => fst (full_call o c)) h o.
Definition sticks_run (o : sticks) (h : list call) : sticks := fold_left (fun o c => fst (sticks_call o c)) h o.
