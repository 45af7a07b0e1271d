(** Model of the FFT libraries' wrappers: /repo/src/qtm/fft/backend/*.py, and of the transforms
    of fft/full.py, fft/sticks.py and mpi/gspace.py run on any of them.  What a library
    computes is its documented contract (scaling, and which arrays it may destroy); the
    transform itself is the parameter [dft] of FFTModel.v. *)
From Coq Require Import Reals String.
From Verif Require Import Base SortModel CBase FFTModel DistModel.
Open Scope nat_scope.

Inductive library := NumpyLib | ScipyLib | PyfftwLib | MklLib | CupyLib.

(** The [norm] argument of numpy.fft / scipy.fft / cupyx.scipy.fft: [None] is "backward". *)
Inductive norm_opt := NormNone | NormBackward | NormForward.
Definition np_fftn (dft : Z -> arr -> arr) (n : nat) (o : norm_opt) (a : arr) : arr := fun i =>
  match o with NormForward => Cdiv (dft (-1)%Z a i) (RtoC (INR n)) | _ => dft (-1)%Z a i end.
Definition np_ifftn (dft : Z -> arr -> arr) (n : nat) (o : norm_opt) (a : arr) : arr := fun i =>
  match o with NormForward => dft 1%Z a i | _ => Cdiv (dft 1%Z a i) (RtoC (INR n)) end.
(** mkl_fft: the forward transform is multiplied by [forward_scale], the backward one divided
    by n times it. *)
Definition mkl_fftn (dft : Z -> arr -> arr) (scale : R) (a : arr) : arr := fun i =>
  Cmult (RtoC scale) (dft (-1)%Z a i).
Definition mkl_ifftn (dft : Z -> arr -> arr) (n : nat) (scale : R) (a : arr) : arr := fun i =>
  Cdiv (dft 1%Z a i) (RtoC (INR n * scale)).
(** pyfftw.FFTW objects. *)
Definition fftw_forward (dft : Z -> arr -> arr) (a : arr) : arr := dft (-1)%Z a.
Definition fftw_backward (dft : Z -> arr -> arr) (n : nat) (normalise_idft : bool) (a : arr) : arr := fun i =>
  if normalise_idft then Cdiv (dft 1%Z a i) (RtoC (INR n)) else dft 1%Z a i.

(** [fft()]: numpy_.py 24-25, scipy_.py 26-33, pyfftw_.py 61-63, mklfft_.py 27-28, cupy_.py 27-30. *)
Definition b_fft (lib : library) (dft : Z -> arr -> arr) (n : nat) (w : worker) : worker :=
  MkWorker (inp_fwd w) (inp_bwd w)
    (match lib with
     | NumpyLib | ScipyLib | CupyLib => np_fftn dft n NormNone (inp_fwd w)
     | MklLib => mkl_fftn dft 1 (inp_fwd w)
     | PyfftwLib => fftw_forward dft (inp_fwd w)
     end).
(** [ifft(normalise_idft)]: numpy_.py 27-33, scipy_.py 35-43, pyfftw_.py 65-70, mklfft_.py
    20-21 and 30-35, cupy_.py 32-39.  The CuPy wrapper passes [overwrite_x=True]: the input
    array may be destroyed, [junk] is what is left in it. *)
Definition b_ifft (lib : library) (junk : arr -> arr) (dft : Z -> arr -> arr) (n : nat) (normalise : bool) (w : worker) : worker :=
  MkWorker (inp_fwd w)
    (match lib with CupyLib => junk (inp_bwd w) | _ => inp_bwd w end)
    (match lib with
     | NumpyLib | ScipyLib | CupyLib => np_ifftn dft n (if normalise then NormBackward else NormForward) (inp_bwd w)
     | MklLib => mkl_ifftn dft n (if normalise then 1%R else (1 / INR n)%R) (inp_bwd w)
     | PyfftwLib => fftw_backward dft n normalise (inp_bwd w)
     end).

(** full.py 34-45 on library [lib]. *)
Definition bfull_call (lib : library) (junk : arr -> arr) (o : full) (c : call) : full * list C :=
  let dft := fun s => dft_xyz s (f_nx o) (f_ny o) (f_nz o) in
  let n := f_nx o * f_ny o * f_nz o in
  match c with
  | R2G d =>
      let w := b_fft lib dft n (set_fwd (f_w o) (load d)) in
      (f_set o w, taken (w_out w) (f_idx o))
  | G2R d =>
      let w := set_bwd (f_w o) zeros in
      let w := set_bwd w (put (inp_bwd w) (f_idx o) d) in
      let w := b_ifft lib junk dft n (f_norm o) w in
      (f_set o w, store n (w_out w))
  end.
Definition bfull_run lib junk (o : full) (h : list call) : full := fold_left (fun o c => fst (bfull_call lib junk o c)) h o.

(** sticks.py 61-78 on library [lib]. *)
Definition bsticks_call (lib : library) (junk : arr -> arr) (o : sticks) (c : call) : sticks * list C :=
  let nyz := s_ny o * s_nz o in
  let dyz := fun s => dft_yz s (s_ny o) (s_nz o) in
  let dx := fun s => dft_rows s (s_nx o) in
  match c with
  | R2G d =>
      let wyz := b_fft lib dyz nyz (set_fwd (s_fftyz o) (load d)) in
      let wx := set_fwd (s_fftx o) (take_rowsT (w_out wyz) (s_nx o) nyz (s_sticks2full o)) in
      let wx := b_fft lib dx (s_nx o) wx in
      (s_set o wx wyz, taken (w_out wx) (s_g2sticks o))
  | G2R d =>
      let wx := set_bwd (s_fftx o) zeros in
      let wyz := set_bwd (s_fftyz o) zeros in
      let wx := set_bwd wx (put (inp_bwd wx) (s_g2sticks o) d) in
      let wx := b_ifft lib junk dx (s_nx o) (s_norm o) wx in
      let wyz := set_bwd wyz (put_rowsT (inp_bwd wyz) (s_nx o) nyz (s_sticks2full o) 0 (w_out wx)) in
      let wyz := b_ifft lib junk dyz nyz (s_norm o) wyz in
      (s_set o wx wyz, store (s_nx o * nyz) (w_out wyz))
  end.
Definition bsticks_run lib junk (o : sticks) (h : list call) : sticks := fold_left (fun o c => fst (bsticks_call lib junk o c)) h o.

(** mpi/gspace.py 137-192 on library [lib]: as DistModel, the backward input arrays are not
    cleared between calls. *)
Definition bg2r_local1 lib junk (o : dist) (inp : list C) : dist :=
  let wx := set_bwd (d_fftx o) (put (inp_bwd (d_fftx o)) (d_g2s o) inp) in
  d_set o (b_ifft lib junk (fun s => dft_cols s (d_nx o) (d_nsl o)) (d_nx o) (d_norm o) wx) (d_fftyz o).
Definition bg2r_local2 lib junk (o : dist) (recv : list C) : dist * list C :=
  let trans := concat (map (transpose (d_nxl o)) (split_counts (d_trans_cnt o) recv)) in
  let nyz := d_ny o * d_nz o in
  let wyz := set_bwd (d_fftyz o)
     (put_rowsT (inp_bwd (d_fftyz o)) (d_nxl o) nyz (d_t2f o) 0 (load trans)) in
  let wyz := b_ifft lib junk (fun s => dft_yz s (d_ny o) (d_nz o)) nyz (d_norm o) wyz in
  (d_set o (d_fftx o) wyz, store (d_nxl o * nyz) (w_out wyz)).
Definition bdist_g2r lib junk (os : list dist) (inps : list (list C)) : res (list dist * list (list C)) :=
  let os1 := map (fun p => bg2r_local1 lib junk (fst p) (snd p)) (combine os inps) in
  do recv <- alltoallv
     (map (fun o => (store (d_nx o * d_nsl o) (w_out (d_fftx o)), d_sticks_cnt o)) os1)
     (map d_trans_cnt os1);
  let res2 := map (fun p => bg2r_local2 lib junk (fst p) (snd p)) (combine os1 recv) in
  Ok (map fst res2, map snd res2).
Definition br2g_local1 lib (o : dist) (inp : list C) : dist :=
  let wyz := set_fwd (d_fftyz o) (load inp) in
  d_set o (d_fftx o) (b_fft lib (fun s => dft_yz s (d_ny o) (d_nz o)) (d_ny o * d_nz o) wyz).
Definition br2g_local2 lib (o : dist) (recv : list C) : dist * list C :=
  let sticks := concat (map (transpose (d_nsl o)) (split_counts (d_sticks_cnt o) recv)) in
  let wx := b_fft lib (fun s => dft_cols s (d_nx o) (d_nsl o)) (d_nx o) (set_fwd (d_fftx o) (load sticks)) in
  (d_set o wx (d_fftyz o), taken (w_out wx) (d_g2s o)).
Definition bdist_r2g lib (os : list dist) (inps : list (list C)) : res (list dist * list (list C)) :=
  let os1 := map (fun p => br2g_local1 lib (fst p) (snd p)) (combine os inps) in
  do recv <- alltoallv (map (fun o => (r2g_send o, d_trans_cnt o)) os1) (map d_sticks_cnt os1);
  let res2 := map (fun p => br2g_local2 lib (fst p) (snd p)) (combine os1 recv) in
  Ok (map fst res2, map snd res2).
Definition bdist_call lib junk (os : list dist) (c : dcall) : res (list dist * list (list C)) :=
  match c with DR2G d => bdist_r2g lib os d | DG2R d => bdist_g2r lib junk os d end.
Fixpoint bdist_run lib junk (os : list dist) (h : list dcall) : res (list dist) :=
  match h with
  | [] => Ok os
  | c :: h' => do r <- bdist_call lib junk os c; bdist_run lib junk (fst r) h'
  end.

(** backend/__init__.py 43-64: the table of wrappers; [installed] is [find_spec]. *)
Definition backend_map (installed : string -> bool) (name : string) : option library :=
  if (name =? "numpy")%string then Some NumpyLib
  else if (name =? "scipy")%string then Some ScipyLib
  else if (name =? "pyfftw")%string then (if installed name then Some PyfftwLib else None)
  else if (name =? "mkl_fft")%string then (if installed name then Some MklLib else None)
  else if (name =? "cupy")%string then (if installed name then Some CupyLib else None)
  else None.
(** backend/__init__.py 67-95, [get_FFTBackend].  The message of the ValueError (line 93) is
    built by msg_format.py 66-73, which indexes a string with a tuple: TypeError. *)
Definition get_FFTBackend (installed : string -> bool) (cupy_flag : bool) (backend : option string) : res library :=
  match backend with
  | None => Err TypeError
  | Some name =>
      if (name =? "cupy")%string && negb cupy_flag then Err RuntimeError
      else match backend_map installed name with Some l => Ok l | None => Err TypeError end
  end.
