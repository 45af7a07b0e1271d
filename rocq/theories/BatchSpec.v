(** Specification vocabulary for the batched transforms (C99). *)
From Verif Require Import Base GIndexModel CBase BufferModel DistBufSpec FFTModel FFTSpec BatchModel.
Open Scope nat_scope.

(** An array with the given leading shape, last axis of length n, and one stride per axis. *)
Definition array_of (lead : list nat) (n : nat) (v : view) : Prop :=
  v_nd v = true /\ v_shape v = lead ++ [n] /\ length (v_str v) = length (v_shape v).

(** The address belongs to an element of the array. *)
Definition holds (v : view) (a : Z) : Prop := exists idx, inside (v_shape v) idx /\ a = cell v idx.

(** Different elements of the array are different cells of memory. *)
Definition distinct (v : view) : Prop :=
  forall i j, inside (v_shape v) i -> inside (v_shape v) j -> cell v i = cell v j -> i = j.

(** No cell belongs to both arrays. *)
Definition apart (v w : view) : Prop := forall a, holds v a -> holds w a -> False.

(** Everything in the array lies below the first unused address. *)
Definition allocated (h : heap) (v : view) : Prop := forall a, holds v a -> (a < h_brk h)%Z.

(** The rows of the array (runs along the last axis), taken in C order of the leading
    indices, start at evenly spaced addresses. *)
Definition even_rows (lead : list nat) (v : view) : Prop :=
  exists t : Z, forall idx, inside lead idx ->
    cell v (idx ++ [0]) = (v_off v + Z.of_nat (ravel lead idx) * t)%Z.

(** Number of rows. *)
Definition row_count (lead : list nat) : nat := fold_right Nat.mul 1 lead.

(** The G-space [s] on an nx x ny x nz grid, with an FFT object of either kind that has
    been used in any way before. *)
Definition serves (nx ny nz : nat) (s : gspace) (norm : bool) (sp : space) : Prop :=
  sp_r sp = nx * ny * nz /\ sp_g sp = length (gs_cryst s) /\
  ((exists garbage history,
      sp_fft sp = Full (full_run (full_init nx ny nz (map Z.to_nat (gs_idxgrid s)) norm garbage) history)) \/
   (exists garbage garbage' history,
      sp_fft sp = Sticks (sticks_run (sticks_init nx ny nz (map Z.to_nat (gs_idxgrid s)) norm garbage garbage') history))).

(** The Fourier sum of coefficients c at a grid point. *)
Definition fourier (nx ny nz : nat) (s : gspace) (norm : bool) (c : nat -> C) (x y z : nat) : C :=
  ((if norm then / RtoC (INR (nx * ny * nz)) else RtoC 1) *
   csum (length (gs_cryst s)) (fun k => c k * plane_wave nx ny nz (nth k (gs_cryst s) (0, 0, 0)%Z) x y z))%C.

(** The projection of a grid function f (flat index) on the k-th plane wave. *)
Definition projection (nx ny nz : nat) (s : gspace) (f : nat -> C) (k : nat) : C :=
  csum nx (fun x => csum ny (fun y => csum nz (fun z =>
    f ((x * ny + y) * nz + z)%nat * Cconj (plane_wave nx ny nz (nth k (gs_cryst s) (0, 0, 0)%Z) x y z))))%C.

(** An argument the transforms accept: of the array class, at least one axis, last axis of length n. *)
Definition fits (n : nat) (v : view) : Prop := v_nd v = true /\ exists lead, v_shape v = lead ++ [n].
(** The exception for an argument that does not fit. *)
Definition complaint (v : view) : exn := if v_nd v then ValueError else TypeError.
