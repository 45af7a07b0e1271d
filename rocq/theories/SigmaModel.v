(** Model of /repo/src/qtm/gw/sigma.py: the class Sigma.  Numbers are exact.  The lists of wavefunctions are those of
    GwModel (per k-point: l_wfn and l_wfnq); the arrays l_epsinv_I and vcoul prepared by the constructor are data.
    Printing, autosave, tqdm and the Barriers are not modelled; einsum is its defining sum and raises ValueError when
    axis lengths differ (axes of length 1 are not broadcast). *)
From Coq Require Import Reals Lra.
From Verif Require Import Base SortModel LatModel GIndexModel CBase FFTModel GwModel.
Open Scope R_scope.

Record sigma_obj := MkSig {
  g_nx : nat; g_ny : nat; g_nz : nat;            (* gspace.grid_shape *)
  g_kpts : list kpt;                             (* kpts, l_wfn, l_wfnq *)
  g_lk : list nat;                               (* l_k_indices, lines 150-156 *)
  g_nbands : nat;                                (* sigmainp.number_bands *)
  g_b0 : nat; g_nket : nat;                      (* band_index_min - 1 and band_index_max - band_index_min + 1 *)
  g_q : list rvec;                               (* qpts.cryst *)
  g_isq0 : option (list bool);                   (* qpts.is_q0 *)
  g_iq0 : nat;                                   (* qpts.index_q0 *)
  g_gq : list (list vec3);                       (* l_gq[i_q].g_cryst *)
  g_v : list (list R);                           (* vcoul.vcoul[i_q] *)
  g_eps : list (list (list C));                  (* l_epsinv_I[i_q] *)
  g_factor : R }.                                (* sigma_factor *)

Definition tol : R := / 10 ^ 5.                  (* TOLERANCE, line 35 *)
Definition vnrm (v : rvec) : R := sqrt (vdot v v).  (* np.linalg.norm *)

(** lines 306-336, [index_minusq]: components larger than 1e-5 are replaced by one minus the component. *)
Definition minus1 (x : R) : R := if rltb tol (Rabs x) then 1 - x else 0.
Definition minusq_target (q : rvec) : rvec := V (minus1 (vx q)) (minus1 (vy q)) (minus1 (vz q)).
Definition index_minusq (qs : list rvec) (iq0 i : nat) : res nat :=
  do q <- item qs i;
  if rltb (vnrm q) tol || (iq0 =? i)%nat then Ok i
  else argmin (map (fun l => vnrm (vsub l (minusq_target q))) qs).
(** lines 338-363, [map_g_to_g_minusq]: position of the vector nearest to -(g+q) (a warning is printed when it is
    farther than 1e-5). *)
Definition zr (g : vec3) : rvec := let '(a, b, c) := g in V (IZR a) (IZR b) (IZR c).
Definition vopp (v : rvec) : rvec := V (- vx v) (- vy v) (- vz v).
Definition map_one (g' : list vec3) (q mq : rvec) (g : vec3) : res nat :=
  argmin (map (fun h => vnrm (vsub (vadd (zr h) mq) (vopp (vadd (zr g) q)))) g').
Definition map_g_to_g_minusq (g g' : list vec3) (q mq : rvec) : res (list nat) := sequence (map (map_one g' q mq) g).

(** ---- lines 415-607, [matrix_elements] ---- *)
(** What the method needs for one q-point, as a record of GwModel. *)
Definition at_q (S : sigma_obj) (i : nat) : epsilon :=
  MkEps (g_nx S) (g_ny S) (g_nz S) (g_kpts S) (g_nbands S) (nth i (g_q S) (V 0 0 0))
        (match g_isq0 S with None => false | Some l => nth i l false end) (nth i (g_gq S) []) 1.
(** lines 541-550: the first k-point close to k+q ([np.isclose] with rtol 1e-5 and the default atol 1e-8). *)
Definition close8 (a b : R) : bool := rleb (Rabs (a - b)) (/ 10 ^ 8 + tol * Rabs b).
Definition close8_3 (a b : rvec) : bool := close8 (vx a) (vx b) && close8 (vy a) (vy b) && close8 (vz a) (vz b).
Definition bra_of (E : epsilon) (kk : nat) : res nat :=
  match filter (fun kb => close8_3 (kp_cryst (kp E kb)) (l_kplusq E (kp_cryst (kp E kk)))) (seq 0 (length (e_kpts E))) with
  | [] => Err AssertionError
  | kb :: _ => Ok kb
  end.
Definition has_band (w : wfn) (b : nat) : res unit := if (b <? length (w_evc w))%nat then Ok tt else Err IndexError.
(** lines 570-600: one matrix element; both functions are divided by the number of grid points, the product is
    transformed and multiplied by it. *)
Definition mel (E : epsilon) (kb bb kk bk : nat) : res (list C) :=
  do idx <- driver_idx E kk;
  do _ <- has_band (wfn_v E kb) bb;
  do _ <- has_band (kp_wfn (kp E kk)) bk;
  let n := RtoC (INR (e_nx E * e_ny E * e_nz E)) in
  let phi_bra := map (fun z => (z / n)%C) (phi E (wfn_v E kb) bb) in
  let phi_ket := map (fun z => (z / n)%C) (phi E (kp_wfn (kp E kk)) bk) in
  let prod := map (fun p => (Cconj (fst p) * snd p)%C) (combine phi_ket phi_bra) in
  Ok (map (fun z => (n * z)%C) (snd (full_r2g (fft E idx) prod))).
(** lines 567-568: position of a k-point in the list of the call. *)
Fixpoint position (k : nat) (l : list nat) : nat := match l with [] => O | x :: t => if (x =? k)%nat then O else S (position k t) end.
(** lines 533-538, 567-600: the array M[k, ket] for one bra band; a repeated k-point fills the row of its first occurrence. *)
Definition marr : Type := nat -> nat -> list C.
Definition fill_row (S : sigma_obj) (E : epsilon) (bb : nat) (M : marr) (p : nat * nat) : res marr :=
  do row <- sequence (map (fun j => mel E (snd p) bb (fst p) (j + g_b0 S)) (seq 0 (g_nket S)));
  Ok (fun i j => if (i =? position (fst p) (g_lk S))%nat && (j <? g_nket S)%nat then nth j row [] else M i j).
Fixpoint fold_res {A B} (f : A -> B -> res A) (a : A) (l : list B) : res A :=
  match l with [] => Ok a | b :: t => do a' <- f a b; fold_res f a' t end.
(** The generator's values, one array per bra band: occupied bands, or all of them. *)
Definition mel_pairs (S : sigma_obj) (E : epsilon) : res (list (nat * nat)) :=
  sequence (map (fun kk => do kb <- bra_of E kk; Ok (kk, kb)) (g_lk S)).
Definition matrix_elements (S : sigma_obj) (i_q : nat) (bra_all : bool) : res (list marr) :=
  let E := at_q S i_q in
  do nv <- n_v_max E; do _ <- n_c_beg E;
  do pairs <- mel_pairs S E;
  sequence (map (fun bb => fold_res (fill_row S E bb) (fun _ _ => map (fun _ => RtoC 0) (e_gq E)) pairs)
                (seq 0 (if bra_all then g_nbands S else nv))).
(** M[..., g_to_mg] *)
Definition pick (l : list C) (idx : list nat) : list C := map (fun i => nth i l (RtoC 0)) idx.

(** ---- static self-energies ---- *)
(** Lines 752-785, 866-895: what is prepared for a q-point: the index of -q and the map of G-vectors, with q0 taken as 0. *)
Definition zeroed (S : sigma_obj) : list rvec :=
  map (fun p => if (fst p =? g_iq0 S)%nat then vscale 0 (snd p) else snd p) (combine (seq 0 (length (g_q S))) (g_q S)).
Definition prepare (S : sigma_obj) (i : nat) : res (nat * list nat) :=
  do im <- index_minusq (g_q S) (g_iq0 S) i;
  do q <- item (zeroed S) i; do mq <- item (zeroed S) im;
  do g <- item (g_gq S) i; do g' <- item (g_gq S) im;
  do m <- map_g_to_g_minusq g g' q mq;
  Ok (im, m).
Definition nsum (n : nat) (f : nat -> C) : C := csum n f.
Definition add_mats (l : list cmat) : cmat := fun i j => fold_left (fun acc (m : cmat) => (acc + m i j)%C) l (RtoC 0).
(** lines 790-811, [compute_sigma_q]: one term per bra band. *)
Definition x_term (v : list R) (m : list nat) (M : marr) : cmat := fun i j =>
  let r := pick (M i j) m in csum (length m) (fun g => Cconj (nth g r (RtoC 0)) * nth g r (RtoC 0) * RtoC (nth g v 0))%C.
Definition axis (b : bool) : res unit := if b then Ok tt else Err ValueError.
Definition x_q (S : sigma_obj) (i : nat) : res (list cmat) :=
  do p <- prepare S i; do v <- item (g_v S) i;
  do Ms <- matrix_elements S (fst p) false;
  do _ <- axis (length v =? length (snd p))%nat;
  Ok (map (x_term v (snd p)) Ms).
(** lines 900-934 / 1000-1045: conj(M_k) M_m epsinv_I[k,m] v[k]. *)
Definition ent (e : list (list C)) (k m : nat) : C := nth m (nth k e []) (RtoC 0).
Definition w_term (v : list R) (e : list (list C)) (m : list nat) (M : marr) : cmat := fun i j =>
  let r := pick (M i j) m in
  csum (length m) (fun k => csum (length m) (fun l => Cconj (nth k r (RtoC 0)) * nth l r (RtoC 0) * ent e k l * RtoC (nth k v 0)))%C.
Definition square_n (n : nat) (e : list (list C)) : bool := (length e =? n)%nat && forallb (fun r => (length r =? n)%nat) e.
Definition w_q (S : sigma_obj) (bra_all : bool) (i : nat) : res (list cmat) :=
  do p <- prepare S i; do e <- item (g_eps S) i; do v <- item (g_v S) i;
  do Ms <- matrix_elements S (fst p) bra_all;
  do _ <- axis ((length v =? length (snd p))%nat && square_n (length (snd p)) e);
  Ok (map (w_term v e (snd p)) Ms).
(** lines 885-895 of sigma_sx_static only: the sort of the plane waves of the k-point with the number of the q-point, with
    the key of l_gsp_wfnq at q0; its result is not used, but it raises when the lengths differ or the k-point is missing. *)
Definition sx_sort (S : sigma_obj) (i : nat) : res unit :=
  do k <- item (g_kpts S) i;
  let key := if (i =? g_iq0 S)%nat then kp_wfnq k else kp_wfn k in
  axis (length (gs_cryst (w_gk key)) =? length (gs_cryst (w_gk (kp_wfn k))))%nat.
Definition sx_q (S : sigma_obj) (i : nat) : res (list cmat) :=
  do p <- prepare S i; do e <- item (g_eps S) i; do _ <- sx_sort S i; w_q S false i.
(** The loop over q-points.  [yielding = true] accumulates band by band, [false] sums the bands first; [sign] is the
    sign of the accumulation.  Lines 813-831, 897-938. *)
Definition accumulate (yielding : bool) (sign : C) (acc : cmat) (terms : list cmat) : cmat :=
  if yielding then fold_left (fun a (t : cmat) => fun i j => (a i j + sign * t i j)%C) terms acc
  else fun i j => (acc i j + sign * csum (length terms) (fun b => nth b terms (fun _ _ => RtoC 0) i j))%C.
Definition over_q (yielding : bool) (sign : C) (f : nat -> res (list cmat)) (qs : list nat) : res cmat :=
  fold_res (fun acc i => do t <- f i; Ok (accumulate yielding sign acc t)) (fun _ _ => RtoC 0) qs.
(** In parallel every process runs over its part of the q-points; the results are gathered and summed. *)
Definition over_q_parallel (p : nat) (yielding : bool) (sign : C) (f : nat -> res (list cmat)) (nq : nat) : res cmat :=
  do parts <- sequence (map (over_q yielding sign f) (array_split (seq 0 nq) p));
  Ok (add_mats parts).
Definition scaled (c : R) (m : cmat) : cmat := fun i j => (m i j * RtoC c)%C.
(** [p = None]: serial; [Some p]: p processes. *)
Definition run (p : option nat) (yielding : bool) (sign : C) (f : nat -> res (list cmat)) (nq : nat) : res cmat :=
  match p with None => over_q yielding sign f (seq 0 nq) | Some n => over_q_parallel n yielding sign f nq end.
(** lines 728-841, [sigma_x] *)
Definition sigma_x (p : option nat) (yielding : bool) (S : sigma_obj) : res cmat :=
  do m <- run p yielding (RtoC (-1)) (x_q S) (length (g_q S)); Ok (scaled (g_factor S) m).
(** lines 843-949, [sigma_sx_static] *)
Definition sigma_sx_static (p : option nat) (yielding : bool) (S : sigma_obj) : res cmat :=
  do m <- run p yielding (RtoC 1) (sx_q S) (length (g_q S)); Ok (scaled (-1 * g_factor S) m).
(** lines 952-1041, [sigma_ch_static] *)
Definition sigma_ch_static (p : option nat) (yielding : bool) (S : sigma_obj) : res cmat :=
  do m <- run p yielding (RtoC 1) (w_q S true) (length (g_q S)); Ok (scaled (1 / 2 * g_factor S) m).
