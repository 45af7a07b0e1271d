(** Model of the density of a set of orbitals and of the real-time propagation:
    /repo/src/qtm/dft/kswfn.py (compute_rho), /repo/src/qtm/containers/wavefun.py
    (normalize, get_density), /repo/src/qtm/tddft_gamma/expoper/{base,taylor,splitoper}.py,
    /repo/src/qtm/tddft_gamma/prop/etrs.py.
    Exact complex arithmetic, one spin component, transforms through the FFT3DFull driver
    of FFTModel.v with normalise_idft = False. *)
From Verif Require Import Base GIndexModel LatModel GSphereModel CBase FFTModel KSHamModel.
Open Scope nat_scope.

(** A (numbnd, numpw) coefficient array. *)
Definition bands : Type := list (list C).

(* ------------------------------------------------------------------ *)
(** kswfn.compute_rho *)

(** wavefun.py 91-100, [norm2] of one row: np.vdot(wfn, wfn) (its real part; the imaginary part is 0). *)
Definition row_norm2 (psi : list C) : R := fst (vdot1 psi psi).
(** wavefun.py 106-108, [normalize]: every row divided by its norm. *)
Definition normalize (b : bands) : bands :=
  map (fun psi => map (fun c => c / RtoC (sqrt (row_norm2 psi)))%C psi) b.

(** wavefun.py 198-219, [get_density(normalize=False)] for one row. *)
Definition get_density (psi_r : list C) : list C := zip_with Cmult (map Cconj psi_r) psi_r.

(** What indexes the bands: a slice (basic indexing, the selected rows are a view) or a
    sequence of band numbers (fancy indexing, the selected rows are a copy). *)
Inductive selection := Slice (start stop : nat) | Bands (l : list nat).

Definition set_slice {A} (start : nat) (new l : list A) : list A :=
  firstn start l ++ new ++ skipn (start + length new) l.

(** kswfn.py 150-153: the sum over the selected rows of occ * density. *)
Fixpoint rho_sum (o : full) (rows : bands) (occ : list R) (acc : list C) : full * list C :=
  match rows, occ with
  | psi :: rows', f :: occ' =>
      let '(o1, psi_r) := full_g2r o psi in
      rho_sum o1 rows' occ' (zip_with Cplus acc (map (Cmult (RtoC f)) (get_density psi_r)))
  | _, _ => (o, acc)
  end.

(** kswfn.py 144-157, [compute_rho(ibnd, ret_raw=True)].  [npts] is the number of grid points,
    [vol] the cell volume.  Result: FFT object, the wavefunctions stored in the KSWfn
    afterwards, and the density on the grid.  With no row selected [sum] returns the int 0,
    which has no attribute gspc (154).  An index outside the array raises IndexError. *)
Definition compute_rho (npts : nat) (vol : R) (o : full) (evc : bands) (occ : list R) (ibnd : selection)
  : res (full * bands * list C) :=
  let zero := repeat (RtoC 0) npts in
  let scale rho := map (fun c => c / RtoC vol)%C rho in
  match ibnd with
  | Slice a b =>
      let rows := normalize (firstn (b - a) (skipn a evc)) in            (* 149: writes through the view *)
      if Nat.eqb (length rows) 0 then Err AttributeError else
      let '(o1, rho) := rho_sum o rows (firstn (b - a) (skipn a occ)) zero in
      Ok (o1, set_slice a rows evc, scale rho)
  | Bands l =>
      if forallb (fun i => Nat.ltb i (length evc)) l then
        let rows := map (fun i => nth i evc []) l in                     (* 149 normalises a copy *)
        if Nat.eqb (length rows) 0 then Err AttributeError else
        let '(o1, rho) := rho_sum o rows (map (fun i => nth i occ 0%R) l) zero in
        Ok (o1, evc, scale rho)
      else Err IndexError
  end.

(* ------------------------------------------------------------------ *)
(** Taylor propagator *)

(** The arrays a call of prop_psi works on: a small memory and the three local names that
    point into it. *)
Record tay := MkTay {
  t_mem : nat -> bands; t_psi : nat; t_hpsi : nat; t_prop : nat; t_fac : C; t_fft : full }.
Definition mset {A} (m : nat -> A) (p : nat) (v : A) : nat -> A := fun q => if Nat.eqb q p then v else m q.

(** scipy.linalg.blas.zaxpy: y += a * x, elementwise on the flattened arrays (taylor.py 78). *)
Definition axpy (a : C) (x y : bands) : bands := zip_with (zip_with (fun u v => a * u + v)%C) x y.

(** taylor.py 72-82: one pass of the loop. *)
Definition taylor_iter (h : ksham) (dt : R) (iorder : nat) (s : tay) : res tay :=
  do r <- h_psi h (t_fft s) (t_mem s (t_psi s)) (t_mem s (t_hpsi s));               (* 73 *)
  let m1 := mset (t_mem s) (t_hpsi s) (snd r) in
  let fac := (t_fac s * (- Ci * RtoC dt / RtoC (INR (iorder + 1))))%C in            (* 74 *)
  let m2 := mset m1 (t_prop s) (axpy fac (m1 (t_hpsi s)) (m1 (t_prop s))) in        (* 78 *)
  Ok (MkTay m2 (t_hpsi s) (t_psi s) (t_prop s) fac (fst r)).                        (* 82 *)
Fixpoint taylor_loop (h : ksham) (dt : R) (iters : list nat) (s : tay) : res tay :=
  match iters with
  | [] => Ok s
  | i :: l => do s1 <- taylor_iter h dt i s; taylor_loop h dt l s1
  end.

(** The attributes of a TaylorExp object (taylor.py 14-33, base.py 15-27). *)
Record taylor_exp := MkTaylor {
  te_ham : ksham; te_dt : R; te_order : nat; te_spin : bool; te_noncolin : bool }.
(** taylor.py 28-32: [order] must be a positive integer. *)
Definition taylor_init (h : ksham) (spin noncolin : bool) (dt : R) (order : Z) : res taylor_exp :=
  if (order <? 1)%Z then Err ValueError else Ok (MkTaylor h dt (Z.to_nat order) spin noncolin).

(** The KSWfn objects of the program: object number -> content of its evc_gk. *)
Definition heap : Type := nat -> bands.

(** taylor.py 35-85, [prop_psi]; [l_in] and [l_out] are lists of KSWfn objects (by number).
    set_idxspin raises a plain Exception (base.py 34-35), written RuntimeError here. *)
Definition taylor_prop (t : taylor_exp) (o : full) (m : heap) (l_in l_out : list nat) : res (full * heap) :=
  if te_noncolin t then Ok (o, m)                                                   (* 53-55 *)
  else if te_spin t then Err RuntimeError                                           (* 58-59 *)
  else match l_in, l_out with
  | src :: _, dst :: _ =>
      let evc := m src in
      let zeros := map (map (fun _ => RtoC 0)) evc in
      let s0 := MkTay (mset (mset (mset (fun _ => []) 0 evc) 1 zeros) 2 evc) 0 1 2 (RtoC 1) o in  (* 61-71 *)
      do s <- taylor_loop (te_ham t) (te_dt t) (seq 0 (te_order t)) s0;
      Ok (t_fft s, mset m dst (t_mem s (t_prop s)))                                 (* 84 *)
  | _, _ => Err IndexError
  end.

(** base.py 29-32, [update_vloc]. *)
Definition set_vloc (h : ksham) (v : list C) : ksham := MkKSHam (kh_lat h) (kh_k h) (kh_gs h) v (kh_nloc h).
Definition taylor_update (t : taylor_exp) (v : list C) : taylor_exp :=
  MkTaylor (set_vloc (te_ham t) v) (te_dt t) (te_order t) (te_spin t) (te_noncolin t).

(* ------------------------------------------------------------------ *)
(** Split-operator propagator without non-local projectors (l_nloc = []): splitoper.py 46,
    49-59, 70-81.  The loop of oper_nl (61-68) is then empty. *)
Record split_exp := MkSplit { se_ham : ksham; se_dt : R; se_expv : list C }.
(** splitoper.py 46: np.exp(-0.5j * time_step * ke_gk). *)
Definition exp_ke (s : split_exp) : list C :=
  map (fun e => cis (- (/ 2 * se_dt s * fst e))) (ke_gk (se_ham s)).
(** splitoper.py 49-54, [update_vloc]: np.exp(-1j * time_step * npts * vloc). *)
Definition split_update (npts : nat) (s : split_exp) (v : list C) : split_exp :=
  MkSplit (set_vloc (se_ham s) v) (se_dt s) (map (fun c => cis (- (se_dt s * INR npts * fst c))) v).
(** splitoper.py 56-59, [oper_ke]. *)
Definition oper_ke (s : split_exp) (b : bands) : bands := map (zip_with Cmult (exp_ke s)) b.
(** splitoper.py 70-73, [oper_vloc]. *)
Fixpoint oper_vloc (s : split_exp) (o : full) (b : bands) : full * bands :=
  match b with
  | [] => (o, [])
  | psi :: b' =>
      let '(o1, psi_r) := full_g2r o psi in
      let '(o2, r) := full_r2g o1 (zip_with Cmult psi_r (se_expv s)) in
      let '(o3, rs) := oper_vloc s o2 b' in (o3, r :: rs)
  end.
(** splitoper.py 75-81, [prop_psi]: [l_prop_psi[:] = l_psi] makes the output list refer to the
    *objects* of the input list, which are then updated in place.  The second component of
    the result is the output list after the call. *)
Definition split_prop (s : split_exp) (o : full) (m : heap) (l_in : list nat) : res (full * heap * list nat) :=
  match l_in with
  | obj :: _ =>
      let b := oper_ke s (m obj) in
      let '(o1, b) := oper_vloc s o b in
      Ok (o1, mset m obj (oper_ke s b), l_in)
  | [] => Err IndexError
  end.

(* ------------------------------------------------------------------ *)
(** ETRS step (prop/etrs.py 13-79) for one k-point and spin channel.  [dens] stands for
    k_weight * compute_rho(ret_raw=True).to_g() as a function of the (normalised) bands,
    [pot] for the callback compute_pot_local; both are arbitrary. *)
Section ETRS.
  Variable dens : bands -> list C.
  Variable pot : list C -> list C.
  (** prop/etrs.py 70: 0.5 * (rho + rho_pred). *)
  Definition midpoint (a b : list C) : list C := zip_with (fun x y => RtoC (/ 2) * (x + y))%C a b.

  (** [wfn] is the object wfn_gamma[0][0]; [prev] the fresh object of lines 46-58. *)
  Definition etrs_taylor (t : taylor_exp) (o : full) (m : heap) (wfn prev : nat) : res (full * heap * taylor_exp) :=
    let m := mset m prev (m wfn) in                                      (* 46-58 *)
    let m := mset m wfn (normalize (m wfn)) in                           (* 60, compute_rho *)
    let rho := dens (m wfn) in
    let t := taylor_update t (pot rho) in                                (* 62-63 *)
    do r <- taylor_prop t o m [prev] [wfn];                              (* 64 *)
    let '(o, m) := r in
    let m := mset m wfn (normalize (m wfn)) in                           (* 66-68 *)
    let rho_pred := midpoint rho (dens (m wfn)) in                       (* 70 *)
    let t := taylor_update t (pot rho_pred) in                           (* 74-75 *)
    do r <- taylor_prop t o m [prev] [wfn];                              (* 78 *)
    let '(o, m) := r in
    Ok (o, mset m wfn (normalize (m wfn)), t).                           (* 79, compute_rho *)

  (** The same function with the split-operator object; the list wfn_gamma[0] is part of the
      state because prop_psi changes which object it holds. *)
  Definition etrs_split (npts : nat) (s : split_exp) (o : full) (m : heap) (wfn prev : nat)
    : res (full * heap * list nat * split_exp) :=
    let hd l := nth 0 l prev in
    let m := mset m prev (m wfn) in
    let m := mset m wfn (normalize (m wfn)) in
    let rho := dens (m wfn) in
    let s := split_update npts s (pot rho) in
    do r <- split_prop s o m [prev];
    let '(o, m, l) := r in
    let m := mset m (hd l) (normalize (m (hd l))) in
    let rho_pred := midpoint rho (dens (m (hd l))) in
    let s := split_update npts s (pot rho_pred) in
    do r <- split_prop s o m [prev];
    let '(o, m, l) := r in
    Ok (o, mset m (hd l) (normalize (m (hd l))), l, s).
End ETRS.
