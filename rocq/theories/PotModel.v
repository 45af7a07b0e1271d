(** Model of the Hartree potential and of the G-space gradient and divergence.
    Sources: /repo/src/qtm/pot/hartree.py and /repo/src/qtm/pot/utils.py, over exact
    complex numbers; the FFT object is the one of FFTModel. *)
From Verif Require Import Base GIndexModel LatModel GSphereModel CBase FFTModel KSHamModel BufferModel.
Open Scope nat_scope.

(** The attributes of a GSpace the potential code reads (gspace/base.py 122-168):
    reciprocal lattice, FFT grid dimensions, G-vectors. *)
Record gsp := MkGsp { gp_lat : lattice; gp_nx : nat; gp_ny : nat; gp_nz : nat; gp_gs : gspace }.
Definition gp_size (G : gsp) : nat := length (gs_cryst (gp_gs G)).
Definition gp_n (G : gsp) : nat := gp_nx G * gp_ny G * gp_nz G.
(** base.py 175-178 [g_cart] and 186-189 [g_norm2] of the k-th G-vector. *)
Definition gp_cart (G : gsp) (k : nat) : rvec := cryst2cart (gp_lat G) (gvec (nth k (gs_cryst (gp_gs G)) (0, 0, 0)%Z)).
Definition gp_norm2 (G : gsp) (k : nat) : R := g_norm2 (gp_lat G) (gvec (nth k (gs_cryst (gp_gs G)) (0, 0, 0)%Z)).
(** base.py 152-154: cell volume TPI^3/recilat.cellvol and volume element. *)
Definition gp_cellvol (G : gsp) : R := (TPI * TPI * TPI / cellvol (gp_lat G))%R.
Definition gp_dv (G : gsp) : R := (gp_cellvol G / INR (gp_n G))%R.
(** constants.py: FPI = 4*pi. *)
Definition FPI : R := (4 * PI)%R.

(** utils.py 11-18, [check_rho] (the type test holds by construction): one or two spin
    components. *)
Definition check_rho (rho : list (list C)) : res unit :=
  if (Nat.eqb (length rho) 1 || Nat.eqb (length rho) 2) then Ok tt else Err ValueError.

(** Python's [sum(rho)]: 0 + rho[0] (+ rho[1]), hartree.py 28. *)
Definition spin_sum (rho : list (list C)) : list C :=
  match rho with
  | [] => []
  | a :: r => fold_left (fun acc b => zip_with Cplus acc b) r (map (fun c => RtoC 0 + c)%C a)
  end.

(** hartree.py 29-33: v_g = FPI*rho; v_g /= g_norm2; entry 0 is set to 0 when the space
    contains G = 0.  (Elsewhere the division is by a positive number, see PotProofs.) *)
Definition hartree_vg (G : gsp) (rho : list C) : list C :=
  map (fun k => if (gs_has_g0 (gp_gs G) && Nat.eqb k 0)%bool then RtoC 0
                else (RtoC FPI * nth k rho (RtoC 0) / RtoC (gp_norm2 G k))%C)
      (seq 0 (length rho)).

(** hartree.py 11-38, [compute]; [o] is the FFT object of the G-space (shared, stateful);
    result: new state, v_g.to_r() and en_hart.real. *)
Definition hartree (G : gsp) (o : full) (rho : list (list C)) : res (full * list C * R) :=
  do _ <- check_rho rho;
  let rho := spin_sum rho in
  let v_g := hartree_vg G rho in
  let en := (RtoC (/ 2) * fold_right Cplus (RtoC 0) (zip_with (fun a b => Cconj a * b)%C rho v_g))%C in
  let en := (en * RtoC (gp_dv G / INR (gp_n G)))%C in
  let '(o', v_r) := full_g2r o v_g in
  Ok (o', v_r, fst en).

(** The Cartesian component of a vector, by index 0, 1, 2. *)
Definition rcomp (v : rvec) (a : nat) : R := match a with 0 => vx v | 1 => vy v | _ => vz v end.

(** utils.py 21-26, [fieldg_grad], on arrays of any shape (..., ng):
    data[..., newaxis, :] * 1j * g_cart has shape (..., 3, ng). *)
Definition fieldg_grad (G : gsp) (a : @nd C) : @nd C :=
  MkNd (removelast (shape a) ++ [3; last (shape a) 0])
       (fun js => let k := last js 0 in let c := last (removelast js) 0 in
          (at_ a (removelast (removelast js) ++ [k]) * Ci * RtoC (rcomp (gp_cart G k) c))%C).

(** NumPy's resolution of a (possibly negative) axis. *)
Definition np_axis (ndim : nat) (axis : Z) : option nat :=
  if ((- Z.of_nat ndim <=? axis) && (axis <? Z.of_nat ndim))%Z
  then Some (Z.to_nat (if (axis <? 0)%Z then axis + Z.of_nat ndim else axis)) else None.
(** Remove / insert the component at a position of a multi-index. *)
Definition drop_at (p : nat) (js : list nat) : list nat := firstn p js ++ skipn (S p) js.
Definition insert_at (p i : nat) (js : list nat) : list nat := firstn p js ++ i :: skipn p js.
(** np.sum(a, axis=p) *)
Definition np_sum_axis (p : nat) (a : @nd C) : @nd C :=
  MkNd (drop_at p (shape a)) (fun js => csum (nth p (shape a) 0) (fun i => at_ a (insert_at p i js))).

(** utils.py 29-42, [fieldg_div].  [field_g.shape] excludes the last axis; the product with
    g_cart of shape (3, ng) broadcasts against the last two axes of the data (its last axis
    is ng by the class invariant) and fails with ValueError when the one before it is
    neither 3 nor 1; the constructor (buffer.py 80-87) wraps whatever array it is given. *)
Definition fieldg_div (G : gsp) (axis : Z) (a : @nd C) : res (@nd C) :=
  let sh := shape a in
  let ndim := length sh in
  match np_axis (ndim - 1) axis with
  | None => Err IndexError
  | Some p =>
      if negb (Nat.eqb (nth p sh 0) 3) then Err ValueError else
      let d := nth (ndim - 2) sh 0 in
      if negb (Nat.eqb d 3 || Nat.eqb d 1) then Err ValueError else
      let prod := MkNd (firstn (ndim - 2) sh ++ [3; last sh 0])
        (fun js => let k := last js 0 in let c := last (removelast js) 0 in
           (at_ a (removelast (removelast js) ++ [(if Nat.eqb d 3 then c else 0%nat); k])
            * (Ci * RtoC (rcomp (gp_cart G k) c)))%C) in
      match np_axis ndim (axis - 1) with
      | None => Err IndexError
      | Some q => Ok (np_sum_axis q prod)
      end
  end.
