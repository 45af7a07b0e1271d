(** Model of /repo/src/qtm/pseudo/loc.py over exact reals: Simpson quadrature, radial
    transform, superposition of atomic densities and the local pseudopotential.  [erf] is a
    parameter.  Radial arrays are functions of the mesh index with a number of points. *)
From Verif Require Import Base GIndexModel LatModel GSphereModel PotModel CBase.
Open Scope R_scope.

(** [a[start:stop:2]] for 0 <= start, stop <= len(a): number of entries. *)
Definition len_step2 (start stop : nat) : nat := ((stop - start + 1) / 2)%nat.

(** loc.py 36-44, [_simpson_old]: sum of f_r[0:n-2:2] + 4 f_r[1:n-1:2] + f_r[2:n:2], divided by 3.
    The three slices have equal lengths for n >= 2; entry m of a[s::2] is a[s+2m]. *)
Definition simpson_old (n : nat) (f rab : nat -> R) : R :=
  let f_r i := f i * rab i in
  1 / 3 * rsum (len_step2 0 (n - 2)) (fun m => f_r (2 * m)%nat + 4 * f_r (2 * m + 1)%nat + f_r (2 * m + 2)%nat).

(** np.sinc(g*r/PI) = sin(g r)/(g r), 1 at 0. *)
Definition sinc (t : R) : R := if Req_EM_T t 0 then 1 else sin t / t.

(** loc.py 52-56: the weights r_ab/3, times 4 on [1:-1:2], times 2 on [2:-1:2]. *)
Definition weight (n : nat) (rab : nat -> R) (i : nat) : R :=
  let w := rab i * (1 / 3) in
  if (i <? n - 1)%nat then
    if Nat.even i then (if Nat.eqb i 0 then w else w * 2) else w * 4
  else w.

(** loc.py 47-65, [_sph2pw], the coefficient at |G| = g of one row: the value at r[0] is stored
    (57) and the loop (61-64) then adds all mesh points, r[0] included. *)
Definition sph2pw (n : nat) (r rab f : nat -> R) (g : R) : R :=
  sinc (g * r 0%nat) * f 0%nat * weight n rab 0
  + rsum n (fun i => sinc (g * r i) * f i * weight n rab i).

(** Shapes in [_sph2pw]: with [rows] rows and ng G-vectors, line 57 multiplies arrays of shapes
    (ng,) and (rows,) and assigns the result to an array (rows, ng); lines 61-64 multiply (ng, 1)
    and (rows, 1).  With one row every coefficient uses row 0; with two rows the products are
    only defined for ng = 2, where entry k uses row k in both output rows (ng = 1 fails in the
    assignment). *)
Definition row_used (rows ng : nat) : option (nat -> nat -> nat) :=   (* output row, k -> row *)
  if Nat.eqb rows 1 then Some (fun _ _ => 0%nat)
  else if Nat.eqb rows ng then Some (fun _ k => k) else None.

(** loc.py 112-114 and 176-178: structure factor accumulated atom by atom. *)
Definition sp_struct_fac (pos : list rvec) (g : rvec) : C :=
  fold_left (fun acc r => acc + cis (-2 * PI * vdot r g))%C pos (RtoC 0).

(** Radial data of a pseudopotential (upf.py): mesh and functions. *)
Record upf := MkUpf {
  u_n : nat; u_r : nat -> R; u_rab : nat -> R;
  u_rhoatom : nat -> R; u_vloc : nat -> R; u_zval : R;
  u_core : bool; u_rho_atc : nat -> R }.

Definition gnorm (G : gsp) (k : nat) : R := sqrt (gp_norm2 G k).
Definition at_g0 (G : gsp) (k : nat) : bool := (gs_has_g0 (gp_gs G) && Nat.eqb k 0)%bool.
Definition gvec_at (G : gsp) (k : nat) : rvec := gvec (nth k (gs_cryst (gp_gs G)) (0, 0, 0)%Z).

(** loc.py 81-130, [loc_generate_rhoatomic] (the argument checks hold by construction). *)
Definition rhoatomic (G : gsp) (u : upf) (pos : list rvec) : list C :=
  map (fun k => (RtoC (if at_g0 G k then simpson_old (u_n u) (u_rhoatom u) (u_rab u)
                       else sph2pw (u_n u) (u_r u) (u_rab u) (u_rhoatom u) (gnorm G k))
                 * (sp_struct_fac pos (gvec_at G k) / RtoC (gp_dv G)))%C)
      (seq 0 (gp_size G)).

(** loc.py 134-216, [loc_generate_pot_rhocore]: (v_ion, rho_core).  At k <> 0 line 201 divides by
    |G|^2 > 0. *)
Definition pot_rhocore (erf : R -> R) (G : gsp) (u : upf) (pos : list rvec) : res (list C * list C) :=
  let rows := if u_core u then 2%nat else 1%nat in
  match row_used rows (gp_size G) with
  | None => Err ValueError
  | Some row =>
    let frow p i := match p with
      | O => (u_vloc u i * u_r u i + u_zval u * erf (u_r u i)) * u_r u i
      | _ => u_rho_atc u i * (u_r u i * u_r u i) end in
    let f_g p k := sph2pw (u_n u) (u_r u) (u_rab u) (frow (row p k)) (gnorm G k) in
    let v k := if at_g0 G k
      then simpson_old (u_n u) (fun i => u_r u i * (u_r u i * u_vloc u i + u_zval u)) (u_rab u)
      else f_g 0%nat k - u_zval u * exp (- gp_norm2 G k / 4) / gp_norm2 G k in
    let c k := if u_core u then
        (if at_g0 G k then simpson_old (u_n u) (fun i => u_rho_atc u i * (u_r u i * u_r u i)) (u_rab u)
         else f_g 1%nat k)
      else 0 in
    let scale k := (RtoC (4 * PI / gp_cellvol G) * RtoC (INR (gp_n G)) * sp_struct_fac pos (gvec_at G k))%C in
    Ok (map (fun k => (RtoC (v k) * scale k)%C) (seq 0 (gp_size G)),
        map (fun k => (RtoC (c k) * scale k)%C) (seq 0 (gp_size G)))
  end.
