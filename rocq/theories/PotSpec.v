(** Specification vocabulary for the Hartree term (no code modelled). *)
From Verif Require Import Base GIndexModel LatModel GSphereModel CBase FFTModel FFTSpec PotModel.
Open Scope nat_scope.

(** A G-space that was constructed successfully, with a non-degenerate lattice. *)
Definition constructed (G : gsp) : Prop :=
  (exists P, mk_lattice P = Ok (gp_lat G))
  /\ exists gs, gspace_base (zshape (gp_nx G) (gp_ny G) (gp_nz G)) gs = Ok (gp_gs G).

(** The k-th G-vector in crystal coordinates. *)
Definition gv (G : gsp) (k : nat) : vec3 := nth k (gs_cryst (gp_gs G)) (0, 0, 0)%Z.

(** Is it the zero vector? *)
Definition is_zero (g : vec3) : bool := let '(a, b, c) := g in ((a =? 0) && (b =? 0) && (c =? 0))%Z.

(** Its squared Cartesian length. *)
Definition sq_length (G : gsp) (k : nat) : R := let w := cryst2cart (gp_lat G) (gvec (gv G k)) in vdot w w.

(** The textbook Coulomb coefficient 4 pi rho_G / |G|^2, dropped at G = 0. *)
Definition coulomb (G : gsp) (rho : nat -> C) (k : nat) : C :=
  if is_zero (gv G k) then RtoC 0
  else (RtoC (4 * PI) * rho k / RtoC (sq_length G k))%C.

(** Value of the periodic function with Fourier coefficients [f] at a grid point
    (1/N sum_G f_G e^{iGr}). *)
Definition fourier_series (G : gsp) (f : nat -> C) (x y z : nat) : C :=
  (/ RtoC (INR (gp_nx G * gp_ny G * gp_nz G)) *
   csum (gp_size G) (fun k => f k * plane_wave (gp_nx G) (gp_ny G) (gp_nz G) (gv G k) x y z))%C.

(** Sum over all grid points. *)
Definition over_grid (G : gsp) (f : nat -> nat -> nat -> C) : C :=
  csum (gp_nx G) (fun x => csum (gp_ny G) (fun y => csum (gp_nz G) (fun z => f x y z))).

(** Entry of a real-space array at a grid point. *)
Definition at_point (G : gsp) (v : list C) (x y z : nat) : C :=
  nth ((x * gp_ny G + y) * gp_nz G + z) v (RtoC 0).
Definition on_grid (G : gsp) (x y z : nat) : Prop := x < gp_nx G /\ y < gp_ny G /\ z < gp_nz G.

(** The total charge density coefficients: one or two spin channels summed. *)
Definition total (rho : list (list C)) (k : nat) : C :=
  fold_right (fun r acc => nth k r (RtoC 0) + acc)%C (RtoC 0) rho.

(** Admissible densities: one or two channels of the right length. *)
Definition is_density (G : gsp) (rho : list (list C)) : Prop :=
  (length rho = 1 \/ length rho = 2) /\ forall r, In r rho -> length r = gp_size G.

(** Dot product of the k-th G-vector with a Cartesian position. *)
Definition g_dot (G : gsp) (k : nat) (r : rvec) : R := vdot (cryst2cart (gp_lat G) (gvec (gv G k))) r.
(** The function sum_G f_G e^{iG.r} of a Cartesian position. *)
Definition trig_sum (G : gsp) (f : nat -> C) (r : rvec) : C :=
  csum (gp_size G) (fun k => f k * cis (g_dot G k r))%C.
(** The three Cartesian unit vectors. *)
Definition unit_axis (c : nat) : rvec := match c with 0 => V 1 0 0 | 1 => V 0 1 0 | _ => V 0 0 1 end%R.
(** [d] is the partial derivative of the complex function [F] along axis [c] at [r]. *)
Definition partial_derivative (F : rvec -> C) (c : nat) (r : rvec) (d : C) : Prop :=
  derivable_pt_lim (fun t => fst (F (vadd r (vscale t (unit_axis c))))) 0 (fst d)
  /\ derivable_pt_lim (fun t => snd (F (vadd r (vscale t (unit_axis c))))) 0 (snd d).
