(** Specification vocabulary for the exchange-correlation matrix elements (no code modelled). *)
From Verif Require Import Base GIndexModel LatModel GSphereModel CBase FFTSpec.
Open Scope nat_scope.

(** Sum of a real function over the points of the grid. *)
Definition over_grid (nx ny nz : nat) (f : nat -> nat -> nat -> R) : R :=
  rsum nx (fun x => rsum ny (fun y => rsum nz (fun z => f x y z))).
(** |z|^2 *)
Definition square_modulus (z : C) : R := (fst z * fst z + snd z * snd z)%R.
(** Real part at a grid point of the channels of a potential, added up. *)
Definition total_potential (ny nz : nat) (v_xc : list (list C)) (x y z : nat) : R :=
  fold_right Rplus 0%R (map (fun v => fst (nth ((x * ny + y) * nz + z) v (RtoC 0))) v_xc).
(** Matrix element of a potential between two plane waves. *)
Definition potential_element (nx ny nz : nat) (v : nat -> nat -> nat -> R) (g h : vec3) : C :=
  (csum nx (fun x => csum ny (fun y => csum nz (fun z =>
     Cconj (plane_wave nx ny nz g x y z) * RtoC (v x y z) * plane_wave nx ny nz h x y z))) / RtoC (INR (nx * ny * nz)))%C.
