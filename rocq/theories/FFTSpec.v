(** Specification vocabulary for the transform properties (no code modelled). *)
From Verif Require Import Base GIndexModel CBase.
Open Scope nat_scope.

(** exp(i G.r) at a grid point: G = (g1,g2,g3) in crystal coordinates, r = (x/nx, y/ny, z/nz). *)
Definition plane_wave (nx ny nz : nat) (g : vec3) (x y z : nat) : C :=
  let '(g1, g2, g3) := g in
  cis (2 * PI * (IZR g1 * (INR x / INR nx) + IZR g2 * (INR y / INR ny) + IZR g3 * (INR z / INR nz))).

(** The grid shape as the integer triple used by the G-space model. *)
Definition zshape (nx ny nz : nat) : shape3 := (Z.of_nat nx, Z.of_nat ny, Z.of_nat nz).


(** Multiplication of every coefficient by a constant. *)
Definition scaled (a : C) (v : list C) : list C := map (fun c => a * c)%C v.

(** Sum of squared moduli of a coefficient or field array. *)
Definition norm2 (v : list C) : R := fold_right (fun c acc => (fst c * fst c + snd c * snd c + acc)%R) 0%R v.
