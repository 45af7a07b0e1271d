(** Specification vocabulary for the preparation of a self-energy calculation (no code modelled). *)
From Coq Require Import Reals.
From Verif Require Import Base LatModel GIndexModel CBase.
Open Scope R_scope.

Definition is_zero (g : vec3) : bool := let '(a, b, c) := g in ((a =? 0) && (b =? 0) && (c =? 0))%Z.
(** A dielectric matrix as a function of the two plane waves, with head and wings replaced:
    at q0 the wings vanish; elsewhere the column G'=0 and the row G=0 are rescaled. *)
Definition wings_removed (W : vec3 -> vec3 -> C) (g g' : vec3) : C :=
  if is_zero g && is_zero g' then W g g' else if is_zero g || is_zero g' then RtoC 0 else W g g'.
Definition wings_rescaled (oneoverq v qlen : R) (W : vec3 -> vec3 -> C) (g g' : vec3) : C :=
  if is_zero g && is_zero g' then W g g'
  else if is_zero g then (RtoC (oneoverq / (v * qlen)) * W g g')%C
  else if is_zero g' then (RtoC (oneoverq * qlen / (8 * PI)) * W g g')%C
  else W g g'.
Definition kron (i j : nat) : C := if Nat.eqb i j then RtoC 1 else RtoC 0.
(** G + q in crystal coordinates. *)
Definition shifted_by (q : rvec) (g : vec3) : rvec :=
  let '(a, b, c) := g in V (IZR a + vx q) (IZR b + vy q) (IZR c + vz q).
