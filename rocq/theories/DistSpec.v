(** Specification vocabulary for the distributed G-space (no code modelled). *)
From Verif Require Import Base GIndexModel CBase FFTModel DistModel.
Open Scope nat_scope.

(** The stick (line of grid points along x) of a G-vector: its (y, z) grid coordinates. *)
Definition stick (ny nz : nat) (g : vec3) : Z * Z :=
  let '(_, g2, g3) := g in ((g2 mod Z.of_nat ny)%Z, (g3 mod Z.of_nat nz)%Z).

Definition zz_dec : forall a b : Z * Z, {a = b} + {a <> b}.
Proof. decide equality; apply Z.eq_dec. Defined.

(** Number of distinct sticks occupied by a list of G-vectors. *)
Definition num_sticks (ny nz : nat) (gs : list vec3) : nat :=
  length (nodup zz_dec (map (stick ny nz) gs)).

(** A call of the serial transform with arrays of the right size. *)
Definition well_sized (ngrid ng : nat) (c : call) : Prop :=
  match c with R2G f => length f = ngrid | G2R v => length v = ng end.

(** The collective call obtained by scattering the argument of a serial call. *)
Definition scattered (gcnt rcnt : list nat) (c : call) : dcall :=
  match c with R2G f => DR2G (scatterv rcnt f) | G2R v => DG2R (scatterv gcnt v) end.
