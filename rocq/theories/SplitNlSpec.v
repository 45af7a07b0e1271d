(** Specification vocabulary for the exponential of an operator (no code modelled). *)
From Coq Require Import Reals.
From Coquelicot Require Import Hierarchy Series.
From Verif Require Import Base CBase KSHamSpec TddftSpec.
Open Scope nat_scope.

(** The complex series f 0 + f 1 + ... converges to l. *)
Definition sums_to (f : nat -> C) (l : C) : Prop :=
  @is_series R_AbsRing R_NormedModule (fun k => fst (f k)) (fst l) /\ @is_series R_AbsRing R_NormedModule (fun k => snd (f k)) (snd l).
(** phi = exp(a V) psi, component by component: phi_g = sum over k of a^k / k! (V^k psi)_g. *)
Definition is_exp_of (n : nat) (a : C) (V : nat -> nat -> C) (psi phi : list C) : Prop :=
  length phi = length psi /\
  forall g, g < n -> sums_to (fun k => exp_term a k * nth g (mat_pow n V k psi) (RtoC 0))%C (nth g phi (RtoC 0)).
(** V is its own conjugate transpose. *)
Definition hermitian (n : nat) (V : nat -> nat -> C) : Prop :=
  forall i j, i < n -> j < n -> V i j = Cconj (V j i).

(** The inverse of the overlaps of the projectors (rows of vkb). *)
Definition inverts_overlap (vkb : list (list C)) (inv : nat -> nat -> C) : Prop :=
  forall i j, i < length vkb -> j < length vkb ->
    csum (length vkb) (fun l => inv i l * braket (nth l vkb []) (nth j vkb []))%C = if Nat.eqb i j then RtoC 1 else RtoC 0.
(** The exponentials of a V_1, a V_2, ... applied one after another. *)
Fixpoint exp_chain (n : nat) (a : C) (Vs : list (nat -> nat -> C)) (psi phi : list C) : Prop :=
  match Vs with
  | [] => phi = psi
  | V :: r => exists mid, is_exp_of n a V psi mid /\ exp_chain n a r mid phi
  end.
