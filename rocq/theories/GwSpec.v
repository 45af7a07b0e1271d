(** Vocabulary for the GW properties (no code modelled): order of vectors, Hermitian and
    positive matrices, folding into the unit cell, momentum conservation. *)
From Coq Require Import Reals Lra.
From Verif Require Import Base LatModel GIndexModel CBase.
Open Scope R_scope.

(** Strict dictionary order on (key, x, y, z). *)
Definition dict_lt (a b : R * rvec) : Prop :=
  fst a < fst b \/ (fst a = fst b /\
  (vx (snd a) < vx (snd b) \/ (vx (snd a) = vx (snd b) /\
  (vy (snd a) < vy (snd b) \/ (vy (snd a) = vy (snd b) /\ vz (snd a) < vz (snd b)))))).

(** [r] is [x] rounded to ten decimals: a multiple of 1e-10 at distance at most half a unit. *)
Definition rounded_10 (x r : R) : Prop :=
  (exists n : Z, r = IZR n / 10 ^ 10) /\ Rabs (x - r) <= / 10 ^ 10 / 2.

(** Square complex matrices as entry functions. *)
Definition hermitian (n : nat) (A : nat -> nat -> C) : Prop :=
  forall i j, (i < n)%nat -> (j < n)%nat -> A i j = Cconj (A j i).
(** x^dagger A x *)
Definition quad (n : nat) (A : nat -> nat -> C) (x : nat -> C) : C :=
  csum n (fun i => csum n (fun j => Cconj (x i) * A i j * x j)%C).
Definition sqnorm (n : nat) (x : nat -> C) : R := rsum n (fun i => fst (x i) * fst (x i) + snd (x i) * snd (x i)).
Definition mprod (n : nat) (A B : nat -> nat -> C) : nat -> nat -> C :=
  fun i j => csum n (fun k => A i k * B k j)%C.
Definition ident : nat -> nat -> C := fun i j => if (i =? j)%nat then RtoC 1 else RtoC 0.
Definition mat_eq (n : nat) (A B : nat -> nat -> C) : Prop :=
  forall i j, (i < n)%nat -> (j < n)%nat -> A i j = B i j.
(** [B] is the inverse of [A] (what [np.linalg.inv] returns when it does not raise). *)
Definition inverse_of (n : nat) (A B : nat -> nat -> C) : Prop :=
  mat_eq n (mprod n A B) ident /\ mat_eq n (mprod n B A) ident.

(** The vectors [a] and [b] differ by a reciprocal lattice vector that the FFT grid cannot
    distinguish from zero. *)
Definition same_on_grid (nx ny nz : nat) (a b : Z * Z * Z) : Prop :=
  let '(a1, a2, a3) := a in let '(b1, b2, b3) := b in
  (exists k, a1 - b1 = k * Z.of_nat nx)%Z /\ (exists k, a2 - b2 = k * Z.of_nat ny)%Z /\
  (exists k, a3 - b3 = k * Z.of_nat nz)%Z.
Definition same_on_gridb (nx ny nz : nat) (a b : Z * Z * Z) : bool :=
  let '(a1, a2, a3) := a in let '(b1, b2, b3) := b in
  ((a1 - b1) mod Z.of_nat nx =? 0)%Z && ((a2 - b2) mod Z.of_nat ny =? 0)%Z
  && ((a3 - b3) mod Z.of_nat nz =? 0)%Z.
(** Crystal vector of an integer triple. *)
Definition zvec (g : Z * Z * Z) : rvec := let '(a, b, c) := g in V (IZR a) (IZR b) (IZR c).
