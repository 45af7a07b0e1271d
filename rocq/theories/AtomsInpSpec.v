(** Vocabulary for C102 (no code modelled). *)
From Verif Require Import Base LatModel CrystalModel AtomsInpModel IbravSpec.
Import ListNotations.
Local Open Scope R_scope.

(** The five ways of giving positions. *)
Inductive form := FCart | FBohr | FAngstrom | FAlat | FCryst.
Definition build (f : form) label pp m U args : res species :=
  match f with
  | FCart => atoms_from_cart label pp m U args
  | FBohr => atoms_from_bohr label pp m U args
  | FAngstrom => atoms_from_angstrom label pp m U args
  | FAlat => atoms_from_alat label pp m U args
  | FCryst => atoms_from_cryst label pp m U args
  end.
(** The point in space (bohr) a triple of numbers stands for, in a cell with axes a1 a2 a3 and unit [alat]. *)
Definition place (f : form) (alat : R) (a1 a2 a3 : rvec) (x y z : R) : rvec :=
  match f with
  | FCart | FBohr => V x y z
  | FAngstrom => V (angstrom_in_bohr * x) (angstrom_in_bohr * y) (angstrom_in_bohr * z)
  | FAlat => V (alat * x) (alat * y) (alat * z)
  | FCryst => V (x * vx a1 + y * vx a2 + z * vx a3) (x * vy a1 + y * vy a2 + z * vy a3) (x * vz a1 + y * vz a2 + z * vz a3)
  end.
(** A pseudopotential argument and a mass the class accepts. *)
Definition pp_ok (pp : ppdata) : Prop := pp <> PPBad.
Definition mass_ok (m : mass_arg) : Prop := m = MNone \/ exists x, m = MFloat x /\ 0 <= x.
Definition triple (p : R * R * R) : pyarg := Pt [fst (fst p); snd (fst p); snd p].
Definition of_length (n : nat) (a : pyarg) : Prop := exists v, a = Pt v /\ length v = n.
