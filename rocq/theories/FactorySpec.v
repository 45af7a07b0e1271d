(** Vocabulary for C109 (no code modelled). *)
From Verif Require Import Base FactoryModel.
From Coq Require Import String.
Local Open Scope nat_scope.
Local Notation length := List.length.

(** Two argument values Python considers equal. *)
Definition same_value (a b : pyval) : Prop :=
  (exists z, number a = Some z /\ number b = Some z) \/ (exists s, a = VSpace s /\ b = VSpace s) \/ (exists i, a = VOther i /\ b = VOther i).
(** Two calls written alike: equal positional arguments, the same keywords in the same order with equal values. *)
Definition written_alike (pos : list pyval) (kw : list kwarg) (pos' : list pyval) (kw' : list kwarg) : Prop :=
  Forall2 same_value pos pos' /\ Forall2 (fun x y => fst x = fst y /\ same_value (snd x) (snd y)) kw kw'.
(** [later m m']: the program went from state [m] to [m'] by calls of factories, successful or not. *)
Inductive later : st -> st -> Prop :=
| later_refl : forall m, later m m
| later_call : forall m m1 m2 f pos kw r, later m m1 -> call f pos kw m1 = (m2, r) -> later m m2.
(** The six ways of writing the arguments: the space, and the spin count for wavefunctions. *)
Definition kind_of (f : factory) : kind := match f with Get k | GetDist k => k end.
Definition space_name (f : factory) : string :=
  match f with
  | Get FieldG | Get FieldR => "gspc" | Get _ => "gkspc"
  | GetDist FieldG | GetDist FieldR => "dist_gspc" | GetDist _ => "dist_gkspc"
  end%string.
Inductive stands_for (f : factory) : list pyval -> list kwarg -> space -> list pyval -> Prop :=
| field_pos s : is_wavefun (kind_of f) = false -> stands_for f [VSpace s] [] s []
| field_kw s : is_wavefun (kind_of f) = false -> stands_for f [] [(space_name f, VSpace s)] s []
| wfn_pos s v : is_wavefun (kind_of f) = true -> stands_for f [VSpace s; v] [] s [v]
| wfn_mixed s v : is_wavefun (kind_of f) = true -> stands_for f [VSpace s] [("numspin"%string, v)] s [v]
| wfn_kw s v : is_wavefun (kind_of f) = true -> stands_for f [] [(space_name f, VSpace s); ("numspin"%string, v)] s [v]
| wfn_swapped s v : is_wavefun (kind_of f) = true -> stands_for f [] [("numspin"%string, v); (space_name f, VSpace s)] s [v].
(** Number of coefficients of one container over the space. *)
Definition coefficients (k : kind) (s : space) : Z := Z.of_nat (if is_real k then size_r s else size_g s).
