(** Model of /repo/src/qtm/dft/kswfn.py, [KSWfn.indices_occupied] and
    [KSWfn.indices_empty] (lines 192-199).  An occupation is a number or NaN ([None]), for
    which both comparisons are false. *)
From Coq Require Import Reals.
From Verif Require Import Base.
Open Scope R_scope.

(** [self.occ >= 0.5] and [self.occ < 0.5] on one entry. *)
Definition at_least_half (o : option R) : bool :=
  match o with Some x => if Rle_dec (/ 2) x then true else false | None => false end.
Definition below_half (o : option R) : bool :=
  match o with Some x => if Rlt_dec x (/ 2) then true else false | None => false end.
(** [np.where(mask)[0]] *)
Definition where_ {A} (p : A -> bool) (d : A) (l : list A) : list nat :=
  filter (fun i => p (nth i l d)) (seq 0 (length l)).
Definition indices_occupied (occ : list (option R)) : list nat := where_ at_least_half None occ.
Definition indices_empty (occ : list (option R)) : list nat := where_ below_half None occ.
