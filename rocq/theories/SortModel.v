(** NumPy sorting primitives used by the modelled code: stable [np.lexsort] /
    [np.argsort(kind="stable")] as insertion sort on (key, position) pairs, and
    fancy indexing [arr[idx]] ([np.take]).  These model NumPy, not /repo; their
    contracts (sorted, stable, permutation) are proved in SortProofs.v. *)
From Verif Require Import Base.

Section Sort.
  Context {A : Type}.
  Variable leb : A -> A -> bool.

  Fixpoint insert (x : A) (l : list A) : list A :=
    match l with
    | [] => [x]
    | y :: t => if leb x y then x :: l else y :: insert x t
    end.
  Definition isort (l : list A) : list A := fold_right insert [] l.
End Sort.

(** [np.argsort(keys, kind="stable")]: positions ordered by key, ties by
    position. *)
Definition argsort {K} (leb : K -> K -> bool) (keys : list K) : list nat :=
  map snd (isort (fun p q => leb (fst p) (fst q)) (combine keys (seq 0 (length keys)))).

(** [arr[idx]] for an index array; [d] is only reached for out-of-range
    positions, which the theorems exclude. *)
Definition take {A} (d : A) (l : list A) (idx : list nat) : list A :=
  map (fun i => nth i l d) idx.

(** [np.unique(a)]: the sorted distinct values. *)
Fixpoint drop_adjacent (l : list nat) : list nat :=
  match l with
  | [] => []
  | x :: t => match t with
              | [] => [x]
              | y :: _ => if Nat.eqb x y then drop_adjacent t else x :: drop_adjacent t
              end
  end.
Definition np_unique (l : list nat) : list nat := drop_adjacent (isort Nat.leb l).

(** [np.searchsorted(a, v)] (side "left" / "right") on a sorted array: the number
    of entries below / not above [v]. *)
Definition searchsorted (a : list nat) (v : nat) : nat :=
  length (filter (fun x => Nat.ltb x v) a).
Definition searchsorted_right (a : list nat) (v : nat) : nat :=
  length (filter (fun x => Nat.leb x v) a).
