(** Vocabulary for the non-local pseudopotential: sums over lists, complex spherical
    harmonics of either sign of m, and the textbook separable operator. *)
From Coq Require Import Reals Lra.
From Verif Require Import Base LatModel CBase.
Open Scope R_scope.

(** Sum over a list. *)
Definition lsum {A} (l : list A) (f : A -> C) : C := fold_right (fun a s => (f a + s)%C) (RtoC 0) l.

(** Complex harmonic for any integer m from those with m >= 0, by the standard rule
    Y(l,-m) = (-1)^m conj Y(l,m). *)
Definition Y (ylm : nat -> nat -> R -> R -> C) (l : nat) (m : Z) (theta phi : R) : C :=
  if (m <? 0)%Z
  then ((if Z.even m then RtoC 1 else RtoC (-1)) * Cconj (ylm l (Z.to_nat (- m)) theta phi))%C
  else ylm l (Z.to_nat m) theta phi.

(** Sum over m = -l .. l of Y_lm(1) conj Y_lm(2): a function of the angle between the
    two directions only (addition theorem). *)
Definition angular ylm (l : nat) (t1 p1 t2 p2 : R) : C :=
  lsum (zrange (- Z.of_nat l) (Z.of_nat l + 1)) (fun m => (Y ylm l m t1 p1 * Cconj (Y ylm l m t2 p2))%C).

(** Real harmonics in the usual convention: for m > 0 sqrt2 (-1)^m Re Y(l,m), for m < 0
    sqrt2 (-1)^m Im Y(l,|m|), for m = 0 the complex one (which is real). *)
Definition real_harmonic (ylm : nat -> nat -> R -> R -> C) (l : nat) (m : Z) (theta phi : R) : C :=
  if (m =? 0)%Z then Y ylm l 0 theta phi
  else RtoC (sqrt 2 * (if Z.even m then 1 else -1)
             * (if (m <? 0)%Z then snd (ylm l (Z.to_nat (- m)) theta phi)
                else fst (ylm l (Z.to_nat m) theta phi))).

(** The projectors of a pseudopotential: (index, angular momentum). *)
Definition projectors (ls : list nat) : list (nat * nat) := combine (seq 0 (length ls)) ls.

(** The separable (Kleinman-Bylander) operator between two plane waves.  [f b g] is the
    radial factor of projector b at plane wave g, [gk g] its crystal coordinates:
      sum over atoms of exp(-2 pi i tau.(G - G'))
      times the sum over pairs of projectors of equal l of D f_b(g) f_b'(g') times
      the angular factor. *)
Definition kb_operator ylm (ls : list nat) (D f : nat -> nat -> R) (theta phi : nat -> R)
    (gk : nat -> rvec) (pos : list rvec) (g g' : nat) : C :=
  lsum pos (fun tau =>
    (cis (- (2 * PI * vdot tau (vsub (gk g) (gk g')))) *
     lsum (projectors ls) (fun x => lsum (projectors ls) (fun y =>
       if (snd x =? snd y)%nat
       then RtoC (D (fst x) (fst y) * f (fst x) g * f (fst y) g')
            * angular ylm (snd x) (theta g) (phi g) (theta g') (phi g')
       else RtoC 0)))%C).
