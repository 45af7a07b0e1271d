(** Specification vocabulary for the Ewald energy (no code modelled). *)
From Verif Require Import Base GIndexModel LatModel GSphereModel PotModel PotSpec EwaldModel CBase.
Open Scope R_scope.

(** An atom: charge and crystal coordinates. *)
Definition atom : Type := (R * rvec)%type.
Definition atoms (l : list species) : list atom := flat_map (fun sp => map (pair (valence sp)) (r_cryst sp)) l.
Definition no_atom : atom := (0, V 0 0 0).

(** Finite sum over a list. *)
Definition lsum {A} (l : list A) (f : A -> R) : R := fold_right (fun x acc => f x + acc) 0 l.

(** Distance between atom [a] displaced by the lattice vector N and atom [b]. *)
Definition distance (L : lattice) (a b : atom) (N : vec3) : R :=
  vnorm (cryst2cart L (vadd (gvec N) (vsub (snd a) (snd b)))).
(** Screened Coulomb interaction q q' erfc(sqrt(alpha) d)/d. *)
Definition screened (erfc : R -> R) (alpha : R) (L : lattice) (a b : atom) (N : vec3) : R :=
  fst a * fst b * erfc (sqrt alpha * distance L a b N) / distance L a b N.
(** sum over ordered pairs of atoms of a list; a pair (a, a) of one atom with itself
    counts when [self] holds. *)
Definition pair_sum (self : bool) (l : list atom) (f : atom -> atom -> R) : R :=
  rsum (length l) (fun i => rsum (length l) (fun j =>
    if (negb self && Nat.eqb i j)%bool then 0 else f (nth i l no_atom) (nth j l no_atom))).
(** S(G) = sum_a q_a e^{-2 pi i G.r_a} *)
Definition structure_factor (l : list atom) (g : vec3) : C :=
  fold_right (fun a acc => RtoC (fst a) * cis (- (2 * PI * vdot (gvec g) (snd a))) + acc)%C (RtoC 0) l.
Definition total_charge (l : list atom) : R := lsum l fst.

(** The textbook Ewald sum with screening parameter alpha, real-space cells [cells] and the
    reciprocal vectors of [G]. *)
Definition ewald_sum (erfc : R -> R) (alpha : R) (L : lattice) (G : gsp) (box : list vec3) (l : list atom) : R :=
  1 / 2 * lsum box (fun N => pair_sum (negb (is_zero N)) l (fun a b => screened erfc alpha L a b N))
  + 2 * PI / cellvol L *
    (rsum (gp_size G) (fun k => if is_zero (gv G k) then 0 else
       exp (- sq_length G k / (4 * alpha)) / sq_length G k * (Cmod (structure_factor l (gv G k)) * Cmod (structure_factor l (gv G k))))
     - total_charge l * total_charge l / (4 * alpha))
  - sqrt (alpha / PI) * lsum l (fun a => fst a * fst a).

(** All integer triples with |N_i| <= n_i. *)
Definition in_box (n1 n2 n3 : Z) (N : vec3) : Prop :=
  let '(a, b, c) := N in (Z.abs a <= n1 /\ Z.abs b <= n2 /\ Z.abs c <= n3)%Z.
