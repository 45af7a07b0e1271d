(** Vocabulary for C25: space groups, the group average of a field given by its Fourier
    coefficients, and the field in real space. *)
From Verif Require Import Base LatModel GIndexModel GSphereModel SymmModel CBase.

Definition int_vec (x : rvec) : Prop := exists a b c : Z, x = V (IZR a) (IZR b) (IZR c).
(** Equal up to a lattice translation (crystal coordinates). *)
Definition eq_mod1 (x y : rvec) : Prop := int_vec (vsub x y).

(** Product of integer matrices: column-wise [A @ B]. *)
Definition imm (A B : imat) : imat :=
  let '(r1, r2, r3) := A in
  let '((b11, b12, b13), (b21, b22, b23), (b31, b32, b33)) := B in
  let q1 := (b11, b21, b31) in let q2 := (b12, b22, b32) in let q3 := (b13, b23, b33) in
  ((idot r1 q1, idot r1 q2, idot r1 q3),
   (idot r2 q1, idot r2 q2, idot r2 q3),
   (idot r3 q1, idot r3 q2, idot r3 q3))%Z.

(** A list of operations r -> W r + t is a space group (modulo lattice translations) with
    the identity first and at most one operation for each rotation. *)
Record space_group (ops : list symop) : Prop := {
  sg_identity : exists o rest, ops = o :: rest /\ reallat_rot o = iid /\ int_vec (reallat_trans o);
  sg_unimodular : forall o, In o ops -> idet (reallat_rot o) = 1%Z \/ idet (reallat_rot o) = (-1)%Z;
  sg_reciprocal : forall o, In o ops -> recilat_rot o = recip (reallat_rot o);
  sg_distinct : NoDup (map reallat_rot ops);
  sg_closed : forall o p, In o ops -> In p ops -> exists q, In q ops
     /\ reallat_rot q = imm (reallat_rot o) (reallat_rot p)
     /\ eq_mod1 (reallat_trans q) (vadd (imr (reallat_rot o) (reallat_trans p)) (reallat_trans o)) }.

Definition lsum (l : list C) : C := fold_right Cplus (RtoC 0) l.

(** The coefficient at G of the field r -> F(W r + t), F given by its coefficients. *)
Definition transported (F : vec3 -> C) (o : symop) (G : vec3) : C :=
  (F (imv (recilat_rot o) G) * cis (2 * PI * zrdot (imv (recilat_rot o) G) (reallat_trans o)))%C.
(** The average of these over the group. *)
Definition group_average (ops : list symop) (F : vec3 -> C) (G : vec3) : C :=
  (lsum (map (fun o => transported F o G) ops) / RtoC (INR (length ops)))%C.

(** The field in real space (crystal coordinates r) of coefficients listed along [gs]. *)
Fixpoint field_at (gs : list vec3) (rho : nat -> C) (r : rvec) : C :=
  match gs with
  | [] => RtoC 0
  | g :: t => (rho 0%nat * cis (2 * PI * zrdot g r) + field_at t (fun i => rho (S i)) r)%C
  end.
(** r -> W r + t *)
Definition act (o : symop) (r : rvec) : rvec := vadd (imr (reallat_rot o) r) (reallat_trans o).

(** A rotation of the reciprocal lattice keeps Cartesian lengths. *)
Definition isometry (U : ulattice) (R : imat) : Prop :=
  forall g, vdot (cryst2cart (u_lat U) (gvec (imv R g))) (cryst2cart (u_lat U) (gvec (imv R g)))
          = vdot (cryst2cart (u_lat U) (gvec g)) (cryst2cart (u_lat U) (gvec g)).
