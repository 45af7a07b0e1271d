(** C18, C19, C20, C53: lattice geometry over exact reals. *)
From Verif Require Import Base LatModel LatProofs.
From Coq Require Import Lra.
Open Scope R_scope.

(** C18: singular axes are refused, all others accepted. *)
Theorem C18_singular_axes_refused : forall P,
  (mdet P = 0 -> mk_lattice P = Err ValueError) /\
  (mdet P <> 0 -> exists L, mk_lattice P = Ok L /\ primvec L = P).
Proof. exact mk_lattice_iff. Qed.
Print Assumptions C18_singular_axes_refused.

(** C18: crystal and Cartesian conversions are mutual inverses. *)
Theorem C18_cryst_cart_inverse : forall P L v, mk_lattice P = Ok L ->
  cart2cryst L (cryst2cart L v) = v /\ cryst2cart L (cart2cryst L v) = v.
Proof. exact cryst_cart_inverse. Qed.
Print Assumptions C18_cryst_cart_inverse.

(** C18: crystal coordinates are coefficients of the axis vectors. *)
Theorem C18_cryst2cart_is_combination : forall P L a b c, mk_lattice P = Ok L ->
  cryst2cart L (V a b c)
  = vadd (vadd (vscale a (c1 P)) (vscale b (c2 P))) (vscale c (c3 P)).
Proof.
  exact (fun P L a b c H =>
    match proj1 (proj2 (mk_lattice_ok P L H)) in _ = Q return
      cryst2cart L (V a b c) = vadd (vadd (vscale a (c1 Q)) (vscale b (c2 Q))) (vscale c (c3 Q))
    with eq_refl => eq_refl end).
Qed.
Print Assumptions C18_cryst2cart_is_combination.

(** C18: the scaled ('alat' / 'tpiba') conversions are mutual inverses and
    factor through Cartesian coordinates. *)
Theorem C18_scaled_units_inverse : forall P U unit_ v, mk_ulattice unit_ P = Ok U -> unit_ <> 0 ->
  unit2cart U (cart2unit U v) = v /\ cart2unit U (unit2cart U v) = v
  /\ unit2cryst U (cryst2unit U v) = v /\ cryst2unit U (unit2cryst U v) = v
  /\ cryst2unit U v = cart2unit U (cryst2cart (u_lat U) v)
  /\ unit2cryst U v = cart2cryst (u_lat U) (unit2cart U v).
Proof. exact unit_inverse. Qed.
Print Assumptions C18_scaled_units_inverse.

(** C19: dot product from crystal coordinates is the Cartesian one. *)
Theorem C19_dot_is_cartesian : forall P L unit_ u v, mk_lattice P = Ok L ->
  dot L unit_ u v Cryst = Ok (vdot (cryst2cart L u) (cryst2cart L v)).
Proof. exact dot_cart. Qed.
Print Assumptions C19_dot_is_cartesian.

Theorem C19_dot_scaled_units : forall L unit_ u v,
  dot L unit_ u v Scaled = Ok (vdot (vscale unit_ u) (vscale unit_ v)).
Proof. exact scaled_dot. Qed.
Print Assumptions C19_dot_scaled_units.

(** C19: norm2 is dot with itself, non-negative, zero only at zero. *)
Theorem C19_norm2_positive_definite : forall P L unit_ u n,
  mk_lattice P = Ok L -> norm2 L unit_ u Cryst = Ok n ->
  0 <= n /\ (n = 0 <-> u = V 0 0 0).
Proof. exact norm2_posdef. Qed.
Print Assumptions C19_norm2_positive_definite.

Theorem C19_norm2_is_dot : forall L unit_ u c, norm2 L unit_ u c = dot L unit_ u u c.
Proof. exact norm2_dot. Qed.
Print Assumptions C19_norm2_is_dot.

(** C19: norm is the square root of norm2 in every coordinate system. *)
Theorem C19_norm_is_sqrt : forall L unit_ u c n2,
  0 < unit_ -> norm2 L unit_ u c = Ok n2 -> 0 <= n2 ->
  norm_real L unit_ u c = Ok (sqrt n2) /\ norm_reci L unit_ u c = Ok (sqrt n2).
Proof. exact norm_real_ok. Qed.
Print Assumptions C19_norm_is_sqrt.

(** C19: the cell volume is the triple product and squares to det(metric). *)
Theorem C19_cellvol : forall P L, mk_lattice P = Ok L ->
  cellvol L * cellvol L = mdet (metric L) /\ 0 < cellvol L
  /\ cellvol L = Rabs (vdot (c1 P) (vcross (c2 P) (c3 P))).
Proof. exact cellvol_metric. Qed.
Print Assumptions C19_cellvol.

(** C20: b_i . a_j = 2 pi delta_ij. *)
Theorem C20_reciprocal_dual : forall P U unit_ B,
  mk_ulattice unit_ P = Ok U -> from_reallat U = Ok B ->
  forall i j, (i < 3)%nat -> (j < 3)%nat ->
  vdot (nth_col (primvec (u_lat B)) i) (nth_col (primvec (u_lat U)) j)
  = if Nat.eqb i j then 2 * PI else 0.
Proof. exact reci_dual. Qed.
Print Assumptions C20_reciprocal_dual.

(** C20: the reciprocal lattice always exists. *)
Theorem C20_reciprocal_exists : forall P U unit_, mk_ulattice unit_ P = Ok U ->
  exists B, from_reallat U = Ok B /\ u_unit B = TPI / unit_
    /\ primvec (u_lat B) = mscale TPI (mtrans (minv P)).
Proof. exact reci_exists. Qed.
Print Assumptions C20_reciprocal_exists.

(** C20: from_recilat undoes from_reallat, axes and unit alike. *)
Theorem C20_reciprocal_round_trip : forall P U unit_ B,
  mk_ulattice unit_ P = Ok U -> unit_ <> 0 -> from_reallat U = Ok B ->
  exists U', from_recilat B = Ok U' /\ u_unit U' = unit_ /\ primvec (u_lat U') = P.
Proof. exact reci_round_trip. Qed.
Print Assumptions C20_reciprocal_round_trip.

(** C20: volumes. *)
Theorem C20_reciprocal_volume : forall P U unit_ B,
  mk_ulattice unit_ P = Ok U -> from_reallat U = Ok B ->
  cellvol (u_lat U) * cellvol (u_lat B) = (2 * PI) ^ 3.
Proof. exact reci_volume. Qed.
Print Assumptions C20_reciprocal_volume.

(** A non-orthogonal (fcc) lattice meets the hypotheses. *)
Definition fcc : mat := Mat (V (-5) 0 5) (V 0 5 5) (V (-5) 5 0).
Example C18_witness : exists U, mk_ulattice 10 fcc = Ok U /\ 10 <> 0.
Proof.
  destruct (mk_lattice_iff fcc) as [_ K]. destruct K as (L & E & _).
  - unfold mdet, fcc, vdot, vcross. cbn. lra.
  - exists (MkULattice 10 L). unfold mk_ulattice. rewrite E. split; [reflexivity|lra].
Qed.
Example C20_witness : exists U B, mk_ulattice 10 fcc = Ok U /\ from_reallat U = Ok B.
Proof.
  destruct C18_witness as (U & E & _). exists U.
  destruct (reci_exists _ _ _ E) as (B & EB & _). now exists B.
Qed.

(** C53: mesh coordinates with an array origin: n1*n2*n3 points, each within
    half a cell of the origin and congruent to (i/n1, j/n2, k/n3) - origin. *)
Theorem C53_mesh_points : forall U n1 n2 n3 v,
  (0 < n1)%Z -> (0 < n2)%Z -> (0 < n3)%Z ->
  exists r, get_mesh_coords U n1 n2 n3 Cryst (OArray v) = Ok r
    /\ length r = Z.to_nat (n1 * n2 * n3)
    /\ Forall (fun p => Rabs (vx p) <= 1/2 /\ Rabs (vy p) <= 1/2 /\ Rabs (vz p) <= 1/2) r
    /\ (forall p, In p r <-> exists i j k, (0 <= i < n1 /\ 0 <= j < n2 /\ 0 <= k < n3)%Z /\
          p = V (mesh_wrap (IZR i / IZR n1 - vx v)) (mesh_wrap (IZR j / IZR n2 - vy v))
                (mesh_wrap (IZR k / IZR n3 - vz v))).
Proof. exact get_mesh_cryst. Qed.
Print Assumptions C53_mesh_points.

Theorem C53_mesh_wrap_is_lattice_shift : forall x,
  Rabs (mesh_wrap x) <= 1 / 2 /\ exists k : Z, mesh_wrap x = x - IZR k.
Proof. exact mesh_wrap_spec. Qed.
Print Assumptions C53_mesh_wrap_is_lattice_shift.

(** C53 fails for the documented default call: with coords='cryst' the default
    origin is a tuple and the call raises AttributeError. *)
Theorem C53_default_origin_refuted : forall U n1 n2 n3 v,
  (0 < n1)%Z -> (0 < n2)%Z -> (0 < n3)%Z ->
  get_mesh_coords U n1 n2 n3 Cryst (OTuple v) = Err AttributeError.
Proof. exact get_mesh_default_origin. Qed.
Print Assumptions C53_default_origin_refuted.

(** Constructors: [from_bohr] keeps the three axes as given, [from_alat] multiplies them by alat; [axes_alat] gives back the axes in units of
    alat; linearly dependent axes are refused, as is [from_alat] with alat = 0. *)
Theorem C18_constructors : forall alat a1 a2 a3,
  (forall U, from_bohr alat a1 a2 a3 = Ok U -> u_unit U = alat /\ axes_cart (u_lat U) = [a1; a2; a3]) /\
  (forall U, from_alat alat a1 a2 a3 = Ok U -> u_unit U = alat /\ axes_cart (u_lat U) = [vscale alat a1; vscale alat a2; vscale alat a3] /\ axes_unit U = [a1; a2; a3]) /\
  ((exists U, from_bohr alat a1 a2 a3 = Ok U) <-> mdet (Mat a1 a2 a3) <> 0) /\
  ((exists U, from_alat alat a1 a2 a3 = Ok U) <-> alat <> 0 /\ mdet (Mat a1 a2 a3) <> 0).
Proof.
  intros alat a1 a2 a3.
  assert (MK : forall P L, mk_lattice P = Ok L -> primvec L = P) by (intros P L H; unfold mk_lattice in H; destruct (Req_EM_T (mdet P) 0); [discriminate|now injection H as <-]).
  assert (EX : forall u P, (exists U, mk_ulattice u P = Ok U) <-> mdet P <> 0).
  { intros u P. unfold mk_ulattice, mk_lattice. destruct (Req_EM_T (mdet P) 0) as [D|D]; cbn; split; try easy.
    - intros [U H]. discriminate.
    - intros _. eexists. reflexivity. }
  assert (DS : mdet (mscale alat (Mat a1 a2 a3)) = alat * alat * alat * mdet (Mat a1 a2 a3)).
  { unfold mdet, mscale, vscale, vdot, vcross. destruct a1, a2, a3. cbn. ring. }
  split; [|split; [|split]].
  - intros U H. unfold from_bohr, mk_ulattice in H. destruct (mk_lattice (Mat a1 a2 a3)) as [L|] eqn:E; [|discriminate]. injection H as <-. apply MK in E. unfold axes_cart. cbn [u_unit u_lat]. rewrite E. now split.
  - intros U H. assert (NZ : alat <> 0).
    { intros ->. assert (X : mdet (mscale 0 (Mat a1 a2 a3)) <> 0) by (apply (EX 0); now exists U). apply X. rewrite DS. ring. }
    unfold from_alat, mk_ulattice in H. destruct (mk_lattice _) as [L|] eqn:E; [|discriminate]. injection H as <-. apply MK in E. unfold axes_unit, axes_cart. cbn [u_unit u_lat]. rewrite E. cbn [mscale c1 c2 c3 map].
    split; [reflexivity|]. split; [reflexivity|]. destruct a1, a2, a3. unfold vscale. cbn. repeat f_equal; field; exact NZ.
  - apply EX.
  - unfold from_alat. rewrite EX, DS. split.
    + intros H. split; intros X; apply H; rewrite X; ring.
    + intros [H1 H2] X. apply H2. apply Rmult_integral in X as [X|X]; [|exact X]. exfalso. apply Rmult_integral in X as [X|X]; [apply Rmult_integral in X as [X|X]|]; contradiction.
Qed.
Print Assumptions C18_constructors.
Example C18_constructors_case : exists U, from_alat 2 (V 1 0 0) (V 0 1 0) (V 1 0 3) = Ok U.
Proof. apply C18_constructors. split; [lra|]. unfold mdet, vdot, vcross. cbn. lra. Qed.
