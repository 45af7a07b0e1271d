(** Specification vocabulary for the Hamiltonian (no code modelled). *)
From Verif Require Import Base GIndexModel LatModel GSphereModel CBase FFTSpec KSHamModel.
Open Scope nat_scope.

(** Inner product <u|v> of coefficient arrays. *)
Definition braket (u v : list C) : C :=
  csum (length u) (fun i => Cconj (nth i u (RtoC 0)) * nth i v (RtoC 0))%C.
(** a u + b v. *)
Definition lincomb (a : C) (u : list C) (b : C) (v : list C) : list C :=
  map (fun i => a * nth i u (RtoC 0) + b * nth i v (RtoC 0))%C (seq 0 (length u)).

(** The textbook plane-wave matrix elements <G_i| T + V_loc + V_nl |G_j>. *)
Definition kinetic (h : ksham) (i j : nat) : C :=
  if Nat.eqb i j then
    let w := cryst2cart (kh_lat h) (vadd (gvec (nth i (gs_cryst (kh_gs h)) (0, 0, 0)%Z)) (kh_k h)) in
    RtoC (/ 2 * vdot w w)
  else RtoC 0.
(** Integral over the cell (sum over the grid) of conj(e^{iG_i r}) V(r) e^{iG_j r}. *)
Definition local (nx ny nz : nat) (h : ksham) (i j : nat) : C :=
  csum nx (fun x => csum ny (fun y => csum nz (fun z =>
    Cconj (plane_wave nx ny nz (nth i (gs_cryst (kh_gs h)) (0, 0, 0)%Z) x y z)
    * nth ((x * ny + y) * nz + z) (kh_vloc h) (RtoC 0)
    * plane_wave nx ny nz (nth j (gs_cryst (kh_gs h)) (0, 0, 0)%Z) x y z)))%C.
(** sum over species of sum_pq <G_i|beta_p> D_pq <beta_q|G_j>. *)
Definition separable (vd : list (list C) * (nat -> nat -> C)) (i j : nat) : C :=
  csum (length (fst vd)) (fun p => csum (length (fst vd)) (fun q =>
    nth i (nth p (fst vd) []) (RtoC 0) * snd vd p q * Cconj (nth j (nth q (fst vd) []) (RtoC 0))))%C.
Definition nonlocal (h : ksham) (i j : nat) : C :=
  fold_right (fun vd acc => separable vd i j + acc)%C (RtoC 0) (kh_nloc h).
Definition hamiltonian (nx ny nz : nat) (h : ksham) (i j : nat) : C :=
  (kinetic h i j + local nx ny nz h i j + nonlocal h i j)%C.

(** Well-formed data: the G-space was constructed on this grid; potential and projectors
    have the right lengths. *)
Definition well_formed (nx ny nz : nat) (h : ksham) : Prop :=
  (exists gs, gspace_base (zshape nx ny nz) gs = Ok (kh_gs h))
  /\ length (kh_vloc h) = nx * ny * nz
  /\ (forall vd v, In vd (kh_nloc h) -> In v (fst vd) -> length v = length (gs_cryst (kh_gs h))).
(** Physical data: real potential, Hermitian coupling matrices. *)
Definition self_adjoint_data (h : ksham) : Prop :=
  (forall c, In c (kh_vloc h) -> snd c = 0%R)
  /\ (forall vd p q, In vd (kh_nloc h) -> p < length (fst vd) -> q < length (fst vd) ->
        snd vd p q = Cconj (snd vd q p)).
