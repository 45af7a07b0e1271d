(** Vocabulary of the exact static Coulomb hole. *)
From Coq Require Import Reals.
From Verif Require Import Base LatModel GIndexModel FFTSpec GwModel GwSpec SigmaModel CBase.
Open Scope R_scope.

Definition o3 : vec3 := (0, 0, 0)%Z.
Definition gminus (a b : vec3) : vec3 := let '(a1, a2, a3) := a in let '(b1, b2, b3) := b in (a1 - b1, a2 - b2, a3 - b3)%Z.
(** Squared Cartesian length of an integer combination of the (reciprocal) lattice vectors. *)
Definition len2 (P : mat) (g : vec3) : R := let v := mv P (zvec g) in vdot v v.
(** A Bloch function with coefficients [cs] on the plane waves [gs], at a point of the FFT grid (lattice-periodic part). *)
Definition wave (nx ny nz : nat) (gs : list vec3) (cs : list C) (x y z : nat) : C :=
  csum (length cs) (fun i => (nth i cs (RtoC 0) * plane_wave nx ny nz (nth i gs o3) x y z)%C).
(** Fourier component [d] of its density: sum of conj(c(G1)) c(G2) over the pairs with G2 - G1 = d as far as the FFT grid can tell. *)
Definition component (nx ny nz : nat) (gs : list vec3) (cs : list C) (d : vec3) : C :=
  csum (length cs) (fun i => csum (length cs) (fun j =>
    if same_on_gridb nx ny nz (gminus (nth j gs o3) (nth i gs o3)) d then (Cconj (nth i cs (RtoC 0)) * nth j cs (RtoC 0))%C else RtoC 0)).
(** sum over G, G' with |G' - G|^2 <= cutoff of rho(G' - G) (eps^-1 - 1)(G', G) v(G'). *)
Definition hole (P : mat) (cutoff : R) (gs : list vec3) (v : list R) (e : list (list C)) (rho : vec3 -> C) : C :=
  csum (length gs) (fun a => csum (length gs) (fun b =>
    let d := gminus (nth b gs o3) (nth a gs o3) in
    if Rle_dec (len2 P d) cutoff then (rho d * nth a (nth b e []) (RtoC 0) * RtoC (nth b v 0))%C else RtoC 0)).
(** No other of the first [n] k-points is within the tolerance of k-point [k]. *)
Definition near (a b : R) : Prop := Rabs (a - b) <= / 10 ^ 5 + / 10 ^ 5 * Rabs b.
Definition alone (ks : list kpt) (n k : nat) : Prop := forall k', (k' < n)%nat ->
  let a := kp_cryst (nth k' ks k0) in let b := kp_cryst (nth k ks k0) in
  near (vx a) (vx b) -> near (vy a) (vy b) -> near (vz a) (vz b) -> k' = k.
(** The functions with coefficients [evc] resolve the identity on the FFT grid. *)
Definition complete (nx ny nz : nat) (gs : list vec3) (evc : list (list C)) (nb : nat) : Prop :=
  forall x y z x' y' z', (x < nx)%nat -> (y < ny)%nat -> (z < nz)%nat -> (x' < nx)%nat -> (y' < ny)%nat -> (z' < nz)%nat ->
  csum nb (fun b => (Cconj (wave nx ny nz gs (nth b evc []) x y z) * wave nx ny nz gs (nth b evc []) x' y' z')%C)
  = if (x =? x')%nat && (y =? y')%nat && (z =? z')%nat then RtoC (INR (nx * ny * nz)) else RtoC 0.
