(** Specification vocabulary for the exchange-correlation term (no code modelled). *)
From Verif Require Import Base GIndexModel LatModel GSphereModel FFTModel FFTSpec PotModel PotSpec LocSpec XcModel CBase.
Open Scope R_scope.

(** Real-space value of the field with coefficients [v] at a grid point, and of its
    gradient's component c (coefficients i G_c v_G). *)
Definition value (G : gsp) (v : list C) (x y z : nat) : C := fourier_series G (fun k => nth k v (RtoC 0)) x y z.
Definition gradient (G : gsp) (v : list C) (c x y z : nat) : C :=
  fourier_series G (fun k => Ci * RtoC (rcomp (cryst2cart (gp_lat G) (gvec (gv G k))) c) * nth k v (RtoC 0))%C x y z.

(** A field is real: its coefficients at G and -G are conjugate. *)
Definition hermitian (G : gsp) (v : list C) : Prop :=
  forall k k', (k < gp_size G)%nat -> (k' < gp_size G)%nat -> gv G k' = vopp3 (gv G k) ->
    nth k' v (RtoC 0) = Cconj (nth k v (RtoC 0)).

(** One or two spin channels. *)
Definition channels (G : gsp) (rho : list (list C)) : Prop :=
  (length rho = 1%nat \/ length rho = 2%nat) /\ forall r, In r rho -> length r = gp_size G.

(** The point-wise densities |n_s| and contracted gradients of one or two channels. *)
Definition dens (G : gsp) (rho : list (list C)) (x y z : nat) : list R := map (fun v => Cmod (value G v x y z)) rho.
Definition gdot (G : gsp) (a b : list C) (x y z : nat) : R :=
  fst (csum 3 (fun c => gradient G a c x y z * gradient G b c x y z)%C).
Definition contracted (G : gsp) (rho : list (list C)) (x y z : nat) : list R :=
  match rho with
  | [a] => [gdot G a a x y z]
  | [a; b] => [gdot G a a x y z; gdot G a b x y z; gdot G b b x y z]
  | _ => []
  end.

(** rho + t*d, channel by channel. *)
Definition perturbed (rho d : list (list C)) (t : R) : list (list C) :=
  map (fun s => map (fun k => nth k (nth s rho []) (RtoC 0) + RtoC t * nth k (nth s d []) (RtoC 0))%C
                    (seq 0 (length (nth s rho [])))) (seq 0 (length rho)).

(** libxc's contract: vrho and vsigma are the derivatives of the energy density
    (sum of densities) * zk along every differentiable path of densities and contracted
    gradients through a point with positive densities. *)
Definition libxc_derivatives (ns : nat) (f : xcf) : Prop :=
  forall (n s : R -> list R) (n' s' : list R),
    (forall t, length (n t) = ns) -> length n' = ns ->
    (forall t, length (s t) = if x_gga f then (2 * ns - 1)%nat else 0%nat) -> length s' = (if x_gga f then (2 * ns - 1)%nat else 0%nat) ->
    (forall i, (i < ns)%nat -> 0 < nth i (n 0) 0) ->
    (forall i, (i < ns)%nat -> derivable_pt_lim (fun t => nth i (n t) 0) 0 (nth i n' 0)) ->
    (forall i, (i < length s')%nat -> derivable_pt_lim (fun t => nth i (s t) 0) 0 (nth i s' 0)) ->
    derivable_pt_lim (fun t => rsum ns (fun i => nth i (n t) 0) * x_zk f (n t) (s t)) 0
      (rsum ns (fun i => x_vrho f (n 0) (s 0) i * nth i n' 0)
       + rsum (length s') (fun i => x_vsigma f (n 0) (s 0) i * nth i s' 0)).

(** n_s + core/ns: the density including the core charge. *)
Definition with_core (core : list C) (rho : list (list C)) : list (list C) :=
  perturbed rho (repeat core (length rho)) (1 / INR (length rho)).

(** Divergence of a vector field given on the grid, through its Fourier coefficients on the
    space's G-vectors. *)
Definition grid_divergence (G : gsp) (h : nat -> nat -> nat -> nat -> C) (x y z : nat) : C :=
  fourier_series G (fun k => csum 3 (fun c =>
    Ci * RtoC (rcomp (cryst2cart (gp_lat G) (gvec (gv G k))) c)
    * over_grid G (fun x y z => h c x y z * Cconj (plane_wave (gp_nx G) (gp_ny G) (gp_nz G) (gv G k) x y z))))%C x y z.

(** The vector field whose divergence is subtracted: 2 vsigma grad n (one channel),
    2 vsigma_ss grad n_s + vsigma_ud grad n_s' (two channels). *)
Definition flux (G : gsp) (vs : nat -> C) (rho : list (list C)) (s c x y z : nat) : C :=
  match rho with
  | [a] => RtoC 2 * vs 0%nat * gradient G a c x y z
  | [a; b] => if Nat.eqb s 0 then RtoC 2 * vs 0%nat * gradient G a c x y z + vs 1%nat * gradient G b c x y z
              else RtoC 2 * vs 2%nat * gradient G b c x y z + vs 1%nat * gradient G a c x y z
  | _ => RtoC 0
  end%C.

Definition energy (r : res (list (list C) * R)) : R := match r with Ok (_, e) => e | Err _ => 0 end.
Definition no_core (core : list C) : Prop := forall k, nth k core (RtoC 0) = RtoC 0.

(** Half of a field. *)
Definition half (a : list C) : list C := map (fun c => RtoC (1 / 2) * c)%C a.
(** libxc's two versions of one functional agree on unpolarised densities:
    n_up = n_down = n/2 and all contracted gradients sigma/4. *)
Definition spin_versions (f1 f2 : xcf) : Prop :=
  x_gga f1 = x_gga f2 /\ forall n sg sg2,
    (sg = [] /\ sg2 = [] \/ exists t, sg = [t] /\ sg2 = [t / 4; t / 4; t / 4]) ->
    let n2 := [n / 2; n / 2] in
    x_zk f1 [n] sg = x_zk f2 n2 sg2
    /\ (forall s, (s < 2)%nat -> x_vrho f2 n2 sg2 s = x_vrho f1 [n] sg 0)
    /\ x_vsigma f2 n2 sg2 0 = x_vsigma f2 n2 sg2 2
    /\ 4 * x_vsigma f1 [n] sg 0 = x_vsigma f2 n2 sg2 0 + x_vsigma f2 n2 sg2 1 + x_vsigma f2 n2 sg2 2.
