(** Model of the construction of a Kohn-Sham Hamiltonian from a k-point, the local potential and the
    pseudopotentials: /repo/src/qtm/gspace/gkspc.py 47-69, /repo/src/qtm/pseudo/nloc.py 152-335 (whose row
    and coupling arithmetic is NlocModel.v) and /repo/src/qtm/dft/ksham.py 20-64 (application: KSHamModel.v).
    Exact reals: no signed zeros, no rounding.  The GPU branches are the same arithmetic. *)
From Coq Require Import Reals.
From Verif Require Import Base GIndexModel LatModel GSphereModel NlocModel FFTModel KSHamModel CBase.
Local Open Scope R_scope.

(** [np.arctan2(y, x)] *)
Definition atan2 (y x : R) : R :=
  if rltb 0 x then atan (y / x)
  else if rltb x 0 then (if rleb 0 y then atan (y / x) + PI else atan (y / x) - PI)
  else if rltb 0 y then PI / 2 else if rltb y 0 then - (PI / 2) else 0.

(** [scipy.special.sph_harm_y(l, m, theta, phi)] for 0 <= m <= l, the formula of its documentation with
    the associated Legendre function written out (Condon-Shortley phase included):
    sqrt((2l+1)/(4 pi) (l-m)!/(l+m)!) P_l^m(cos theta) exp(i m phi). *)
Definition legendre_term (l m k : nat) (x : R) : R :=
  if (2 * k + m <=? l)%nat
  then (-1) ^ k * INR (fact (2 * l - 2 * k)) / (2 ^ l * INR (fact k) * INR (fact (l - k)) * INR (fact (l - 2 * k - m))) * x ^ (l - 2 * k - m)
  else 0.
Definition legendre (l m : nat) (sin_t cos_t : R) : R := (-1) ^ m * sin_t ^ m * rsum (S l) (fun k => legendre_term l m k cos_t).
Definition sph_harm_y (l m : nat) (theta phi : R) : C :=
  (RtoC (sqrt ((2 * INR l + 1) / (4 * PI) * (INR (fact (l - m)) / INR (fact (l + m)))) * legendre l m (sin theta) (cos theta))
   * cis (INR m * phi))%C.

(** gkspc.py 47-53 and 61-69: crystal and Cartesian coordinates of G+k, its length. *)
Definition gk_cryst (k : rvec) (g : vec3) : rvec := vadd (gvec g) k.
Definition gk_cart (L : lattice) (w : rvec) : rvec := cryst2cart L w.
Definition gk_norm (L : lattice) (w : rvec) : R := vnorm (gk_cart L w).

(** What NonlocGenerator reads of a pseudopotential: angular momenta, coupling, radial mesh, projectors. *)
Record pseudo := MkPseudo {
  p_l : list nat; p_dij : nat -> nat -> R; p_n : nat; p_r : nat -> R; p_rab : nat -> R; p_rbeta : nat -> nat -> R }.
(** nloc.py 184-214, the attributes. *)
Record nonloc := MkNonloc { nl_l : list nat; nl_dij : nat -> nat -> R; nl_pos : list rvec; nl_nq : Z; nl_tab : nat -> Z -> R }.
(** nloc.py 188-195: entry iq of the table of one projector; for l > 6 spherical_jn returns NotImplemented,
    with which the product raises TypeError. *)
Definition table_entry (P : pseudo) (b l : nat) (iq : Z) : R :=
  match spherical_jn l (map (fun i => IZR iq * DEL_Q * p_r P i) (seq 0 (p_n P))) with
  | Some js => simpson (p_n P) (fun i => p_rbeta P b i * p_r P i * nth i js 0 * p_rab P i)
  | None => 0
  end.
Definition nonloc_init (P : pseudo) (pos : list rvec) (ecut : R) : res nonloc :=
  if forallb (fun l => l <=? 6)%nat (p_l P)
  then Ok (MkNonloc (p_l P) (p_dij P) pos (numq (ecut / 4)) (fun b iq => table_entry P b (nth b (p_l P) O) iq))
  else Err TypeError.

(** nloc.py 246-252: the angles; vectors not longer than 1e-7 get theta = 0. *)
Definition polar (c : rvec) : R := if rltb (/ 10 ^ 7) (vnorm c) then acos (vz c / vnorm c) else 0.
Definition azimuth (c : rvec) : R := atan2 (vy c) (vx c).
(** nloc.py 240-286: the radial factors of all projectors at all plane waves (IndexError outside the table),
    then the record NlocModel reads. *)
Definition radial (N : nonloc) (L : lattice) (b : nat) (w : rvec) : res R :=
  beta_gk ((2 * PI) ^ 3 / cellvol L) (nl_nq N) (nl_tab N b) (gk_norm L w).
Definition kpoint_of (N : nonloc) (L : lattice) (ws : list rvec) : res kpoint :=
  do betas <- sequence (map (fun b => sequence (map (radial N L b) ws)) (seq 0 (length (nl_l N))));
  let w g := nth g ws (V 0 0 0) in
  Ok {| k_beta := fun b g => nth g (nth b betas []) 0; k_theta := fun g => polar (gk_cart L (w g));
        k_phi := fun g => azimuth (gk_cart L (w g)); k_cryst := w |}.
(** nloc.py 216-335, [gen_vkb_dij]: projector rows and coupling matrix of all atoms of the species. *)
Definition species_of (N : nonloc) : species := {| s_l := nl_l N; s_dij := nl_dij N; s_pos := nl_pos N |}.
Definition gen_vkb_dij (N : nonloc) (L : lattice) (ws : list rvec) : res (list (list C) * (nat -> nat -> C)) :=
  do K <- kpoint_of N L ws;
  let S_ := species_of N in
  Ok (map (fun i => map (vkb_full sph_harm_y S_ K i) (seq 0 (length ws))) (seq 0 (num_full S_)),
      fun i j => RtoC (dij_full S_ i j)).
(** ksham.py 20-64, [KSHam.__init__] (its type and shape checks hold by construction). *)
Definition ksham_init (L : lattice) (k : rvec) (b : gspace) (vloc : list C) (l_nloc : list nonloc) : res ksham :=
  do nl <- sequence (map (fun N => gen_vkb_dij N L (map (gk_cryst k) (gs_cryst b))) l_nloc);
  Ok (MkKSHam L k b vloc nl).
