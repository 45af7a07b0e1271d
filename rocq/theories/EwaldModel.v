(** Model of /repo/src/qtm/pot/ewald.py over exact reals.  scipy's erfc is a parameter
    [erfc] (nothing is assumed about it unless a theorem says so).  Dividing by a zero
    distance (two atoms at one place) gives inf in NumPy and an arbitrary number here. *)
From Verif Require Import Base GIndexModel LatModel GSphereModel PotModel CBase.
Open Scope R_scope.

(** One species: its valence charge and the crystal coordinates of its atoms. *)
Record species := MkSpecies { valence : R; r_cryst : list rvec }.

(** ewald.py 19-30: the charges of all atoms, species by species; 32: their positions. *)
Definition l_charges (l : list species) : list R :=
  flat_map (fun sp => repeat (valence sp) (length (r_cryst sp))) l.
Definition r_cryst_all (l : list species) : list rvec := flat_map r_cryst l.

Definition EWALD_ERR_THR : R := / 10000000.

(** ewald.py 49-56: accumulation atom by atom of q exp(-2 pi i r.g). *)
Definition struct_fac (q : list R) (r : list rvec) (g : rvec) : C :=
  fold_left (fun acc i => acc + RtoC (nth i q 0%R) * cis (-2 * PI * vdot (nth i r (V 0 0 0)) g))%C
            (seq 0 (length r)) (RtoC 0).

Definition np_sum (l : list R) : R := fold_right Rplus 0 l.

(** ewald.py 58-63 *)
Definition err_bounds (erfc : R -> R) (ecut : R) (q : list R) (alpha : R) : R :=
  np_sum q * np_sum q * sqrt (alpha / PI) * erfc (sqrt (ecut / 2 / alpha)).

(** ewald.py 65-71: alpha = 2.8, 2.7, ..., 0.1; after 28 subtractions the float is
    -1.5e-15 < 0 and ValueError is raised.  [k] counts the remaining values. *)
Definition alpha_of (k : nat) : R := INR k / 10.
Fixpoint find_alpha (erfc : R -> R) (ecut : R) (q : list R) (k : nat) : res R :=
  match k with
  | O => Err ValueError
  | S k' => if rltb EWALD_ERR_THR (err_bounds erfc ecut q (alpha_of k))
            then find_alpha erfc ecut q k' else Ok (alpha_of k)
  end.

(** np.linalg.norm(latvec, axis=1): the norms of the rows. *)
Definition row_norms (P : mat) : R * R * R :=
  let T := mtrans P in (vnorm (LatModel.c1 T), vnorm (c2 T), vnorm (c3 T)).
(** ewald.py 78 *)
Definition n_range (beta len : R) : Z := (rfloor (4 / beta / len) + 1)%Z.
(** ewald.py 80: np.arange(-n, n+1) *)
Definition arange (n : Z) : list Z := map (fun i => (Z.of_nat i - n)%Z) (seq 0 (Z.to_nat (2 * n + 1))).
(** ewald.py 81: meshgrid, indexing="ij", flattened in C order. *)
Definition cells (n1 n2 n3 : Z) : list vec3 :=
  flat_map (fun a => flat_map (fun b => map (fun c => (a, b, c)) (arange n3)) (arange n2)) (arange n1).
(** ewald.py 87 *)
Definition i_N0 (n1 n2 n3 : Z) : Z := (n1 * (2 * n2 + 1) * (2 * n3 + 1) + n2 * (2 * n3 + 1) + n3)%Z.

(** ewald.py 76-77, 82-84, 90-92: the entry (iN, i, j) of sij; the entries [i_N0, iat, iat]
    have R = inf, hence q/inf*erfc(inf) = 0. *)
Definition s_entry (erfc : R -> R) (L : lattice) (beta : R) (q : list R) (r : list rvec)
    (Ns : list vec3) (iN0 : Z) (iN i j : nat) : R :=
  if ((Z.of_nat iN =? iN0)%Z && Nat.eqb i j)%bool then 0 else
  let Rij := vnorm (cryst2cart L (vadd (gvec (nth iN Ns (0, 0, 0)%Z))
                                       (vsub (nth i r (V 0 0 0)) (nth j r (V 0 0 0))))) in
  nth i q 0 * nth j q 0 / Rij * erfc (beta * Rij).

(** ewald.py 13-97, [compute]; [L] is crystal.reallat, [G] the G-space, [ecut] its cutoff. *)
Definition ewald (erfc : R -> R) (L : lattice) (G : gsp) (ecut : R) (l : list species) : res R :=
  let q := l_charges l in
  let r := r_cryst_all l in
  let numat := length q in
  do alpha <- find_alpha erfc ecut q 28;
  let beta := sqrt alpha in
  let E_self := beta / sqrt PI * np_sum (map (fun x => x * x) q) in
  let '(l1, l2, l3) := row_norms (primvec L) in
  let n1 := n_range beta l1 in let n2 := n_range beta l2 in let n3 := n_range beta l3 in
  let Ns := cells n1 n2 n3 in
  let E_S := 1 / 2 * rsum (length Ns) (fun iN => rsum numat (fun i => rsum numat (fun j =>
               s_entry erfc L beta q r Ns (i_N0 n1 n2 n3) iN i j))) in
  let qij_sum := rsum numat (fun i => rsum numat (fun j => nth i q 0 * nth j q 0)) in
  let f k := exp (- gp_norm2 G k / (4 * alpha)) / gp_norm2 G k in
  let S2 k := let s := struct_fac q r (gvec (nth k (gs_cryst (gp_gs G)) (0, 0, 0)%Z)) in fst s * fst s + snd s * snd s in
  let E_L := 2 * PI / cellvol L * (rsum (gp_size G - 1) (fun k => f (S k) * S2 (S k)) - qij_sum / (4 * alpha)) in
  Ok (E_S + E_L - E_self).
