(** Model of the Kohn-Sham Hamiltonian: /repo/src/qtm/dft/ksham.py.
    Exact complex arithmetic; one spin component (for is_noncolin = True the
    kinetic array has half the length of the wavefunctions and its container class
    differs, see [kinetic_class]); the transforms are the FFT3DFull driver of
    FFTModel.v with normalise_idft = False (gspace/gkspc.py 17).  Array shape and
    type checks of [KSHam.__init__] hold by construction. *)
From Verif Require Import Base GIndexModel LatModel GSphereModel CBase FFTModel.
Open Scope nat_scope.

(** [a * b] and [a + b] on arrays of equal length. *)
Fixpoint zip_with {A B D} (f : A -> B -> D) (a : list A) (b : list B) : list D :=
  match a, b with
  | x :: a', y :: b' => f x y :: zip_with f a' b'
  | _, _ => []
  end.

(** The attributes of KSHam that h_psi reads (ksham.py 27-64): the k+G space
    (lattice, k-point, G-vectors), the local potential on the grid and, per atomic
    species, the projectors [vkb] (rows) with their matrix [dij]. *)
Record ksham := MkKSHam {
  kh_lat : lattice; kh_k : rvec; kh_gs : gspace;
  kh_vloc : list C;
  kh_nloc : list (list (list C) * (nat -> nat -> C)) }.

(** ksham.py 29 with gkspc.py 47-48, 62-64: 0.5 * |G + k|^2 from Cartesian coordinates. *)
Definition ke_gk (h : ksham) : list C :=
  map (fun g => let w := cryst2cart (kh_lat h) (vadd (gvec g) (kh_k h)) in RtoC (/ 2 * vdot w w))
      (gs_cryst (kh_gs h)).

(** ksham.py 77-80 for one band: [psi.to_r()], multiplied by the potential in
    place, [.to_g()], added to hpsi.  (containers/wavefun.py 80-83, 177-180.) *)
Definition local_band (h : ksham) (o : full) (psi hpsi : list C) : full * list C :=
  let '(o1, psi_r) := full_g2r o psi in
  let psi_r := zip_with Cmult psi_r (kh_vloc h) in
  let '(o2, vpsi) := full_r2g o1 psi_r in
  (o2, zip_with Cplus hpsi vpsi).
Fixpoint local_bands (h : ksham) (o : full) (l_psi l_hpsi : list (list C)) : full * list (list C) :=
  match l_psi, l_hpsi with
  | psi :: ps, hpsi :: hs =>
      let '(o1, r) := local_band h o psi hpsi in
      let '(o2, rs) := local_bands h o1 ps hs in (o2, r :: rs)
  | _, _ => (o, [])
  end.

(** containers/wavefun.py 107-151, [vdot]: conj(bra) . ket for one pair of rows. *)
Definition vdot1 (bra ket : list C) : C := fold_right Cplus (RtoC 0) (zip_with (fun b k => Cconj b * k)%C bra ket).

(** ksham.py 82-88 for one species and one band: proj = vkb.vdot(psi); proj = dij @ proj;
    hpsi += vkb^T @ proj (zgemm with alpha = beta = 1, gemm_wrappers.py 82-110). *)
Definition nonlocal_band (vd : list (list C) * (nat -> nat -> C)) (psi hpsi : list C) : list C :=
  let '(vkb, dij) := vd in
  let n := length vkb in
  let proj j := vdot1 (nth j vkb []) psi in
  let dproj i := csum n (fun j => (dij i j * proj j)%C) in
  map (fun g => (csum n (fun i => nth g (nth i vkb []) (RtoC 0) * dproj i) + nth g hpsi (RtoC 0))%C)
      (seq 0 (length hpsi)).
Definition nonlocal_bands (h : ksham) (l_psi l_hpsi : list (list C)) : list (list C) :=
  fold_left (fun hp vd => zip_with (nonlocal_band vd) l_psi hp) (kh_nloc h) l_hpsi.

(** ksham.py 66-88, [h_psi]; [l_hpsi] is the output buffer (its content is
    overwritten by line 76, only its shape matters); the result is the new content. *)
Definition h_psi (h : ksham) (o : full) (l_psi l_hpsi : list (list C)) : res (full * list (list C)) :=
  do _ <- assert_ (Nat.eqb (length l_psi) (length l_hpsi));
  let hp := map (zip_with Cmult (ke_gk h)) l_psi in                     (* 76 *)
  let '(o1, hp) := local_bands h o l_psi hp in                          (* 77-80 *)
  Ok (o1, nonlocal_bands h l_psi hp).                                   (* 82-88 *)

(** nloc.py 307-311 and ksham.py 61-64: [vnl_diag], the sum over species (and atoms, whose
    projectors are stacked block-diagonally) of sum_i vkb_i * (dij @ conj(vkb))_i. *)
Definition vnl_diag (h : ksham) (g : nat) : C :=
  fold_right (fun vd acc =>
    let '(vkb, dij) := vd in let n := length vkb in
    (csum n (fun i => nth g (nth i vkb []) (RtoC 0) * csum n (fun j => dij i j * Cconj (nth g (nth j vkb []) (RtoC 0)))) + acc)%C)
    (RtoC 0) (kh_nloc h).
(** dft/eigsolve/davidson.py 67-70: the preconditioner's diagonal, given [vloc_g0[0]]. *)
Definition ham_diag (h : ksham) (vloc_g0 : C) (g : nat) : C :=
  (nth g (ke_gk h) (RtoC 0) + vnl_diag h g + vloc_g0)%C.
(** dft/scf.py 345 and 474: the value passed as [vloc_g0]: the grid sum of the potential
    (already divided by the number of grid points), divided by the number of points again. *)
Definition scf_vloc_g0 (h : ksham) (npts : nat) : C :=
  (fold_right Cplus (RtoC 0) (kh_vloc h) / RtoC (INR npts))%C.
