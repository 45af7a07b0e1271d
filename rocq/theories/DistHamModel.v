(** Model of the plane-wave parallel Hamiltonian and density: /repo/src/qtm/dft/ksham.py and
    kswfn.py (compute_rho) when the k+G space is a DistGkSpace (mpi/gspace.py), all ranks of the
    plane-wave group together.  Every rank runs the same statements on its own containers; the
    collective ones are the transforms (DistModel.v) and the sums of [vdot] (mpi/containers.py
    182-186) and [norm2] (containers/wavefun.py 97-99).  An array of the group is the list of its
    per-rank pieces, a wavefunction array lists these for every band.  Exact arithmetic as in
    KSHamModel.v. *)
From Verif Require Import Base GIndexModel LatModel GSphereModel CBase FFTModel DistModel KSHamModel TddftModel.
Open Scope nat_scope.

(** ksham.py 27-64 on one rank: the Hamiltonian object built on the G-vectors of a space.
    [nloc] lists the species: their projectors as functions of the G-vector (nloc.py 236-311
    computes every column from the G-vector of that column alone) and the coupling matrix. *)
Definition ham_on (l : lattice) (k : rvec) (nloc : list (list (vec3 -> C) * (nat -> nat -> C)))
    (s : gspace) (vloc : list C) : ksham :=
  MkKSHam l k s vloc (map (fun sp => (map (fun f => map f (gs_cryst s)) (fst sp), snd sp)) nloc).

(** ksham.py 77-80 for one band. *)
Definition dist_local_band (hs : list ksham) (os : list dist) (psi hpsi : list (list C))
  : res (list dist * list (list C)) :=
  do r1 <- dist_g2r os psi;
  let psi_r := zip_with (zip_with Cmult) (snd r1) (map kh_vloc hs) in
  do r2 <- dist_r2g (fst r1) psi_r;
  Ok (fst r2, zip_with (zip_with Cplus) hpsi (snd r2)).
Fixpoint dist_local_bands (hs : list ksham) (os : list dist) (l_psi l_hpsi : list (list (list C)))
  : res (list dist * list (list (list C))) :=
  match l_psi, l_hpsi with
  | psi :: ps, hpsi :: hps =>
      do r <- dist_local_band hs os psi hpsi;
      do rs <- dist_local_bands hs (fst r) ps hps;
      Ok (fst rs, snd r :: snd rs)
  | _, _ => Ok (os, [])
  end.

(** MPI_Allreduce with MPI_SUM of one number per rank. *)
Definition allsum (l : list C) : C := fold_right Cplus (RtoC 0) l.

(** ksham.py 82-88 for one species and one band: [vkb.vdot(psi)] is the sum over the ranks of the
    local products, the rest is local.  [vds] is the species' (vkb, dij) on every rank. *)
Definition dist_nonlocal_band (vds : list (list (list C) * (nat -> nat -> C))) (psi hpsi : list (list C)) : list (list C) :=
  let proj j := allsum (zip_with (fun vd p => vdot1 (nth j (fst vd) []) p) vds psi) in
  zip_with (fun vd hp =>
    let n := length (fst vd) in
    let dproj i := csum n (fun j => (snd vd i j * proj j)%C) in
    map (fun g => (csum n (fun i => nth g (nth i (fst vd) []) (RtoC 0) * dproj i) + nth g hp (RtoC 0))%C)
        (seq 0 (length hp))) vds hpsi.
Definition dist_nonlocal_bands (hs : list ksham) (nsp : nat) (l_psi l_hpsi : list (list (list C))) : list (list (list C)) :=
  fold_left (fun hp s =>
    zip_with (dist_nonlocal_band (map (fun h => nth s (kh_nloc h) ([], fun _ _ => RtoC 0)) hs)) l_psi hp)
    (seq 0 nsp) l_hpsi.

(** ksham.py 66-88, [h_psi] on every rank; [nsp] is the number of species. *)
Definition dist_h_psi (hs : list ksham) (nsp : nat) (os : list dist) (l_psi l_hpsi : list (list (list C)))
  : res (list dist * list (list (list C))) :=
  do _ <- assert_ (Nat.eqb (length l_psi) (length l_hpsi));
  let hp := map (fun psi => zip_with (fun h p => zip_with Cmult (ke_gk h) p) hs psi) l_psi in
  do r <- dist_local_bands hs os l_psi hp;
  Ok (fst r, dist_nonlocal_bands hs nsp l_psi (snd r)).

(** wavefun.py 91-108: the norms are summed over the ranks before the division. *)
Definition dist_normalize1 (psi : list (list C)) : list (list C) :=
  let n2 := fst (allsum (map (fun p => vdot1 p p) psi)) in
  map (map (fun c => c / RtoC (sqrt n2))%C) psi.
(** kswfn.py 150-153 on every rank. *)
Fixpoint dist_rho_sum (os : list dist) (rows : list (list (list C))) (occ : list R) (acc : list (list C))
  : res (list dist * list (list C)) :=
  match rows, occ with
  | psi :: rows', f :: occ' =>
      do r <- dist_g2r os psi;
      dist_rho_sum (fst r) rows' occ'
        (zip_with (zip_with Cplus) acc (map (fun p => map (Cmult (RtoC f)) (get_density p)) (snd r)))
  | _, _ => Ok (os, acc)
  end.
(** kswfn.py 144-157, [compute_rho(slice(None), ret_raw=True)] on every rank; [npts] are the local
    numbers of grid points.  Returns the stored (normalised) wavefunctions and the density. *)
Definition dist_compute_rho (npts : list nat) (vol : R) (os : list dist) (evc : list (list (list C))) (occ : list R)
  : res (list dist * list (list (list C)) * list (list C)) :=
  let rows := map dist_normalize1 evc in
  if Nat.eqb (length rows) 0 then Err AttributeError else
  do r <- dist_rho_sum os rows occ (map (repeat (RtoC 0)) npts);
  Ok (fst r, rows, map (map (fun c => c / RtoC vol)%C) (snd r)).
