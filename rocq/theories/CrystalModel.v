(** Model of /repo/src/qtm/crystal/basis_atoms.py (BasisAtoms) and
    crystal/crystal.py (Crystal.numel, Crystal.gen_supercell), over exact reals.
    CrystalSymm, built at the end of Crystal.__init__, calls spglib and is not
    modelled here. *)
From Verif Require Import Base LatModel.
Open Scope R_scope.

(** The [ppdata] argument: a pseudopotential file (its valence), a plain number of
    valence electrons, None, or something else. *)
Inductive ppdata : Type := PPFile (valence : Z) | PPInt (valence : Z) | PPNone | PPBad.
(** The [mass] argument: None, a float, or a value that is not a float. *)
Inductive mass_arg : Type := MNone | MFloat (m : R) | MOther.

(** basis_atoms.py 86-131, attributes of [BasisAtoms]; [sp_pp] is the stored
    attribute [ppdata], which is None when a plain valence was given. *)
Record species := MkSpecies {
  sp_label : nat; sp_valence : Z; sp_pp : ppdata; sp_mass : mass_arg;
  sp_lat : ulattice; sp_r : list rvec }.

(** basis_atoms.py 86-131, [BasisAtoms.__init__] (labels are opaque, the array
    shape tests hold by construction). *)
Definition mk_species (label : nat) (pp : ppdata) (m : mass_arg) (lat : ulattice) (r : list rvec)
  : res species :=
  do vp <- (match pp with
            | PPInt v => Ok (v, PPNone)
            | PPFile v => Ok (v, PPFile v)
            | PPNone => Ok ((-1)%Z, PPNone)
            | PPBad => Err TypeError
            end);
  do _ <- (match m with
           | MNone => Ok tt
           | MFloat x => if Rlt_dec x 0 then Err TypeError else Ok tt
           | MOther => Err TypeError
           end);
  Ok (MkSpecies label (fst vp) (snd vp) m lat r).

(** basis_atoms.py 134-137 *)
Definition numatoms (sp : species) : Z := Z.of_nat (length (sp_r sp)).
(** basis_atoms.py 139-143 *)
Definition r_cart (sp : species) : list rvec := map (cryst2cart (u_lat (sp_lat sp))) (sp_r sp).

(** crystal.py 27-50: [Crystal]; the check that every species refers to the same
    lattice object holds by construction (one lattice field). *)
Record crystal := MkCrystal { cr_lat : ulattice; cr_atoms : list species }.

(** crystal.py 52-55 *)
Definition numel (c : crystal) : Z :=
  fold_right Z.add 0%Z (map (fun sp => (sp_valence sp * numatoms sp)%Z) (cr_atoms c)).

(** crystal.py 74-77: meshgrid with indexing "ij", flattened: i slowest. *)
Definition cells (n1 n2 n3 : Z) : list (Z * Z * Z) :=
  flat_map (fun i => flat_map (fun j => map (fun k => (i, j, k)) (zrange 0 n3))
                              (zrange 0 n2)) (zrange 0 n1).

(** crystal.py 80-82: [alat_sup], [latvec_sup]: column j multiplied by repeats[j]. *)
Definition latvec_sup (n1 n2 n3 : Z) (P : mat) : mat :=
  Mat (vscale (IZR n1) (c1 P)) (vscale (IZR n2) (c2 P)) (vscale (IZR n3) (c3 P)).

(** crystal.py 85: [grid + r_cryst], grid index slowest. *)
Definition r_cryst_all (n1 n2 n3 : Z) (r : list rvec) : list rvec :=
  flat_map (fun c => let '(i, j, k) := c in map (vadd (V (IZR i) (IZR j) (IZR k))) r) (cells n1 n2 n3).

(** crystal.py 57-92, [Crystal.gen_supercell] with three integers.  A negative
    entry raises TypeError, whose message formatter asserts that its third argument
    is a type (msg_format.py 46) and so raises AssertionError instead. *)
Definition gen_supercell (c : crystal) (repeats : list Z) : res crystal :=
  do _ <- assert_ (forallb (fun n => (0 <=? n)%Z) repeats);
  match repeats with
  | [n1; n2; n3] =>
      let lat := cr_lat c in
      do lat_sup <- mk_ulattice (IZR n1 * u_unit lat) (latvec_sup n1 n2 n3 (primvec (u_lat lat)));
      do atoms <- sequence (map (fun sp =>
          let r_cart_sup := map (cryst2cart (u_lat lat)) (r_cryst_all n1 n2 n3 (sp_r sp)) in
          let r_cryst_sup := map (cart2cryst (u_lat lat_sup)) r_cart_sup in
          mk_species (sp_label sp) (sp_pp sp) (sp_mass sp) lat_sup r_cryst_sup) (cr_atoms c));
      Ok (MkCrystal lat_sup atoms)
  | _ => Err ValueError
  end.
