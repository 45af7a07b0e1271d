(** The RHO file as pw2bgw writes it (the WRITE statements quoted in the comments of read_rho). *)
From Verif Require Import Base.
Import ListNotations.
Local Open Scope Z_scope.

(** A number in [k] bytes, lowest first. *)
Fixpoint le_bytes (k : nat) (z : Z) : list Z :=
  match k with O => [] | S k' => z mod 256 :: le_bytes k' (z / 256) end.
(** A four-byte signed integer; a negative one is stored modulo 2^32. *)
Definition int4 (z : Z) : list Z := le_bytes 4 (z mod 2 ^ 32).
(** One unformatted sequential record. *)
Definition frame (p : list Z) : list Z :=
  le_bytes 4 (Z.of_nat (length p)) ++ p ++ le_bytes 4 (Z.of_nat (length p)).
Definition ints (l : list Z) : list Z := concat (map int4 l).

(** Doubles are given by their eight bytes. *)
Record rho_data := MkRho {
  rd_title : list Z;                                   (* stitle, sdate, stime: bytes *)
  rd_dims : Z * Z * Z * Z * Z; rd_ecut : list Z;       (* nsf, ng_g, ntran, cell_symmetry, nat; ecutrho *)
  rd_nr : list Z; rd_lat : list (list Z); rd_rec : list (list Z);
  rd_sym : list Z; rd_trans : list (list Z);
  rd_atoms : list (list Z * list Z * list Z * Z);      (* position and atomic number *)
  rd_nrec : Z; rd_ng : Z; rd_g : list (Z * Z * Z); rd_vals : list (list Z) (* all doubles of record 13 *) }.
Definition dims_bytes (d : Z * Z * Z * Z * Z) : list Z := let '(a, b, c, e, f) := d in ints [a; b; c; e; f].
Definition atom_bytes (a : list Z * list Z * list Z * Z) : list Z := let '(x, y, z, n) := a in x ++ y ++ z ++ int4 n.
Definition gvec_ints (g : Z * Z * Z) : list Z := let '(a, b, c) := g in [a; b; c].
(** The payloads of the fourteen records. *)
Definition records (d : rho_data) : list (list Z) :=
  [ rd_title d; dims_bytes (rd_dims d) ++ rd_ecut d; ints (rd_nr d); concat (rd_lat d); concat (rd_rec d);
    ints (rd_sym d); concat (rd_trans d); concat (map atom_bytes (rd_atoms d)); int4 (rd_nrec d); int4 (rd_ng d);
    ints (concat (map gvec_ints (rd_g d))); int4 (rd_nrec d); int4 (rd_ng d); concat (rd_vals d) ].
Definition rho_file (d : rho_data) : list Z := concat (map frame (records d)).

Definition is_double (l : list Z) : Prop := length l = 8%nat.
Definition in_int4 (z : Z) : Prop := - 2 ^ 31 <= z < 2 ^ 31.
(** What every file written by pw2bgw satisfies: ASCII header, doubles of eight bytes, Miller indices in the
    range of a four-byte integer, records below 4 GiB. *)
Record rho_wf (d : rho_data) : Prop := {
  wf_title : Forall (fun b => 0 <= b < 128) (rd_title d);
  wf_ecut : is_double (rd_ecut d);
  wf_lat : Forall is_double (rd_lat d); wf_rec : Forall is_double (rd_rec d); wf_trans : Forall is_double (rd_trans d);
  wf_atoms : Forall (fun a => let '(x, y, z, _) := a in is_double x /\ is_double y /\ is_double z) (rd_atoms d);
  wf_g : Forall (fun g => let '(a, b, c) := g in in_int4 a /\ in_int4 b /\ in_int4 c) (rd_g d);
  wf_vals : Forall is_double (rd_vals d);
  wf_size : Forall (fun p => Z.of_nat (length p) < 2 ^ 32) (records d) }.

(** The doubles of record 13 in the complex flavour: real and imaginary part of every value in turn. *)
Definition complex_vals (v : list (list Z * list Z)) : list (list Z) := concat (map (fun p => [fst p; snd p]) v).
