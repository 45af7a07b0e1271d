(** Model of the checks of /repo/src/qtm/mpi/check_args.py called by themselves, with their flags:
    [check_lattice] on any lattice, [check_basisatoms], [check_gkspace], [check_kpts].  Steps and runs as in
    CheckModel.  The flags check_reallat, check_gwfn, check_recilat are broadcast first and the value of process 0
    is used by all ([rootflag]); the own value is [myflag].
    Simplification: the exception of a failed comparison is AssertionError here; the code re-raises it as a plain
    Exception (46-47, 66-67, 124-125, 142-143). *)
From Coq Require Import String.
From Verif Require Import Base CtxModel CheckModel.
From Coq Require Import Reals.

(** A lattice: its class, its basis vectors and alat / tpiba. *)
Inductive latclass := PlainL | RealL | ReciL.
Record lattice_d := MkLatticeD { ld_class : latclass; ld_primvec : list R; ld_unit : R }.
(** check_args.py 35-47 *)
Definition check_any_lattice (l : lattice_d) : list step :=
  Coll (Buf (ld_primvec l)) AllClose ::
  match ld_class l with PlainL => [] | _ => [Coll (ONum (ld_unit l)) Within] end.
(** check_args.py 50-67; the species' lattice is [l]. *)
Definition check_basisatoms_f (rootflag myflag : bool) (l : lattice_d) (a : atoms_d) : list step :=
  [Coll (OFlag myflag) Take; Coll (OStr (d_label a)) Exact] ++
  (if rootflag then check_any_lattice l else []) ++
  [Coll (OInt (d_valence a)) Exact] ++
  (match d_pp a with
   | None => [Local false AttributeError]
   | Some (file, md5) => [Coll (OStr file) Exact; Coll (OStr md5) Exact]
   end) ++
  (match d_mass a with None => [] | Some m => [Coll (ONum m) Exact] end) ++
  [Coll (Buf (d_rcryst a)) AllClose].
(** check_args.py 104-125; the three k components are compared one by one with ==. *)
Record gkspace_d := MkGkD { gk_gwfn : gspace_d; gk_k : R * R * R; gk_dist : bool }.
Definition check_gkspace (rootflag myflag : bool) (g : gkspace_d) : list step :=
  let '(k1, k2, k3) := gk_k g in
  [Coll (OFlag myflag) Take] ++
  (if rootflag then check_gspace (gk_gwfn g) else []) ++
  [Coll (ONum k1) Exact; Coll (ONum k2) Exact; Coll (ONum k3) Exact; Coll (OFlag (gk_dist g)) Exact].
(** check_args.py 128-143; [l]: kpts.recilat. *)
Definition check_kpts_f (rootflag myflag : bool) (l : lattice_d) (k w : list R) : list step :=
  [Coll (OFlag myflag) Take] ++ (if rootflag then check_any_lattice l else []) ++
  [Coll (Buf k) AllClose; Coll (Buf w) AllClose].
