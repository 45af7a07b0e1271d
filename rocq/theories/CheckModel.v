(** Model of /repo/src/qtm/mpi/check_args.py, [check_system] and what it calls, on every
    rank of a communicator.  A rank's run is the list of its steps: collective operations
    with root 0 and local assertions.  The value a broadcast returns is the one process 0
    contributed at the same position of its own sequence. *)
From Coq Require Import String.
From Verif Require Import Base CtxModel.
From Coq Require Import Reals.
Open Scope R_scope.

(** What each process passes (the arguments of check_system as it holds them).
    crystal/basis_atoms.py 54-115, gspace/base.py 117-152, kpts.py 26-81.  Arrays are the
    list of their elements.  [d_mass] None is mass=None; [d_pp] is (filename, md5) or None
    when the species was given a valence number instead of a pseudopotential file. *)
Record atoms_d := MkAtomsD { d_label : string; d_valence : Z; d_pp : option (string * string);
  d_mass : option R; d_rcryst : list R }.
Record gspace_d := MkGspaceD { d_recvec : list R; d_ecut : R; d_grid : Z * Z * Z; d_isdist : bool }.
Record system_d := MkSystemD { d_primvec : list R; d_alat : R; d_atoms : list atoms_d;
  d_grho : gspace_d; d_gwfn : gspace_d; d_kcryst : list R; d_kweights : list R;
  d_grho_eq : bool;   (** grho.recilat == crystal.recilat *)
  d_gwfn_is : bool;   (** gwfn.recilat is grho.recilat *)
  d_kpts_is : bool }. (** kpts.recilat is crystal.recilat *)

(** Contents of a collective; [comm.bcast] sends an object, [comm.Bcast] a buffer. *)
Inductive payload : Type :=
| OFlag (b : bool) | OStr (s : string) | OInt (z : Z) | ONum (x : R) | OArr (l : list R) | Buf (l : list R).
(** How the returned value is used: not compared (the flags check_reallat, check_recilat),
    compared with ==, within 1e-8, or by np.allclose. *)
Inductive compare : Type := Take | Exact | Within | AllClose.
Inductive step : Type := Coll (p : payload) (c : compare) | Local (ok : bool) (e : exn).

(** np.allclose(a, b), rtol 1e-5, atol 1e-8, arrays of one shape. *)
Definition closeb (x y : R) : bool := if Rle_dec (Rabs (x - y)) (/ 10 ^ 8 + / 10 ^ 5 * Rabs y) then true else false.
Fixpoint allcloseb (a b : list R) : bool :=
  match a, b with
  | [], [] => true
  | x :: a', y :: b' => closeb x y && allcloseb a' b'
  | _, _ => false
  end.

(** Result of one comparison between the own value and the one received.  Values of different
    types never compare equal (== is False; allclose and abs of them raise). *)
Definition passes (c : compare) (mine root : payload) : bool :=
  match c with
  | Take => true
  | Exact => match mine, root with
             | OFlag a, OFlag b => Bool.eqb a b
             | OStr a, OStr b => String.eqb a b
             | OInt a, OInt b => Z.eqb a b
             | ONum a, ONum b => if Req_EM_T a b then true else false
             | _, _ => false
             end
  | Within => match mine, root with
              | ONum a, ONum b => if Rle_dec (Rabs (a - b)) (/ 10 ^ 8) then true else false
              | _, _ => false
              end
  | AllClose => match mine, root with
                | OArr a, OArr b | Buf a, Buf b => allcloseb a b
                | _, _ => false
                end
  end.

(** check_args.py 35-47, [check_lattice] for a real lattice. *)
Definition check_lattice (primvec : list R) (alat : R) : list step :=
  [Coll (Buf primvec) AllClose; Coll (ONum alat) Within].
(** check_args.py 50-67, [check_basisatoms] called by check_crystal (check_reallat=False on
    every rank, so the branch of 57-58 is not entered).  Line 62 parses as
    [assert (mass == comm.bcast(mass)) if mass is not None else True]: without a mass there
    is no broadcast.  Without a pseudopotential, line 60 raises AttributeError, which the
    except clause does not catch. *)
Definition check_basisatoms (a : atoms_d) : list step :=
  [Coll (OFlag false) Take; Coll (OStr (d_label a)) Exact; Coll (OInt (d_valence a)) Exact] ++
  (match d_pp a with
   | None => [Local false AttributeError]
   | Some (file, md5) => [Coll (OStr file) Exact; Coll (OStr md5) Exact]
   end) ++
  (match d_mass a with None => [] | Some m => [Coll (ONum m) Exact] end) ++
  [Coll (Buf (d_rcryst a)) AllClose].
(** check_args.py 70-78 *)
Definition check_crystal (s : system_d) : list step :=
  check_lattice (d_primvec s) (d_alat s) ++ concat (map check_basisatoms (d_atoms s)).
(** check_args.py 81-101 *)
Definition check_gspace (g : gspace_d) : list step :=
  let '(n1, n2, n3) := d_grid g in
  [Coll (OArr (d_recvec g)) AllClose; Coll (ONum (d_ecut g)) Within;
   Coll (OInt n1) Exact; Coll (OInt n2) Exact; Coll (OInt n3) Exact; Coll (OFlag (d_isdist g)) Exact].
(** check_args.py 128-143 (check_recilat=False) *)
Definition check_kpts (k w : list R) : list step :=
  [Coll (OFlag false) Take; Coll (Buf k) AllClose; Coll (Buf w) AllClose].
(** check_args.py 146-163, the body of the with block. *)
Definition check_system (s : system_d) : list step :=
  check_crystal s ++ check_gspace (d_grho s) ++ [Local (d_grho_eq s) AssertionError] ++
  check_gspace (d_gwfn s) ++ [Local (d_gwfn_is s) AssertionError] ++
  check_kpts (d_kcryst s) (d_kweights s) ++ [Local (d_kpts_is s) AssertionError].

(** What process 0 contributes, up to its first failing local step (it receives its own
    values, so that its comparisons compare a value with itself). *)
Fixpoint contributed (p : list step) : list payload :=
  match p with
  | [] => []
  | Coll x _ :: p' => x :: contributed p'
  | Local true _ :: p' => contributed p'
  | Local false _ :: _ => []
  end.

(** Whether two calls are the same collective: object broadcasts pair with object
    broadcasts, buffer broadcasts with those of the same length.  Anything else is an
    erroneous MPI program (no outcome is defined). *)
Definition paired (mine root : payload) : bool :=
  match mine, root with
  | Buf a, Buf b => Nat.eqb (length a) (length b)
  | Buf _, _ | _, Buf _ => false
  | _, _ => true
  end.

Inductive ending : Type :=
| Done                (** reached the end of the body *)
| Raises (e : exn)    (** an exception leaves the body *)
| Waits               (** in a collective process 0 never enters *)
| Erroneous.          (** in a collective that process 0 matched with a different one *)

(** The steps of one process against what process 0 contributes: the number of collectives
    it enters, and how it ends. *)
Fixpoint run (p : list step) (root : list payload) : nat * ending :=
  match p with
  | [] => (0%nat, Done)
  | Local true _ :: p' => run p' root
  | Local false e :: _ => (0%nat, Raises e)
  | Coll x c :: p' =>
      match root with
      | [] => (1%nat, Waits)
      | y :: root' =>
          if negb (paired x y) then (1%nat, Erroneous)
          else if passes c x y then let (n, e) := run p' root' in (S n, e)
          else (1%nat, Raises AssertionError)
      end
  end.

(** check_args.py 149: [with comm:] (comm.py 160-193): a barrier on entry, and one on exit
    unless an exception leaves the body.  [b_entered]: collectives on the communicator a
    process enters in the whole block. *)
Definition block (s root : system_d) : nat * ending :=
  let (n, e) := run (check_system s) (contributed (check_system root)) in
  match e with
  | Done => (S (S n), Done)
  | _ => (S n, e)
  end.
