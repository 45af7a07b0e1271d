(** Model of MPI sub-communicator construction.
    Sources: /repo/src/qtm/mpi/comm.py (Split, Incl, split_comm_pwgrp) and
    /repo/src/qtm/dft/config.py (DFTCommMod).
    A communicator is the ordered list of the world ranks of its members; the
    rank of a process in it is its position.  All processes run the same program,
    so a collective is modelled from the point of view of process [r], given the
    value every other process passes (a function of its rank). *)
From Verif Require Import Base SortModel.

(** MPI_Comm_split as called by QTMComm.Split (comm.py lines 239-262) with
    mpi4py installed: members of equal color, ordered by key, ties by old order.
    A negative color is refused by MPI (mpi4py raises MPI.Exception, a
    RuntimeError). *)
Definition mpi_split (comm : list Z) (color key : Z -> Z) (r : Z) : res (list Z) :=
  if color r <? 0 then Err RuntimeError else
  Ok (isort (fun a b => key a <=? key b) (filter (fun m => color m =? color r) comm)).

(** QTMComm.Incl (comm.py lines 203-230): the one-process shortcut, otherwise
    MPI_Group_incl + MPI_Comm_create_group.  The result is the list of members;
    MPI refuses out-of-range and repeated ranks (RuntimeError). *)
Definition comm_incl (comm : list Z) (ranks : list Z) : res (list Z) :=
  match comm with
  | [x] => match ranks with [0] => Ok comm | _ => Err ValueError end
  | _ =>
    if forallb (fun i => (0 <=? i) && (i <? Z.of_nat (length comm))) ranks
       && (Nat.eqb (length (nodup Z.eq_dec ranks)) (length ranks))
    then Ok (map (fun i => nth (Z.to_nat i) comm 0) ranks)
    else Err RuntimeError
  end.

(** The communicator object a process [r] holds after Incl: null (None) unless
    it is a member (comm.py lines 78-86). *)
Definition held_by (r : Z) (c : list Z) : option (list Z) :=
  if existsb (Z.eqb r) c then Some c else None.

(** comm.py lines 356-395, [split_comm_pwgrp] on the world of [size] processes. *)
Definition split_comm_pwgrp (size pw : Z) (r : Z) : res (option (list Z) * list Z) :=
  if pw <=? 0 then Err ValueError else
  if negb (size mod pw =? 0) then Err ValueError else
  let world := zrange 0 size in
  let color := fun m => m / pw in
  let key := fun m => m mod pw in
  do intra <- (if pw =? 1 then Ok None else rmap Some (mpi_split world color key r));
  do inter <- mpi_split world key color r;
  Ok (intra, inter).

(** The attributes of DFTCommMod (dft/config.py lines 34-73). *)
Record dftcomm := MkDftComm {
  n_pwgrp : Z;
  pwgrp_intra : option (list Z);
  pwgrp_inter_image : list Z;
  n_kgrp : Z;
  n_bgrp : Z;
  i_kgrp : Z;
  kgrp_intra : list Z;
  kroot_intra : option (list Z);
  i_bgrp : Z;
  pwgrp_inter_kgrp : list Z;
  pwgrp_inter_kroot : option (list Z)
}.

(** Position of the process in a communicator ([QTMComm.rank]). *)
Fixpoint rank_in (c : list Z) (r : Z) : Z :=
  match c with
  | [] => 0
  | x :: t => if x =? r then 0 else 1 + rank_in t r
  end.

(** The inter-pwgrp communicator another process [m] holds (needed for the value
    of i_bgrp it passes to the collective Split). *)
Definition inter_of (size pw m : Z) : list Z :=
  match split_comm_pwgrp size pw m with Ok (_, i) => i | Err _ => [] end.

(** dft/config.py lines 34-73, [DFTCommMod.__init__] with mpi4py installed, as
    seen by process [r] of an image communicator of [size] processes. *)
Definition dft_comm_mod (size : Z) (n_kgrp_arg : option Z) (pw : Z) (r : Z) : res dftcomm :=
  do ii <- split_comm_pwgrp size pw r;
  let '(intra, inter) := ii in
  let n_pw := Z.of_nat (length inter) in
  do n_k <- (match n_kgrp_arg with
             | None => Ok n_pw
             | Some k => if k =? 0 then Err ZeroDivisionError else
                         if negb (n_pw mod k =? 0) then Err ValueError else Ok k
             end);
  if n_k =? 0 then Err ZeroDivisionError else
  let n_b := n_pw / n_k in
  let ks := n_b * pw in
  if ks =? 0 then Err ZeroDivisionError else
  let ik := fun m => m / ks in
  let key := fun m => m mod ks in
  do kintra <- mpi_split (zrange 0 size) ik key r;
  do kroot <- comm_incl (zrange 0 size) (map (fun i => i * ks) (zrange 0 n_k));
  let ib := fun m => rank_in (inter_of size pw m) m mod n_b in
  do interk <- mpi_split inter ik ib r;
  do interroot <- comm_incl inter (map (fun i => i * n_b) (zrange 0 n_k));
  Ok {| n_pwgrp := n_pw; pwgrp_intra := intra; pwgrp_inter_image := inter;
        n_kgrp := n_k; n_bgrp := n_b; i_kgrp := ik r; kgrp_intra := kintra;
        kroot_intra := held_by r kroot; i_bgrp := ib r;
        pwgrp_inter_kgrp := interk; pwgrp_inter_kroot := held_by r interroot |}.
