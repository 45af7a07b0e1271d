(** Model of the drivers /repo/src/qtm/gw/epsilon_script.py (lines 24-38, 91-214) and
    /repo/src/qtm/gw/gw_example_bgw.py (lines 131-187).  The matrix of one q-point (matrix elements,
    polarizability, inverse, reordering: C47, C48) is the parameter [calc]; the HDF5 contents written for
    a list of matrices are those of C87.  Printing, barriers and the value of the standard deviation,
    which only affect the terminal, are not modelled; a process that raises ends the run. *)
From Verif Require Import Base GwModel QeInpModel.
Import ListNotations.
Local Open Scope nat_scope.

Section Script.
  Context {M : Type}.
  Variable calc : nat -> res M.            (* epsilon_script.py 119-149, for q-point i_q *)
  Variable dim : M -> nat.                 (* matrices are square *)
  Variables (numq q0 : nat).               (* epsilon.qpts.numq, epsilon.qpts.index_q0 *)
  Variable refs0 refs : list (nat * nat).  (* shapes of the matrices in eps0mat.h5 and epsmat.h5 *)

  (** What a process holds during the loop: its copies [epsilon.l_epsinv], what it wrote to
      eps0mat_qtm.h5, its list [epsmats]. *)
  Record st := MkSt { l_epsinv : nat -> option M; eps0_file : option (list M); epsmats : list M }.
  Definition st0 : st := MkSt (fun _ => None) None [].
  (** [l[i]] with Python's negative indices. *)
  Definition py_item {A} (l : list A) (i : Z) : res A :=
    let n := Z.of_nat (length l) in
    if (i <? - n)%Z then Err IndexError
    else if (n <=? i)%Z then Err IndexError
    else match nth_error l (Z.to_nat (if (i <? 0)%Z then i + n else i)) with Some a => Ok a | None => Err IndexError end.
  (** numpy broadcasting of a d x d array against an n x n one. *)
  Definition subtract_ok (d n : nat) : res unit :=
    if (d =? n) || (d =? 1) || (n =? 1) then Ok tt else Err ValueError.
  (** 151-168: the reference is entry 0 of eps0mat.h5, or entry i_q - 1 of epsmat.h5, cut to its smaller
      dimension, and subtracted. *)
  Definition reference (i_q : nat) : res (nat * nat) :=
    if i_q =? q0 then py_item refs0 0 else py_item refs (Z.of_nat i_q - 1).
  Definition compare (i_q : nat) (m : M) : res unit :=
    do r <- reference i_q; subtract_ok (Nat.min (fst r) (snd r)) (dim m).
  (** 117-174, one turn of the loop (the reference is read before anything is written or appended). *)
  Definition one_q (writing : bool) (s : st) (i_q : nat) : res st :=
    do m <- calc i_q;
    let mem := fun q => if q =? i_q then Some m else l_epsinv s q in
    do _ <- reference i_q;
    let s' := if i_q =? q0 then MkSt mem (if writing then Some [m] else eps0_file s) (epsmats s)
              else MkSt mem (eps0_file s) (epsmats s ++ [m]) in
    do _ <- compare i_q m; Ok s'.
  Definition loop (writing : bool) (qs : list nat) : res st := foldm (one_q writing) st0 qs.

  (** Files and memories after the run. *)
  Record outcome := MkOut { o_eps0 : option (list M); o_eps : option (list M); o_mem : list (nat -> option M) }.
  (** gw/epsilon.py 424-436: an empty list leaves the file alone ([old]). *)
  Definition write_list (old : option (list M)) (l : list M) : option (list M) :=
    match l with [] => old | _ => Some l end.
  Fixpoint last_written (l : list (option (list M))) : option (list M) :=
    match l with [] => None | o :: t => match last_written t with Some x => Some x | None => o end end.
  (** 102-114, 176-188 and 192-207: [numq_arg] is not used.  In parallel, each process takes its part of
      [np.array_split], the lists are gathered in rank order and written by process 0.  The lines after
      the call gather the module's own list [epsmats], still empty, and hand it to [write_epsmat]. *)
  Definition script (p : nat) (numq_arg : option nat) : res outcome :=
    if 1 <? p then
      do sts <- sequence (map (loop true) (array_split (seq 0 numq) p));
      let file := write_list None (concat (map epsmats sts)) in
      Ok (MkOut (last_written (map eps0_file sts)) (write_list file (concat (map (fun _ => []) sts))) (map l_epsinv sts))
    else
      do s <- loop true (seq 0 numq);
      Ok (MkOut (eps0_file s) (write_list (write_list None (epsmats s)) []) [l_epsinv s]).
  (** gw_example_bgw.py 131-187: serial, the first [numq_arg] q-points, files only if [writing]. *)
  Definition example (numq_arg : option nat) (writing : bool) : res outcome :=
    do s <- loop writing (seq 0 (match numq_arg with Some n => n | None => numq end));
    Ok (MkOut (eps0_file s) (if writing then write_list None (epsmats s) else None) [l_epsinv s]).
End Script.
Arguments st : clear implicits.
Arguments outcome : clear implicits.
