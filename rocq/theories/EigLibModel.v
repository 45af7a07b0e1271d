(** Model of the drivers of the library eigensolvers: /repo/src/qtm/dft/eigsolve/scipy_eigsh.py and primme_eigsh.py.
    The library routine itself is an arbitrary interactive program: it asks for products of the operator with blocks of
    vectors (and for preconditioned blocks), and ends with eigenvalues and eigenvectors or with an exception.
    Exact complex arithmetic; wavefunctions without non-collinear spin. *)
From Coq Require Import Reals.
From Verif Require Import Base GIndexModel LatModel GSphereModel CBase FFTModel KSHamModel.
Open Scope nat_scope.

(** [Ret evl v]: the arrays returned by the routine, [v] listed by columns (one vector each). *)
Inductive library :=
| Ret (evl : list R) (v : list (list C))
| Raise (e : exn)
| Apply (x : list (list C)) (next : list (list C) -> library)
| Precond (psi : list (list C)) (e_psi : list R) (next : list (list C) -> library).

(** KSWfn: [evl] and the rows of [evc_gk]; [numbnd] is their number (kswfn.py 37-60). *)
Record kswfn := MkWfn { w_evl : list R; w_evc : list (list C) }.

(** primme_eigsh.py 80-90, [preconditioner], one coefficient: x = 2 (d - e), denom = 0.5 (1 + x + sqrt(1 + (x-1)^2)) / 2,
    psi /= denom * 2.  The diagonal is taken real (it is, for Hermitian data: C59). *)
Definition prec_denom (d e : R) : R :=
  let scala := 2%R in let x := (scala * (d - e))%R in (/ 2 * (1 + x + sqrt (1 + (x - 1) * (x - 1))) / scala)%R.
Definition prec_block (diag : list R) (psi : list (list C)) (e_psi : list R) : list (list C) :=
  map (fun p => map (fun q => (snd q / RtoC (prec_denom (fst q) (snd p) * 2))%C) (combine diag (fst p))) (combine psi e_psi).

(** scipy_eigsh.py 37-44 / primme_eigsh.py 61-68, [ksham_matvec]: the routine's vectors are wrapped (primme: the columns
    become rows by [.T]), a fresh buffer is passed to h_psi, its content returned in the same layout.  [n] is n_hpsi, one
    more per call, whatever the number of vectors of the block.  [diag]: the preconditioner's diagonal. *)
Fixpoint run (h : ksham) (diag : list R) (p : library) (o : full) (n : nat) : full * (nat * res (list R * list (list C))) :=
  match p with
  | Ret evl v => (o, (n, Ok (evl, v)))
  | Raise e => (o, (n, Err e))
  | Apply x next =>
      match h_psi h o x (map (fun _ => []) x) with
      | Ok (o', y) => run h diag (next y) o' (S n)
      | Err e => (o, (S n, Err e))
      end
  | Precond psi e_psi next => run h diag (next (prec_block diag psi e_psi)) o n
  end.

(** The checks of scipy_eigsh.py 21-33 and primme_eigsh.py 42-56: [intra] is the size of kgrp_intra, [same_gk] tells whether
    the Hamiltonian and the wavefunction share the G+k space object. *)
Definition checks (intra : nat) (same_gk : bool) (diago_thr : R) : res unit :=
  do _ <- assert_ (intra =? 1);
  do _ <- assert_ same_gk;
  assert_ (if Rlt_dec 0 diago_thr then true else false).

(** [evl[:], evc_gk[:] = ...] where evc_gk is the transposed view of the coefficients: the columns become the rows.
    Arrays of another shape are refused (NumPy's broadcasting of one value or one column is left out). *)
Definition store (w : kswfn) (size_g : nat) (evl : list R) (v : list (list C)) : kswfn * res unit :=
  if (length evl =? length (w_evl w)) then
    if (length v =? length (w_evc w)) && forallb (fun c => length c =? size_g) v then (MkWfn evl v, Ok tt)
    else (MkWfn evl (w_evc w), Err ValueError)
  else (w, Err ValueError).
Definition finish (w : kswfn) (size_g : nat) (r : full * (nat * res (list R * list (list C)))) : full * (kswfn * res nat) :=
  match snd (snd r) with
  | Err e => (fst r, (w, Err e))
  | Ok (evl, v) => let '(w', s) := store w size_g evl v in (fst r, (w', do _ <- s; Ok (fst (snd r))))
  end.

(** scipy_eigsh.py 17-55, [solve].  [eigsh] gets the order of the operator and the number of pairs: no starting vectors and
    no tolerance.  The result: FFT object, the wavefunction after the call, and n_hpsi or the exception. *)
Definition scipy_solve (eigsh : nat -> nat -> library) (intra : nat) (same_gk : bool) (diago_thr : R)
    (h : ksham) (o : full) (w : kswfn) : full * (kswfn * res nat) :=
  match checks intra same_gk diago_thr with
  | Err e => (o, (w, Err e))
  | Ok _ => finish w (length (gs_cryst (kh_gs h))) (run h [] (eigsh (length (gs_cryst (kh_gs h))) (length (w_evl w))) o 0)
  end.

(** primme_eigsh.py 29-146, [solve].  [eigsh] gets the order, the number of pairs, the starting vectors (the columns of
    evc_gk.T), the tolerance and the iteration limit.  [vloc_g0]: the first entry of the argument, taken real. *)
Definition prec_diag (h : ksham) (vloc_g0 : R) : list R :=
  map (fun g => fst (ham_diag h (RtoC vloc_g0) g)) (seq 0 (length (gs_cryst (kh_gs h)))).
Definition primme_solve (installed : bool) (eigsh : nat -> nat -> list (list C) -> R -> nat -> library) (intra : nat)
    (same_gk : bool) (diago_thr vloc_g0 : R) (maxiter : nat) (h : ksham) (o : full) (w : kswfn) : full * (kswfn * res nat) :=
  if installed then
    match checks intra same_gk diago_thr with
    | Err e => (o, (w, Err e))
    | Ok _ => finish w (length (gs_cryst (kh_gs h)))
                (run h (prec_diag h vloc_g0)
                   (eigsh (length (gs_cryst (kh_gs h))) (length (w_evl w)) (w_evc w) diago_thr maxiter) o 0)
    end
  else (o, (w, Err ImportError)).
