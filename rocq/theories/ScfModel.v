(** Model of the SCF driver: src/qtm/dft/scf.py (the iteration, 464-541, and the
    accumulation of the density over ranks, 392-409). *)
From Verif Require Import Base ScatterModel CommModel CtxModel.
From Coq Require Import Reals.
Local Open Scope R_scope.

(** The physics the driver calls, left abstract.  [D]: densities, [W]: wavefunctions and
    everything else the solvers carry along, [M]: state of the mixer.
    - [symmetrize]: SymmFieldMod.symmetrize (scf.py 471, 509);
    - [normalize]: normalize_rho (335-336, 472);
    - [output]: compute_vloc, solve_kswfn, compute_occ, update_rho_out (473-490): from the
      input density and the diagonalisation threshold to the output density;
    - [error]: mixmod.compute_error (492);
    - [mix]: mixmod.mix (507). *)
Record physics (D W M : Type) := MkPhysics {
  symmetrize : D -> D;
  normalize : D -> D;
  output : W -> D -> R -> D * W;
  error : D -> D -> R;
  mix : M -> D -> D -> D * M
}.
Arguments symmetrize {D W M}. Arguments normalize {D W M}. Arguments output {D W M}.
Arguments error {D W M}. Arguments mix {D W M}.

(** What iter_printer is told about one iteration (scf.py 514-523), plus the threshold the
    diagonalisation used and whether the mixer was called. *)
Record iteration := MkIter {
  it_idx : nat; it_thr_used : R; it_error : R; it_converged : bool; it_mixed : bool; it_thr_next : R }.

(** scf.py 466-541.  [n] is maxiter - idxiter.  e_error, scf_converged and diago_thr are
    broadcast from rank 0 of the image (493, 511, 512), so the decisions below are those of
    every rank; [error] is rank 0's value.  Floats are exact reals (no NaN). *)
Section Loop.
Context {D W M : Type} (ph : physics D W M) (symm_rho : bool) (conv_thr numel : R).
Fixpoint scf_loop (n idxiter : nat) (rho_in : D) (diago_thr : R) (w : W) (m : M)
  : bool * D * list iteration :=
  match n with
  | O => (false, rho_in, [])
  | S n' =>
      let rho_in := if symm_rho then symmetrize ph rho_in else rho_in in      (* 470-471 *)
      let rho_in := normalize ph rho_in in                                     (* 472 *)
      let (rho_out, w) := output ph w rho_in diago_thr in                      (* 473-490 *)
      let e_error := error ph rho_in rho_out in                                (* 492-493 *)
      if Rlt_dec e_error conv_thr then                                         (* 495-500 *)
        (true, rho_in, [MkIter idxiter diago_thr e_error true false diago_thr])
      else if (Nat.eqb idxiter 0 && (if Rlt_dec e_error (diago_thr * numel) then true else false))%bool then
        let thr := 1 / 10 * e_error / numel in                                 (* 501-503 *)
        let '(c, rho, tr) := scf_loop n' (S idxiter) rho_in thr w m in
        (c, rho, MkIter idxiter diago_thr e_error false false thr :: tr)
      else
        let thr := Rmax (Rmin diago_thr (1 / 10 * e_error / numel)) (5 / 10 * / 10 ^ 13) in  (* 505-506 *)
        let (rho_next, m) := mix ph m rho_in rho_out in                        (* 507 *)
        let rho_next := if symm_rho then symmetrize ph rho_next else rho_next in (* 508-509 *)
        let '(c, rho, tr) := scf_loop n' (S idxiter) rho_next thr w m in
        (c, rho, MkIter idxiter diago_thr e_error false true thr :: tr)
  end.
Definition scf (maxiter : nat) (rho_start : D) (diago_thr_init : R) (w : W) (m : M) :=
  scf_loop maxiter 0 rho_start diago_thr_init w m.
End Loop.

(* ------------------------------------------------------------------ *)
(** update_rho_out, scf.py 392-409.  [contrib k b] is one plane-wave component of
    k_weight * occ * |psi_{k,b}|^2 / cell volume (kswfn.compute_rho, kswfn.py 144-157). *)
Definition sumR (l : list R) : R := fold_right Rplus 0 l.
Definition local_rho (contrib : Z -> Z -> R) (ks bs : Z * Z) : R :=
  sumR (map (fun k => sumR (map (fun b => contrib k b) (zrange (fst bs) (snd bs)))) (zrange (fst ks) (snd ks))).

(** The collectives a rank issues: [with pwgrp_inter_image as comm: comm.Allreduce(...)]
    (scf.py 403-404), entered only when the rank has bands (395).  pwgrp_inter_image comes
    from Split, i.e. without synchronisation with its parent (comm.py 239-240, 385-390). *)
Definition inter_qcomm : qcomm := MkQComm false true false.
Definition update_rho_trace (numbnd n_bgrp i_bgrp : Z) : res (list event) :=
  do sl <- scatter_slice numbnd n_bgrp i_bgrp;
  Ok (if (fst sl <? snd sl)%Z then fst (with_block true inter_qcomm (fun _ => ([BodyStep 0], Finished))) else []).

(** The density component a rank holds before normalisation (scf.py 393-404): the sum over
    the members of its pwgrp_inter_image of what they contribute, when all of them take part. *)
Definition rank_contribution (contrib : Z -> Z -> R) (size : Z) (arg : option Z) (pw numkpts numbnd m : Z) : res R :=
  do c <- dft_comm_mod size arg pw m;
  do ks <- scatter_slice numkpts (n_kgrp c) (i_kgrp c);
  do bs <- scatter_slice numbnd (n_bgrp c) (i_bgrp c);
  Ok (if (fst bs <? snd bs)%Z then local_rho contrib ks bs else 0).
Definition allreduced_rho (contrib : Z -> Z -> R) (size : Z) (arg : option Z) (pw numkpts numbnd r : Z) : res R :=
  do c <- dft_comm_mod size arg pw r;
  do l <- sequence (map (rank_contribution contrib size arg pw numkpts numbnd) (pwgrp_inter_image c));
  Ok (sumR l).
