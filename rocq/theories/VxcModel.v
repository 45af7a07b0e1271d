(** Model of /repo/src/qtm/dft/scf.py 543-559 ([calculate_vxc_data], the fifth value returned by
    scf(..., ret_vxc=True)), with containers/wavefun.py 198-219 ([get_density]) and
    containers/field.py 95-114 ([integrate_unitcell]).  Exact complex arithmetic, one spin
    component per wavefunction (the noncollinear case is not modelled), wavefunction and density
    spaces share one grid (otherwise the product of 554 is refused).  A division by zero gives the
    value Coquelicot assigns to it instead of nan. *)
From Verif Require Import Base GIndexModel LatModel GSphereModel CBase FFTModel KSHamModel TddftModel.
Open Scope nat_scope.

(** field.py 112-114: np.sum over the grid times reallat_dv. *)
Definition cell_integral (dv : R) (f : list C) : C := (fold_right Cplus (RtoC 0) f * RtoC dv)%C.

(** wavefun.py 212-219, [get_density()] (normalize=True) of one wavefunction. *)
Definition unit_density (dv : R) (psi_r : list C) : list C :=
  let den := get_density psi_r in
  let total := cell_integral dv den in
  map (fun d => d / total)%C den.

(** scf.py 554-555: [sum(v_xc * den).integrate_unitcell()].real; the density has one channel, which
    numpy broadcasts against the channels of the potential; [sum] starts from the integer 0. *)
Definition vxc_entry (npts : nat) (dv : R) (v_xc : list (list C)) (psi_r : list C) : R :=
  let den := unit_density dv psi_r in
  fst (cell_integral dv (fold_left (zip_with Cplus) (map (fun v => zip_with Cmult v den) v_xc) (repeat (RtoC 0) npts))).

(** scf.py 551: [wfn.evc_gk.to_r()]; the rows go through the FFT object one after another. *)
Fixpoint all_to_r (o : full) (evc : bands) : list (list C) :=
  match evc with
  | [] => []
  | c :: rest => let '(o1, psi_r) := full_g2r o c in psi_r :: all_to_r o1 rest
  end.

(** One k-point of this k-group: the FFT object of its k+G space and, for each spin, the
    coefficient arrays of the bands. *)
Definition kpoint : Type := (full * list bands)%type.

(** scf.py 549-556, one turn of the loop over k-points; row [ik] of the array starts as zeros. *)
Definition vxc_row (npts numbnd : nat) (dv : R) (v_xc : list (list C)) (p : kpoint) : res (list R) :=
  let '(o, spins) := p in
  match spins with
  | [] => Err IndexError                                              (* 550 *)
  | evc :: _ =>
      if Nat.leb (length evc) numbnd then
        Ok (map (vxc_entry npts dv v_xc) (all_to_r o evc) ++ repeat 0%R (numbnd - length evc))
      else Err IndexError                                             (* 555 *)
  end.

(** scf.py 546-557. *)
Fixpoint vxc_data (npts numbnd : nat) (dv : R) (v_xc : list (list C)) (kgrp : list kpoint) : res (list (list R)) :=
  match kgrp with
  | [] => Ok []
  | p :: rest =>
      match vxc_row npts numbnd dv v_xc p with
      | Err e => Err e
      | Ok row => match vxc_data npts numbnd dv v_xc rest with Err e => Err e | Ok rows => Ok (row :: rows) end
      end
  end.
