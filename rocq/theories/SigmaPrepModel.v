(** Model of the preparation of a self-energy calculation, /repo/src/qtm/gw/sigma.py 53-295
    ([Sigma.__init__], [from_qtm_scf], [from_data]): the k-points asked for, the starting density and
    potential, the list of q-points and the dielectric matrices, with /repo/src/qtm/gw/vcoul.py 142-255
    and 719-749 ([fixwings], [calculate_fixedeps]) for complex matrices.
    Numbers are exact; the Coulomb factors and [oneoverq] are inputs (vcoul.calculate_vcoul is modelled
    in VcoulMCModel and GwModel).  Where the code divides by zero the model has Coquelicot's value. *)
From Coq Require Import Reals Lra.
From Verif Require Import Base SortModel LatModel GIndexModel CBase FFTModel GwModel.
Open Scope R_scope.

(** sigma.py 149-155: for each requested k-point, [np.where(np.all(kpt == cryst, axis=1))[0][0]]:
    exact comparison of the three coordinates, the first row that agrees. *)
Definition rvec_eqb (a b : rvec) : bool := reqb (vx a) (vx b) && reqb (vy a) (vy b) && reqb (vz a) (vz b).
Definition k_index (cryst : list rvec) (kpt : rvec) : res nat := first_true (map (rvec_eqb kpt) cryst).
Definition k_indices (cryst asked : list rvec) : res (list nat) := sequence (map (k_index cryst) asked).

(** sigma.py 231-236: the density of the calculation, from the channels of [rho] (each with its G=0
    coefficient first); 234: [rho_temp._data *= numel / sum(data_g0)], then [rho_temp.data[0]].
    The deep copy of 231 keeps the caller's density.  A channel always has at least one coefficient,
    and [data[0]] needs a channel. *)
Definition scf_density (numel : R) (rho : list (list C)) : res (list C) :=
  let total := fold_left Cplus (map (fun ch => nth 0 ch (RtoC 0)) rho) (RtoC 0) in
  item (map (map (fun c => (c * (RtoC numel / total))%C)) rho) 0.
(** sigma.py 238: vxc / ELECTRONVOLT_HART. *)
Definition scf_vxc (eV : R) (vxc : list (list R)) : list (list R) := map (map (fun x => x / eV)) vxc.

(** sigma.py 275-277: [l_qpts = np.array(epsinp.qpts); l_qpts[0] *= 0]; an empty list has no row 0.
    Then QPoints.from_cryst with is_q0=None.  Result: the q-points and index_q0, [metric] being
    recilat.norm2. *)
Definition data_qpts (metric : rvec -> R) (qpts : list rvec) : res (list rvec * nat) :=
  match qpts with
  | [] => Err IndexError
  | _ :: rest => let l := V 0 0 0 :: rest in do i <- index_q0 None (map metric l); Ok (l, i)
  end.
(** sigma.py 247: QPoints.from_cryst(kpts.recilat, epsinp.is_q0, *epsinp.qpts). *)
Definition scf_qpts (metric : rvec -> R) (flags : option (list bool)) (qpts : list rvec) : res (list rvec * nat) :=
  do i <- index_q0 flags (map metric qpts);
  if (i <? length qpts)%nat then Ok (qpts, i) else Err IndexError.

(** vcoul.py 192-209, one element of the nested [fixwing]; [head] is the value of 207. *)
Definition fix_wing (q0flag : bool) (oneoverq v qlen : R) (x : C) : C :=
  if q0flag then (x * RtoC 0)%C else (x * RtoC oneoverq / RtoC (v * qlen))%C.
Definition fix_wingprime (q0flag : bool) (oneoverq qlen : R) (x : C) : C :=
  if q0flag then (x * RtoC 0)%C else (x * RtoC oneoverq * RtoC qlen / RtoC (8 * PI))%C.
Definition fix_head (q0flag : bool) (v : R) (wcoul0 : C) (x : C) : C :=
  if q0flag then (RtoC 1 * wcoul0 / RtoC v)%C else x.
(** numpy item assignments on the deep copy: a column, a row, an element. *)
Definition set_col (i0 : nat) (f : C -> C) (m : list (list C)) : list (list C) :=
  map (fun row => map (fun p => if (fst p =? i0)%nat then f (snd p) else snd p) (combine (seq 0 (length row)) row)) m.
Definition set_row (i0 : nat) (f : C -> C) (m : list (list C)) : list (list C) :=
  map (fun p => if (fst p =? i0)%nat then map f (snd p) else snd p) (combine (seq 0 (length m)) m).
Definition set_elt (i0 : nat) (x : C) (m : list (list C)) : list (list C) :=
  map (fun p => if (fst p =? i0)%nat
                then map (fun q => if (fst q =? i0)%nat then x else snd q) (combine (seq 0 (length (snd p))) (snd p))
                else snd p) (combine (seq 0 (length m)) m).
(** vcoul.py 225-255: head, wings, head restored; an index outside the matrix raises IndexError. *)
Definition fix_matrix (q0flag : bool) (oneoverq v qlen : R) (wcoul0 : C) (i0 : nat) (eps : list (list C)) : res (list (list C)) :=
  do row <- item eps i0; do x <- item row i0;
  let head := fix_head q0flag v wcoul0 x in
  let m1 := set_elt i0 head eps in
  let m2 := set_col i0 (fix_wingprime q0flag oneoverq qlen) m1 in
  let m3 := set_row i0 (fix_wing q0flag oneoverq v qlen) m2 in
  Ok (set_elt i0 head m3).

(** One sphere of plane waves around a q-point: Miller indices, q+G in crystal coordinates, |q+G|^2. *)
Record sphere := MkSphere { sp_g : list vec3; sp_gk : list rvec; sp_norm2 : list R }.

(** vcoul.py 727-747, [calculate_fixedeps(epsinv, i_q, random_sample=False)]: [bare] is the sphere of the
    Coulomb cutoff, [vcoul] its Coulomb factors. *)
Definition fixed_eps (is_q0 : bool) (oneoverq qlen : R) (bare : sphere) (vcoul : list R) (eps : list (list C)) : res (list (list C)) :=
  do order <- sort_cryst_like_BGW (sp_gk bare) (sp_norm2 bare);
  do o <- item order 0; do v <- item vcoul o;                                    (* 730 *)
  do row <- item eps 0; do e00 <- item row 0;                                    (* 732 *)
  do i0 <- index_G0 (sp_g bare) (sp_gk bare) (sp_norm2 bare);                    (* 213-222 *)
  fix_matrix is_q0 oneoverq v qlen (e00 * RtoC v)%C i0 eps.

(** sigma.py 203: epsinv - np.eye(len(epsinv)), for a square matrix. *)
Definition minus_identity (m : list (list C)) : list (list C) :=
  map (fun p => map (fun q => if (fst p =? fst q)%nat then (snd q - RtoC 1)%C else snd q) (combine (seq 0 (length (snd p))) (snd p)))
      (combine (seq 0 (length m)) m).

(** sigma.py 195-210, one turn of the loop over q-points; [own] is the sphere of the dielectric cutoff. *)
Definition stored_eps (is_q0 : bool) (oneoverq qlen : R) (bare : sphere) (vcoul : list R) (own : sphere) (eps : list (list C))
  : res (list (list C)) :=
  do fixed <- fixed_eps is_q0 oneoverq qlen bare vcoul eps;
  do order <- sort_cryst_like_BGW (sp_gk own) (sp_norm2 own);
  reorder_2d (minus_identity fixed) (argsort Nat.leb order).
