(** Model of the starting density and of the energy bookkeeping of the SCF driver:
    /repo/src/qtm/dft/scf.py lines 139-174 (start), 335-336 (normalize_rho) and 426-453
    (compute_en), over exact reals. *)
From Verif Require Import Base GIndexModel LatModel GSphereModel FFTModel KSHamModel PotModel EwaldModel LocModel CBase.
Open Scope R_scope.

(** A species: pseudopotential data and fractional positions of its atoms. *)
Definition species : Type := (upf * list rvec)%type.

(** In-place [rho += a * f] on the coefficient arrays of two fields of one G-space. *)
Definition add_scaled (rho : list C) (a : R) (f : list C) : list C :=
  zip_with Cplus rho (map (fun c => RtoC a * c)%C f).

(** scf.py 168, [max(min(mag, 1), -1)]. *)
Definition clamp_mag (m : R) : R := Rmax (Rmin m 1) (-1).

(** scf.py 164-170: a spin-polarised start from one magnetisation per species.  Python's
    [zip] stops at the shorter of the two sequences. *)
Definition start_spin (G : gsp) (sps : list species) (mags : list R) : list C * list C :=
  fold_left (fun st p =>
      let rho := rhoatomic G (fst (fst p)) (snd (fst p)) in
      let m := clamp_mag (snd p) in
      (add_scaled (fst st) ((1 + m) / 2) rho, add_scaled (snd st) ((1 - m) / 2) rho))
    (combine sps mags) (repeat (RtoC 0) (gp_size G), repeat (RtoC 0) (gp_size G)).

(** scf.py 172-174: an unpolarised start, Python's [sum] over the species followed by
    [.reshape(1)] (the int 0 of an empty sum has no such method). *)
Definition start_plain (G : gsp) (sps : list species) : res (list C) :=
  match sps with
  | [] => Err AttributeError
  | s :: rest => Ok (fold_left (fun acc s => zip_with Cplus acc (rhoatomic G (fst s) (snd s))) rest
                       (map (fun c => RtoC 0 + c)%C (rhoatomic G (fst s) (snd s))))
  end.

(** What the caller can pass as [rho_start] when no density object is given. *)
Inductive start_arg := NoStart | Mags (m : list R).

(** scf.py 139-174 for arguments that are not density objects: the list of spin channels. *)
Definition start_density (G : gsp) (sps : list species) (is_spin : bool) (a : start_arg)
  : res (list (list C)) :=
  if is_spin then
    match a with
    | NoStart => Err ValueError
    | Mags m => let ud := start_spin G sps m in Ok [fst ud; snd ud]
    end
  else do r <- start_plain G sps; Ok [r].

(** scf.py 335-336, [normalize_rho]: every channel is multiplied by
    numel / (sum of the G = 0 coefficients * dv).  ([data_g0] is entry 0 of each channel.
    NumPy's division by an exact zero gives inf/nan instead of the reals' 0; the
    theorems assume a nonzero denominator.) *)
Definition normalize_rho (G : gsp) (numel : R) (rho : list (list C)) : list (list C) :=
  let q := (fold_left (fun acc r => acc + nth 0 r (RtoC 0))%C rho (RtoC 0) * RtoC (gp_dv G))%C in
  map (map (fun c => c * (RtoC numel / q))%C) rho.

(* ------------------------------------------------------------------ *)

(** One Kohn-Sham set: k_weight, evl, occ. *)
Record ks_levels := MkLevels { lv_weight : R; lv_evl : list R; lv_occ : list R }.

(** scf.py 428-433: a k-group's sum of weighted band energies (outer list: k-points, inner:
    spin channels).  [np.sum(evl * occ)]. *)
Definition band_sum (l : list R) : R := fold_right Rplus 0 l.
Definition group_eigen (g : list (list ks_levels)) : R :=
  fold_left (fun e wk => e + band_sum (map (fun w => lv_weight w * band_sum (zip_with Rmult (lv_evl w) (lv_occ w))) wk)) g 0.

(** scf.py 434-438: sum over the roots of the k-groups, then broadcast. *)
Definition total_eigen (groups : list (list (list ks_levels))) : R := band_sum (map group_eigen groups).

(** scf.py 440, 445: [sum(v_hxc * rho.to_r()).integrate_unitcell()]: channels summed, then
    the grid points, times the volume element.  [v] and [rho] hold one grid array per channel. *)
Definition integral_v_rho (dv : R) (v rho : list (list C)) : C :=
  (fold_right Cplus (RtoC 0) (spin_sum (zip_with (zip_with Cmult) v rho)) * RtoC dv)%C.

(** scf.py 439: [v_hxc = v_hart + v_xc], the scalar Hartree field added to every channel. *)
Definition v_hxc (v_hart : list C) (v_xc : list (list C)) : list (list C) :=
  map (fun vx => zip_with Cplus v_hart vx) v_xc.

(** The energies printed and returned (scf.py 441-453). *)
Record energies := MkEn { en_one_el : R; en_total : R; en_hwf : R; en_internal : option R }.

(** scf.py 426-453, [compute_en].  [smear] is [Some en.smear] with smeared occupations.
    ([internal] stays None with fixed occupations.) *)
Definition compute_en (dv e_eigen e_ewald e_hartree e_xc : R) (smear : option R)
    (v_hart : list C) (v_xc rho_in rho_out : list (list C)) : energies :=
  let v := v_hxc v_hart v_xc in
  let one_el := fst (RtoC e_eigen - integral_v_rho dv v rho_out)%C in
  let total := one_el + e_ewald + e_hartree + e_xc in
  let hwf := fst (RtoC e_eigen - integral_v_rho dv v rho_in + RtoC e_ewald + RtoC e_hartree + RtoC e_xc)%C in
  match smear with
  | None => MkEn one_el total hwf None
  | Some s => MkEn one_el (total + s) (hwf + s) (Some (total + s - s))
  end.

(** scf.py 491-500: the energies an iteration leaves behind.  When the error estimate is
    below the threshold the output density is replaced by the input density and the energies
    are evaluated again. *)
Definition iteration_energies (dv e_eigen e_ewald e_hartree e_xc : R) (smear : option R)
    (v_hart : list C) (v_xc rho_in rho_out : list (list C)) (converged : bool) : energies :=
  let en := compute_en dv e_eigen e_ewald e_hartree e_xc smear v_hart v_xc rho_in rho_out in
  if converged then compute_en dv e_eigen e_ewald e_hartree e_xc smear v_hart v_xc rho_in rho_in else en.
