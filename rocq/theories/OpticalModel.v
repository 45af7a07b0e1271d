(** Model of /repo/src/qtm/tddft_gamma/optical.py (dipole_response, dipole_spectrum),
    /repo/src/qtm/tddft_gamma/propagate.py (the propagation loop, lines 109-125) and
    containers/field.py (integrate_unitcell), over exact reals and complex numbers.
    Serial branch (the G-spaces are not distributed), one k-point, one spin channel.  The density
    and the orbitals live on the same grid: compute_rho returns a field of gkspc.gwfn, whose
    shape is also the shape of the position mesh.  The FFT objects are not threaded through
    the calls: FFTProofs.full_stateless shows that their buffers do not influence results. *)
From Coq Require Import String.
From Verif Require Import Base GIndexModel LatModel CrystalModel GSphereModel CBase FFTModel KSHamModel TddftModel.
Open Scope nat_scope.

(** The three Cartesian axes and optical.py 137: ["x","y","z"].index(kick_direction). *)
Inductive axis := AX | AY | AZ.
Definition axes : list axis := [AX; AY; AZ].
Definition comp (a : axis) (r : rvec) : R := match a with AX => vx r | AY => vy r | AZ => vz r end.
Definition parse_axis (d : string) : option axis :=
  if String.eqb d "x" then Some AX else if String.eqb d "y" then Some AY else if String.eqb d "z" then Some AZ else None.

(** What a run is given: the crystal, the grid, the FFT objects of the k+G space (normalise_idft =
    False) and of the density G-space (normalise_idft = True), the cell volume, the
    occupations and the weight k_weight of the k-point. *)
Record system := MkSystem {
  y_crystal : crystal; y_nx : nat; y_ny : nat; y_nz : nat;
  y_fk : full; y_fw : full; y_vol : R; y_occ : list R; y_kw : R }.
Definition npts (y : system) : nat := y_nx y * y_ny y * y_nz y.

(** optical.py 48-50 (and 122-124, 154-156, propagate.py 119-121):
    k_weight * compute_rho(ret_raw=True).to_g().  compute_rho normalises the stored orbitals
    (TddftModel.compute_rho), which are returned as well. *)
Definition dens (y : system) (b : bands) : res (bands * list C) :=
  do r <- compute_rho (npts y) (y_vol y) (y_fk y) b (y_occ y) (Slice 0 (length b));
  let '(_, b', rho) := r in
  Ok (b', map (Cmult (RtoC (y_kw y))) (snd (full_r2g (y_fw y) rho))).

(** optical.py 76-82: sum over species of valence * sum of crystal positions, divided by the
    number of electrons (a crystal without electrons gives NaN positions; not represented). *)
Definition center_cryst (c : crystal) : rvec :=
  let s := fold_right vadd (V 0 0 0)
             (map (fun sp => vscale (IZR (sp_valence sp)) (fold_right vadd (V 0 0 0) (sp_r sp))) (cr_atoms c)) in
  vscale (/ IZR (numel c)) s.
(** optical.py 83-90: the mesh of positions, as a tuple origin in Cartesian coordinates. *)
Definition positions (y : system) : res (list rvec) :=
  let U := cr_lat (y_crystal y) in
  get_mesh_coords U (Z.of_nat (y_nx y)) (Z.of_nat (y_ny y)) (Z.of_nat (y_nz y)) Cart
    (OTuple (cryst2cart (u_lat U) (center_cryst (y_crystal y)))).

(** field.py 95-112, [integrate_unitcell(other, axis)] for one component of [other]: the sum over
    the grid of data * other, times the differential volume (cell volume over grid points). *)
Definition integrate_unitcell (y : system) (data : list C) (other : list R) : C :=
  (fold_right Cplus (RtoC 0) (zip_with (fun c r => c * RtoC r) data other)
   * RtoC (y_vol y / INR (npts y)))%C.

(** optical.py 99-115: the integral of r * (rho - rho_start)(r), one entry per axis. *)
Definition dipole (y : system) (pts : list rvec) (rho rho0 : list C) : list C :=
  let d := snd (full_g2r (y_fw y) (zip_with Cminus rho rho0)) in
  map (fun a => integrate_unitcell y d (map (comp a) pts)) axes.

(** Effects on the file "dipz_temp.npy". *)
Definition table : Type := list (list C).
Inductive event := Remove | Save (rows : list (option (list C))).
(** Division by kick_strength (118, 169); numpy gives NaN for a zero kick: None. *)
Definition over (kick : R) (row : list C) : option (list C) :=
  if Req_EM_T kick 0 then None else Some (map (fun c => c / RtoC kick)%C row).

Definition set_row (i : nat) (r : list C) (t : table) : table := firstn i t ++ r :: skipn (S i) t.

(** optical.py 92-118, [compute_dipole(istep, rho, write_freq)] on rank 0, with the file present
    or not; [istep] starts at -1.  Python's % with a positive divisor is Z.modulo.  The saved
    slice is dip_t[: istep + 1]. *)
Definition compute_dipole (y : system) (pts : list rvec) (rho0 : list C) (kick : R)
  (istep : Z) (rho : list C) (write_freq : Z) (s : table * list event) : table * list event :=
  let '(t, ev) := s in
  let t := set_row (Z.to_nat (istep + 1)) (dipole y pts rho rho0) t in
  if (0 <? write_freq)%Z && (istep mod write_freq =? 0)%Z
  then (t, ev ++ [Remove; Save (map (over kick) (firstn (Z.to_nat (istep + 1)) t))])
  else (t, ev).

(** optical.py 128-132: exp(-i kick r_dir) at every grid point. *)
Definition kick_phase (kick : R) (a : axis) (pts : list rvec) : list C :=
  map (fun r => cis (- (kick * comp a r))) pts.
(** optical.py 146-148: to_r, multiplication by the phase, unnormalised r2g written back. *)
Definition kick_bands (y : system) (phase : list C) (b : bands) : bands :=
  map (fun row => snd (full_r2g (y_fk y) (zip_with Cmult (snd (full_g2r (y_fk y) row)) phase))) b.

Section Propagation.
  (** The rest of the propagation: [setup] stands for propagate.py 31-113 (potentials, choice of the
      operators, which may raise), [step] for one call of prop_step (TddftModel.etrs_taylor,
      etrs_split), which changes the orbitals and the operator's own memory.  Arbitrary. *)
  Variable P : Type.
  Variable setup : list C -> bands -> res (bands * P).
  Variable step : bands -> list C -> P -> res (bands * P).

  (** propagate.py 115-123: the loop over the time steps [istep .. istep + n - 1];
      normalize_rho (prop/etrs.py) returns at once; dipole_updater is called with two
      arguments, hence with the default write_freq = 10. *)
  Fixpoint loop (y : system) (pts : list rvec) (rho0 : list C) (kick : R) (n : nat) (istep : Z)
    (b : bands) (rho : list C) (p : P) (s : table * list event) : list event * res (bands * table) :=
    match n with
    | O => (snd s, Ok (b, fst s))
    | S m =>
        match step b rho p with
        | Err e => (snd s, Err e)
        | Ok (b1, p1) =>
            match dens y b1 with
            | Err e => (snd s, Err e)
            | Ok (b2, rho2) =>
                loop y pts rho0 kick m (istep + 1) b2 rho2 p1 (compute_dipole y pts rho0 kick istep rho2 10 s)
            end
        end
    end.

  (** optical.py 21-170, [dipole_response] on rank 0: the effects on the file, and the returned
      table together with the orbitals left in wfn_gamma[0][0].  kick_strength = 0 returns the
      table undivided. *)
  Definition dipole_response (y : system) (b : bands) (numstep : nat) (kick : R) (dir : string) (write_freq : Z)
    : list event * res (bands * list (option (list C))) :=
    match dens y b with
    | Err e => ([], Err e)
    | Ok (b1, rho0) =>
    match parse_axis dir with
    | None => ([], Err ValueError)
    | Some a =>
    match positions y with
    | Err e => ([], Err e)
    | Ok pts =>
    match dens y b1 with
    | Err e => ([], Err e)
    | Ok (b2, rho1) =>
    let s := compute_dipole y pts rho0 kick (-1) rho1 write_freq
               (repeat [RtoC 0; RtoC 0; RtoC 0] (S numstep), []) in
    match dens y (kick_bands y (kick_phase kick a pts) b2) with
    | Err e => (snd s, Err e)
    | Ok (b3, rho2) =>
    match setup rho2 b3 with
    | Err e => (snd s, Err e)
    | Ok (b4, p) =>
    match loop y pts rho0 kick numstep 0 b4 rho2 p s with
    | (ev, Err e) => (ev, Err e)
    | (ev, Ok (b5, t)) =>
        (ev, Ok (b5, if Req_EM_T kick 0 then map Some t else map (over kick) t))
    end end end end end end end.
End Propagation.

(* ------------------------------------------------------------------ *)
(** dipole_spectrum *)

(** np.arange(start, stop, step): start + i * step for i < ceil((stop - start) / step). *)
Definition np_arange (start stop step : R) : res (list R) :=
  if Req_EM_T step 0 then Err ZeroDivisionError
  else Ok (map (fun i => start + INR i * step)%R (seq 0 (Z.to_nat (- rfloor (- ((stop - start) / step)))))).

(** optical.py 216-223: the damping weight at time [t]; T is the propagation time. *)
Definition weight (func : string) (fac T t : R) : R :=
  if String.eqb func "poly" then (1 - 3 * (t / T) ^ 2 + 2 * (t / T) ^ 3)%R
  else if String.eqb func "exp" then exp (- (fac * t)) else exp (- (fac * t) ^ 2).

Section Spectrum.
  (** scipy's simpson(y, x) is a fixed linear combination of the samples with weights that
      depend on the abscissae only. *)
  Variable simpson_weights : list R -> nat -> R.
  Definition simpson (x : list R) (v : list C) : C :=
    csum (length v) (fun i => RtoC (simpson_weights x i) * nth i v (RtoC 0))%C.

  (** optical.py 173-234.  [dip] has at least one row and [ncol] columns; damp_fac None sets
      damp_func to "poly" (203-204), so the defaults of 211-214 are never used.  With T = 0
      the polynomial weight is NaN in the code (0/0); not represented. *)
  Definition dipole_spectrum (ncol : nat) (dip : table) (time_step en_start en_end : R) (en_step : option R)
    (damp_func : option string) (damp_fac : option R) : res (list R * table) :=
    let numstep := length dip - 1 in
    let T := (INR numstep * time_step)%R in
    do step <- (match en_step with
                | Some s => Ok s
                | None => if Req_EM_T T 0 then Err ZeroDivisionError else Ok (2 * PI / T)%R
                end);
    let time := map (fun i => INR i * time_step)%R (seq 0 (S numstep)) in
    do l_en <- np_arange en_start en_end step;
    let func := match damp_fac with None => Some "poly"%string | Some _ => damp_func end in
    do f <- (match func with
             | Some f => if (String.eqb f "poly" || String.eqb f "exp" || String.eqb f "gauss")%bool
                         then Ok f else Err ValueError
             | None => Err ValueError
             end);
    let fac := match damp_fac with Some x => x | None => 0%R end in
    if (negb (String.eqb f "poly") && (if Rlt_dec fac 0 then true else false))%bool then Err ValueError else
    let damped := zip_with (fun row t => map (fun c => c * RtoC (weight f fac T t))%C row) dip time in
    Ok (l_en,
        map (fun en => map (fun j =>
               simpson time (zip_with (fun row t => nth j row (RtoC 0) * (- Ci) * RtoC (sin (en * t)))%C damped time))
             (seq 0 ncol)) l_en).
End Spectrum.
