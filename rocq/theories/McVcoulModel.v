(** Model of the Monte Carlo Coulomb averages of /repo/src/qtm/gw/vcoul.py: the neighbourhood of
    Gamma, the hybrid average (analytic in the inscribed sphere, sampled outside), the average of
    1/|q|, and the per-q-point driver.  Numbers are exact; None is nan or inf.  The generator is
    an arbitrary stream of 32-bit words ([words]): the code builds MT19937 from a fixed seed for
    every call (270-277), so the stream is the same at every call and on every process.  The
    k-d tree (487-488) is an arbitrary function returning a nearest point ([pick]).
    N_SAMPLES and N_SAMPLES_COARSE (65-66) are the parameters [nmax], [ncoarse]. *)
From Coq Require Import Reals Lra.
From Verif Require Import Base SortModel LatModel GwModel.
Open Scope R_scope.

(** 68 *)
Definition TOL_SMALL : R := 1 / 100000.

Definition len2 (v : rvec) : R := vdot v v.
Definition len (v : rvec) : R := sqrt (len2 v).

(** 402-419, [get_gamma_nbhd_qpts]: the q-points with q0 moved to zero, copied with the eight
    sign patterns; [np.unique] sorts and removes duplicates - only the set matters here, so the
    copies are kept as a list. *)
Definition signs : list rvec :=
  flat_map (fun i => flat_map (fun j => map (fun k => V i j k) [1; -1]) [1; -1]) [1; -1].
Definition vmul (s v : rvec) : rvec := V (vx s * vx v) (vy s * vy v) (vz s * vz v).
Fixpoint set_nth {A} (i : nat) (x : A) (l : list A) : list A :=
  match l, i with
  | [], _ => []
  | _ :: t, O => x :: t
  | y :: t, S i' => y :: set_nth i' x t
  end.
Definition full_qpts (qpts : list rvec) (iq0 : nat) : list rvec :=
  flat_map (fun s => map (vmul s) (set_nth iq0 (V 0 0 0) qpts)) signs.
(** [np.min] *)
Definition np_min (l : list R) : res R :=
  match l with [] => Err ValueError | x :: t => Ok (fold_left Rmin t x) end.
(** 424-433; [B] holds the reciprocal lattice vectors. *)
Definition gamma_nbhd (B : mat) (qpts : list rvec) (iq0 : nat) : res (R * list rvec) :=
  let full := map (mv B) (full_qpts qpts iq0) in
  do m <- np_min (filter (fun x => rltb TOL_SMALL x) (map len2 full));
  let q_cut := sqrt m / 2 in
  Ok (q_cut, filter (fun v => rleb (len2 v) ((8 * q_cut) ^ 2)) full).

(** 481-484: consecutive triples of words, scaled to a box of side numq^(-1/3) in crystal
    coordinates. *)
Fixpoint triples (n : nat) (w : list R) : list rvec :=
  match n, w with
  | S n', a :: b :: c :: w' => V a b c :: triples n' w'
  | _, _ => []
  end.
Definition sample_factor (numq : nat) : R := 1 / (2 ^ 32 * Rpower (INR numq) (1 / 3)).
Definition samples (B : mat) (numq nsamples : nat) (words : list R) : list rvec :=
  map (fun v => mv B (vscale (sample_factor numq) v)) (triples nsamples words).
(** 487-489: each sample minus its nearest grid point. *)
Definition folded (pick : list rvec -> rvec -> rvec) (nbhd : list rvec) (pts : list rvec) : list rvec :=
  map (fun p => vsub p (pick nbhd p)) pts.

(** [np.reciprocal], None for 1/0. *)
Definition recip (x : R) : option R := if reqb x 0 then None else Some (/ x).
Definition osum (l : list (option R)) : option R :=
  fold_right (fun o acc => match o, acc with Some x, Some a => Some (x + a) | _, _ => None end) (Some 0) l.

(** 322-331 with the distance and radius compared: [np.arctanh] of a ratio above one is nan, of
    one inf (times zero: nan). *)
Definition sphere_shifted (q_cut d : R) : option R :=
  if reqb d 0 then None else if rleb d q_cut then None else v_minibz_sphere_shifted q_cut d.

(** 473-476, 532-537: number of samples for a shift of length [d] > 0. *)
Definition nsamples_for (nmax ncoarse : nat) (q_cut d : R) : nat :=
  Z.to_nat (Z.max 1 (Z.min (Z.of_nat nmax) (rint (INR ncoarse * 4 * q_cut ^ 2 / d ^ 2)))).

Section MC.
  Variables (B : mat) (cellvol : R) (qpts : list rvec) (iq0 : nat) (nmax ncoarse : nat) (words : list R)
            (pick : list rvec -> rvec -> rvec).
  Definition numq : nat := length qpts.

  (** 435-510, [v_minibz_montecarlo_hybrid] *)
  Definition montecarlo_hybrid (shift_cryst : rvec) : res (option R * option R) :=
    let shift := mv B shift_cryst in
    do nb <- gamma_nbhd B qpts iq0;
    let q_cut0 := fst nb in
    let d := len shift in
    let gamma := rltb d TOL_SMALL in
    let v_sph := if gamma then Some (32 * PI ^ 2 * q_cut0 / (8 * PI ^ 3 / (cellvol * INR numq)))
                 else sphere_shifted q_cut0 d in
    let n := if gamma then nmax else nsamples_for nmax ncoarse q_cut0 d in
    let q_cut := if gamma then q_cut0 else 0 in
    let pts := folded pick (snd nb) (samples B numq n words) in
    let outside := filter (fun p => rltb q_cut (len p)) pts in
    let n_corr := length outside in
    let v_corr := osum (map (fun p => option_map (fun x => x ^ 2) (recip (len (vadd p shift)))) outside) in
    let one_corr := osum (map (fun p => recip (len (vadd p shift))) pts) in
    let factor := if gamma then 1 else 1 - INR n_corr / INR n in
    Ok (match v_sph, v_corr with
        | Some s, Some c => Some (s * factor + 8 * PI * c / INR n)
        | _, _ => None
        end,
        option_map (fun c => 8 * PI * c / INR n) one_corr).

  (** 512-552, [oneoverq_minibz_montecarlo]; for a zero shift the sample number is
      min(N_SAMPLES, nan), which Python evaluates to N_SAMPLES. *)
  Definition oneoverq_montecarlo (shift_cryst : rvec) : res (option R) :=
    let shift := mv B shift_cryst in
    do nb <- gamma_nbhd B qpts iq0;
    let d := len shift in
    let n := if rltb 0 d then nsamples_for nmax ncoarse (fst nb) d else Nat.max 1 nmax in
    let pts := folded pick (snd nb) (samples B numq n words) in
    Ok (option_map (fun c => 8 * PI * c / INR n) (osum (map (fun p => recip (len (vadd p shift))) pts))).

  (** 624-671, [calculate_vcoul_single_qpt]; [gs] are the G-vectors of the q-point.  [v_bare]
      (GwModel.v) uses the q-point itself, everything else zero for q0.  In the branch with
      random_avg=False the radius is that of the ball with the volume of a q-cell (319-320). *)
  Inductive scheme := Bare | RandomAvg | SphereAvg (recvol : R).
  Definition qvec (iq : nat) : rvec := if (iq =? iq0)%nat then V 0 0 0 else nth iq qpts (V 0 0 0).
  Definition single_qpt (s : scheme) (iq : nat) (gs : list rvec) : res (list (option R) * option R) :=
    match s with
    | Bare =>
        let qlength := len (mv B (qvec iq)) in
        Ok (v_bare (map (fun g => mv B (vadd (nth iq qpts (V 0 0 0)) g)) gs),
            if rltb 0 qlength then Some (8 * PI / qlength) else None)
    | RandomAvg =>
        do v <- sequence (map (fun g => rmap fst (montecarlo_hybrid (vadd (qvec iq) g))) gs);
        do o <- oneoverq_montecarlo (qvec iq);
        Ok (v, o)
    | SphereAvg recvol =>
        do o <- oneoverq_montecarlo (qvec iq);
        Ok (map (fun g => sphere_shifted (q_cutoff recvol numq) (len (mv B (vadd (qvec iq) g)))) gs, o)
    end.
End MC.
