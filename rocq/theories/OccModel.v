(** Model of /repo/src/qtm/dft/occup/fixed.py and smear.py over exact reals.  The
    k-groups of the image communicator are a list; each holds, per k-point, its list
    of wavefunctions (one per spin channel).  An allreduce over the k-group roots is a
    sum / maximum / minimum over that list; the ranks inside one k-group hold
    identical copies and receive the roots' results by broadcast. *)
From Verif Require Import Base LatModel KPtsModel.
From Coq Require Import Reals.
Open Scope R_scope.

(** kswfn.py 63-106: the attributes the routines use ([numbnd] is the length of evl). *)
Record kswfn := MkKS { evl : list R; k_weight : R; occ : list R }.
Definition kgroup := list (list kswfn).

(** Python's [l[:z]] bound for an array of length n (negative counts from the end). *)
Definition py_bound (n : nat) (z : Z) : nat :=
  if (z <? 0)%Z then Z.to_nat (z + Z.of_nat n) else Nat.min n (Z.to_nat z).

(** fixed.py 24-25: occ[:numfill] = 1; occ[numfill:] = 0. *)
Definition fill (n : nat) (numfill : Z) : list R :=
  let m := py_bound n numfill in repeat 1 m ++ repeat 0 (n - m).

(** [np.amax] / [max(...)]: ValueError on an empty sequence. *)
Definition rmaximum (l : list R) : res R :=
  match l with [] => Err ValueError | x :: t => Ok (fold_left Rmax t x) end.
Definition rminimum (l : list R) : res R :=
  match l with [] => Err ValueError | x :: t => Ok (fold_left Rmin t x) end.

Definition set_occ (w : kswfn) (o : list R) : kswfn := MkKS (evl w) (k_weight w) o.

(** fixed.py 11-42, [compute_occ] (numel an integer, the same on all ranks). *)
Definition fixed_compute_occ (world : list kgroup) (numel : Z)
  : res (list kgroup * (R * option R)) :=
  do _ <- assert_ (numel mod 2 =? 0)%Z;
  do _ <- assert_ (forallb (forallb (fun wk => Nat.eqb (length wk) 1)) world);
  let numfill := (numel / 2)%Z in
  do firsts <- sequence (map (fun g => match g with (w :: _) :: _ => Ok (length (evl w)) | _ => Err IndexError end) world);
  let world' := map (map (map (fun w => set_occ w (fill (length (occ w)) numfill)))) world in
  do maxs <- sequence (map (fun g =>
        do l <- sequence (map (fun wk => match wk with
                   | w :: _ => rmaximum (firstn (py_bound (length (evl w)) numfill) (evl w))
                   | [] => Err IndexError end) g);
        rmaximum l) world);
  do max_filled <- rmaximum maxs;
  let numbnd := hd 0%nat firsts in
  do min_empty <- (if (numfill <? Z.of_nat numbnd)%Z then
      do mins <- sequence (map (fun g =>
            do l <- sequence (map (fun wk => match wk with
                       | w :: _ => rminimum (skipn (py_bound (length (evl w)) numfill) (evl w))
                       | [] => Err IndexError end) g);
            rminimum l) world);
      do m <- rminimum mins; Ok (Some m)
    else Ok None);
  Ok (world', (max_filled, min_empty)).

(** smear.py 25-26 / 29-31; scipy's xlogy(x, y) = x log y, 0 for x = 0. *)
Definition fd_occ (f : R) : R := 1 / (1 + exp f).
Definition xlogy (x y : R) : R := if Req_EM_T x 0 then 0 else x * ln y.
Definition fd_en (f : R) : R := let o := fd_occ f in xlogy o o + xlogy (1 - o) (1 - o).

(** smear.py 13-14 *)
Definition SMEAR_THRESHOLD : R := 50.
Definition EPS : R := / 10 ^ 10.

Section Smear.
  (** [smear_func]: occupation and entropy functions, and the width [degauss]. *)
  Variables (occf enf : R -> R) (degauss : R).

  (** smear.py 51-58, [_compute_occ] for one eigenvalue: zeros, then 1 below -50, then
      the function inside [-50, 50]. *)
  Definition occ_one (e_fermi e : R) : R :=
    let f := (e - e_fermi) / degauss in
    if Rle_dec (Rabs f) SMEAR_THRESHOLD then occf f
    else if Rlt_dec f (- SMEAR_THRESHOLD) then 1 else 0.
  (** smear.py 61-65, [_compute_en]. *)
  Definition en_wfn (w : kswfn) (e_fermi : R) : R :=
    degauss * rsum (map enf (filter (fun f => if Rle_dec (Rabs f) SMEAR_THRESHOLD then true else false)
                              (map (fun e => (e - e_fermi) / degauss) (evl w)))).

  (** smear.py 102-106, [compute_numel]: local sum, then the sum over the k-group roots. *)
  Definition group_numel (e_mu : R) (g : kgroup) : R :=
    rsum (map (fun w => rsum (map (fun e => occ_one e_mu e * k_weight w) (evl w))) (concat g)).
  Definition compute_numel (world : list kgroup) (e_mu : R) : R := rsum (map (group_numel e_mu) world).

  (** smear.py 108-118: the bisection loop; [fuel] bounds the number of passes, None
      means still running. *)
  Fixpoint bisect (fuel : nat) (N : R -> R) (numel mu_min mu_max : R) : option R :=
    let mu_guess := (mu_min + mu_max) / 2 in
    let del_numel := numel - N mu_guess in
    if Rlt_dec EPS (Rabs del_numel) then
      match fuel with
      | O => None
      | S f => if Rlt_dec 0 del_numel then bisect f N numel mu_guess mu_max
               else bisect f N numel mu_min mu_guess
      end
    else Some mu_guess.

  (** smear.py 68-134, [compute_occ]: None while the loop runs. *)
  Definition all_evl (world : list kgroup) : list R := concat (map evl (concat (concat world))).
  Definition smear_compute_occ (fuel : nat) (world : list kgroup) (numel : R)
    : res (option (list kgroup * (R * R))) :=
    do mins <- sequence (map (fun g => rminimum (concat (map evl (concat g)))) world);
    do maxs <- sequence (map (fun g => rmaximum (concat (map evl (concat g)))) world);
    do mu_min <- rminimum mins;
    do mu_max <- rmaximum maxs;
    match bisect fuel (compute_numel world) numel mu_min mu_max with
    | None => Ok None
    | Some e_fermi =>
        Ok (Some (map (map (map (fun w => set_occ w (map (occ_one e_fermi) (evl w))))) world,
            (e_fermi, rsum (map (fun g => rsum (map (fun w => k_weight w * en_wfn w e_fermi) (concat g))) world))))
    end.
End Smear.
