(** Model of the Davidson eigensolver: /repo/src/qtm/dft/eigsolve/davidson.py (NumPy path).
    Exact complex arithmetic.  The Hamiltonian is the matrix that KSHam.h_psi applies
    (PropsKSHam.v, C46_dense_matrix); the preconditioner's diagonal is real.  Arrays are
    functions of their indices with the stated extents; writes to the work arrays are
    checked against the extents (an out-of-range write, which NumPy reports as a shape
    mismatch, is IndexError here).  Division by a zero norm gives NaNs in NumPy, which
    scipy.linalg.eigh refuses with ValueError at the next solve; here it is ValueError at
    once.  All processes of a band group hold the same arrays: each [scatter_slice] /
    [Allgatherv] pair distributes rows and puts them back, see [band_rows] below, so
    the loop is modelled on whole arrays. *)
From Verif Require Import Base CBase.
Open Scope nat_scope.

(* ------------------------------------------------------------------ *)
(** davidson.py 97-107, the local [scatter_slice]: [sl_start, sl_stop) of one process. *)
Definition dav_scatter_slice (sl_start sl_stop grpsize grprank : nat) : nat * nat :=
  if sl_stop <=? sl_start then (sl_start, sl_stop) else
  let len_ := sl_stop - sl_start in
  let sca_start := sl_start + grprank * (len_ / grpsize) + Nat.min grprank (len_ mod grpsize) in
  let sca_stop := sca_start + len_ / grpsize + (if grprank <? len_ mod grpsize then 1 else 0) in
  (sca_start, sca_stop).
(** davidson.py 109-114, [gen_bufspec]: number of rows of each process. *)
Definition dav_bufspec (len_ grpsize grprank : nat) : nat :=
  len_ / grpsize + (if grprank <? len_ mod grpsize then 1 else 0).
(** The effect of "every process computes its rows, then Allgatherv in place": process q's
    rows are taken from its own slice, counted by [gen_bufspec] and laid out one process
    after the other from [sl_start].  [f] computes one row. *)
Definition band_rows {A} (f : nat -> A) (sl_start sl_stop grpsize : nat) : list A :=
  concat (map (fun q => map f (seq (fst (dav_scatter_slice sl_start sl_stop grpsize q))
                                    (dav_bufspec (sl_stop - sl_start) grpsize q)))
              (seq 0 grpsize)).

(* ------------------------------------------------------------------ *)
Definition vec : Type := nat -> C.
Definition mat : Type := nat -> nat -> C.

(** The result of [scipy.linalg.eigh(a, b, subset_by_index=[0, numeig-1], lower=True)] on
    n x n matrices: eigenvalues and eigenvectors (row k = k-th eigenvector, as stored in
    evc_red), or None for LinAlgError. *)
Definition eigh_t : Type := nat -> nat -> mat -> mat -> option ((nat -> R) * mat).

Section Davidson.
  (** Number of plane waves, Hamiltonian matrix, preconditioner diagonal, eigh. *)
  Variables (N : nat) (Hm : mat) (hdiag : nat -> R) (eigh : eigh_t).
  (** kswfn.numbnd, diago_thr, numwork *)
  Variables (numeig : nat) (thr : R) (numwork : nat).

  Definition ndim_max : nat := numwork * numeig.                         (* 84 *)

  Definition happ (v : vec) : vec := fun g => csum N (fun g' => (Hm g g' * v g')%C).
  (** containers/wavefun.py 107-151, [vdot] *)
  Definition wvdot (u v : vec) : C := csum N (fun g => (Cconj (u g) * v g)%C).
  (** containers/wavefun.py 103-105, [normalize] for one row. *)
  Definition normalize (v : vec) : res vec :=
    let n2 := fst (wvdot v v) in
    if Req_EM_T n2 0 then Err ValueError else Ok (fun g => (v g / RtoC (sqrt n2))%C).
  (** np.matmul(c[:ndim], psi[:ndim]) for one row of coefficients. *)
  Definition combo (n : nat) (c : nat -> C) (psi : nat -> vec) : vec :=
    fun g => csum n (fun j => (c j * psi j g)%C).

  (** davidson.py 72-78, [apply_g_psi] for one wavefunction. *)
  Definition g_denom (h evl : R) : R :=
    let x := (2 * (h - evl))%R in
    ((/ 2 * (1 + x + sqrt (1 + (x - 1) ^ 2)) / 2) * 2)%R.
  Definition apply_g_psi (evl : R) (v : vec) : vec := fun g => (v g / RtoC (g_denom (hdiag g) evl))%C.

  (** The variables of [solve]. *)
  Record dav := MkDav {
    d_ndim : nat; d_nunc : nat; d_flag : nat -> bool;
    d_psi : nat -> vec; d_hpsi : nat -> vec;
    d_ham : mat; d_ovl : mat; d_evcred : mat; d_evlred : nat -> R;
    d_evl : nat -> R; d_evc : nat -> vec }.

  (** The rows a boolean mask selects. *)
  Definition flagged (flag : nat -> bool) : list nat := filter flag (seq 0 numeig).

  (** davidson.py 131-133, [move_unconv] *)
  Definition move_unconv (s : dav) : dav :=
    let l := flagged (d_flag s) in
    MkDav (d_ndim s) (d_nunc s) (d_flag s) (d_psi s) (d_hpsi s) (d_ham s) (d_ovl s)
      (fun i => if i <? d_nunc s then d_evcred s (nth i l 0) else d_evcred s i)
      (fun i => if i <? d_nunc s then d_evlred s (nth i l 0) else d_evlred s i)
      (d_evl s) (d_evc s).

  (** One new row of [expand_psi] (davidson.py 167-183 and 194-204): combination of the
      search space, minus eigenvalue times it plus the combination of the images,
      preconditioned and normalised. *)
  Definition new_row (s : dav) (i : nat) : res vec :=
    let x := combo (d_ndim s) (d_evcred s i) (d_psi s) in
    let hx := combo (d_ndim s) (d_evcred s i) (d_hpsi s) in
    let e := d_evlred s i in
    normalize (apply_g_psi e (fun g => (x g * - RtoC e + hx g)%C)).
  (** Rows [ndim, ndim+n) of an array replaced by a list of rows. *)
  Definition put_rows (psi : nat -> vec) (ndim : nat) (rows : list vec) : nat -> vec :=
    fun i => if (ndim <=? i) && (i <? ndim + length rows) then nth (i - ndim) rows (fun _ => RtoC 0) else psi i.
  (** davidson.py 158-212, [expand_psi] with [compute_hpsi] (117-127) *)
  Definition expand_psi (s : dav) : res dav :=
    let n := d_nunc s in
    if ndim_max <? d_ndim s + n then Err IndexError else
    do rows <- sequence (map (new_row s) (seq 0 n));
    Ok (MkDav (d_ndim s + n) n (d_flag s)
          (put_rows (d_psi s) (d_ndim s) rows)
          (put_rows (d_hpsi s) (d_ndim s) (map happ rows))
          (d_ham s) (d_ovl s) (d_evcred s) (d_evlred s) (d_evl s) (d_evc s)).

  (** davidson.py 218-236, [update_red]: the rows of the last n_unconv basis vectors. *)
  Definition update_red (s : dav) : dav :=
    let new i j := (d_ndim s - d_nunc s <=? i) && (i <? d_ndim s) && (j <? d_ndim s) in
    MkDav (d_ndim s) (d_nunc s) (d_flag s) (d_psi s) (d_hpsi s)
      (fun i j => if new i j then wvdot (d_psi s i) (d_hpsi s j) else d_ham s i j)
      (fun i j => if new i j then wvdot (d_psi s i) (d_psi s j) else d_ovl s i j)
      (d_evcred s) (d_evlred s) (d_evl s) (d_evc s).

  (** davidson.py 245-260, [solve_red] (LinAlgError is RuntimeError here). *)
  Definition solve_red (s : dav) : res dav :=
    match eigh numeig (d_ndim s) (d_ham s) (d_ovl s) with
    | None => Err RuntimeError
    | Some (lam, c) =>
        Ok (MkDav (d_ndim s) (d_nunc s) (d_flag s) (d_psi s) (d_hpsi s) (d_ham s) (d_ovl s)
              (fun k j => if j <? d_ndim s then c k j else d_evcred s k j) lam (d_evl s) (d_evc s))
    end.

  (** davidson.py 79-94 (set-up) and 297-301: starting from the input wavefunctions. *)
  Definition dav_init (evc0 : nat -> vec) : res dav :=
    do rows <- sequence (map (fun i => normalize (evc0 i)) (seq 0 numeig));
    let zero : nat -> vec := fun _ _ => RtoC 0 in
    let zm : mat := fun _ _ => RtoC 0 in
    let s := MkDav numeig numeig (fun _ => true)
               (put_rows zero 0 rows) (put_rows zero 0 (map happ rows))
               zm zm zm (fun _ => 0%R) (fun _ => 0%R) evc0 in
    do s1 <- solve_red (update_red s);
    Ok (MkDav (d_ndim s1) (d_nunc s1) (d_flag s1) (d_psi s1) (d_hpsi s1) (d_ham s1) (d_ovl s1)
          (d_evcred s1) (d_evlred s1) (d_evlred s1) (d_evc s1)).

  (** davidson.py 305-318: one pass up to the convergence test. *)
  Definition dav_pass (s : dav) : res dav :=
    do s1 <- expand_psi (move_unconv s);
    do s2 <- solve_red (update_red s1);
    let flag := fun k => if Rlt_dec thr (Rabs (d_evlred s2 k - d_evl s2 k)) then true else false in
    Ok (MkDav (d_ndim s2) (length (flagged flag)) flag (d_psi s2) (d_hpsi s2) (d_ham s2) (d_ovl s2)
          (d_evcred s2) (d_evlred s2) (d_evlred s2) (d_evc s2)).

  (** davidson.py 323-332: the Ritz vectors are written to evc. *)
  Definition set_evc (s : dav) : dav :=
    MkDav (d_ndim s) (d_nunc s) (d_flag s) (d_psi s) (d_hpsi s) (d_ham s) (d_ovl s)
      (d_evcred s) (d_evlred s) (d_evl s)
      (fun k => combo (d_ndim s) (d_evcred s k) (d_psi s)).
  (** davidson.py 338-345 and 360-364: the restart (after 323-332): the search space becomes the Ritz
      vectors, the reduced matrices become diagonal. *)
  Definition restart (s : dav) : dav :=
    MkDav numeig (d_nunc s) (d_flag s)
      (fun i => if i <? numeig then d_evc s i else d_psi s i)
      (fun i => if i <? numeig then combo (d_ndim s) (d_evcred s i) (d_hpsi s) else d_hpsi s i)
      (fun i j => if (i =? j) && (i <? numeig) then RtoC (d_evl s i) else RtoC 0)
      (fun i j => if (i =? j) && (i <? numeig) then RtoC 1 else RtoC 0)
      (fun i j => if (i =? j) && (i <? numeig) then RtoC 1 else RtoC 0)
      (d_evlred s) (d_evl s) (d_evc s).

  (** davidson.py 303-364: the loop; [fuel] = maxiter - idxiter, [it] = idxiter. *)
  Fixpoint dav_loop (fuel it : nat) (s : dav) : res (dav * nat) :=
    match fuel with
    | O => Ok (s, it)
    | S fuel' =>
        do s1 <- dav_pass s;
        if (d_nunc s1 =? 0) || (ndim_max <? d_ndim s1 + d_nunc s1) then
          let s2 := set_evc s1 in
          if d_nunc s1 =? 0 then Ok (s2, S it)
          else dav_loop fuel' (S it) (restart s2)
        else dav_loop fuel' (S it) s1
    end.

  (** davidson.py 22-369, [solve]: eigenvalues, eigenvectors, iterations. *)
  Definition dav_solve (maxiter : nat) (evc0 : nat -> vec) : res ((nat -> R) * (nat -> vec) * nat) :=
    do _ <- assert_ (if Rlt_dec 0 thr then true else false);
    do _ <- assert_ (1 <? numwork);
    do _ <- assert_ (1 <? maxiter);
    do s <- dav_init evc0;
    do r <- dav_loop maxiter 0 s;
    Ok (d_evl (fst r), d_evc (fst r), snd r).
End Davidson.
