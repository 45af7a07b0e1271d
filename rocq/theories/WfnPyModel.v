(** Model of /repo/src/qtm/interfaces/bgw/wfn2py.py, [wfn2py] (lines 52-378): loading a
    BerkeleyGW WFN.h5 file.  The file is the record of the arrays it holds; numbers are
    exact; every array is assumed to have the shape the header announces (what happens when
    the lists of plane waves are longer or shorter than announced is modelled).  The numerical
    checks of the lattice (lines 138-145) are not modelled.  The plane-wave bases that
    [GSpace] and [GkSpace] build are arguments (their contents are C07/C08's subject). *)
From Coq Require Import Reals.
From Verif Require Import Base LatModel KPtsModel CheckModel SortModel WfnIOModel CBase.
Open Scope R_scope.

Record wfn_file := MkWfnFile {
  f_atyp : list nat;  f_apos : list rvec;                  (* crystal/atyp, crystal/apos *)
  f_ng : nat;  f_components : list z3;                     (* gspace/ng, gspace/components *)
  f_nrk : nat;  f_rk : list rvec;  f_w : list R;           (* kpoints/nrk, rk, w *)
  f_ngk : list nat;  f_mnband : nat;                       (* kpoints/ngk, mnband *)
  f_el : list (list (list R));  f_occ : list (list (list R));   (* axes (spin, k, band) *)
  f_gvecs : list z3;                                       (* wfns/gvecs *)
  f_coeffs : list (list (list (R * R)))                    (* wfns/coeffs, axes (band, spin, G, 2) *)
}.

(** lines 111-113 and 120-127: [argsort(atyp)] (any sorting permutation: quicksort is not
    stable), [unique] with counts, [split] of the sorted positions at the running counts, one
    species for each distinct number (the piece left over at the end is not used). *)
Fixpoint pieces {A} (counts : list nat) (l : list A) : list (list A) :=
  match counts with [] => [] | n :: t => firstn n l :: pieces t (skipn n l) end.
Definition species (isort : list nat) (f : wfn_file) : list (nat * list rvec) :=
  combine (SortModel.np_unique (f_atyp f))
    (pieces (map (fun t => count_occ Nat.eq_dec (f_atyp f) t) (SortModel.np_unique (f_atyp f)))
            (take (V 0 0 0) (f_apos f) isort)).

(** Default element for indexing; never reached by an index in range. *)
Definition z0 : z3 := (0, 0, 0)%Z.
(** [np.allclose] on integer arrays of shape (n, 3): tolerance 1e-8 + 1e-5 |b|;
    broadcasting of a single row, ValueError for other unequal lengths. *)
Definition zclose (a b : Z) : bool := (10 ^ 8 * Z.abs (a - b) <=? 1 + 10 ^ 3 * Z.abs b)%Z.
Definition z3close (a b : z3) : bool :=
  let '(a1, a2, a3) := a in let '(b1, b2, b3) := b in zclose a1 b1 && zclose a2 b2 && zclose a3 b3.
Definition rows_close (a b : list z3) : res bool :=
  if (length a =? length b)%nat then Ok (forallb (fun p => z3close (fst p) (snd p)) (combine a b))
  else match a, b with
       | [x], _ => Ok (forallb (fun y => z3close x y) b)
       | _, [y] => Ok (forallb (fun x => z3close x y) a)
       | _, _ => Err ValueError
       end.

(** [np.lexsort([c2, c1, c0])]: the last key is the primary one. *)
Definition z3leb (a b : z3) : bool :=
  let '(a1, a2, a3) := a in let '(b1, b2, b3) := b in
  ((a1 <? b1) || ((a1 =? b1) && ((a2 <? b2) || ((a2 =? b2) && (a3 <=? b3)))))%Z.
Definition lexsort (l : list z3) : list nat := argsort z3leb l.

(** [np.arange(n)[idx]] *)
Definition arange_at (n : nat) (idx : list nat) : res (list nat) :=
  if forallb (fun i => (i <? n)%nat) idx then Ok idx else Err IndexError.
(** [out = np.empty(n); out[ps] = vs]; [junk] stands for the uninitialised contents. *)
Definition put (junk ps vs : list nat) : res (list nat) :=
  if (length ps =? length vs)%nat
  then Ok (fold_left (fun a pv => set_nth (fst pv) (snd pv) a) (combine ps vs) junk)
  else match vs with
       | [v] => Ok (fold_left (fun a p => set_nth p v a) ps junk)
       | _ => Err ValueError
       end.

(** lines 198-210: the density's plane waves; the check comes before the table. *)
Definition map_grho (junk : nat -> list nat) (G_py comps : list z3) : res (list nat) :=
  let isort_bgw := lexsort comps in
  let isort_py := lexsort G_py in
  do b <- rows_close (take z0 comps isort_bgw) (take z0 G_py isort_py);
  do _ <- assert_ b;
  do v <- arange_at (length G_py) isort_bgw;
  do idx <- put (junk (length G_py)) isort_py v;
  do b' <- rows_close G_py (take z0 comps idx);
  do _ <- assert_ b';
  Ok idx.

(** lines 247-257 and 333-355: the plane waves of one k-point; the table comes first. *)
Definition map_gk (junk : nat -> list nat) (G_py G_bgw : list z3) : res (list nat) :=
  let isort_bgw := lexsort G_bgw in
  let isort_py := lexsort G_py in
  do v <- arange_at (length G_py) isort_bgw;
  do idx <- put (junk (length G_py)) isort_py v;
  do b <- rows_close (take z0 G_bgw isort_bgw) (take z0 G_py isort_py);
  do _ <- assert_ b;
  do b' <- rows_close G_py (take z0 G_bgw idx);
  do _ <- assert_ b';
  Ok idx.

(** lines 212-223: the k-points.  [KList.from_cryst] normalises the weights; an empty list
    has no second axis (ValueError); a zero sum gives nan, which fails the comparison. *)
Definition load_kpts (f : wfn_file) : res (list (rvec * R)) :=
  do w <- sanitize_weights (f_w f);
  if (length (f_rk f) =? 0)%nat then Err ValueError else
  do _ <- assert_ (length (f_rk f) =? f_nrk f)%nat;
  do _ <- assert_ (if Req_EM_T (KPtsModel.rsum (f_w f)) 0 then false else allcloseb w (f_w f));
  Ok (combine (f_rk f) w).

(** lines 228-238: number of plane waves of each k-point ([np.allclose] again). *)
Definition check_ngk (sizes ngk : list nat) : res unit :=
  if (length sizes =? length ngk)%nat
  then assert_ (forallb (fun p => zclose (Z.of_nat (fst p)) (Z.of_nat (snd p))) (combine sizes ngk))
  else match sizes, ngk with
       | [x], _ => assert_ (forallb (fun y => zclose (Z.of_nat x) (Z.of_nat y)) ngk)
       | _, [y] => assert_ (forallb (fun x => zclose (Z.of_nat x) (Z.of_nat y)) sizes)
       | _, _ => Err ValueError
       end.

(** What is returned for one k-point. *)
Record kwfn := MkKwfn {
  kw_k : rvec;  kw_weight : R;  kw_evl : list R;  kw_occ : list R;
  kw_evc : list (list C)                          (* axes (band, G) *)
}.

(** [arr1d[:] = arr2d]: only one leading row can be broadcast into a 1d array. *)
Definition assign_1d (n : nat) (rows : list (list R)) : res (list R) :=
  match rows with
  | [row] => if (length row =? n)%nat then Ok row else Err ValueError
  | _ => Err ValueError
  end.
(** line 317-319: [1j * conj(view complex)] *)
Definition one_j_conj (p : R * R) : C := Cmult Ci (Cconj (to_c (fst p) (snd p))).
(** lines 316-323 and 347: the coefficients of k-point [ik]; the spin axis has to have
    length one to be broadcast into (band, G). *)
Definition load_evc (f : wfn_file) (ik : nat) (idx : list nat) : res (list (list C)) :=
  sequence (map (fun band => match band with
     | [sp] => Ok (take (RtoC 0) (nth ik (np_split (f_ngk f) (map one_j_conj sp)) []) idx)
     | _ => Err ValueError
     end) (f_coeffs f)).
(** lines 325-355 *)
Definition load_k (junk : nat -> list nat) (f : wfn_file) (ik : nat) (kw : rvec * R) (G_py G_bgw : list z3) : res kwfn :=
  do evl <- assign_1d (f_mnband f) (map (fun s => map (fun e => e * / 2) (nth ik s [])) (f_el f));
  do occ <- assign_1d (f_mnband f) (map (fun s => nth ik s []) (f_occ f));
  do idx <- map_gk junk G_py G_bgw;
  do evc <- load_evc f ik idx;
  Ok (MkKwfn (fst kw) (snd kw) evl occ evc).

(** [wfn2py], lines 195-368, after the crystal: [G_rho] are the plane waves of the density's
    G-space, [basis k] those of k-point [k]. *)
Definition wfn2py (junk : nat -> list nat) (G_rho : list z3) (basis : rvec -> list z3) (f : wfn_file) : res (list nat * list kwfn) :=
  do _ <- assert_ (length G_rho =? f_ng f)%nat;
  do idx_rho <- map_grho junk G_rho (f_components f);
  do kpts <- load_kpts f;
  let l_gk := map (fun kw => basis (fst kw)) kpts in
  do _ <- check_ngk (map (@length z3) l_gk) (f_ngk f);
  let l_bgw := np_split (f_ngk f) (f_gvecs f) in
  do _ <- sequence (map (fun ik => map_gk junk (nth ik l_gk []) (nth ik l_bgw [])) (seq 0 (length kpts)));
  do l_wfn <- sequence (map (fun ik => load_k junk f ik (nth ik kpts (V 0 0 0, 0))
                                 (nth ik l_gk []) (nth ik l_bgw [])) (seq 0 (length kpts)));
  Ok (idx_rho, l_wfn).
