(** Model of the GW code: /repo/src/qtm/gw/core.py, gw/epsilon.py and the closed-form parts
    of gw/vcoul.py.  Numbers are exact; a nan or inf is [None].  A KSWfn is represented by
    its occupations, energies, plane-wave list and coefficients.  The Monte Carlo averages,
    the vcoul/epsmat files and the einsum optimiser are not modelled. *)
From Coq Require Import Reals Lra.
From Verif Require Import Base SortModel LatModel GIndexModel CBase FFTModel.
Open Scope R_scope.

Definition rltb (x y : R) : bool := if Rlt_dec x y then true else false.
Definition rleb (x y : R) : bool := if Rle_dec x y then true else false.
Definition reqb (x y : R) : bool := if Req_EM_T x y then true else false.

(** [np.around(x, d)]: scale, round half to even, scale back. *)
Definition np_around (d : nat) (x : R) : R := IZR (rint (x * 10 ^ d)) / 10 ^ d.

(** ---------------- core.py ---------------- *)
(** [np.lexsort((z, y, x, key))]: the last key is the primary one. *)
Definition lex4_leb (a b : R * rvec) : bool :=
  rltb (fst a) (fst b) || (reqb (fst a) (fst b) &&
   (rltb (vx (snd a)) (vx (snd b)) || (reqb (vx (snd a)) (vx (snd b)) &&
    (rltb (vy (snd a)) (vy (snd b)) || (reqb (vy (snd a)) (vy (snd b)) &&
     rleb (vz (snd a)) (vz (snd b))))))).
(** core.py lines 77-112, [sort_cryst_like_BGW]; lexsort refuses keys of different lengths. *)
Definition sort_cryst_like_BGW (cryst : list rvec) (key_array : list R) : res (list nat) :=
  if (length cryst =? length key_array)%nat
  then Ok (argsort lex4_leb (combine (map (np_around 10) key_array) cryst))
  else Err ValueError.

(** [np.take_along_axis(m, ind, 1)] and [(m, ind, 0)] for arrays of equal shapes along the
    other axis (broadcasting of axes of length 1 is not modelled); indices are non-negative. *)
Definition item {A} (l : list A) (i : nat) : res A :=
  match nth_error l i with Some a => Ok a | None => Err IndexError end.
Definition take_along_1 {A} (m : list (list A)) (ind : list (list nat)) : res (list (list A)) :=
  if (length m =? length ind)%nat
  then sequence (map (fun p => sequence (map (item (fst p)) (snd p))) (combine m ind))
  else Err IndexError.
Definition take_along_0 {A} (m : list (list A)) (ind : list (list nat)) : res (list (list A)) :=
  sequence (map (fun row => sequence (map (fun p =>
      do r <- item m (snd p); item r (fst p)) (combine (seq 0 (length row)) row))) ind).
(** core.py lines 115-133, [reorder_2d_matrix_sorted_gvecs]. *)
Definition tile (idx : list nat) : list (list nat) := map (fun _ => idx) idx.
Definition tile_T (idx : list nat) : list (list nat) := map (fun i => map (fun _ => i) idx) idx.
Definition reorder_2d {A} (m : list (list A)) (indices : list nat) : res (list (list A)) :=
  do r <- take_along_1 m (tile indices); take_along_0 r (tile_T indices).

(** core.py lines 49-63: [index_q0] of QPoints; [is_q0] is the optional flag column and
    [norms] the squared lengths.  [np.where(is_q0)[0][0]], else [np.argmin]. *)
Fixpoint first_true (l : list bool) : res nat :=
  match l with [] => Err IndexError | b :: t => if b then Ok O else rmap S (first_true t) end.
Fixpoint argmin (l : list R) : res nat :=
  match l with
  | [] => Err ValueError
  | x :: t => match argmin t with
              | Ok k => if rltb (nth k t 0) x then Ok (S k) else Ok O
              | Err _ => Ok O
              end
  end.
Definition index_q0 (is_q0 : option (list bool)) (norms : list R) : res nat :=
  match is_q0 with Some l => first_true l | None => argmin norms end.

(** ---------------- epsilon.py: matrix elements ---------------- *)
(** One Bloch-state set (a KSWfn): occupations, energies, plane waves (with their FFT
    positions) and coefficients per band. *)
Record wfn := MkWfn { w_occ : list R; w_evl : list R; w_gk : gspace; w_evc : list (list C) }.
(** Per k-point: crystal coordinates, the state set of [l_wfn] and of [l_wfnq] (epsilon.py
    lines 80-81, 152-155: the two lists are read at the same positions). *)
Record kpt := MkKpt { kp_cryst : rvec; kp_wfn : wfn; kp_wfnq : wfn }.
Record epsilon := MkEps {
  e_nx : nat; e_ny : nat; e_nz : nat;      (* gspace.grid_shape *)
  e_kpts : list kpt;
  e_nbands : nat;                          (* epsinp.number_bands *)
  e_q : rvec; e_isq0 : bool;               (* the q-point i_q and its flag *)
  e_gq : list vec3;                        (* l_gq[i_q].g_cryst *)
  e_cellvol : R }.

Definition w0 : wfn := MkWfn [] [] (MkGSpace (0, 0, 0)%Z [] [] [] false) [].
Definition k0 : kpt := MkKpt (V 0 0 0) w0 w0.
Definition kp (E : epsilon) (i : nat) : kpt := nth i (e_kpts E) k0.
Definition occ_of (E : epsilon) (k b : nat) : R := nth b (w_occ (kp_wfn (kp E k))) 0.

(** lines 174-178: [np.where(occ == x)] over [occ_all_bands[:, 0:number_bands]], in C order. *)
Definition states_with (E : epsilon) (x : R) : list (nat * nat) :=
  flat_map (fun k =>
    map (fun b => (k, b))
      (filter (fun b => reqb (occ_of E k b) x)
        (seq 0 (Nat.min (e_nbands E) (length (w_occ (kp_wfn (kp E k))))))))
    (seq 0 (length (e_kpts E))).
Definition l_i_v (E : epsilon) := states_with E 1.
Definition l_i_c (E : epsilon) := states_with E 0.

(** [max(...)] / [min(...)] of a list: ValueError when empty. *)
Definition list_max_res (l : list nat) : res nat :=
  match l with [] => Err ValueError | x :: t => Ok (fold_right Nat.max x t) end.
Definition list_min_res (l : list nat) : res nat :=
  match l with [] => Err ValueError | x :: t => Ok (fold_right Nat.min x t) end.
(** lines 182-184 *)
Definition n_v_max (E : epsilon) : res nat := rmap S (list_max_res (map snd (l_i_v E))).
Definition n_c_beg (E : epsilon) : res nat := list_min_res (map snd (l_i_c E)).

(** lines 204-211: umklapp vector and folded vector for one k-point. *)
Definition umklapp1 (x : R) : Z := (- rfloor (np_around 5 x))%Z.
Definition kplusq_raw (E : epsilon) (k : rvec) : rvec :=
  if e_isq0 E then k else vadd k (e_q E).
Definition umklapp (E : epsilon) (k : rvec) : vec3 :=
  let x := kplusq_raw E k in (umklapp1 (vx x), umklapp1 (vy x), umklapp1 (vz x)).
Definition l_kplusq (E : epsilon) (k : rvec) : rvec :=
  let x := kplusq_raw E k in let '(u1, u2, u3) := umklapp E k in
  V (vx x + IZR u1) (vy x + IZR u2) (vz x + IZR u3).

(** lines 271-278: [np.isclose(a, b, atol=1e-5)] with NumPy's default rtol = 1e-5. *)
Definition isclose (a b : R) : bool := rleb (Rabs (a - b)) (/ 10 ^ 5 + / 10 ^ 5 * Rabs b).
Definition isclose3 (a b : rvec) : bool :=
  isclose (vx a) (vx b) && isclose (vy a) (vy b) && isclose (vz a) (vz b).
(** lines 271-278, 281-283: the occupied states at the k-points that match. *)
Definition matches (E : epsilon) (kc : nat) : list (nat * nat) :=
  filter (fun v => isclose3 (kp_cryst (kp E (fst v))) (l_kplusq E (kp_cryst (kp E kc)))) (l_i_v E).
(** The (empty, occupied) pairs in loop order, lines 242-283. *)
Definition transitions (E : epsilon) : list ((nat * nat) * (nat * nat)) :=
  flat_map (fun c => map (fun v => (c, v)) (matches E (fst c))) (l_i_c E).

(** lines 258-267: the FFT driver for the shifted vectors; [cryst2idxgrid] asserts that they
    lie on the grid and the constructor that they are distinct. *)
Definition zsub3 (a b : vec3) : vec3 :=
  let '(a1, a2, a3) := a in let '(b1, b2, b3) := b in (a1 - b1, a2 - b2, a3 - b3)%Z.
Definition e_shape (E : epsilon) : shape3 :=
  (Z.of_nat (e_nx E), Z.of_nat (e_ny E), Z.of_nat (e_nz E)).
Definition driver_idx (E : epsilon) (kc : nat) : res (list nat) :=
  let u := umklapp E (kp_cryst (kp E kc)) in
  do idx <- cryst2idxgrid (e_shape E) (map (fun g => zsub3 g u) (e_gq E));
  do _ <- check_g_idxgrid (e_shape E) idx;
  Ok (map Z.to_nat idx).

(** A GkSpace's FFT object never normalises (gkspc.py line 18); properties C14 and C15 show that the
    result does not depend on the driver class or on earlier calls. *)
Definition fft (E : epsilon) (idx : list nat) : full :=
  full_init (e_nx E) (e_ny E) (e_nz E) idx false (MkWorker zeros zeros zeros).
(** lines 218-231 and 248-252: a band on the real-space grid. *)
Definition phi (E : epsilon) (w : wfn) (b : nat) : list C :=
  snd (full_g2r (fft E (map Z.to_nat (gs_idxgrid (w_gk w)))) (nth b (w_evc w) [])).
Definition wfn_v (E : epsilon) (k : nat) : wfn :=
  if e_isq0 E then kp_wfnq (kp E k) else kp_wfn (kp E k).
(** lines 285-299: matrix elements of one transition; [sqrt_Ec_Ev] is nan for a negative and
    its reciprocal inf for a zero gap. *)
Definition element (E : epsilon) (t : (nat * nat) * (nat * nat)) : res (option (list C)) :=
  let '((kc, bc), (kv, bv)) := t in
  do idx <- driver_idx E kc;
  let phi_c := phi E (kp_wfn (kp E kc)) bc in
  let phi_v := phi E (wfn_v E kv) bv in
  let prod := map (fun p => (Cconj (fst p) * snd p)%C) (combine phi_c phi_v) in
  let fft_prod := snd (full_r2g (fft E idx) prod) in
  let gap := nth bc (w_evl (kp_wfn (kp E kc))) 0 - nth bv (w_evl (wfn_v E kv)) 0 in
  Ok (if rleb gap 0 then None
      else Some (map (fun z => (z * RtoC (/ (sqrt gap * INR (e_nx E * e_ny E * e_nz E))))%C) fft_prod)).

(** [yielding=True]: the matrix elements one after the other.  The driver of every k-point with an
    empty state is built even when nothing matches. *)
Definition elements_yielding (E : epsilon) : res (list (option (list C))) :=
  do _ <- n_v_max E; do _ <- n_c_beg E;
  do _ <- sequence (map (fun c => driver_idx E (fst c)) (l_i_c E));
  sequence (map (element E) (transitions E)).
(** [yielding=False]: the array M, zero where nothing is assigned (lines 234-238, 300-303). *)
Definition marray : Type := nat -> nat -> nat -> option (list C).
Definition massign (M : marray) (k c v : nat) (x : option (list C)) : marray :=
  fun k' c' v' => if ((k' =? k) && (c' =? c) && (v' =? v))%nat then x else M k' c' v'.
Definition elements_array (E : epsilon) : res marray :=
  do _ <- n_v_max E; do cbeg <- n_c_beg E;
  do _ <- sequence (map (fun c => driver_idx E (fst c)) (l_i_c E));
  do vals <- sequence (map (element E) (transitions E));
  Ok (fold_left (fun M p => let '((kc, bc), (kv, bv)) := fst p in massign M kc (bc - cbeg) bv (snd p))
        (combine (transitions E) vals)
        (fun _ _ _ => Some (map (fun _ => RtoC 0) (e_gq E)))).

(** ---------------- epsilon.py: polarizability ---------------- *)
Definition cmat : Type := nat -> nat -> C.
Fixpoint all_some {A} (l : list (option A)) : option (list A) :=
  match l with
  | [] => Some []
  | None :: _ => None
  | Some a :: t => option_map (cons a) (all_some t)
  end.
Definition outer (r : list C) (l m : nat) : C := (Cconj (nth l r (RtoC 0)) * nth m r (RtoC 0))%C.
(** lines 366-380, [polarizability]: einsum over the first three axes of M. *)
Definition axes3 (n1 n2 n3 : nat) : list (nat * nat * nat) :=
  flat_map (fun a => flat_map (fun b => map (fun c => (a, b, c)) (seq 0 n3)) (seq 0 n2)) (seq 0 n1).
Definition polarizability (vol : R) (nk nc nv : nat) (M : marray) : option cmat :=
  option_map (fun rows => fun l m =>
      (RtoC 4 * (- fold_right (fun r s => (outer r l m + s)%C) (RtoC 0) rows) / RtoC (vol * INR nk))%C)
    (all_some (map (fun i => let '(a, b, c) := i in M a b c) (axes3 nk nc nv))).
(** lines 383-406, [polarizability_active]: accumulate one transition after the other. *)
Definition polarizability_active (vol : R) (nk : nat) (Ms : list (option (list C))) : option cmat :=
  option_map (fun rows => fun l m =>
      (RtoC 4 * fold_left (fun acc r => (acc + - outer r l m)%C) rows (RtoC 0) / RtoC (vol * INR nk))%C)
    (all_some Ms).
(** The two public routes for one q-point. *)
Definition chi_full (E : epsilon) : res (option cmat) :=
  do nv <- n_v_max E; do cbeg <- n_c_beg E;
  do M <- elements_array E;
  Ok (polarizability (e_cellvol E) (length (e_kpts E)) (e_nbands E - cbeg) nv M).
Definition chi_active (E : epsilon) : res (option cmat) :=
  do Ms <- elements_yielding E;
  Ok (polarizability_active (e_cellvol E) (length (e_kpts E)) Ms).

(** vcoul.py lines 272-284, [v_bare]: 8 pi / |q+G|^2, nan where that is zero; [gk] are the
    Cartesian vectors q+G. *)
Definition v_bare1 (n2 : R) : option R := if reqb n2 0 then None else Some (8 * PI * / n2).
Definition v_bare (gk : list rvec) : list (option R) := map (fun v => v_bare1 (vdot v v)) gk.
(** epsilon.py lines 409-421: the matrix passed to [np.linalg.inv]; nan in the Coulomb factor
    makes a column nan. *)
Definition eps_matrix (v : nat -> R) (chi : cmat) : cmat :=
  fun i j => ((if (i =? j)%nat then RtoC 1 else RtoC 0) - RtoC (v j / 2) * chi i j)%C.
Definition epsilon_matrix (gk : list rvec) (chi : cmat) : option cmat :=
  option_map (fun v => eps_matrix (fun j => nth j v 0) chi) (all_some (v_bare gk)).

(** ---------------- vcoul.py ---------------- *)
(** lines 291-292: radius of the sphere with the volume of one q-cell.  [x ** (1/3)]. *)
Definition q_cutoff (recvol : R) (nq : nat) : R := Rpower (recvol / INR nq * 3 / (4 * PI)) (1 / 3).
(** lines 286-294 *)
Definition v_minibz_sphere (recvol : R) (nq : nat) : R := 3 * 8 * PI / (q_cutoff recvol nq) ^ 2.
(** [np.arctanh] for |x| < 1 *)
Definition arctanh (x : R) : R := ln ((1 + x) / (1 - x)) / 2.
(** lines 296-330, [v_minibz_sphere_shifted] for a centre at distance [d]; [None] is inf. *)
Definition v_minibz_sphere_shifted (q_cut d : R) : option R :=
  if reqb d 0 then None else
  let numerator := 2 * PI * ((q_cut ^ 2 / d - d) * arctanh (q_cut / d) + q_cut) in
  let denominator := 4 * PI * q_cut ^ 3 / 3 in
  Some (8 * PI * numerator / denominator).
(** lines 551-564, [oneoverq_minibz_sphere] *)
Definition oneoverq_minibz_sphere (q_cut : R) : R := 12 * PI / q_cut.

(** lines 142-255, [fixwings], for the matrix [epsinv] with [ng] rows, [i0] the position of G=0.
    A column/row of the array is scaled by one factor, the head is restored at the end. *)
Definition fixwing (q0flag : bool) (oneoverq vcoul q0len wcoul0 : R) (wingtype : nat) (x : C) : C :=
  match wingtype with
  | 0%nat => (* wing *) if q0flag then (x * RtoC 0)%C else (x * RtoC oneoverq / RtoC (vcoul * q0len))%C
  | 1%nat => (* wingprime *)
      if q0flag then (x * RtoC 0)%C else (x * RtoC oneoverq * RtoC q0len / RtoC (8 * PI))%C
  | _ => (* head *) if q0flag then (RtoC wcoul0 / RtoC vcoul)%C else x
  end.
Definition fixwings (q0flag : bool) (oneoverq vcoul q0len wcoul0 : R) (i0 : nat) (epsinv : cmat) : cmat :=
  let fw := fixwing q0flag oneoverq vcoul q0len wcoul0 in
  let head := fw 2%nat (epsinv i0 i0) in
  let m1 : cmat := fun i j => if ((i =? i0) && (j =? i0))%nat then head else epsinv i j in
  let m2 : cmat := fun i j => if (j =? i0)%nat then fw 1%nat (m1 i j) else m1 i j in
  let m3 : cmat := fun i j => if (i =? i0)%nat then fw 0%nat (m2 i j) else m2 i j in
  fun i j => if ((i =? i0) && (j =? i0))%nat then head else m3 i j.
(** lines 205-215: the position of G=0 among the sorted vectors. *)
Definition g_norm2 (g : vec3) : R := let '(a, b, c) := g in IZR (a * a + b * b + c * c).
Definition index_G0 (gs : list vec3) (gk : list rvec) (gk_norm2 : list R) : res nat :=
  do order <- sort_cryst_like_BGW gk gk_norm2;
  argmin (map g_norm2 (take (0, 0, 0)%Z gs order)).
(** lines 725-731, 741-747: [calculate_fixedeps] for q other than q0: bare [oneoverq] and the
    Coulomb factor of the FIRST vector in the sorted order. *)
Definition fixedeps_nonq0 (gs : list vec3) (gk : list rvec) (gk_norm2 : list R) (vcoul : list R)
    (oneoverq qlen : R) (epsinv : cmat) : res cmat :=
  do order <- sort_cryst_like_BGW gk gk_norm2;
  do i0 <- index_G0 gs gk gk_norm2;
  match order with
  | [] => Err IndexError
  | o :: _ => do v <- item vcoul o;
      Ok (fixwings false oneoverq v qlen (fst (epsinv O O) * v) i0 epsinv)
  end.

(** lines 687-722, [calculate_vcoul]: every process computes its chunk of
    [np.array_split(arange(numq), comm_size)]; the chunks are gathered in rank order. *)
Definition array_split_sizes (n p : nat) : list nat :=
  map (fun i => if (i <? n mod p)%nat then S (n / p) else (n / p)%nat) (seq 0 p).
Fixpoint split_sizes {A} (sizes : list nat) (l : list A) : list (list A) :=
  match sizes with [] => [] | s :: t => firstn s l :: split_sizes t (skipn s l) end.
Definition array_split {A} (l : list A) (p : nat) : list (list A) :=
  split_sizes (array_split_sizes (length l) p) l.
Definition vcoul_parallel {A} (numq p : nat) (single : nat -> A) : list A :=
  concat (map (map single) (array_split (seq 0 numq) p)).
Definition vcoul_serial {A} (numq : nat) (single : nat -> A) : list A := map single (seq 0 numq).
