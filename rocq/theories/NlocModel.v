(** Model of /repo/src/qtm/pseudo/nloc.py: Kleinman-Bylander projectors of one
    species and their coupling matrix, over exact real and complex numbers.
    SciPy's [sph_harm_y] is a parameter; arrays over plane waves are functions of the
    plane-wave index. *)
From Coq Require Import Reals Lra.
From Verif Require Import Base LatModel CBase.
Open Scope R_scope.

(** nloc.py line 28. *)
Definition DEL_Q : R := / 100.

(** nloc.py lines 198-201: [ibeta for ibeta, l in enumerate(beta_l) for _ in range(-l, l+1)]. *)
Definition vkb_idxbeta (beta_l : list nat) : list nat :=
  flat_map (fun bl => map (fun _ => fst bl) (zrange (- Z.of_nat (snd bl)) (Z.of_nat (snd bl) + 1)))
    (combine (seq 0 (length beta_l)) beta_l).
(** lines 203-206. *)
Definition vkb_l (beta_l : list nat) : list nat :=
  flat_map (fun l => map (fun _ => l) (zrange (- Z.of_nat l) (Z.of_nat l + 1))) beta_l.
(** line 210: ((i + 1) // 2) * (-1) ** (i % 2). *)
Definition m_of (i : Z) : Z := ((i + 1) / 2 * (if (i mod 2 =? 0)%Z then 1 else -1))%Z.
(** lines 208-215. *)
Definition vkb_m (beta_l : list nat) : list Z :=
  flat_map (fun l => map m_of (zrange 0 (2 * Z.of_nat l + 1))) beta_l.
(** line 216. *)
Definition numvkb (beta_l : list nat) : nat := length (vkb_l beta_l).

(** line 184: number of points of the radial table; [ecut] is a quarter of the
    density cutoff (line 162). *)
Definition rceil (x : R) : Z := (- rfloor (- x))%Z.
Definition numq (ecut : R) : Z := rceil (sqrt (2 * ecut) / DEL_Q + 4).

(** lines 255-286: the four-point Lagrange formula on the nodes idx .. idx+3;
    [tab] is one row of [beta_q].  NumPy raises IndexError when a node is outside. *)
Definition lagrange4 (y0 y1 y2 y3 x : R) : R :=
  y0 * (x - 1) * (x - 2) * (x - 3) / ((0 - 1) * (0 - 2) * (0 - 3))
  + y1 * x * (x - 2) * (x - 3) / ((1 - 0) * (1 - 2) * (1 - 3))
  + y2 * x * (x - 1) * (x - 3) / ((2 - 0) * (2 - 1) * (2 - 3))
  + y3 * x * (x - 1) * (x - 2) / ((3 - 0) * (3 - 1) * (3 - 2)).
Definition interp (nq : Z) (tab : Z -> R) (q : R) : res R :=
  let idx := rint (q / DEL_Q) in
  if ((idx <? 0) || (nq <=? idx + 3))%Z then Err IndexError else
  let xmin0 := q / DEL_Q - IZR idx in
  Ok (lagrange4 (tab idx) (tab (idx + 1)%Z) (tab (idx + 2)%Z) (tab (idx + 3)%Z) xmin0).

(** What [gen_vkb_dij] reads: the pseudopotential's angular momenta and coupling, the
    interpolated radial factor of each projector (times 4 pi / sqrt(cellvol)), the
    angles of G+k, its crystal coordinates, the atoms' positions. *)
Record species := { s_l : list nat; s_dij : nat -> nat -> R; s_pos : list rvec }.
Record kpoint := { k_beta : nat -> nat -> R; k_theta : nat -> R; k_phi : nat -> R; k_cryst : nat -> rvec }.

Section Model.
(** [scipy.special.sph_harm_y(l, m, theta, phi)] for m >= 0. *)
Variable ylm : nat -> nat -> R -> R -> C.

(** [(-1) ** abs_m] *)
Definition alt (m : nat) : R := if Nat.even m then 1 else -1.

(** lines 289-302: the rows written for one projector; [idxvkb] advances by one after
    every write, so the rows of the array are the concatenation of these lists. *)
Definition rows_of (K : kpoint) (b l : nat) : list (nat -> C) :=
  flat_map (fun m =>
    let y := fun g => ylm l m (k_theta K g) (k_phi K g) in
    match m with
    | O => [fun g => (y g * RtoC (k_beta K b g))%C]
    | S _ => [fun g => RtoC (- sqrt 2 * alt m * snd (y g) * k_beta K b g);
              fun g => RtoC (- sqrt 2 * alt m * fst (y g) * k_beta K b g)]
    end) (seq 0 (S l)).
(** lines 261-302: [l_vkb_atom]. *)
Definition vkb_atom (S_ : species) (K : kpoint) : list (nat -> C) :=
  flat_map (fun bl => rows_of K (fst bl) (snd bl)) (combine (seq 0 (length (s_l S_))) (s_l S_)).

(** lines 304-315: [dij_atom]. *)
Definition dij_atom (S_ : species) (i1 i2 : nat) : R :=
  let ls := vkb_l (s_l S_) in let ms := vkb_m (s_l S_) in let bs := vkb_idxbeta (s_l S_) in
  if (nth i1 ls O =? nth i2 ls O)%nat && (nth i1 ms 0 =? nth i2 ms 0)%Z
  then s_dij S_ (nth i1 bs O) (nth i2 bs O) else 0.

(** lines 328-332: [block_diag] of numatoms copies (the GPU branch is the same matrix). *)
Definition dij_full (S_ : species) (i j : nat) : R :=
  let n := numvkb (s_l S_) in
  if (i / n =? j / n)%nat then dij_atom S_ (i mod n) (j mod n) else 0.

(** [1j ** l] *)
Fixpoint ipow (l : nat) : C := match l with O => RtoC 1 | S k => (Ci * ipow k)%C end.
(** lines 323-325: phase factor, [l_vkb_iat]. *)
Definition phase (tau gk : rvec) : C := cis (- (2 * PI) * vdot tau gk).
Definition vkb_iat (S_ : species) (K : kpoint) (tau : rvec) (i g : nat) : C :=
  (phase tau (k_cryst K g) * nth i (vkb_atom S_ K) (fun _ => RtoC 0) g
   * - ipow (nth i (vkb_l (s_l S_)) O))%C.
(** lines 320-325: row [iat * numvkb + i] of [l_vkb_full]. *)
Definition vkb_full (S_ : species) (K : kpoint) (i g : nat) : C :=
  let n := numvkb (s_l S_) in
  vkb_iat S_ K (nth (i / n) (s_pos S_) (V 0 0 0)) (i mod n) g.
Definition num_full (S_ : species) : nat := length (s_pos S_) * numvkb (s_l S_).

(** lines 321 and 326: [vkb_diag]. *)
Definition vkb_diag (S_ : species) (K : kpoint) (g : nat) : C :=
  let n := numvkb (s_l S_) in
  fold_left (fun acc tau =>
      (acc + csum n (fun i => vkb_iat S_ K tau i g *
          csum n (fun j => RtoC (dij_atom S_ i j) * Cconj (vkb_iat S_ K tau j g))))%C)
    (s_pos S_) (RtoC 0).
End Model.

(** lines 39-40, [semifact]: product of n, n-2, .. down to 1 or 2. *)
Fixpoint semifact_from (fuel : nat) (n : Z) : Z :=
  match fuel with O => 1%Z | S f => if (n <=? 0)%Z then 1%Z else (n * semifact_from f (n - 2))%Z end.
Definition semifact (n : Z) : Z := semifact_from (Z.to_nat n) n.
(** lines 31-36. *)
Definition small_x_thr (n : nat) : R :=
  if (2 <? n)%nat then 5 / 100 * (25 / 10) ^ (n - 2) + 5 / 100 * (INR n - 3) else 5 / 100.
(** lines 55-90: the truncated series. *)
Definition jn_series (n : nat) (x : R) : R :=
  let N := INR n in let x2 := x ^ 2 in
  x ^ n / IZR (semifact (2 * Z.of_nat n + 1))
  * (1 - (x2 / 1 / 2 / (2 * N + 3)
     * (1 - (x2 / 2 / 2 / (2 * N + 5)
       * (1 - (x2 / 3 / 2 / (2 * N + 7)
         * (1 - x2 / 4 / 2 / (2 * N + 9)))))))).
(** lines 94-132: the closed forms; [None]: no branch (the array stays unwritten). *)
Definition jn_closed (n : nat) (x : R) : option R :=
  let sx := sin x in let cx := cos x in
  let x2 := x ^ 2 in let x3 := x * x2 in let x4 := x2 * x2 in let x5 := x2 * x3 in let x6 := x3 * x3 in
  match n with
  | 0%nat => Some (sx / x)
  | 1%nat => Some (sx / x2 - cx / x)
  | 2%nat => Some (((3 / x - x) * sx - 3 * cx) / x2)
  | 3%nat => Some (((15 / x - 6 * x) * sx + (x2 - 15) * cx) / x3)
  | 4%nat => Some (((105 - 45 * x2 + x4) * sx + (10 * x3 - 105 * x) * cx) / x5)
  | 5%nat => Some ((cx * (-1 - 945 / x4 + 105 / x2) + sx * (945 / x5 - 420 / x3 + 15 / x)) / x)
  | 6%nat => Some ((cx * (-10395 / x5 + 1260 / x3 - 21 / x) + sx * (-1 + 10395 / x6 - 4725 / x4 + 210 / x2)) / x)
  | _ => None
  end.
(** lines 43-132, [spherical_jn]: [searchsorted(x_, thr, "right")] on an ascending array is
    the number of entries <= thr; the first that many are filled by the series, the
    others by the closed form.  Result [None]: Python's NotImplemented (n > 6). *)
Definition le_thr (thr x : R) : bool := if Rle_dec x thr then true else false.
Definition spherical_jn (n : nat) (xs : list R) : option (list R) :=
  if (6 <? n)%nat then None else
  let isplit := length (filter (le_thr (small_x_thr n)) xs) in
  Some (map (jn_series n) (firstn isplit xs)
        ++ map (fun x => match jn_closed n x with Some y => y | None => 0 end) (skipn isplit xs)).

(** lines 174-181, [simpson] on the sampled integrand times r_ab: the three strided
    slices f[0:-2:2], f[1:-1:2], f[2::2] have (n-1)/2 entries each (n the number of
    points, integer division; also for even n, where the last point is left out). *)
Definition simpson (n : nat) (f : nat -> R) : R :=
  / 3 * rsum ((n - 1) / 2) (fun j => f (2 * j)%nat + 4 * f (2 * j + 1)%nat + f (2 * j + 2)%nat).
(** lines 189-195: one entry of the table; [jl] is [spherical_jn(l, .)] at one point. *)
Definition beta_q (n : nat) (r r_ab rbeta : nat -> R) (jl : R -> R) (iq : Z) : R :=
  simpson n (fun i => rbeta i * r i * jl (IZR iq * DEL_Q * r i) * r_ab i).
(** lines 245 and 265: the radial factor handed to the angular part. *)
Definition beta_gk (cellvol : R) (nq : Z) (tab : Z -> R) (q : R) : res R :=
  rmap (Rmult (4 * PI / sqrt cellvol)) (interp nq tab q).
