(** Model of the plasmon-pole part of /repo/src/qtm/gw/sigma.py and of the quasiparticle energies.
    The complex arrays wtilde2, E_bra, E_ket, wxt have zero imaginary parts and are reals here; cos(arctan2(y,x)) and
    tan(arctan2(y,x)) are written as x/|(x,y)| and y/x.  The density at G = 0 is supposed not to be zero (otherwise the
    assertion on nan fails).  [np.nan_to_num] and the replacement of zero denominators by the machine epsilon only
    act where the numerator is zero. *)
From Coq Require Import Reals Lra.
From Verif Require Import Base SortModel LatModel GIndexModel FFTModel GwModel SigmaModel CBase.
Open Scope R_scope.

(** lines 138-147, 300-316: the dictionary from the hash of a G-vector to its position in the density. *)
Definition rhohash (nx ny nz : nat) (g : vec3) : Z :=
  let '(a, b, c) := g in
  ((a + Z.of_nat nx / 2) + (b + Z.of_nat ny / 2) * Z.of_nat nx + (c + Z.of_nat nz / 2) * Z.of_nat nx * Z.of_nat ny)%Z.
(** dict(zip(hashes, range)): a later vector with the same hash replaces an earlier one; a missing key is a KeyError. *)
Definition rho_index (nx ny nz : nat) (gs : list vec3) (g : vec3) : res nat :=
  match filter (fun i => (rhohash nx ny nz (nth i gs (0, 0, 0)%Z) =? rhohash nx ny nz g)%Z) (rev (seq 0 (length gs))) with
  | i :: _ => Ok i
  | [] => Err KeyError
  end.
Record gpp_in := MkGpp {
  p_sig : sigma_obj;
  p_rhog : list vec3; p_rho : list C;              (* rho.gvecs, rho.rho *)
  p_vol : R; p_metric : rvec -> rvec -> R;         (* reallat.cellvol; einsum("j,jk,k", a, recilat.metric, b) *)
  p_ryd : R;                                       (* Sigma.ryd *)
  p_cut : R }.                                     (* epsinp.epsilon_cutoff *)

(** lines 1178-1243: one entry (G, G') of omega2 and wtilde2.  [wp2n] is wp2/nelec, [d] the product (G+q).(G'+q), [d0] the
    square of G+q, [v] the Coulomb factor of G and [e] the entry of the transposed inverse dielectric matrix minus one. *)
Definition gpp_entry (wp2n : R) (rho : C) (d d0 v : R) (e : C) (ig igp : nat) : C * R :=
  let rho := if rltb tol (snd rho) then RtoC 0 else rho in
  if rltb (Cmod e) tol then (RtoC 0, 0) else
  let o := (RtoC (wp2n * d * v / (8 * PI)) * rho)%C in
  let o := if (ig =? 0)%nat && rltb (Rabs d0) tol && (igp =? 0)%nat then (RtoC wp2n * rho)%C else o in
  let o := if rltb (Cmod o) tol then RtoC 0 else o in
  let t := (o / - e)%C in
  let lam := Cmod t in
  if rltb lam tol then (o, 0) else
  let cosphi := fst t / lam in
  if rltb (Rabs cosphi) tol then (o, 0) else
  let itan : C := (1, - (snd t / fst t)) in ((o * itan)%C, lam / cosphi).
(** lines 1245-1252: unphysical squares of frequencies. *)
Definition gpp_fix (p : C * R) (e : C) : C * R := if rltb (snd p) 0 then ((RtoC (10 ^ 24) * - e)%C, 10 ^ 24) else p.
(** lines 1130-1256, [sigma_gpp_omegas]; [e] is indexed (G, G') after the transposition. *)
Definition omegas (P : gpp_in) (q : rvec) (g : list vec3) (v : list R) (e : nat -> nat -> C) : res (nat -> nat -> C * R) :=
  let S := p_sig P in
  do i0 <- rho_index (g_nx S) (g_ny S) (g_nz S) (p_rhog P) (0, 0, 0)%Z;
  do idx <- sequence (map (fun gp => sequence (map (fun gv => rho_index (g_nx S) (g_ny S) (g_nz S) (p_rhog P) (zsub3 gv gp)) g)) g);
  let wp2n := p_ryd P * p_ryd P * 16 * PI / p_vol P in
  let at_g n := vadd (zr (nth n g (0, 0, 0)%Z)) q in
  Ok (fun ig igp => gpp_fix (gpp_entry wp2n (nth (nth ig (nth igp idx []) O) (p_rho P) (RtoC 0))
                               (p_metric P (at_g ig) (at_g igp)) (p_metric P (at_g ig) (at_g ig)) (nth ig v 0) (e ig igp) ig igp) (e ig igp)).

(** lines 1283-1382, [calculate_ssx], and 1511-1595, [calculate_sch], for one entry. *)
Definition inv0 (x : R) : R := if reqb x 0 then 0 else / x.   (* conj(c) / c^2 *)
Definition delw (x w2 : R) : R := sqrt w2 * inv0 (x - sqrt w2).
Definition branch_a (x w2 : R) : bool :=
  rltb (1 / 4) ((x - sqrt w2) * (x - sqrt w2)) && rltb (delw x w2 * delw x w2) (/ tol / 4).
Definition branch_b (x w2 : R) : bool := rltb tol (delw x w2 * delw x w2).
Definition ssx_raw (x w2 : R) (o : C) : C :=
  if branch_a x w2 then (o * RtoC (inv0 (x * x - w2)))%C
  else if branch_b x w2 then (- (o * RtoC (inv0 (4 * (w2 * (delw x w2 + / 2))) * delw x w2)))%C
  else RtoC 0.
Definition ssx (x w2 : R) (o e : C) : C :=
  let s := ssx_raw x w2 o in if rltb (4 * Cmod e) (Cmod s) && rltb x 0 then RtoC 0 else s.
Definition sch (x w2 : R) (e : C) : C := if branch_a x w2 then (RtoC (delw x w2) * - e)%C else RtoC 0.

(** The energy difference in eV of ket band j of row i and bra band b (energies in Hartree are doubled: Rydberg).
    A repeated k-point leaves zeros in the energy arrays too; its matrix elements are zero, so the product is the same. *)
Definition evl_of (S : sigma_obj) (k b : nat) : R := nth b (w_evl (kp_wfn (nth k (g_kpts S) k0))) 0.
Definition wxt (P : gpp_in) (pairs : list (nat * nat)) (dE : nat -> nat -> R) (b i j : nat) : R :=
  let S := p_sig P in let pr := nth i pairs (O, O) in
  p_ryd P * (evl_of S (fst pr) (j + g_b0 S) * 2 + dE i j - evl_of S (snd pr) b * 2).
(** lines 1402-1452 / 1600-1660: one q-point: conj(M_g) M_p s[g,p] v[p], one term per bra band. *)
Definition gpp_term (n : nat) (m : list nat) (v : list R) (M : marr) (s : nat -> nat -> nat -> nat -> C) : cmat := fun i j =>
  let r := pick (M i j) m in
  csum n (fun g => csum n (fun p => Cconj (nth g r (RtoC 0)) * nth p r (RtoC 0) * s i j g p * RtoC (nth p v 0)))%C.
Definition gpp_q (P : gpp_in) (all : bool) (weight : R -> C * R -> C -> C) (dE : nat -> nat -> R) (i_q : nat) : res (list cmat) :=
  let S := p_sig P in
  do p <- prepare S i_q; do e <- item (g_eps S) i_q; do v <- item (g_v S) i_q; do q <- item (zeroed S) i_q;
  let eT := fun g p => ent e p g in
  do om <- omegas P q (nth i_q (g_gq S) []) v eT;
  do pairs <- mel_pairs S (at_q S (fst p));
  do Ms <- matrix_elements S (fst p) all;
  let n := length (snd p) in
  do _ <- axis ((length v =? n)%nat && square_n n e);
  Ok (map (fun bM => gpp_term n (snd p) v (snd bM) (fun i j g g' => weight (wxt P pairs dE (fst bM) i j) (om g g') (eT g g')))
          (combine (seq 0 (length Ms)) Ms)).
(** lines 1258-1470, [sigma_sx_gpp] *)
Definition w_sx (x : R) (om : C * R) (e : C) : C := ssx x (snd om) (fst om) e.
Definition w_ch (x : R) (om : C * R) (e : C) : C := sch x (snd om) e.
Definition sigma_sx_gpp (p : option nat) (y : bool) (P : gpp_in) (dE : nat -> nat -> R) : res cmat :=
  do m <- run p y (RtoC 1) (gpp_q P false w_sx dE) (length (g_q (p_sig P))); Ok (scaled (-1 * g_factor (p_sig P)) m).
(** lines 1472-1700, [sigma_ch_gpp] (first component) *)
Definition sigma_ch_gpp (p : option nat) (y : bool) (P : gpp_in) (dE : nat -> nat -> R) : res cmat :=
  do m <- run p y (RtoC 1) (gpp_q P true w_ch dE) (length (g_q (p_sig P))); Ok (scaled (1 / 2 * g_factor (p_sig P)) m).

(** ---- lines 630-725, [matrix_elements_sigma_exact], and 1052-1117, [sigma_ch_static_exact] ---- *)
(** The k-points visited are the first [numq] ones, the bands the first [nket] ones, whatever band_index_min is. *)
Definition exact_el (S : sigma_obj) (k b : nat) (gs : list vec3) : res (list C) :=
  let E := at_q S 0 in
  do idx <- cryst2idxgrid (e_shape E) gs;
  let w := kp_wfn (nth k (g_kpts S) k0) in
  do _ <- has_band w b;
  let f := phi E w b in
  Ok (snd (full_r2g (fft E (map Z.to_nat idx)) (map (fun p => (Cconj (fst p) * snd p)%C) (combine f f)))).
Definition exact_row (S : sigma_obj) (gs : list vec3) (i j : nat) : res (list C) :=
  let k := nth i (g_lk S) O in
  if (k <? length (g_q S))%nat && (i =? position k (g_lk S))%nat then exact_el S k j gs else Ok (map (fun _ => RtoC 0) gs).
(** lines 731-734: transfers beyond the dielectric cutoff are dropped. *)
Definition cutoff (P : gpp_in) (gs : list vec3) (l : list C) : list C :=
  map (fun p => if rltb (p_cut P) (p_metric P (zr (fst p)) (zr (fst p))) then RtoC 0 else snd p) (combine gs l).
(** One q-point of [sigma_ch_static_exact]; the k-points are supposed distinct (otherwise the last of the equal ones is used). *)
Definition differences (g : list vec3) : list vec3 := flat_map (fun gk => map (fun gm => zsub3 gm gk) g) g.
Definition exact_q (P : gpp_in) (i_q : nat) : res (list cmat) :=
  let S := p_sig P in
  do g <- item (g_gq S) i_q; do e <- item (g_eps S) i_q; do v <- item (g_v S) i_q;
  let n := length g in
  do rows <- sequence (map (fun i => sequence (map (fun j => do r <- exact_row S (differences g) i j; Ok (cutoff P (differences g) r)) (seq 0 (g_nket S)))) (seq 0 (length (g_lk S))));
  do _ <- axis ((length v =? n)%nat && square_n n e);
  Ok [fun i j => csum n (fun k => csum n (fun m =>
        nth (n * k + m) (nth j (nth i rows []) []) (RtoC 0) * ent e m k * RtoC (nth m v 0) / RtoC (INR (g_nx S * g_ny S * g_nz S))))%C].
Definition sigma_ch_static_exact (p : option nat) (P : gpp_in) : res cmat :=
  do m <- run p true (RtoC 1) (exact_q P) (length (g_q (p_sig P))); Ok (scaled (1 / 2 * g_factor (p_sig P)) m).

(** ---- lines 1790-1990, [calculate_gpp]: quasiparticle energies of one level ---- *)
Definition caround (z : C) : C := (np_around 6 (fst z), np_around 6 (snd z)).
Record level := MkLevel { lv_x : C; lv_sx : C; lv_ch : C; lv_chs : C; lv_che : C; lv_sx2 : C; lv_ch2 : C; lv_emf : R; lv_vxc : C }.
Definition remainder (l : level) : C := (RtoC (1 / 2) * (lv_che l - lv_chs l))%C.
Definition sig_of (l : level) : C := caround (lv_x l + lv_sx l + lv_ch l + remainder l)%C.
Definition eqp0 (l : level) : C := (sig_of l + RtoC (lv_emf l) - lv_vxc l)%C.
Definition eqp0_prime (l : level) : C := (eqp0 l - remainder l)%C.
(** lines 1886-1911: forward difference over one electronvolt *)
Definition dsig (l : level) : C := ((lv_sx2 l + lv_ch2 l) - (lv_sx l + lv_ch l))%C.
Definition slope (l : level) : C := (dsig l / (RtoC 1 - dsig l))%C.
Definition zfac (l : level) : C := (RtoC 1 / (RtoC 1 - dsig l))%C.
Definition eqp1 (l : level) : C := (eqp0 l + slope l * (eqp0 l - RtoC (lv_emf l)))%C.
Definition eqp1_prime (l : level) : C := (eqp0_prime l + slope l * (eqp0_prime l - RtoC (lv_emf l)))%C.
(** lines 1965-1990: the returned row, and 1913-1963: the printed one (both show real parts). *)
Record row := MkRow { r_x : R; r_sx : R; r_ch : R; r_sig : R; r_vxc : R; r_eqp0 : R; r_eqp1 : R; r_ch' : R; r_sig' : R; r_eqp0' : R; r_eqp1' : R; r_z : R }.
Definition printed (l : level) : row :=
  MkRow (fst (caround (lv_x l))) (fst (caround (lv_sx l))) (fst (caround (lv_ch l + remainder l)%C)) (fst (sig_of l)) (fst (lv_vxc l)) (fst (eqp0 l)) (fst (eqp1 l))
        (fst (caround (lv_ch l))) (fst (caround (lv_x l + lv_sx l + lv_ch l)%C)) (fst (eqp0_prime l)) (fst (eqp1_prime l)) (fst (zfac l)).
Definition returned (l : level) : row :=
  MkRow (fst (caround (lv_x l))) (fst (caround (lv_sx l))) (fst (caround (lv_ch l + remainder l)%C)) (fst (sig_of l)) (fst (lv_vxc l)) (fst (eqp0 l)) (fst (eqp1 l))
        (fst (caround (lv_ch l + remainder l)%C)) (fst (sig_of l)) (fst (eqp0 l)) (fst (eqp0 l)) 1.
(** "n": list(range(band_index_min - 1, band_index_max - band_index_min + 1)) *)
Definition band_labels (bmin bmax : nat) : list nat := seq (bmin - 1) (bmax - bmin + 1 - (bmin - 1)).
(** The dictionary is created inside the printing loop: only on the printing process, and only when a k-point was printed.
    Elsewhere the name is unbound (UnboundLocalError, here None).  The printing loop also indexes the matrices with the labels. *)
Definition calculate_gpp (prints : bool) (bmin bmax : nat) (lk : list nat) (levels : list (list level)) : option (list (nat * (list nat * list row))) :=
  if prints && negb (length lk =? 0)%nat
  then Some (map (fun p => (fst p, (band_labels bmin bmax, map returned (snd p)))) (combine lk levels))
  else None.
