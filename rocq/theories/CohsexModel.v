(** Model of /repo/src/qtm/gw/sigma.py: the exact static Coulomb hole (lines 629-722 and 1053-1122) and the driver
    [calculate_static_cohsex] (lines 1668-1786).  The object and the other static parts are those of SigmaModel.  Printing, the
    progress bar and Barriers are not modelled; the FFT driver is the full-grid one. *)
From Coq Require Import Reals Lra.
From Verif Require Import Base SortModel LatModel GIndexModel CBase FFTModel GwModel SigmaModel GppModel.
Open Scope R_scope.

(** lines 1090-1091 and 1101: [np.vstack(gpmg)], the differences G' - G, row by row of fixed G. *)
Definition gpmg (gs : list vec3) : list vec3 := flat_map (fun g => map (fun g' => zsub3 g' g) gs) gs.
(** lines 692-706: positions of the differences on the FFT grid; uniqueness is not checked (skip_check_g_idxgrid_len). *)
Definition exact_idx (S : sigma_obj) (lg : list vec3) : res (list nat) :=
  rmap (map Z.to_nat) (cryst2idxgrid (e_shape (at_q S 0)) lg).
(** lines 667-675 and 687-690: a band on the real-space grid (not divided by the number of grid points). *)
Definition on_grid (S : sigma_obj) (w : wfn) (b : nat) : list C := phi (at_q S 0) w b.
(** lines 733-735: transform of conj(phi_ket) phi_bra. *)
Definition pair_row (S : sigma_obj) (idx : list nat) (wk wb : wfn) (b : nat) : list C :=
  snd (full_r2g (fft (at_q S 0) idx) (map (fun p => (Cconj (fst p) * snd p)%C) (combine (on_grid S wk b) (on_grid S wb b)))).
(** lines 716-718 and 721-724: the listed k-points (the first numq ones) that match; indexing the list of k-points fails when numq is larger. *)
Definition same_k (S : sigma_obj) (k : nat) : res (list nat) :=
  do ks <- sequence (map (item (g_kpts S)) (seq 0 (length (g_q S))));
  Ok (filter (fun k' => isclose3 (kp_cryst (nth k' ks k0)) (kp_cryst (kp (at_q S 0) k))) (seq 0 (length (g_q S)))).
(** lines 678-737: one pass of the loop over (k-point, band); [numq] takes the place of the number of k-points (line 640), the bands are
    counted from 0 (line 654), whatever band_index_min is. *)
Definition exact_step (S : sigma_obj) (lg : list vec3) (M : marr) (kb : nat * nat) : res marr :=
  let '(k, b) := kb in
  if existsb (Nat.eqb k) (g_lk S) then
    do kp_ <- item (g_kpts S) k;
    do _ <- has_band (kp_wfn kp_) b;
    do idx <- exact_idx S lg;
    do ks <- same_k S k;
    fold_res (fun M' k' =>
      do kp' <- item (g_kpts S) k';
      do _ <- has_band (kp_wfn kp') b;
      Ok (fun i j => if (i =? position k (g_lk S))%nat && (j =? b)%nat then pair_row S idx (kp_wfn kp_) (kp_wfn kp') b else M' i j)) M ks
  else Ok M.
(** lines 738-741: vectors whose squared length exceeds the dielectric cutoff are dropped. *)
Definition cut_row (L : lattice) (cutoff : R) (lg : list vec3) (row : list C) : list C :=
  map (fun p => if Rlt_dec cutoff (vdot (zr (fst p)) (mv (metric L) (zr (fst p)))) then RtoC 0 else snd p) (combine lg row).
(** lines 629-743, [matrix_elements_sigma_exact] *)
Definition matrix_elements_sigma_exact (S : sigma_obj) (L : lattice) (cutoff : R) (lg : list vec3) : res marr :=
  do M <- fold_res (exact_step S lg) (fun _ _ => map (fun _ => RtoC 0) lg)
            (list_prod (seq 0 (length (g_q S))) (seq 0 (g_nket S)));
  Ok (fun i j => cut_row L cutoff lg (M i j)).
(** lines 1087-1116: one q-point; einsum "kijm,mk,m->ij" divided by the number of grid points. *)
Definition exact_q (S : sigma_obj) (L : lattice) (cutoff : R) (i : nat) : res (list cmat) :=
  do g <- item (g_gq S) i; do e <- item (g_eps S) i; do v <- item (g_v S) i;
  do M <- matrix_elements_sigma_exact S L cutoff (gpmg g);
  do _ <- axis ((length v =? length g)%nat && square_n (length g) e);
  let n := length g in
  Ok [fun i j => (csum n (fun k => csum n (fun m => nth (n * k + m) (M i j) (RtoC 0) * ent e m k * RtoC (nth m v 0)))
                  / RtoC (INR (g_nx S * g_ny S * g_nz S)))%C].
(** lines 1053-1122, [sigma_ch_static_exact] *)
Definition sigma_ch_static_exact (p : option nat) (S : sigma_obj) (L : lattice) (cutoff : R) : res cmat :=
  do m <- run p true (RtoC 1) (exact_q S L cutoff) (length (g_q S)); Ok (scaled (1 / 2 * g_factor S) m).

(** ---- lines 1668-1786, [calculate_static_cohsex] ---- *)
Record clevel := MkCLevel { cl_x : C; cl_sx : C; cl_ch : C; cl_che : C; cl_emf : R; cl_vxc : C }.
(** lines 1700-1731 and 1764-1784: one level of the returned dictionary (real parts; the parts rounded to 6 decimals, their sums not). *)
Definition cohsex_row (l : clevel) : row :=
  let sigx := (cl_sx l + cl_che l + cl_x l)%C in let sigp := (cl_sx l + cl_ch l + cl_x l)%C in
  let e0x := (sigx + RtoC (cl_emf l) - cl_vxc l)%C in let e0p := (sigp + RtoC (cl_emf l) - cl_vxc l)%C in
  MkRow (fst (caround (cl_x l))) (fst (caround (cl_sx l))) (fst (caround (cl_che l))) (fst sigx) (fst (cl_vxc l)) (fst e0x) (fst e0x)
        (fst (caround (cl_ch l))) (fst sigp) (fst e0p) (fst e0p) 1.
(** lines 1674-1682: rows of the listed k-points, columns band_index_min - 1 .. band_index_max - 1 (a slice is shortened at the end of
    the row); energies divided by the value of one electron volt. *)
Definition vxc_rows (S : sigma_obj) (vxc : list (list C)) : res (list (list C)) :=
  sequence (map (fun k => do r <- item vxc k; Ok (firstn (g_nket S) (skipn (g_b0 S) r))) (g_lk S)).
Definition emf_rows (S : sigma_obj) (ev : R) : res (list (list R)) :=
  sequence (map (fun k => do kp_ <- item (g_kpts S) k;
     Ok (map (fun x => x * (1 / ev)) (firstn (g_nket S) (skipn (g_b0 S) (w_evl (kp_wfn kp_)))))) (g_lk S)).
(** The dictionary: one entry per listed k-point with the labels, Emf and the other columns.  The arrays are added elementwise (ValueError
    when a row of energies or of vxc is shorter than the number of bands; rows of length 1 are not broadcast). *)
Definition calculate_static_cohsex (p : option nat) (S : sigma_obj) (L : lattice) (cutoff ev : R) (vxc : list (list C))
  : res (list (nat * (list nat * list (R * row)))) :=
  do vs <- vxc_rows S vxc; do es <- emf_rows S ev;
  do x <- sigma_x p true S; do sx <- sigma_sx_static p true S; do ch <- sigma_ch_static p true S;
  do che <- sigma_ch_static_exact p S L cutoff;
  do _ <- axis (forallb (fun r => length r =? g_nket S)%nat es && forallb (fun r => length r =? g_nket S)%nat vs);
  Ok (map (fun i => (nth i (g_lk S) O, (band_labels (g_b0 S + 1) (g_b0 S + g_nket S),
        map (fun j => let em := nth j (nth i es []) 0 in
           (em, cohsex_row (MkCLevel (x i j) (sx i j) (ch i j) (che i j) em (nth j (nth i vs []) (RtoC 0)))))
          (seq 0 (g_nket S))))) (seq 0 (length (g_lk S)))).
