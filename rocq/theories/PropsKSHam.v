(** Properties C46, C59: the Kohn-Sham Hamiltonian. *)
From Verif Require Import Base GIndexModel LatModel GSphereModel CBase FFTModel FFTSpec FFTProofs FFTProofs2 KSHamModel KSHamSpec KSHamProofs.
From Verif Require BufferModel BufferProofs.
Open Scope nat_scope.

(** The FFT object of the k+G space after any history of transforms. *)
Definition used_fft (nx ny nz : nat) (h : ksham) (garbage : worker) (history : list call) : full :=
  full_run (full_init nx ny nz (map Z.to_nat (gs_idxgrid (kh_gs h))) false garbage) history.

Lemma used_fft_inv nx ny nz h g hist :
  full_inv nx ny nz (map Z.to_nat (gs_idxgrid (kh_gs h))) false (used_fft nx ny nz h g hist).
Proof. apply full_run_inv. unfold full_init, full_inv. cbn. tauto. Qed.

(** C46.  h_psi multiplies every band by the plane-wave Hamiltonian matrix, whatever the FFT
    object was used for before and whatever the output buffer contained. *)
Theorem C46_h_psi_is_matrix_product : forall nx ny nz h garbage history l_psi l_hpsi,
  well_formed nx ny nz h ->
  length l_psi = length l_hpsi ->
  (forall psi, In psi l_psi -> length psi = length (gs_cryst (kh_gs h))) ->
  exists fft' out,
    h_psi h (used_fft nx ny nz h garbage history) l_psi l_hpsi = Ok (fft', out)
    /\ length out = length l_psi
    /\ forall b, b < length l_psi ->
         length (nth b out []) = length (gs_cryst (kh_gs h))
         /\ forall i, i < length (gs_cryst (kh_gs h)) ->
            nth i (nth b out []) (RtoC 0)
            = csum (length (gs_cryst (kh_gs h))) (fun j =>
                (kinetic h i j + local nx ny nz h i j + nonlocal h i j) * nth j (nth b l_psi []) (RtoC 0))%C.
Proof.
  intros nx ny nz h g hist l_psi l_hpsi WF Hl HP.
  destruct (h_psi_eq nx ny nz h WF _ l_psi l_hpsi (used_fft_inv nx ny nz h g hist) Hl HP) as (o' & out & E & _ & L & P & D).
  exists o', out. split; [exact E|]. split; [exact L|]. intros b Hb. split.
  - apply P, nth_In. lia.
  - intros i Hi. now apply D.
Qed.
Print Assumptions C46_h_psi_is_matrix_product.

(** One band through h_psi. *)
Definition apply_h (nx ny nz : nat) (h : ksham) (garbage : worker) (history : list call) (psi : list C) : list C :=
  match h_psi h (used_fft nx ny nz h garbage history) [psi] [[]] with Ok (_, [out]) => out | _ => [] end.

Lemma apply_h_eq nx ny nz h g hist psi : well_formed nx ny nz h -> length psi = length (gs_cryst (kh_gs h)) ->
  length (apply_h nx ny nz h g hist psi) = length (gs_cryst (kh_gs h))
  /\ forall i, i < length (gs_cryst (kh_gs h)) -> nth i (apply_h nx ny nz h g hist psi) (RtoC 0)
     = csum (length (gs_cryst (kh_gs h))) (fun j => hamiltonian nx ny nz h i j * nth j psi (RtoC 0))%C.
Proof.
  intros WF Hl. unfold apply_h.
  destruct (h_psi_eq nx ny nz h WF _ [psi] [[]] (used_fft_inv nx ny nz h g hist) eq_refl) as (o' & out & E & _ & L & P & D).
  { intros p [<-|[]]. exact Hl. }
  rewrite E. destruct out as [|r [|r' out]]; try discriminate L. split; [apply P; now left|].
  intros i Hi. exact (D 0 i Nat.lt_0_1 Hi).
Qed.

(** C46.  Linearity; the three applications may find the FFT object in different states. *)
Theorem C46_linear : forall nx ny nz h g1 g2 g3 h1 h2 h3 a phi b psi,
  well_formed nx ny nz h ->
  length phi = length (gs_cryst (kh_gs h)) -> length psi = length (gs_cryst (kh_gs h)) ->
  apply_h nx ny nz h g1 h1 (lincomb a phi b psi)
  = lincomb a (apply_h nx ny nz h g2 h2 phi) b (apply_h nx ny nz h g3 h3 psi).
Proof.
  intros nx ny nz h g1 g2 g3 h1 h2 h3 a phi b psi WF Hp Hq.
  assert (HL : length (lincomb a phi b psi) = length (gs_cryst (kh_gs h))) by (unfold lincomb; now rewrite map_length, seq_length).
  destruct (apply_h_eq nx ny nz h g1 h1 _ WF HL) as [L1 E1].
  destruct (apply_h_eq nx ny nz h g2 h2 _ WF Hp) as [L2 E2].
  destruct (apply_h_eq nx ny nz h g3 h3 _ WF Hq) as [L3 E3].
  assert (NL : forall a u b v i, i < length u -> nth i (lincomb a u b v) (RtoC 0) = (a * nth i u (RtoC 0) + b * nth i v (RtoC 0))%C).
  { intros a' u b' v i Hi. unfold lincomb.
    match goal with |- nth i (map ?f _) _ = _ => rewrite (nth_indep _ _ (f 0)) by (rewrite map_length, seq_length; lia); rewrite (map_nth f) end.
    now rewrite seq_nth by lia. }
  apply (nth_ext _ _ (RtoC 0) (RtoC 0)).
  - unfold lincomb at 2. now rewrite map_length, seq_length, L1, L2.
  - intros i Hi. rewrite L1 in Hi. rewrite E1, NL, E2, E3 by lia.
    rewrite <- !csum_scal, <- csum_plus. apply csum_ext. intros j Hj. rewrite NL by lia. ring.
Qed.
Print Assumptions C46_linear.

(** C46.  Hermiticity: <phi|H psi> = <H phi|psi> for a real potential and Hermitian D. *)
Theorem C46_hermitian : forall nx ny nz h g1 g2 h1 h2 phi psi,
  well_formed nx ny nz h -> self_adjoint_data h ->
  length phi = length (gs_cryst (kh_gs h)) -> length psi = length (gs_cryst (kh_gs h)) ->
  braket phi (apply_h nx ny nz h g1 h1 psi) = braket (apply_h nx ny nz h g2 h2 phi) psi.
Proof.
  intros nx ny nz h g1 g2 h1 h2 phi psi WF SA Hp Hq.
  destruct (apply_h_eq nx ny nz h g1 h1 _ WF Hq) as [L1 E1].
  destruct (apply_h_eq nx ny nz h g2 h2 _ WF Hp) as [L2 E2].
  unfold braket. rewrite L2, Hp. set (n := length (gs_cryst (kh_gs h))) in *.
  transitivity (csum n (fun i => csum n (fun j =>
    (Cconj (nth i phi (RtoC 0)) * hamiltonian nx ny nz h i j * nth j psi (RtoC 0))%C))).
  - apply csum_ext. intros i Hi. rewrite E1 by exact Hi. rewrite <- csum_scal. apply csum_ext. intros; ring.
  - rewrite csum_swap. apply csum_ext. intros j Hj. rewrite E2 by exact Hj.
    rewrite csum_conj, <- csum_scal_r. apply csum_ext. intros i Hi.
    rewrite Cmult_conj, <- (hamiltonian_hermitian nx ny nz h SA i j) by assumption. ring.
Qed.
Print Assumptions C46_hermitian.

(** Consequence: expectation values are real. *)
Theorem C46_expectation_real : forall nx ny nz h g hist psi,
  well_formed nx ny nz h -> self_adjoint_data h -> length psi = length (gs_cryst (kh_gs h)) ->
  snd (braket psi (apply_h nx ny nz h g hist psi)) = 0%R.
Proof.
  intros nx ny nz h g hist psi WF SA Hp.
  pose proof (C46_hermitian nx ny nz h g g hist hist psi psi WF SA Hp Hp) as E.
  assert (E2 : braket (apply_h nx ny nz h g hist psi) psi = Cconj (braket psi (apply_h nx ny nz h g hist psi))).
  { unfold braket. rewrite csum_conj. destruct (apply_h_eq nx ny nz h g hist psi WF Hp) as [L _]. rewrite L, Hp.
    apply csum_ext. intros i _. rewrite Cmult_conj, Cconj_conj. ring. }
  rewrite E2 in E. clear E2. revert E. generalize (braket psi (apply_h nx ny nz h g hist psi)). intros [x y] E.
  injection E as E. cbn. lra.
Qed.
Print Assumptions C46_expectation_real.

(** C46, is_noncolin = True.  The kinetic array is always built in the one-spin wavefunction
    class (ksham.py 29) while the wavefunctions belong to the two-spin class; the product of
    line 76 mixes the two container classes and raises TypeError whatever the data. *)
Definition wavefun_class (numspin : nat) : nat := numspin.
Theorem C46_noncollinear_refuted : forall T (basis_size : nat -> nat) (raw : list (T + BufferModel.nd T) -> res (BufferModel.nd T)) ke psi,
  BufferModel.ufunc basis_size true BufferModel.MCall raw
    [BufferModel.ABuf (BufferModel.MkBuffer (wavefun_class 1) ke); BufferModel.ABuf (BufferModel.MkBuffer (wavefun_class 2) psi)]
  = Err TypeError.
Proof. reflexivity. Qed.
Print Assumptions C46_noncollinear_refuted.

(* ---------------------------------------------------------------- *)
Lemma plane_wave_norm nx ny nz g x y z : (Cconj (plane_wave nx ny nz g x y z) * plane_wave nx ny nz g x y z = RtoC 1)%C.
Proof. destruct g as [[a b] c]. unfold plane_wave. rewrite Cmult_comm. apply cis_norm2. Qed.

Lemma fold_csum (l : list C) : fold_right Cplus (RtoC 0) l = csum (length l) (fun i => nth i l (RtoC 0)).
Proof. induction l as [|c l IH]; [reflexivity|]. cbn [fold_right length]. rewrite csum_head. cbn [nth]. now rewrite IH. Qed.

Lemma local_diag nx ny nz h i : length (kh_vloc h) = nx * ny * nz ->
  local nx ny nz h i i = fold_right Cplus (RtoC 0) (kh_vloc h).
Proof.
  intros Hv. rewrite fold_csum, Hv, <- Nat.mul_assoc, csum_prod. unfold local.
  apply csum_ext. intros x Hx. rewrite csum_prod. apply csum_ext. intros y Hy. apply csum_ext. intros z Hz.
  replace (x * (ny * nz) + (y * nz + z)) with ((x * ny + y) * nz + z) by ring.
  rewrite <- Cmult_assoc, (Cmult_comm (nth _ _ _)), Cmult_assoc, plane_wave_norm. ring.
Qed.

Lemma vnl_diag_eq h g : vnl_diag h g = nonlocal h g g.
Proof.
  unfold vnl_diag, nonlocal. induction (kh_nloc h) as [|[vkb dij] nl IH]; cbn [fold_right]; [reflexivity|].
  rewrite IH. f_equal. unfold separable. cbn [fst snd]. apply csum_ext. intros p _. rewrite <- csum_scal.
  apply csum_ext. intros q _. ring.
Qed.

(** C59.  Given the grid sum of the (rescaled) potential as [vloc_g0], the preconditioner's
    diagonal is the diagonal of the Hamiltonian that h_psi applies. *)
Theorem C59_preconditioner_diagonal : forall nx ny nz h i vloc_g0,
  well_formed nx ny nz h -> i < length (gs_cryst (kh_gs h)) ->
  vloc_g0 = fold_right Cplus (RtoC 0) (kh_vloc h) ->
  ham_diag h vloc_g0 i = hamiltonian nx ny nz h i i.
Proof.
  intros nx ny nz h i v (_ & Hv & _) Hi ->. unfold ham_diag, hamiltonian.
  rewrite (ke_nth h i i Hi eq_refl), vnl_diag_eq, local_diag by assumption. ring.
Qed.
Print Assumptions C59_preconditioner_diagonal.

(** C59, as called by scf: the potential average is divided by the number of grid points a
    second time, so whenever the potential has a non-zero average and the grid more than one
    point the preconditioner's diagonal is wrong in every component. *)
Theorem C59_scf_preconditioner_diagonal_refuted : forall nx ny nz h i,
  well_formed nx ny nz h -> i < length (gs_cryst (kh_gs h)) ->
  1 < nx * ny * nz -> fold_right Cplus (RtoC 0) (kh_vloc h) <> RtoC 0 ->
  ham_diag h (scf_vloc_g0 h (nx * ny * nz)) i <> hamiltonian nx ny nz h i i.
Proof.
  intros nx ny nz h i WF Hi HN H0 E.
  rewrite <- (C59_preconditioner_diagonal nx ny nz h i _ WF Hi eq_refl) in E.
  unfold ham_diag, scf_vloc_g0 in E. set (s := fold_right _ _ _) in *.
  assert (E2 : (s / RtoC (INR (nx * ny * nz)) = s)%C).
  { revert E. generalize (nth i (ke_gk h) (RtoC 0)) (vnl_diag h i) (s / RtoC (INR (nx * ny * nz)))%C. intros a b c E.
    replace c with (a + b + c - (a + b))%C by ring. rewrite E. ring. }
  assert (HR : (1 < INR (nx * ny * nz))%R) by (apply (lt_INR 1); lia).
  assert (E3 : (s * (RtoC (INR (nx * ny * nz)) - RtoC 1) = RtoC 0)%C).
  { assert (Hn : RtoC (INR (nx * ny * nz)) <> RtoC 0) by (apply RtoC_INR_neq; lia).
    transitivity (s * RtoC (INR (nx * ny * nz)) - s)%C; [ring|].
    rewrite <- E2 at 1. revert Hn. generalize (RtoC (INR (nx * ny * nz))). intros n Hn.
    unfold Cdiv. rewrite <- Cmult_assoc, (Cmult_comm (/ n)%C), Cinv_r by exact Hn. ring. }
  assert (Hd : (RtoC (INR (nx * ny * nz)) - RtoC 1 <> RtoC 0)%C).
  { intros E4. apply (f_equal fst) in E4. cbn [fst Cminus Cplus Copp RtoC] in E4. lra. }
  apply H0. rewrite <- (Cmult_1_r s), <- (Cinv_r _ Hd), Cmult_assoc, E3. ring.
Qed.
Print Assumptions C59_scf_preconditioner_diagonal_refuted.

(** Non-vacuity: three plane waves on a 2x1x2 grid, a real non-constant potential with non-zero
    average and two projectors coupled by a Hermitian matrix. *)
Definition ex_lat : lattice := MkLattice mid mid mid 1.
Definition ex_gs : gspace :=
  match gspace_base (zshape 2 1 2) [(0, 0, 0); (-1, 0, 0); (-1, 0, -1)]%Z with Ok s => s | Err _ => MkGSpace (1, 1, 1)%Z [] [] [] false end.
Definition ex_h : ksham := MkKSHam ex_lat (V (/ 4) 0 0) ex_gs [RtoC 1; RtoC 2; RtoC (-5); RtoC 7]
  [([[RtoC 1; Ci; RtoC 2]; [RtoC 0; RtoC 1; RtoC 3]], fun p q => if Nat.eqb p q then RtoC 2 else if Nat.ltb p q then Ci else Cconj Ci)].
Example C46_nonvacuous : well_formed 2 1 2 ex_h /\ self_adjoint_data ex_h /\ 1 < 2 * 1 * 2
  /\ length (gs_cryst (kh_gs ex_h)) = 3 /\ fold_right Cplus (RtoC 0) (kh_vloc ex_h) <> RtoC 0.
Proof.
  repeat split.
  - exists [(0, 0, 0); (-1, 0, 0); (-1, 0, -1)]%Z. vm_compute. reflexivity.
  - intros vd v [<-|[]] [<-|[<-|[]]]; vm_compute; reflexivity.
  - intros c [<-|[<-|[<-|[<-|[]]]]]; reflexivity.
  - intros vd p q [<-|[]] Hp Hq. cbn in Hp, Hq. cbn [snd].
    destruct p as [|[|p]], q as [|[|q]]; try lia; apply C_ext; cbn; ring.
  - lia.
  - intros E. apply (f_equal fst) in E. cbn in E. lra.
Qed.
