(** Property C93: the drivers of the library eigensolvers (scipy, primme). *)
From Coq Require Import Reals Lra Lia.
From Verif Require Import Base GIndexModel LatModel GSphereModel FFTModel FFTSpec FFTProofs FFTProofs2 KSHamModel KSHamSpec KSHamProofs PropsKSHam EigLibModel CBase.
Open Scope nat_scope.

(* ------------------------------------------------------------------ *)
(** * Specification *)
(** Product of an n x n matrix with a vector. *)
Definition mat_vec (n : nat) (M : nat -> nat -> C) (v : list C) : list C :=
  map (fun i => csum n (fun j => M i j * nth j v (RtoC 0))%C) (seq 0 n).
(** The library routine run against a matrix: what it returns, and the number of products it asked for. *)
Fixpoint ideal (n : nat) (M : nat -> nat -> C) (diag : list R) (p : library) : nat * res (list R * list (list C)) :=
  match p with
  | Ret evl v => (0, Ok (evl, v))
  | Raise e => (0, Err e)
  | Apply x next => let r := ideal n M diag (next (map (mat_vec n M) x)) in (S (fst r), snd r)
  | Precond psi e_psi next => ideal n M diag (next (prec_block diag psi e_psi))
  end.
(** The routine asks for products with vectors of the right length, as long as it gets such vectors back. *)
Definition vectors (n : nat) (l : list (list C)) : Prop := forall v, In v l -> length v = n.
Fixpoint asks (n : nat) (p : library) : Prop :=
  match p with
  | Ret _ _ | Raise _ => True
  | Apply x next => vectors n x /\ forall y, length y = length x -> vectors n y -> asks n (next y)
  | Precond psi e next => vectors n psi /\ length e = length psi /\ forall y, length y = length psi -> vectors n y -> asks n (next y)
  end.
Definition hermitian (n : nat) (M : nat -> nat -> C) : Prop := forall i j, i < n -> j < n -> M i j = Cconj (M j i).
(** The k lowest eigenpairs: orthonormal eigenvectors, eigenvalues in ascending order, and nothing below the last one in
    the orthogonal complement. *)
Definition lowest_pairs (n : nat) (M : nat -> nat -> C) (k : nat) (evl : list R) (v : list (list C)) : Prop :=
  length evl = k /\ length v = k /\ vectors n v
  /\ (forall i, i < k -> mat_vec n M (nth i v []) = map (Cmult (RtoC (nth i evl 0%R))) (nth i v []))
  /\ (forall i j, i < k -> j < k -> braket (nth i v []) (nth j v []) = if i =? j then RtoC 1 else RtoC 0)
  /\ (forall i j, i <= j < k -> (nth i evl 0 <= nth j evl 0)%R)
  /\ (forall u i, length u = n -> i < k -> (forall j, j < k -> braket (nth j v []) u = RtoC 0) ->
        (nth i evl 0 * fst (braket u u) <= fst (braket u (mat_vec n M u)))%R).

(* ------------------------------------------------------------------ *)
Lemma mat_vec_length n M v : length (mat_vec n M v) = n.
Proof. unfold mat_vec. now rewrite map_length, seq_length. Qed.
Lemma mat_vec_nth n M v i : i < n -> nth i (mat_vec n M v) (RtoC 0) = csum n (fun j => M i j * nth j v (RtoC 0))%C.
Proof.
  intros H. unfold mat_vec. set (f := fun i0 => csum n (fun j => M i0 j * nth j v (RtoC 0))%C).
  rewrite (nth_indep _ (RtoC 0) (f 0)) by now rewrite map_length, seq_length. rewrite map_nth, seq_nth by exact H. reflexivity.
Qed.
Lemma prec_block_vectors n diag psi e : length diag = n -> vectors n psi -> vectors n (prec_block diag psi e).
Proof.
  intros HD HV w Hw. unfold prec_block in Hw. apply in_map_iff in Hw as ([p x] & <- & Hp). apply in_combine_l in Hp. cbn [fst snd].
  rewrite map_length, combine_length, (HV p Hp). lia.
Qed.
Lemma prec_block_length diag psi e : length e = length psi -> length (prec_block diag psi e) = length psi.
Proof. intros H. unfold prec_block. rewrite map_length, combine_length. lia. Qed.

Section Run.
  Context (nx ny nz : nat) (h : ksham) (WF : well_formed nx ny nz h).
  Let n := length (gs_cryst (kh_gs h)).
  Let M := hamiltonian nx ny nz h.
  Let inv o := full_inv nx ny nz (map Z.to_nat (gs_idxgrid (kh_gs h))) false o.

  Lemma h_psi_block o x : inv o -> vectors n x -> exists o', inv o' /\ h_psi h o x (map (fun _ => []) x) = Ok (o', map (mat_vec n M) x).
  Proof.
    intros Ho Hx. destruct (h_psi_eq nx ny nz h WF o x (map (fun _ => []) x) Ho) as (o' & out & E & I & L & P & D).
    { now rewrite map_length. } { exact Hx. }
    exists o'. split; [exact I|]. rewrite E. do 2 f_equal. apply (nth_ext _ _ [] []); [now rewrite map_length|].
    intros b Hb. rewrite L in Hb. rewrite (nth_indep (map (mat_vec n M) x) [] (mat_vec n M [])) by now rewrite map_length. rewrite map_nth.
    assert (LB : length (nth b out []) = n) by (apply P, nth_In; lia).
    apply (nth_ext _ _ (RtoC 0) (RtoC 0)); [now rewrite mat_vec_length|]. intros i Hi. rewrite LB in Hi.
    rewrite mat_vec_nth by exact Hi. now apply D.
  Qed.
  Lemma run_eq diag p : length diag = n -> forall o k, inv o -> asks n p ->
    exists o', inv o' /\ run h diag p o k = (o', (k + fst (ideal n M diag p), snd (ideal n M diag p))).
  Proof.
    intros HD. induction p as [evl v|e|x next IH|psi e next IH]; intros o k Ho Ha; cbn [run ideal fst snd].
    - exists o. rewrite Nat.add_0_r. auto.
    - exists o. rewrite Nat.add_0_r. auto.
    - destruct Ha as [A1 A2]. destruct (h_psi_block o x Ho A1) as (o1 & I1 & ->).
      destruct (IH (map (mat_vec n M) x) o1 (S k) I1) as (o' & I' & ->).
      { apply A2; [now rewrite map_length|]. intros v Hv. apply in_map_iff in Hv as (u & <- & _). apply mat_vec_length. }
      exists o'. split; [exact I'|]. do 2 f_equal. lia.
    - destruct Ha as (A1 & A2 & A3). apply IH; [exact Ho|]. apply A3; [now apply prec_block_length|now apply prec_block_vectors].
  Qed.
End Run.
(** scipy's routine has no preconditioner: it never asks for a preconditioned block. *)
Fixpoint products_only (p : library) : Prop :=
  match p with
  | Ret _ _ | Raise _ => True
  | Apply _ next => forall y, products_only (next y)
  | Precond _ _ _ => False
  end.
Lemma run_diag h p : products_only p -> forall d d' o k, run h d p o k = run h d' p o k.
Proof.
  induction p as [evl v|e|x next IH|psi e next IH]; intros Hp d d' o k; cbn [run]; try reflexivity; [|destruct Hp].
  destruct (h_psi h o x _) as [[o' y]|]; [|reflexivity]. now apply IH.
Qed.
Lemma ideal_diag n M p : products_only p -> forall d d', ideal n M d p = ideal n M d' p.
Proof.
  induction p as [evl v|e|x next IH|psi e next IH]; intros Hp d d'; cbn [ideal]; try reflexivity; [|destruct Hp].
  now rewrite (IH _ (Hp _) d d').
Qed.
Lemma checks_ok intra same thr : checks intra same thr = Ok tt <-> intra = 1 /\ same = true /\ (0 < thr)%R.
Proof.
  unfold checks, assert_. destruct (Nat.eqb_spec intra 1) as [->|N]; cbn [bind].
  - destruct same; cbn [bind]; [|split; [discriminate|intros (_ & X & _); discriminate X]]. destruct (Rlt_dec 0 thr) as [L|L]; split; try easy.
  - split; [easy|]. intros (? & _). contradiction.
Qed.
Lemma checks_err intra same thr e : checks intra same thr = Err e -> e = AssertionError.
Proof.
  unfold checks, assert_. destruct (intra =? 1); cbn [bind]; [|congruence]. destruct same; cbn [bind]; [|congruence]. destruct (Rlt_dec 0 thr); congruence.
Qed.

(** ---- C93: refusals.  A distributed k-point group, a foreign G+k space or a non-positive threshold: AssertionError; the
    wavefunction and the FFT object are untouched.  Without the primme package its driver raises ImportError first. ---- *)
Theorem C93_refused : forall eigsh eigsh' intra same thr g0 maxiter h o w,
  ~ (intra = 1 /\ same = true /\ (0 < thr)%R) ->
  scipy_solve eigsh intra same thr h o w = (o, (w, Err AssertionError))
  /\ primme_solve true eigsh' intra same thr g0 maxiter h o w = (o, (w, Err AssertionError))
  /\ primme_solve false eigsh' intra same thr g0 maxiter h o w = (o, (w, Err ImportError)).
Proof.
  intros eigsh eigsh' intra same thr g0 maxiter h o w H. unfold scipy_solve, primme_solve.
  destruct (checks intra same thr) as [[]|e] eqn:E; [exfalso; now apply H, checks_ok|]. apply checks_err in E. subst. auto.
Qed.
Print Assumptions C93_refused.

(** ---- C93: the routine sees the plane-wave Hamiltonian matrix and nothing else: what the driver stores and counts is what
    the routine computes against that matrix, for every history of the FFT object. ---- *)
Theorem C93_scipy_sees_hamiltonian : forall nx ny nz h garbage history eigsh thr w, well_formed nx ny nz h -> (0 < thr)%R ->
  let n := length (gs_cryst (kh_gs h)) in let k := length (w_evl w) in
  asks n (eigsh n k) -> products_only (eigsh n k) -> length (w_evc w) = k ->
  let r := ideal n (hamiltonian nx ny nz h) [] (eigsh n k) in
  snd (scipy_solve eigsh 1 true thr h (used_fft nx ny nz h garbage history) w)
  = match snd r with
    | Err e => (w, Err e)
    | Ok (evl, v) =>
        if negb (length evl =? k) then (w, Err ValueError)
        else if (length v =? k) && forallb (fun c => length c =? n) v then (MkWfn evl v, Ok (fst r))
        else (MkWfn evl (w_evc w), Err ValueError)
    end.
Proof.
  intros nx ny nz h g hist eigsh thr w WF HT n k HA HP HW r. unfold scipy_solve. rewrite (proj2 (checks_ok 1 true thr)) by auto.
  fold n. fold k. set (d := repeat 0%R n).
  destruct (run_eq nx ny nz h WF d (eigsh n k) (repeat_length _ _) _ 0 (used_fft_inv nx ny nz h g hist) HA) as (o' & _ & E).
  rewrite (run_diag h _ HP [] d), E. fold n. rewrite (ideal_diag n _ _ HP d []). fold r. unfold finish. cbn [fst snd plus].
  destruct (snd r) as [[evl v]|e]; [|reflexivity]. unfold store. fold k. rewrite HW.
  destruct (length evl =? k); cbn [negb]; [|reflexivity]. destruct (_ && _); reflexivity.
Qed.
Print Assumptions C93_scipy_sees_hamiltonian.
Theorem C93_primme_sees_hamiltonian : forall nx ny nz h garbage history eigsh thr g0 maxiter w, well_formed nx ny nz h -> (0 < thr)%R ->
  let n := length (gs_cryst (kh_gs h)) in let k := length (w_evl w) in
  let p := eigsh n k (w_evc w) thr maxiter in
  asks n p -> length (w_evc w) = k ->
  let diag := map (fun g => fst (ham_diag h (RtoC g0) g)) (seq 0 n) in
  let r := ideal n (hamiltonian nx ny nz h) diag p in
  snd (primme_solve true eigsh 1 true thr g0 maxiter h (used_fft nx ny nz h garbage history) w)
  = match snd r with
    | Err e => (w, Err e)
    | Ok (evl, v) =>
        if negb (length evl =? k) then (w, Err ValueError)
        else if (length v =? k) && forallb (fun c => length c =? n) v then (MkWfn evl v, Ok (fst r))
        else (MkWfn evl (w_evc w), Err ValueError)
    end.
Proof.
  intros nx ny nz h g hist eigsh thr g0 maxiter w WF HT n k p HA HW diag r. unfold primme_solve. rewrite (proj2 (checks_ok 1 true thr)) by auto.
  fold n. fold k. fold p. change (prec_diag h g0) with diag.
  destruct (run_eq nx ny nz h WF diag p) with (o := used_fft nx ny nz h g hist) (k := 0) as (o' & _ & E); [unfold diag; now rewrite map_length, seq_length|apply used_fft_inv|exact HA|].
  rewrite E. fold n. fold r. unfold finish. cbn [fst snd plus].
  destruct (snd r) as [[evl v]|e]; [|reflexivity]. unfold store. fold k. rewrite HW.
  destruct (length evl =? k); cbn [negb]; [|reflexivity]. destruct (_ && _); reflexivity.
Qed.
Print Assumptions C93_primme_sees_hamiltonian.

(** ---- C93: with a routine that finds the lowest eigenpairs of every Hermitian matrix of that order, the wavefunction holds
    the lowest eigenpairs of the Hamiltonian. ---- *)
Theorem C93_lowest_eigenpairs : forall nx ny nz h garbage history eigsh thr w w' count, well_formed nx ny nz h -> self_adjoint_data h ->
  let n := length (gs_cryst (kh_gs h)) in let k := length (w_evl w) in
  asks n (eigsh n k) -> products_only (eigsh n k) -> length (w_evc w) = k ->
  (forall M c evl v, hermitian n M -> ideal n M [] (eigsh n k) = (c, Ok (evl, v)) -> lowest_pairs n M k evl v) ->
  snd (scipy_solve eigsh 1 true thr h (used_fft nx ny nz h garbage history) w) = (w', Ok count) ->
  lowest_pairs n (hamiltonian nx ny nz h) k (w_evl w') (w_evc w').
Proof.
  intros nx ny nz h g hist eigsh thr w w' count WF SA n k HA HP HW HC H.
  destruct (Rlt_dec 0 thr) as [HT|HT].
  2:{ exfalso. destruct (C93_refused eigsh (fun _ _ _ _ _ => Raise ValueError) 1 true thr 0 0 h (used_fft nx ny nz h g hist) w) as [E _].
      { intros (_ & _ & X). contradiction. } rewrite E in H. discriminate H. }
  rewrite (C93_scipy_sees_hamiltonian nx ny nz h g hist eigsh thr w WF HT HA HP HW) in H. fold n k in H. cbv zeta in H.
  destruct (ideal n (hamiltonian nx ny nz h) [] (eigsh n k)) as [c [[evl v]|e]] eqn:E; cbn [fst snd] in H; [|discriminate H].
  destruct (length evl =? k); cbn [negb] in H; [|discriminate H].
  destruct (_ && _); [|discriminate H]. injection H as <- _. cbn [w_evl w_evc].
  apply (HC _ c); [|exact E]. intros i j Hi Hj. now apply hamiltonian_hermitian.
Qed.
Print Assumptions C93_lowest_eigenpairs.

(** ---- C93: the requested accuracy and the previous wavefunctions have no influence on the scipy driver. ---- *)
Theorem C93_threshold_ignored_refuted : forall eigsh t1 t2 h o w1 w2, (0 < t1)%R -> (0 < t2)%R ->
  length (w_evl w1) = length (w_evl w2) -> length (w_evc w1) = length (w_evc w2) ->
  let r1 := scipy_solve eigsh 1 true t1 h o w1 in let r2 := scipy_solve eigsh 1 true t2 h o w2 in
  snd (snd r1) = snd (snd r2) /\ (forall n, snd (snd r1) = Ok n -> fst (snd r1) = fst (snd r2)).
Proof.
  intros eigsh t1 t2 h o w1 w2 H1 H2 L1 L2. cbv zeta. unfold scipy_solve. rewrite !(proj2 (checks_ok 1 true _)) by auto.
  rewrite L1. unfold finish. destruct (run _ _ _ _ _) as [o' [n [[evl v]|e]]]; cbn [fst snd]; [|split; [reflexivity|discriminate]].
  unfold store. rewrite L1, L2. destruct (length evl =? _); [|split; [reflexivity|discriminate]].
  destruct (_ && _); cbn [bind fst snd]; split; try reflexivity; discriminate.
Qed.
Print Assumptions C93_threshold_ignored_refuted.

(** ---- C93: primme's preconditioner divides every coefficient by a real number above 1: no coefficient grows and none
    vanishes. ---- *)
Lemma prec_denom_gt d e : (1 < prec_denom d e * 2)%R.
Proof.
  unfold prec_denom. cbv zeta. set (x := (2 * (d - e))%R).
  assert (S : (Rabs (x - 1) < sqrt (1 + (x - 1) * (x - 1)))%R).
  { rewrite <- sqrt_Rsqr_abs. apply sqrt_lt_1_alt. unfold Rsqr. split; [apply Rle_0_sqr|lra]. }
  assert (A : (- (x - 1) <= Rabs (x - 1))%R) by (unfold Rabs; destruct (Rcase_abs _); lra). lra.
Qed.
Theorem C93_preconditioner : forall diag psi e_psi b i, b < length psi -> length e_psi = length psi ->
  i < length diag -> length (nth b psi []) = length diag ->
  exists a : R, (1 < a)%R /\ nth i (nth b (prec_block diag psi e_psi) []) (RtoC 0) = (nth i (nth b psi []) (RtoC 0) / RtoC a)%C
    /\ a = let x := (2 * (nth i diag 0 - nth b e_psi 0))%R in ((1 + x + sqrt (1 + (x - 1) * (x - 1))) / 2)%R.
Proof.
  intros diag psi e b i Hb He Hi Hl. exists (prec_denom (nth i diag 0%R) (nth b e 0%R) * 2)%R. split; [apply prec_denom_gt|]. split; [|unfold prec_denom; cbv zeta; field].
  unfold prec_block. set (f := fun p : list C * R => map (fun q : R * C => (snd q / RtoC (prec_denom (fst q) (snd p) * 2))%C) (combine diag (fst p))).
  rewrite (nth_indep _ [] (f ([], 0%R))) by (rewrite map_length, combine_length; lia). rewrite map_nth.
  rewrite combine_nth by now symmetry. unfold f. cbn [fst snd].
  set (f2 := fun q : R * C => (snd q / RtoC (prec_denom (fst q) (nth b e 0%R) * 2))%C).
  rewrite (nth_indep _ (RtoC 0) (f2 (0%R, RtoC 0))) by (rewrite map_length, combine_length; lia). rewrite map_nth, combine_nth by now symmetry. reflexivity.
Qed.
Print Assumptions C93_preconditioner.

(** Non-vacuity: one plane wave; the routine multiplies the basis vector once and reads off the eigenvalue. *)
Definition one_gs : gspace :=
  match gspace_base (zshape 2 1 2) [(0, 0, 0)]%Z with Ok s => s | Err _ => MkGSpace (1, 1, 1)%Z [] [] [] false end.
Definition one_h : ksham := MkKSHam ex_lat (V (/ 4) 0 0) one_gs [RtoC 1; RtoC 2; RtoC (-5); RtoC 7] [([[RtoC 3]], fun _ _ => RtoC 2)].
Definition one_lib (_ _ : nat) : library := Apply [[RtoC 1]] (fun y => Ret [fst (nth 0 (nth 0 y []) (RtoC 0))] [[RtoC 1]]).
Example C93_nonvacuous : well_formed 2 1 2 one_h /\ self_adjoint_data one_h /\ length (gs_cryst (kh_gs one_h)) = 1
  /\ asks 1 (one_lib 1 1) /\ products_only (one_lib 1 1)
  /\ (forall M c evl v, hermitian 1 M -> ideal 1 M [] (one_lib 1 1) = (c, Ok (evl, v)) -> lowest_pairs 1 M 1 evl v)
  /\ exists w', snd (scipy_solve one_lib 1 true (/ 1000) one_h (used_fft 2 1 2 one_h (MkWorker (fun _ => RtoC 7) (fun _ => Ci) (fun _ => RtoC 3)) []) (MkWfn [0%R] [[RtoC 0]])) = (w', Ok 1).
Proof.
  assert (WF : well_formed 2 1 2 one_h).
  { split; [|split]. - exists [(0, 0, 0)]%Z. vm_compute. reflexivity. - reflexivity. - intros vd v [<-|[]] [<-|[]]. vm_compute. reflexivity. }
  assert (A : asks 1 (one_lib 1 1)). { cbn. split; [intros v [<-|[]]; reflexivity|auto]. }
  assert (P : products_only (one_lib 1 1)) by (cbn; auto).
  split; [exact WF|]. split; [|split; [vm_compute; reflexivity|split; [exact A|split; [exact P|split]]]].
  - split; [intros c [<-|[<-|[<-|[<-|[]]]]]; reflexivity|]. intros vd p q [<-|[]] _ _. apply C_ext; cbn; ring.
  - intros M c evl v HM E.
    assert (E1 : mat_vec 1 M [RtoC 1] = [M 0 0]). { unfold mat_vec. cbn. f_equal. apply C_ext; cbn; ring. }
    assert (E2 : evl = [fst (M 0 0)] /\ v = [[RtoC 1]]).
    { unfold one_lib in E. cbn [ideal map] in E. rewrite E1 in E. cbn [nth fst snd] in E. injection E as _ E3 E4. now subst. }
    destruct E2 as [-> ->]. assert (RE : snd (M 0 0) = 0%R). { specialize (HM 0 0 Nat.lt_0_1 Nat.lt_0_1). apply (f_equal snd) in HM. cbn in HM. lra. }
    repeat split; try reflexivity.
    + intros v [<-|[]]; reflexivity.
    + intros i Hi. destruct i; [|lia]. cbn [nth map]. rewrite E1. f_equal. apply C_ext; cbn; rewrite ?RE; ring.
    + intros i j Hi Hj. destruct i, j; try lia. cbn. apply C_ext; cbn; ring.
    + intros i j Hij. destruct i, j; try lia. lra.
    + intros u i Hu Hi Ho. specialize (Ho 0 Nat.lt_0_1). destruct u as [|z [|z' u]]; try discriminate. cbn in Ho.
      assert (Z0 : z = RtoC 0). { rewrite <- Ho. apply C_ext; cbn; ring. } subst z. unfold braket, mat_vec. cbn. lra.
  - rewrite (C93_scipy_sees_hamiltonian 2 1 2 one_h _ _ one_lib (/ 1000) (MkWfn [0%R] [[RtoC 0]]) WF); [|lra|exact A|exact P|reflexivity].
    change (length (gs_cryst (kh_gs one_h))) with 1. eexists. reflexivity.
Qed.
