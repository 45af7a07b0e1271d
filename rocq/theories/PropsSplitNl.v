(** Property C112: the non-local part of the split-operator propagator. *)
From Coq Require Import Reals Lra.
From Coquelicot Require Import Hierarchy Series.
From Verif Require Import Base GIndexModel LatModel GSphereModel CBase FFTModel FFTSpec FFTProofs FFTProofs2 PropsFFT KSHamModel KSHamSpec KSHamProofs PropsKSHam TddftModel TddftSpec TddftProofs PropsTddft SplitNlModel SplitNlSpec SplitNlProofs.
Local Open Scope nat_scope.

Lemma braket_vdot1 n u v : length u = n -> length v = n -> braket u v = vdot1 u v.
Proof. intros Hu Hv. unfold braket. rewrite vdot1_csum by congruence. now rewrite Hu, Hv. Qed.
Lemma inverts_mmul n vkb inv : (forall v, In v vkb -> length v = n) -> inverts_overlap vkb inv ->
  forall i j, i < length vkb -> j < length vkb -> mmul (length vkb) inv (ovl vkb) i j = identity i j.
Proof.
  intros Hl H i j Hi Hj. unfold identity. rewrite <- (H i j Hi Hj). unfold mmul, ovl. apply csum_ext. intros l Hl'. f_equal.
  symmetry. apply (braket_vdot1 n); apply Hl; now apply nth_In.
Qed.

(** C112.  The operator applied for one species is exactly the exponential of (-i dt/2) times the
    non-local potential of that species. *)
Theorem C112_half_step_is_exponential : forall n dt vkb dij inv psi,
  (forall v, In v vkb -> length v = n) -> inverts_overlap vkb inv -> length psi = n ->
  is_exp_of n (- RtoC (/ 2) * Ci * RtoC dt)%C (separable (vkb, dij)) psi (nl_band (vkb, exp_dij_halfstep dt vkb dij inv) psi).
Proof. intros n dt vkb dij inv psi Hl HI Hp. apply nl_band_exp; [exact Hl|now apply (inverts_mmul n)|exact Hp]. Qed.
Print Assumptions C112_half_step_is_exponential.

(** The exponent is the operator that h_psi adds. *)
Theorem C112_same_operator_as_h_psi : forall n vkb dij psi hpsi g,
  (forall v, In v vkb -> length v = n) -> length psi = n -> length hpsi = n -> g < n ->
  nth g (nonlocal_band (vkb, dij) psi hpsi) (RtoC 0)
  = (nth g hpsi (RtoC 0) + nth g (mat_vec n (separable (vkb, dij)) psi) (RtoC 0))%C.
Proof.
  intros n vkb dij psi hpsi g Hl Hp Hh Hg. rewrite mat_vec_nth by exact Hg. rewrite (sep_apply n vkb dij Hl) by assumption.
  unfold nonlocal_band.
  match goal with |- nth g (map ?f _) _ = _ => rewrite (nth_indep _ _ (f 0)) by (rewrite map_length, seq_length, Hh; exact Hg); rewrite (map_nth f) end.
  rewrite seq_nth by (rewrite Hh; exact Hg). cbn [Nat.add]. ring.
Qed.
Print Assumptions C112_same_operator_as_h_psi.

Lemma make_cons dt vkb dij nl inv li h : kh_nloc h = (vkb, dij) :: nl ->
  make_species dt h (inv :: li) = (vkb, exp_dij_halfstep dt vkb dij inv) :: make_species dt (MkKSHam (kh_lat h) (kh_k h) (kh_gs h) (kh_vloc h) nl) li.
Proof. intros E. unfold make_species. rewrite E. reflexivity. Qed.

(** The species as a list of (V, kept matrix) pairs. *)
Definition good_species (n : nat) (dt : R) (vd : list (list C) * (nat -> nat -> C)) (sp : species) : Prop :=
  (forall v, In v (fst vd) -> length v = n) /\
  exists inv, inverts_overlap (fst vd) inv /\ sp = (fst vd, exp_dij_halfstep dt (fst vd) (snd vd) inv).
Lemma make_good n dt h l_inv : (forall vd v, In vd (kh_nloc h) -> In v (fst vd) -> length v = n) ->
  Forall2 (fun vd inv => inverts_overlap (fst vd) inv) (kh_nloc h) l_inv ->
  Forall2 (good_species n dt) (kh_nloc h) (make_species dt h l_inv).
Proof.
  unfold make_species. generalize (kh_nloc h). intros nl Hl H. induction H as [|vd inv nl li Hi _ IH]; [constructor|].
  cbn [combine map]. destruct vd as (vkb, dij). constructor.
  - split; [exact (fun v => Hl _ v (or_introl eq_refl))|]. exists inv. split; [exact Hi|reflexivity].
  - apply IH. intros vd v Hin. apply Hl. now right.
Qed.
Lemma good_exp n dt vd sp psi : good_species n dt vd sp -> length psi = n ->
  is_exp_of n (- RtoC (/ 2) * Ci * RtoC dt)%C (separable vd) psi (nl_band sp psi).
Proof. intros (Hl & inv & Hi & ->) Hp. destruct vd as (vkb, dij). now apply C112_half_step_is_exponential. Qed.
Definition nl_all (l : list species) (psi : list C) : list C := fold_left (fun p sp => nl_band sp p) l psi.
Lemma oper_nl_map l rv bs : oper_nl l rv bs = map (nl_all (if rv then rev l else l)) bs.
Proof.
  unfold oper_nl, nl_all. generalize (if rv then rev l else l). clear. intros l. revert bs.
  induction l as [|sp l IH]; intros bs; cbn [fold_left]; [now rewrite map_id|]. rewrite IH, map_map. reflexivity.
Qed.
Lemma nl_all_length l psi : length (nl_all l psi) = length psi.
Proof.
  unfold nl_all. revert psi. induction l as [|(vkb, x) l IH]; intros psi; [reflexivity|]. cbn [fold_left]. rewrite IH. apply nl_band_length.
Qed.
Lemma nl_chain n dt nl l psi : Forall2 (good_species n dt) nl l -> length psi = n ->
  exp_chain n (- RtoC (/ 2) * Ci * RtoC dt)%C (map separable nl) psi (nl_all l psi).
Proof.
  intros H. revert psi. induction H as [|vd sp nl l G _ IH]; intros psi Hp; [reflexivity|]. cbn [map exp_chain nl_all fold_left].
  exists (nl_band sp psi). split; [now apply good_exp|]. apply IH. destruct sp. now rewrite nl_band_length.
Qed.
Lemma Forall2_rev' {A B} (P : A -> B -> Prop) a b : Forall2 P a b -> Forall2 P (rev a) (rev b).
Proof. induction 1; cbn; [constructor|]. apply Forall2_app; [assumption|now repeat constructor]. Qed.

(** The whole operator: the exponentials of the species one after another, forwards or backwards,
    on every band. *)
Theorem C112_species_in_turn : forall n dt h l_inv rv bs b,
  (forall vd v, In vd (kh_nloc h) -> In v (fst vd) -> length v = n) ->
  Forall2 (fun vd inv => inverts_overlap (fst vd) inv) (kh_nloc h) l_inv ->
  (forall psi, In psi bs -> length psi = n) -> b < length bs ->
  let out := oper_nl (make_species dt h l_inv) rv bs in
  length out = length bs /\
  exp_chain n (- RtoC (/ 2) * Ci * RtoC dt)%C (map separable (if rv then rev (kh_nloc h) else kh_nloc h)) (nth b bs []) (nth b out []).
Proof.
  intros n dt h li rv bs b Hl HI Hb Hlt out. unfold out. rewrite oper_nl_map. split; [apply map_length|].
  rewrite (nth_indep (map _ bs) (n := b) [] (nl_all (if rv then rev (make_species dt h li) else make_species dt h li) [])) by (rewrite map_length; exact Hlt).
  rewrite map_nth. apply nl_chain; [|apply Hb; now apply nth_In].
  pose proof (make_good n dt h li Hl HI) as G. destruct rv; [now apply Forall2_rev'|exact G].
Qed.
Print Assumptions C112_species_in_turn.

Definition herm_coupling (vd : list (list C) * (nat -> nat -> C)) : Prop :=
  forall p q, p < length (fst vd) -> q < length (fst vd) -> snd vd p q = Cconj (snd vd q p).
Lemma separable_herm n vd : herm_coupling vd -> hermitian n (separable vd).
Proof.
  intros H i j _ _. unfold separable. rewrite csum_conj.
  transitivity (csum (length (fst vd)) (fun q => csum (length (fst vd)) (fun p => nth i (nth p (fst vd) []) (RtoC 0) * snd vd p q * Cconj (nth j (nth q (fst vd) []) (RtoC 0)))))%C.
  - apply csum_swap.
  - apply csum_ext. intros q Hq. rewrite csum_conj. apply csum_ext. intros p Hp. rewrite (H p q) by assumption.
    rewrite !Cmult_conj, !Cconj_conj. ring.
Qed.
Lemma half_imag dt : Cconj (- RtoC (/ 2) * Ci * RtoC dt)%C = (- (- RtoC (/ 2) * Ci * RtoC dt))%C.
Proof. unfold Cconj, Copp, Cmult, RtoC, Ci. cbn. f_equal; ring. Qed.
Lemma nl_all_unitary n dt nl l u v : Forall2 (good_species n dt) nl l -> (forall vd, In vd nl -> herm_coupling vd) ->
  length u = n -> length v = n -> braket (nl_all l u) (nl_all l v) = braket u v.
Proof.
  intros H. revert u v. induction H as [|vd sp nl l G _ IH]; intros u v HH Hu Hv; [reflexivity|]. cbn [nl_all fold_left].
  fold (nl_all l (nl_band sp u)) (nl_all l (nl_band sp v)). destruct sp as (vkb, x).
  rewrite IH; [|intros vd' Hi; apply HH; now right|now rewrite nl_band_length|now rewrite nl_band_length].
  unfold braket. rewrite nl_band_length, Hu.
  apply (exp_unitary n (separable vd)) with (a := (- RtoC (/ 2) * Ci * RtoC dt)%C).
  - apply separable_herm, HH. now left.
  - apply half_imag.
  - exact Hu.
  - exact Hv.
  - now apply good_exp.
  - now apply good_exp.
Qed.

(** With Hermitian coupling matrices the operator keeps every inner product. *)
Theorem C112_unitary : forall n dt h l_inv rv bs b c,
  (forall vd v, In vd (kh_nloc h) -> In v (fst vd) -> length v = n) -> (forall vd, In vd (kh_nloc h) -> herm_coupling vd) ->
  Forall2 (fun vd inv => inverts_overlap (fst vd) inv) (kh_nloc h) l_inv ->
  (forall psi, In psi bs -> length psi = n) -> b < length bs -> c < length bs ->
  let out := oper_nl (make_species dt h l_inv) rv bs in
  braket (nth b out []) (nth c out []) = braket (nth b bs []) (nth c bs []).
Proof.
  intros n dt h li rv bs b c Hl HH HI Hb Hb' Hc out. unfold out. rewrite oper_nl_map.
  set (l := if rv then rev (make_species dt h li) else make_species dt h li).
  rewrite (nth_indep (map (nl_all l) bs) (n := b) [] (nl_all l [])) by (rewrite map_length; exact Hb').
  rewrite (nth_indep (map (nl_all l) bs) (n := c) [] (nl_all l [])) by (rewrite map_length; exact Hc).
  rewrite !map_nth. pose proof (make_good n dt h li Hl HI) as G.
  apply (nl_all_unitary n dt (if rv then rev (kh_nloc h) else kh_nloc h)).
  - unfold l. destruct rv; [now apply Forall2_rev'|exact G].
  - intros vd Hi. apply HH. destruct rv; [now apply in_rev|exact Hi].
  - apply Hb; now apply nth_In.
  - apply Hb; now apply nth_In.
Qed.
Print Assumptions C112_unitary.

Lemma back_forth n dt vd sp sp' psi : good_species n dt vd sp -> good_species n (- dt) vd sp' -> herm_coupling vd -> length psi = n ->
  nl_band sp' (nl_band sp psi) = psi.
Proof.
  intros G G' H Hp. apply (exp_inverse n (separable vd) (separable_herm n vd H) (- RtoC (/ 2) * Ci * RtoC dt)%C psi (nl_band sp psi)).
  - apply half_imag.
  - exact Hp.
  - intros u Hu. exists (nl_band sp u). now apply good_exp.
  - now apply good_exp.
  - replace (- (- RtoC (/ 2) * Ci * RtoC dt))%C with (- RtoC (/ 2) * Ci * RtoC (- dt))%C by (rewrite RtoC_opp; ring).
    apply good_exp; [exact G'|]. destruct sp. now rewrite nl_band_length.
Qed.
Lemma nl_all_app l1 l2 psi : nl_all (l1 ++ l2) psi = nl_all l2 (nl_all l1 psi).
Proof. unfold nl_all. apply fold_left_app. Qed.
Lemma nl_all_back n dt nl l l' psi : Forall2 (good_species n dt) nl l -> Forall2 (good_species n (- dt)) nl l' ->
  (forall vd, In vd nl -> herm_coupling vd) -> length psi = n -> nl_all (rev l') (nl_all l psi) = psi.
Proof.
  intros H. revert l' psi. induction H as [|vd sp nl l G _ IH]; intros l' psi H' HH Hp.
  - inversion H'; subst. reflexivity.
  - revert Hp. inversion H' as [|vd0 sp' nl0 l0 G' H0]; subst. intros Hp. cbn [rev]. rewrite nl_all_app. cbn [nl_all fold_left].
    fold (nl_all l (nl_band sp psi)). fold (nl_all (rev l0) (nl_all l (nl_band sp psi))).
    rewrite IH; [|exact H0|intros; apply HH; now right|destruct sp; now rewrite nl_band_length].
    apply (back_forth n dt vd); try assumption. apply HH. now left.
Qed.
(** Stepping back: the operator of the reversed time step in the opposite order of species undoes it. *)
Theorem C112_time_reversal : forall n dt h l_inv l_inv' rv bs,
  (forall vd v, In vd (kh_nloc h) -> In v (fst vd) -> length v = n) -> (forall vd, In vd (kh_nloc h) -> herm_coupling vd) ->
  Forall2 (fun vd inv => inverts_overlap (fst vd) inv) (kh_nloc h) l_inv ->
  Forall2 (fun vd inv => inverts_overlap (fst vd) inv) (kh_nloc h) l_inv' ->
  (forall psi, In psi bs -> length psi = n) ->
  oper_nl (make_species (- dt) h l_inv') (negb rv) (oper_nl (make_species dt h l_inv) rv bs) = bs.
Proof.
  intros n dt h li li' rv bs Hl HH HI HI' Hb. rewrite !oper_nl_map, map_map. rewrite <- (map_id bs) at 2. apply map_ext_in. intros psi Hin.
  pose proof (make_good n dt h li Hl HI) as G. pose proof (make_good n (- dt) h li' Hl HI') as G'. specialize (Hb psi Hin).
  destruct rv; cbn [negb].
  - rewrite <- (rev_involutive (make_species (- dt) h li')).
    apply (nl_all_back n dt (rev (kh_nloc h))); [now apply Forall2_rev'|now apply Forall2_rev'| |exact Hb].
    intros vd Hi. apply HH. now apply in_rev.
  - now apply (nl_all_back n dt (kh_nloc h)).
Qed.
Print Assumptions C112_time_reversal.

(** Without projectors the step is the one of the local propagator. *)
Theorem C112_no_projectors : forall s o m l_in, split_prop_nl s [] o m l_in = split_prop s o m l_in.
Proof. reflexivity. Qed.
Print Assumptions C112_no_projectors.

(** Bessel's inequality for the transforms: projecting a grid function on the plane waves. *)
Section Bessel.
Variables nx ny nz : nat.
Variables (gs : gspace) (raw : list vec3).
Hypothesis HS : gspace_base (zshape nx ny nz) raw = Ok gs.
Let N := nx * ny * nz.
Let idx := map Z.to_nat (gs_idxgrid gs).
Let ng := length (gs_cryst gs).
Let G2 (v : list C) := full_fun nx ny nz idx false (G2R v).
Let R2 (f : list C) := full_fun nx ny nz idx false (R2G f).
Let pos : 0 < nx /\ 0 < ny /\ 0 < nz.
Proof. destruct (gspace_idx nx ny nz raw gs HS) as (_ & _ & _ & P1 & P2 & P3 & _). lia. Qed.
Lemma R2_length f : length (R2 f) = ng.
Proof.
  destruct (gspace_idx nx ny nz raw gs HS) as (_ & _ & HL & _). cbv zeta in HL. unfold R2. cbn [full_fun]. unfold taken. rewrite map_length. exact HL.
Qed.
Lemma G2_length v : length (G2 v) = N.
Proof. unfold G2. cbn [full_fun]. apply store_length. Qed.
Lemma flat3 (F : nat -> C) : csum N F = csum nx (fun x => csum ny (fun y => csum nz (fun z => F ((x * ny + y) * nz + z)%nat))).
Proof.
  unfold N. rewrite csum_prod, csum_prod. reflexivity.
Qed.
(** <g2r v, f> = <v, r2g f>. *)
Lemma adjoint v f : length v = ng ->
  csum N (fun i => Cconj (nth i (G2 v) (RtoC 0)) * nth i f (RtoC 0))%C = csum ng (fun k => Cconj (nth k v (RtoC 0)) * nth k (R2 f) (RtoC 0))%C.
Proof.
  intros Hv. rewrite flat3.
  transitivity (csum nx (fun x => csum ny (fun y => csum nz (fun z => csum ng (fun k =>
     Cconj (nth k v (RtoC 0)) * (nth ((x * ny + y) * nz + z) f (RtoC 0) * Cconj (plane_wave nx ny nz (nth k (gs_cryst gs) (0, 0, 0)%Z) x y z)))))))%C.
  - apply csum_ext. intros x Hx. apply csum_ext. intros y Hy. apply csum_ext. intros z Hz.
    unfold G2, idx. rewrite (g2r_gspace nx ny nz raw gs false v x y z HS Hv Hx Hy Hz). unfold nfac. cbn [nfac].
    rewrite csum_conj, <- csum_scal_r, Hv. apply csum_ext. intros k Hk. rewrite Cmult_conj. ring.
  - transitivity (csum ng (fun k => csum nx (fun x => csum ny (fun y => csum nz (fun z =>
     Cconj (nth k v (RtoC 0)) * (nth ((x * ny + y) * nz + z) f (RtoC 0) * Cconj (plane_wave nx ny nz (nth k (gs_cryst gs) (0, 0, 0)%Z) x y z)))))))%C.
    + rewrite (csum_swap ng nx). apply csum_ext. intros x _. rewrite (csum_swap ng ny). apply csum_ext. intros y _. rewrite (csum_swap ng nz). reflexivity.
    + apply csum_ext. intros k Hk. unfold R2, idx. rewrite (r2g_gspace nx ny nz raw gs false f k HS Hk).
      rewrite <- csum_scal. apply csum_ext. intros x _. rewrite <- csum_scal. apply csum_ext. intros y _. now rewrite <- csum_scal.
Qed.
Lemma norm2_rs n v : length v = n -> norm2 v = rsum n (fun i => fst (nth i v (RtoC 0)) ^ 2 + snd (nth i v (RtoC 0)) ^ 2)%R.
Proof.
  intros <-. apply RtoC_inj. rewrite norm2_csum, <- csum_RtoC. apply csum_ext. intros i _.
  destruct (nth i v (RtoC 0)) as (x, y). unfold Cconj, Cmult, RtoC. cbn. f_equal; ring.
Qed.
Lemma bessel f : length f = N -> (norm2 (R2 f) <= INR N * norm2 f)%R.
Proof.
  intros Hf. pose proof pos as (P1 & P2 & P3). assert (HN : (0 < INR N)%R) by (apply lt_0_INR; unfold N; apply Nat.mul_pos_pos; [apply Nat.mul_pos_pos; assumption|assumption]).
  set (c := R2 f). assert (Lc : length c = ng) by apply R2_length.
  assert (Par : norm2 (G2 c) = (INR N * norm2 c)%R).
  { destruct (gspace_idx nx ny nz raw gs HS) as (H1 & H2 & H3 & _). cbv zeta in H3. apply (parseval_full nx ny nz idx false c P1 P2 P3 H1 H2). transitivity ng; [exact Lc|symmetry; exact H3]. }
  assert (Adj : rsum N (fun i => fst (nth i (G2 c) (RtoC 0)) * fst (nth i f (RtoC 0)) + snd (nth i (G2 c) (RtoC 0)) * snd (nth i f (RtoC 0)))%R = norm2 c).
  { pose proof (adjoint c f Lc) as A. apply (f_equal fst) in A. rewrite !csum_re in A. rewrite (norm2_rs ng c Lc).
    etransitivity; [|etransitivity; [exact A|]]; apply rsum_ext; intros; unfold Cconj, Cmult; cbn; fold c; ring. }
  rewrite (norm2_rs N f Hf). rewrite (norm2_rs N (G2 c) (G2_length c)) in Par.
  assert (Pos : (0 <= rsum N (fun i => (fst (nth i f (RtoC 0)) - / INR N * fst (nth i (G2 c) (RtoC 0))) ^ 2 + (snd (nth i f (RtoC 0)) - / INR N * snd (nth i (G2 c) (RtoC 0))) ^ 2))%R).
  { apply rsum_nonneg. intros i _. apply Rplus_le_le_0_compat; apply pow2_ge_0. }
  assert (Exp : (rsum N (fun i => (fst (nth i f (RtoC 0)) - / INR N * fst (nth i (G2 c) (RtoC 0))) ^ 2 + (snd (nth i f (RtoC 0)) - / INR N * snd (nth i (G2 c) (RtoC 0))) ^ 2)
    = rsum N (fun i => fst (nth i f (RtoC 0)) ^ 2 + snd (nth i f (RtoC 0)) ^ 2) + ((- 2 * / INR N) * rsum N (fun i => fst (nth i (G2 c) (RtoC 0)) * fst (nth i f (RtoC 0)) + snd (nth i (G2 c) (RtoC 0)) * snd (nth i f (RtoC 0)))
      + (/ INR N * / INR N) * rsum N (fun i => fst (nth i (G2 c) (RtoC 0)) ^ 2 + snd (nth i (G2 c) (RtoC 0)) ^ 2)))%R).
  { rewrite <- !rsum_scal, <- !rsum_plus. apply rsum_ext. intros. ring. }
  rewrite Exp, Adj, Par in Pos. set (F := rsum N (fun i => fst (nth i f (RtoC 0)) ^ 2 + snd (nth i f (RtoC 0)) ^ 2)%R) in *.
  replace (F + (-2 * / INR N * norm2 c + / INR N * / INR N * (INR N * norm2 c)))%R with (F - / INR N * norm2 c)%R in Pos by (field; lra).
  apply (Rmult_le_reg_l (/ INR N)); [now apply Rinv_0_lt_compat|]. rewrite <- Rmult_assoc, Rinv_l, Rmult_1_l by lra. lra.
Qed.
End Bessel.

Lemma norm2_phase n (th : nat -> R) (a v : list C) : length a = n -> length v = n -> (forall i, i < n -> nth i a (RtoC 0) = cis (th i)) ->
  norm2 (zip_with Cmult a v) = norm2 v.
Proof.
  intros La Lv H. apply RtoC_inj. rewrite !norm2_csum, zip_with_length, La, Lv, Nat.min_id. apply csum_ext. intros i Hi.
  rewrite (zip_with_nth Cmult a v i (RtoC 0) (RtoC 0)) by lia. rewrite (H i Hi), Cmult_conj.
  transitivity ((cis (th i) * Cconj (cis (th i))) * (nth i v (RtoC 0) * Cconj (nth i v (RtoC 0))))%C; [ring|]. rewrite cis_norm2. ring.
Qed.
Lemma norm2_braket v : RtoC (norm2 v) = braket v v.
Proof. rewrite norm2_csum. unfold braket. apply csum_ext. intros; ring. Qed.
Lemma ke_gk_len h : length (ke_gk h) = length (gs_cryst (kh_gs h)).
Proof. unfold ke_gk. apply map_length. Qed.

(** The local part: every band is transformed, multiplied by phases and projected back. *)
Definition local_phase (nx ny nz : nat) (h : ksham) (e : list C) (psi : list C) : list C :=
  let idx := map Z.to_nat (gs_idxgrid (kh_gs h)) in
  full_fun nx ny nz idx false (R2G (zip_with Cmult (full_fun nx ny nz idx false (G2R psi)) e)).
Lemma oper_vloc_run nx ny nz s b : forall o, full_inv nx ny nz (map Z.to_nat (gs_idxgrid (kh_gs (se_ham s)))) false o ->
  exists o', oper_vloc s o b = (o', map (local_phase nx ny nz (se_ham s) (se_expv s)) b).
Proof.
  set (idx := map Z.to_nat (gs_idxgrid (kh_gs (se_ham s)))).
  induction b as [|psi b IH]; intros o Ho; cbn [oper_vloc map]; [now exists o|].
  change (full_g2r o psi) with (full_call o (G2R psi)).
  pose proof (full_call_fun nx ny nz idx false o (G2R psi) Ho) as E1. pose proof (full_call_inv nx ny nz idx false o (G2R psi) Ho) as I1.
  destruct (full_call o (G2R psi)) as (o1, f). cbn [fst snd] in E1, I1. subst f.
  set (f := zip_with Cmult (full_fun nx ny nz idx false (G2R psi)) (se_expv s)).
  change (full_r2g o1 f) with (full_call o1 (R2G f)).
  pose proof (full_call_fun nx ny nz idx false o1 (R2G f) I1) as E2. pose proof (full_call_inv nx ny nz idx false o1 (R2G f) I1) as I2.
  destruct (full_call o1 (R2G f)) as (o2, r). cbn [fst snd] in E2, I2. subst r.
  destruct (IH o2 I2) as (o3 & E3). rewrite E3. exists o3. reflexivity.
Qed.

(** One step of the propagator, with projectors: it acts on each band by itself, changes no other
    wavefunction object, and multiplies the norm by at most the number of grid points (the transforms
    are not normalised), whatever the potential, the kinetic energies and the time step. *)
Theorem C112_step_norm : forall nx ny nz h dt v l_inv garbage history (m : heap) obj rest,
  well_formed nx ny nz h -> (forall vd, In vd (kh_nloc h) -> herm_coupling vd) ->
  Forall2 (fun vd inv => inverts_overlap (fst vd) inv) (kh_nloc h) l_inv ->
  length v = nx * ny * nz -> (forall psi, In psi (m obj) -> length psi = length (gs_cryst (kh_gs h))) ->
  exists fft' m',
    split_prop_nl (split_update (nx * ny * nz) (MkSplit h dt []) v) (make_species dt h l_inv)
      (used_fft nx ny nz h garbage history) m (obj :: rest) = Ok (fft', m', obj :: rest)
    /\ length (m' obj) = length (m obj)
    /\ (forall b, b < length (m obj) ->
         length (nth b (m' obj) []) = length (gs_cryst (kh_gs h))
         /\ (norm2 (nth b (m' obj) []) <= INR (nx * ny * nz) ^ 2 * norm2 (nth b (m obj) []))%R)
    /\ forall p, p <> obj -> m' p = m p.
Proof.
  intros nx ny nz h dt v li garbage hist m obj rest WF HH HI Hv Hm. set (N := nx * ny * nz) in *. set (ng := length (gs_cryst (kh_gs h))) in *.
  set (s := split_update N (MkSplit h dt []) v). set (l := make_species dt h li).
  assert (Hl : forall vd u, In vd (kh_nloc h) -> In u (fst vd) -> length u = ng) by (destruct WF as (_ & _ & W); exact W).
  pose proof (make_good ng dt h li Hl HI) as G. fold l in G.
  assert (KL : length (exp_ke s) = ng) by (unfold exp_ke; rewrite map_length; apply ke_gk_len).
  assert (KN : forall u, length u = ng -> length (zip_with Cmult (exp_ke s) u) = ng /\ norm2 (zip_with Cmult (exp_ke s) u) = norm2 u).
  { intros u Hu. split; [rewrite zip_with_length, KL, Hu; apply Nat.min_id|].
    apply (norm2_phase ng (fun i => (- (/ 2 * se_dt s * fst (nth i (ke_gk (se_ham s)) (RtoC 0))))%R)); [exact KL|exact Hu|].
    intros i Hi. unfold exp_ke in *. rewrite map_length in KL.
    rewrite (nth_indep _ _ ((fun e : C => cis (- (/ 2 * se_dt s * fst e))) (RtoC 0))) by (rewrite map_length, KL; exact Hi).
    now rewrite (map_nth (fun e : C => cis (- (/ 2 * se_dt s * fst e)))). }
  assert (NN : forall (l' : list species) nl u, Forall2 (good_species ng dt) nl l' -> (forall vd, In vd nl -> herm_coupling vd) -> length u = ng ->
     length (nl_all l' u) = ng /\ norm2 (nl_all l' u) = norm2 u).
  { intros l' nl u F HHn Hu. split; [now rewrite nl_all_length|]. apply RtoC_inj. rewrite !norm2_braket. now apply (nl_all_unitary ng dt nl). }
  destruct WF as ((raw & HS) & LV & _).
  assert (PN : forall u, length u = ng -> length (local_phase nx ny nz h (se_expv s) u) = ng /\ (norm2 (local_phase nx ny nz h (se_expv s) u) <= INR N ^ 2 * norm2 u)%R).
  { intros u Hu. unfold local_phase. split; [now apply (R2_length nx ny nz (kh_gs h) raw HS)|].
    set (f := zip_with Cmult _ (se_expv s)).
    set (g := full_fun nx ny nz (map Z.to_nat (gs_idxgrid (kh_gs h))) false (G2R u)) in f.
    assert (Lg : length g = N) by (unfold g; cbn [full_fun]; apply store_length).
    assert (Le : length (se_expv s) = N) by (cbn; now rewrite map_length).
    assert (Lf : length f = N) by (unfold f; rewrite zip_with_length, Lg, Le; apply Nat.min_id).
    eapply Rle_trans; [apply (bessel nx ny nz (kh_gs h) raw HS f Lf)|].
    assert (Nf : norm2 f = norm2 g).
    { unfold f. replace (zip_with Cmult g (se_expv s)) with (zip_with Cmult (se_expv s) g).
      - apply (norm2_phase N (fun i => (- (dt * INR N * fst (nth i v (RtoC 0))))%R)); [exact Le|exact Lg|].
        intros i Hi. change (se_expv s) with (map (fun c : C => cis (- (dt * INR N * fst c))) v). rewrite (nth_indep _ _ ((fun c : C => cis (- (dt * INR N * fst c))) (RtoC 0))) by (rewrite map_length, Hv; exact Hi).
        now rewrite (map_nth (fun c : C => cis (- (dt * INR N * fst c)))).
      - apply (nth_ext _ _ (RtoC 0) (RtoC 0)); [rewrite !zip_with_length; lia|]. rewrite zip_with_length, Lg, Le, Nat.min_id. intros i Hi.
        rewrite !(zip_with_nth Cmult _ _ i (RtoC 0) (RtoC 0)) by lia. ring. }
    assert (Ng : norm2 g = (INR N * norm2 u)%R).
    { destruct (gspace_idx nx ny nz raw (kh_gs h) HS) as (H1 & H2 & H3 & P1 & P2 & P3 & _). cbv zeta in H3.
      apply (parseval_full nx ny nz _ false u P1 P2 P3 H1 H2). rewrite Hu. symmetry. exact H3. }
    fold N. rewrite Nf, Ng. right. ring. }
  unfold split_prop_nl. rewrite oper_nl_map.
  destruct (oper_vloc_run nx ny nz s (map (nl_all l) (oper_ke s (m obj))) (used_fft nx ny nz h garbage hist)) as (o' & E).
  { exact (used_fft_inv nx ny nz h garbage hist). }
  rewrite E. eexists _, _. split; [reflexivity|]. rewrite oper_nl_map. unfold mset at 1, oper_ke. rewrite Nat.eqb_refl, !map_map.
  split; [apply map_length|]. split.
  - intros b Hb.
    match goal with |- context [map ?F (m obj)] => set (Fb := F); assert (Eb : nth b (map Fb (m obj)) [] = Fb (nth b (m obj) [])) end.
    { rewrite (nth_indep _ _ (Fb [])) by (rewrite map_length; exact Hb). apply map_nth. }
    unfold mset. rewrite Nat.eqb_refl. fold Fb. rewrite Eb. set (u := nth b (m obj) []). assert (Hu : length u = ng) by (apply Hm; now apply nth_In).
    unfold Fb. destruct (KN u Hu) as (L1 & E1). destruct (NN l (kh_nloc h) _ G HH L1) as (L2 & E2). destruct (PN _ L2) as (L3 & E3).
    destruct (NN (rev l) (rev (kh_nloc h)) _ (Forall2_rev' _ _ _ G) (fun vd Hi => HH vd (proj2 (in_rev _ _) Hi)) L3) as (L4 & E4).
    destruct (KN _ L4) as (L5 & E5). split; [exact L5|]. 
    change (norm2 (zip_with Cmult (exp_ke s) (nl_all (rev l) (local_phase nx ny nz h (se_expv s) (nl_all l (zip_with Cmult (exp_ke s) u))))) <= INR N ^ 2 * norm2 u)%R.
    rewrite E5, E4. rewrite E2, E1 in E3. exact E3.
  - intros p Hp. unfold mset. destruct (Nat.eqb_spec p obj); [contradiction|reflexivity].
Qed.
Print Assumptions C112_step_norm.

Lemma exp_ke_nth h dt e i : i < length (gs_cryst (kh_gs h)) ->
  nth i (exp_ke (MkSplit h dt e)) (RtoC 0) = cis (- (/ 2 * dt * fst (kinetic h i i))).
Proof.
  intros Hi. unfold exp_ke. cbn [se_ham se_dt].
  rewrite (nth_indep _ _ ((fun e : C => cis (- (/ 2 * dt * fst e))) (RtoC 0))) by (rewrite map_length, ke_gk_len; exact Hi).
  rewrite (map_nth (fun e : C => cis (- (/ 2 * dt * fst e)))). do 4 f_equal.
  unfold kinetic. rewrite Nat.eqb_refl. unfold ke_gk.
  match goal with |- nth i (map ?f _) _ = _ => rewrite (nth_indep _ _ (f (0, 0, 0)%Z)) by (rewrite map_length; exact Hi); now rewrite (map_nth f) end.
Qed.
(** The step in full: kinetic phases of half a step; the non-local exponentials species by species;
    the phases of the whole local step, as a matrix between plane waves; the non-local exponentials in
    the opposite order; kinetic phases again. *)
Theorem C112_step : forall nx ny nz h dt v l_inv garbage history (m : heap) obj rest,
  well_formed nx ny nz h ->
  Forall2 (fun vd inv => inverts_overlap (fst vd) inv) (kh_nloc h) l_inv ->
  length v = nx * ny * nz -> (forall psi, In psi (m obj) -> length psi = length (gs_cryst (kh_gs h))) ->
  let n := length (gs_cryst (kh_gs h)) in
  let half := (- RtoC (/ 2) * Ci * RtoC dt)%C in
  let phase i := cis (- (dt / 2 * fst (kinetic h i i))) in
  let whole := map (fun c : C => cis (- (dt * INR (nx * ny * nz) * fst c))) v in
  exists fft' m',
    split_prop_nl (split_update (nx * ny * nz) (MkSplit h dt []) v) (make_species dt h l_inv)
      (used_fft nx ny nz h garbage history) m (obj :: rest) = Ok (fft', m', obj :: rest)
    /\ length (m' obj) = length (m obj)
    /\ forall b, b < length (m obj) -> exists u1 u2 u3 u4,
         length u1 = n /\ (forall i, i < n -> nth i u1 (RtoC 0) = (phase i * nth i (nth b (m obj) []) (RtoC 0))%C)
         /\ exp_chain n half (map separable (kh_nloc h)) u1 u2
         /\ length u3 = n /\ (forall i, i < n -> nth i u3 (RtoC 0) = csum n (fun j => local nx ny nz (set_vloc h whole) i j * nth j u2 (RtoC 0))%C)
         /\ exp_chain n half (map separable (rev (kh_nloc h))) u3 u4
         /\ length (nth b (m' obj) []) = n
         /\ forall i, i < n -> nth i (nth b (m' obj) []) (RtoC 0) = (phase i * nth i u4 (RtoC 0))%C.
Proof.
  intros nx ny nz h dt v li garbage hist m obj rest WF HI Hv Hm n half phase whole. set (N := nx * ny * nz) in *.
  set (s := split_update N (MkSplit h dt []) v). set (l := make_species dt h li).
  assert (Hl : forall vd u, In vd (kh_nloc h) -> In u (fst vd) -> length u = n) by (destruct WF as (_ & _ & W); exact W).
  pose proof (make_good n dt h li Hl HI) as G. fold l in G.
  assert (KL : length (exp_ke s) = n) by (unfold exp_ke; rewrite map_length; apply ke_gk_len).
  assert (KN : forall u, length u = n -> length (zip_with Cmult (exp_ke s) u) = n /\ forall i, i < n -> nth i (zip_with Cmult (exp_ke s) u) (RtoC 0) = (phase i * nth i u (RtoC 0))%C).
  { intros u Hu. split; [rewrite zip_with_length, KL, Hu; apply Nat.min_id|]. intros i Hi.
    rewrite (zip_with_nth Cmult _ _ i (RtoC 0) (RtoC 0)) by lia. f_equal.
    change (exp_ke s) with (exp_ke (MkSplit h dt [])). rewrite exp_ke_nth by exact Hi. unfold phase. do 2 f_equal. field. }
  assert (WF' : well_formed nx ny nz (set_vloc h whole)).
  { destruct WF as (A & _ & B). split; [exact A|]. split; [|exact B]. cbn [set_vloc kh_vloc]. unfold whole. rewrite map_length. exact Hv. }
  unfold split_prop_nl. rewrite oper_nl_map.
  destruct (oper_vloc_run nx ny nz s (map (nl_all l) (oper_ke s (m obj))) (used_fft nx ny nz h garbage hist)) as (o' & E).
  { exact (used_fft_inv nx ny nz h garbage hist). }
  rewrite E. eexists _, _. split; [reflexivity|]. rewrite oper_nl_map. unfold mset at 1, oper_ke. rewrite Nat.eqb_refl, !map_map.
  split; [apply map_length|]. intros b Hb.
  match goal with |- context [map ?F (m obj)] => set (Fb := F); assert (Eb : nth b (map Fb (m obj)) [] = Fb (nth b (m obj) [])) end.
  { rewrite (nth_indep _ _ (Fb [])) by (rewrite map_length; exact Hb). apply map_nth. }
  unfold mset. rewrite Nat.eqb_refl. fold Fb. rewrite Eb. set (u := nth b (m obj) []). assert (Hu : length u = n) by (apply Hm; now apply nth_In).
  set (u1 := zip_with Cmult (exp_ke s) u). destruct (KN u Hu) as (L1 & E1). fold u1 in L1, E1.
  set (u2 := nl_all l u1). assert (L2 : length u2 = n) by (unfold u2; now rewrite nl_all_length).
  set (u3 := local_phase nx ny nz h whole u2).
  assert (L3 : length u3 = n).
  { destruct WF as ((raw & HS) & _). unfold u3, local_phase. now apply (R2_length nx ny nz (kh_gs h) raw HS). }
  set (u4 := nl_all (rev l) u3). assert (L4 : length u4 = n) by (unfold u4; now rewrite nl_all_length).
  destruct (KN u4 L4) as (L5 & E5).
  exists u1, u2, u3, u4. split; [exact L1|]. split; [exact E1|]. split; [now apply nl_chain|]. split; [exact L3|]. split.
  - intros i Hi. exact (local_fun nx ny nz (set_vloc h whole) WF' u2 i L2 Hi).
  - split; [apply nl_chain; [now apply Forall2_rev'|exact L3]|]. split; [exact L5|exact E5].
Qed.
Print Assumptions C112_step.

(** Non-vacuity: two plane waves and one projector (1, 1), whose overlap with itself is 2; the
    operator is not the identity to first order, and keeps the norm of (1, 0). *)
Example C112_example : forall d dt : R,
  let vkb := [[RtoC 1; RtoC 1]] in let dij := fun _ _ : nat => RtoC d in let inv := fun _ _ : nat => RtoC (/ 2) in
  inverts_overlap vkb inv /\ herm_coupling (vkb, dij)
  /\ mat_vec 2 (separable (vkb, dij)) [RtoC 1; RtoC 0] = [RtoC d; RtoC d]
  /\ norm2 (nl_band (vkb, exp_dij_halfstep dt vkb dij inv) [RtoC 1; RtoC 0]) = 1%R.
Proof.
  intros d dt vkb dij inv.
  assert (HI : inverts_overlap vkb inv).
  { intros i j Hi Hj. cbn [vkb length] in *. assert (i = 0) by lia. assert (j = 0) by lia. subst.
    unfold braket. cbn. unfold inv. apply injective_projections; cbn; field. }
  assert (HH : herm_coupling (vkb, dij)) by (intros p q _ _; cbn; unfold dij, Cconj, RtoC; cbn; f_equal; ring).
  assert (HL : forall v, In v vkb -> length v = 2) by (intros v [<-|[]]; reflexivity).
  split; [exact HI|]. split; [exact HH|]. split.
  - unfold mat_vec, separable, dij. cbn. f_equal; [|f_equal]; apply injective_projections; cbn; ring.
  - apply RtoC_inj. rewrite norm2_braket.
    set (sp := (vkb, exp_dij_halfstep dt vkb dij inv) : species).
    assert (G : Forall2 (good_species 2 dt) [(vkb, dij)] [sp]).
    { constructor; [|constructor]. split; [exact HL|]. exists inv. now split. }
    pose proof (nl_all_unitary 2 dt [(vkb, dij)] [sp] [RtoC 1; RtoC 0] [RtoC 1; RtoC 0] G
      ltac:(intros vd [<-|[]]; exact HH) eq_refl eq_refl) as U.
    change (nl_all [sp] [RtoC 1; RtoC 0]) with (nl_band sp [RtoC 1; RtoC 0]) in U. rewrite U.
    unfold braket. cbn. apply injective_projections; cbn; ring.
Qed.
