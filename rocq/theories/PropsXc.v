(** Property C66: exchange-correlation energy and potential. *)
From Coquelicot Require Import Coquelicot.
From Verif Require Import Base GIndexModel GIndexProofs LatModel LatProofs GSphereModel FFTModel FFTSpec FFTProofs FFTProofs2 PotModel PotSpec PotProofs EwaldModel EwaldSpec EwaldProofs LocModel LocSpec LocProofs KSHamProofs XcModel XcSpec XcProofs PropsEwald CBase.
Open Scope R_scope.

Lemma flat_lt G x y z : on_grid G x y z -> (flat G x y z < gp_n G)%nat.
Proof.
  intros (Hx & Hy & Hz). unfold flat, gp_n.
  assert (x * gp_ny G + y < gp_nx G * gp_ny G)%nat by nia. nia.
Qed.
Lemma at_flat G f n x y z : on_grid G x y z -> (flat G x y z < n)%nat -> at_point G (map f (seq 0 n)) x y z = f (flat G x y z).
Proof. intros _ H. unfold at_point. fold (flat G x y z). now apply map_seq_nth. Qed.

Lemma list_eq_nth {A} (l l' : list A) d : length l = length l' -> (forall i, (i < length l)%nat -> nth i l d = nth i l' d) -> l = l'.
Proof. intros. apply (nth_ext _ _ d d); assumption. Qed.

Lemma nth_repeat_lt {A} (a : A) n i d : (i < n)%nat -> nth i (repeat a n) d = a.
Proof. revert i. induction n as [|n IH]; intros i H; [lia|]. destruct i; [reflexivity|]. apply IH. lia. Qed.

Lemma add_core_spec core rho : add_core core rho = with_core core rho.
Proof.
  unfold add_core, with_core, perturbed. apply (list_eq_nth _ _ []); [now rewrite !map_length, seq_length|].
  rewrite map_length. intros s Hs. rewrite map_seq_nth by exact Hs.
  set (f := fun v : list C => map (fun k => (nth k v (RtoC 0) + RtoC (1 / INR (length rho)) * nth k core (RtoC 0))%C) (seq 0 (length v))).
  change (@nil C) with (f []) at 1. rewrite (map_nth f). unfold f. apply map_ext. intros k. 
  rewrite nth_repeat_lt by exact Hs. reflexivity.
Qed.

Section Formula.
Variables (G : gsp) (g : worker) (h : list call).
Hypothesis HC : constructed G.
Let o := field_fft G g h.

Lemma dens_at rho x y z : channels G rho -> on_grid G x y z -> inp_rho (map (to_r o) rho) (flat G x y z) = dens G rho x y z.
Proof.
  intros [_ HE] Hp. unfold inp_rho, dens. rewrite map_map. apply map_ext_in. intros v Hv.
  unfold o. rewrite to_r_value; [reflexivity|exact HC|now apply HE|exact Hp].
Qed.
Lemma sigma_at rho x y z : channels G rho -> on_grid G x y z -> get_sigma (map (grad_r G o) rho) (flat G x y z) = contracted G rho x y z.
Proof.
  intros [HL HE] Hp.
  assert (E : forall v c, In v rho -> nth (flat G x y z) (grad_r G o v c) (RtoC 0) = gradient G v c x y z).
  { intros v c Hv. unfold o. apply grad_r_value; [exact HC|now apply HE|exact Hp]. }
  assert (D : forall a b, In a rho -> In b rho -> csum 3 (fun c => nth (flat G x y z) (grad_r G o a c) (RtoC 0) * nth (flat G x y z) (grad_r G o b c) (RtoC 0))%C
      = csum 3 (fun c => gradient G a c x y z * gradient G b c x y z)%C).
  { intros a b Ha Hb. apply csum_ext. intros c _. now rewrite !E. }
  destruct rho as [|a [|b [|]]]; cbn [length] in HL; try lia; cbn [map get_sigma contracted]; unfold gdot;
    rewrite ?D by (cbn; tauto); reflexivity.
Qed.
Lemma h_at f rho aux s c x y z : channels G rho -> channels G aux -> on_grid G x y z ->
  at_point G (h_field f (gp_n G) (inp_rho (map (to_r o) rho)) (get_sigma (map (grad_r G o) aux)) (map (grad_r G o) rho) s c) x y z
  = flux G (fun i => RtoC (x_vsigma f (dens G rho x y z) (contracted G aux x y z) i)) rho s c x y z.
Proof.
  intros HR HA Hp. unfold h_field. rewrite at_flat by (try assumption; now apply flat_lt).
  rewrite dens_at, sigma_at by assumption. destruct HR as [HL HE].
  assert (E : forall v c, In v rho -> nth (flat G x y z) (grad_r G o v c) (RtoC 0) = gradient G v c x y z).
  { intros v c' Hv. unfold o. apply grad_r_value; [exact HC|now apply HE|exact Hp]. }
  destruct rho as [|a [|b [|]]]; cbn [length] in HL; try lia; cbn [map flux]; rewrite !E by (cbn; tauto); reflexivity.
Qed.
Lemma div_at (hf : nat -> list C) H x y z : on_grid G x y z ->
  (forall c x y z, (c < 3)%nat -> on_grid G x y z -> at_point G (hf c) x y z = H c x y z) ->
  at_point G (to_r o (div1 G (fun c => to_g o (hf c)))) x y z = grid_divergence G H x y z.
Proof.
  intros Hp HH. unfold at_point. fold (flat G x y z). unfold o. rewrite to_r_value by (try assumption; apply div1_length). unfold value, grid_divergence, fourier_series.
  f_equal. apply csum_ext. intros k Hk. f_equal. unfold div1. rewrite map_seq_nth by exact Hk. apply csum_ext. intros c Hc.
  unfold to_g. rewrite field_r2g by assumption.
  rewrite (over_grid_ext G _ (fun x y z => H c x y z * Cconj (plane_wave (gp_nx G) (gp_ny G) (gp_nz G) (gv G k) x y z))%C).
  - unfold gp_cart, gv. ring.
  - intros x' y' z' Hp'. now rewrite HH.
Qed.
End Formula.

Lemma fold_spin (rho : list (list C)) (F : list C -> C) k : (length rho = 1%nat \/ length rho = 2%nat) ->
  fold_left (fun acc v => acc + F v * k)%C rho (RtoC 0) = (csum (length rho) (fun s => F (nth s rho [])) * k)%C.
Proof. intros HL. destruct rho as [|a [|b [|]]]; cbn [length] in HL; try lia; cbn [fold_left length csum nth]; ring. Qed.

(** C66.  Result for any one- or two-channel density, any core density and any two
    functionals of the same family: the energy is the integral over the cell of
    n (zk_x + zk_c) and the potential of spin s is vrho_s minus the divergence of the vsigma
    flux, summed over the two functionals.  The functionals are evaluated at |n_s| of the
    valence density and, for GGA, at the contracted gradients of valence plus core. *)
Theorem C66_energy_and_potential : forall G g h fx fc rho core b,
  constructed G -> channels G rho -> x_gga fx = b -> x_gga fc = b ->
  let n x y z := dens G rho x y z in
  let sg x y z := if b then contracted G (with_core core rho) x y z else [] in
  let zk f x y z := x_zk f (n x y z) (sg x y z) in
  let hf f s c x y z := flux G (fun i => RtoC (x_vsigma f (n x y z) (sg x y z) i)) rho s c x y z in
  let vf f s x y z := (RtoC (x_vrho f (n x y z) (sg x y z) s) - if b then grid_divergence G (hf f s) x y z else RtoC 0)%C in
  exists v e, xc_compute G (field_fft G g h) fx fc rho core = Ok (v, e)
  /\ e = fst (cell_integral G (fun x y z => csum (length rho) (fun s => value G (nth s rho []) x y z) * RtoC (zk fx x y z + zk fc x y z)))%C
  /\ length v = length rho
  /\ forall s x y z, (s < length rho)%nat -> on_grid G x y z ->
       at_point G (nth s v []) x y z = (vf fx s x y z + vf fc s x y z)%C.
Proof.
  intros G g h fx fc rho core b HC HR Hx Hc n sg zk hf vf.
  unfold xc_compute. replace (check_rho rho) with (Ok tt) by (symmetry; now apply (check_rho_ok G)). cbn [bind].
  rewrite Hx, Hc. rewrite orb_diag, andb_diag.
  replace (b && negb b)%bool with false by (destruct b; reflexivity).
  set (o := field_fft G g h). eexists _, _. split; [reflexivity|].
  rewrite add_core_spec. pose proof (perturbed_channels G rho (repeat core (length rho)) (1 / INR (length rho)) HR) as HA.
  fold (with_core core rho) in HA. set (aux := with_core core rho) in *.
  assert (ES : forall x y z, on_grid G x y z -> (if b then get_sigma (map (grad_r G o) aux) else fun _ => []) (flat G x y z) = sg x y z).
  { intros x y z Hp. unfold sg. destruct b; [|reflexivity]. unfold o. now apply sigma_at. }
  assert (ED : forall x y z, on_grid G x y z -> inp_rho (map (to_r o) rho) (flat G x y z) = n x y z).
  { intros. now apply dens_at. }
  split; [|split].
  - unfold cell_integral.
    assert (EE : forall f, en_term G f (map (to_r o) rho) (inp_rho (map (to_r o) rho)) (if b then get_sigma (map (grad_r G o) aux) else fun _ => [])
      = (over_grid G (fun x y z => csum (length rho) (fun s => value G (nth s rho []) x y z) * RtoC (zk f x y z)) * RtoC (gp_dv G))%C).
    { intros f. unfold en_term. f_equal. rewrite <- over_grid_flat. apply over_grid_ext. intros x y z Hp. rewrite ED, ES by exact Hp.
      fold (zk f x y z).
      destruct HR as [HL HE].
      rewrite (fold_spin (map (to_r o) rho) (fun v => nth (flat G x y z) v (RtoC 0))) by (rewrite map_length; exact HL).
      rewrite map_length. f_equal. apply csum_ext. intros s Hs.
      rewrite (nth_indep _ [] (to_r o [])) by (rewrite map_length; exact Hs). rewrite map_nth.
      apply to_r_value; [exact HC| |exact Hp]. apply HE. now apply nth_In. }
    rewrite !EE. f_equal.
    rewrite (over_grid_ext G (fun x y z => csum (length rho) (fun s => value G (nth s rho []) x y z) * RtoC (zk fx x y z + zk fc x y z))%C
      (fun x y z => csum 2 (fun i => csum (length rho) (fun s => value G (nth s rho []) x y z) * RtoC (zk (if Nat.eqb i 0 then fx else fc) x y z)))%C).
    + rewrite over_grid_csum. cbn [csum Nat.eqb]. ring.
    + intros x y z _. cbn [csum Nat.eqb]. rewrite RtoC_plus. ring.
  - now rewrite map_length, seq_length.
  - intros s x y z Hs Hp. rewrite map_seq_nth by exact Hs. rewrite at_flat by (try assumption; now apply flat_lt).
    unfold v_term. rewrite ED, ES by exact Hp. unfold vf.
    assert (EV : forall f, (if b then nth (flat G x y z) (to_r o (div1 G (fun c => to_g o
        (h_field f (gp_n G) (inp_rho (map (to_r o) rho)) (if b then get_sigma (map (grad_r G o) aux) else fun _ => []) (if b then map (grad_r G o) rho else []) s c)))) (RtoC 0) else RtoC 0)
      = if b then grid_divergence G (hf f s) x y z else RtoC 0).
    { intros f. destruct b; [|reflexivity]. refine (div_at G g h HC _ (hf f s) x y z Hp _).
      intros c x' y' z' Hc' Hp'. unfold hf, n, sg. now apply h_at. }
    rewrite !EV. ring.
Qed.
Print Assumptions C66_energy_and_potential.

(** *** The potential is the derivative of the energy *)
Lemma gdot_bilinear (a b da db : nat -> C) t :
  fst (csum 3 (fun c => (a c + RtoC t * da c) * (b c + RtoC t * db c)))%C
  = fst (csum 3 (fun c => a c * b c)%C) + t * (fst (csum 3 (fun c => a c * db c)%C) + fst (csum 3 (fun c => da c * b c)%C))
    + t * t * fst (csum 3 (fun c => da c * db c)%C).
Proof.
  cbn [csum]. destruct (a 0%nat), (a 1%nat), (a 2%nat), (b 0%nat), (b 1%nat), (b 2%nat), (da 0%nat), (da 1%nat), (da 2%nat), (db 0%nat), (db 1%nat), (db 2%nat).
  cbn. ring.
Qed.

(** Derivative of the contracted gradients along rho + t d. *)
Definition contracted' (G : gsp) (rho d : list (list C)) (x y z : nat) : list R :=
  match rho, d with
  | [a], [da] => [2 * gdot G a da x y z]
  | [a; b], [da; db] => [2 * gdot G a da x y z; gdot G a db x y z + gdot G da b x y z; 2 * gdot G b db x y z]
  | _, _ => []
  end.
Lemma gdot_comm G a b x y z : gdot G a b x y z = gdot G b a x y z.
Proof. unfold gdot. f_equal. apply csum_ext. intros. ring. Qed.
Lemma perturbed_gdot G rho d t s s' x y z : channels G rho -> (s < length rho)%nat -> (s' < length rho)%nat ->
  gdot G (nth s (perturbed rho d t) []) (nth s' (perturbed rho d t) []) x y z
  = gdot G (nth s rho []) (nth s' rho []) x y z
    + t * (gdot G (nth s rho []) (nth s' d []) x y z + gdot G (nth s d []) (nth s' rho []) x y z)
    + t * t * gdot G (nth s d []) (nth s' d []) x y z.
Proof.
  intros HR Hs Hs'. unfold gdot. rewrite <- gdot_bilinear. f_equal. apply csum_ext. intros c _.
  now rewrite !perturbed_gradient.
Qed.

Section Derivative.
Variables (G : gsp) (rho d : list (list C)).
Hypotheses (HC : constructed G) (HS : symmetric G) (HR : channels G rho) (HD : channels G d) (HL : length d = length rho).
Hypotheses (HhR : forall v, In v rho -> hermitian G v) (HhD : forall v, In v d -> hermitian G v).
Hypothesis HP : forall v x y z, In v rho -> on_grid G x y z -> 0 < fst (value G v x y z).

Lemma cd_derive x y z i : (i < length (contracted' G rho d x y z))%nat ->
  derivable_pt_lim (fun t => nth i (contracted G (perturbed rho d t) x y z) 0) 0 (nth i (contracted' G rho d x y z) 0).
Proof.
  destruct rho as [|a [|b [|]]] eqn:ER; destruct d as [|da [|db [|]]] eqn:Ed; cbn [contracted' length] in *; try lia; intros Hi.
  - assert (i = 0%nat) as -> by lia. cbn [nth].
    apply (derivable_pt_lim_eq (fun t => gdot G a a x y z + t * (2 * gdot G a da x y z) + t * t * gdot G da da x y z)); [|apply derive_quad].
    intros t. pose proof (perturbed_gdot G [a] [da] t 0 0 x y z HR ltac:(cbn; lia) ltac:(cbn; lia)) as E. cbn [nth] in E.
    symmetry. change (contracted G (perturbed [a] [da] t) x y z) with [gdot G (nth 0 (perturbed [a] [da] t) []) (nth 0 (perturbed [a] [da] t) []) x y z].
    cbn [nth]. etransitivity; [exact E|]. rewrite (gdot_comm G da a). ring.
  - set (P := perturbed [a; b] [da; db]).
    assert (EC : forall t, contracted G (P t) x y z = [gdot G (nth 0 (P t) []) (nth 0 (P t) []) x y z; gdot G (nth 0 (P t) []) (nth 1 (P t) []) x y z; gdot G (nth 1 (P t) []) (nth 1 (P t) []) x y z]) by reflexivity.
    assert (EG : forall s s' t, (s < 2)%nat -> (s' < 2)%nat -> _) by (intros s s' t Hs Hs'; exact (perturbed_gdot G [a; b] [da; db] t s s' x y z HR Hs Hs')).
    fold P in EG.
    assert (Hi' : i = 0%nat \/ i = 1%nat \/ i = 2%nat) by lia. destruct Hi' as [->|[->| ->]].
    + apply (derivable_pt_lim_eq (fun t => gdot G a a x y z + t * (2 * gdot G a da x y z) + t * t * gdot G da da x y z)); [|apply derive_quad].
      intros t. rewrite EC. cbn [nth]. symmetry. etransitivity; [exact (EG 0 0 t ltac:(lia) ltac:(lia))%nat|]. cbn [nth]. rewrite (gdot_comm G da a). ring.
    + apply (derivable_pt_lim_eq (fun t => gdot G a b x y z + t * (gdot G a db x y z + gdot G da b x y z) + t * t * gdot G da db x y z)); [|apply derive_quad].
      intros t. rewrite EC. cbn [nth]. symmetry. etransitivity; [exact (EG 0 1 t ltac:(lia) ltac:(lia))%nat|]. cbn [nth]. ring.
    + apply (derivable_pt_lim_eq (fun t => gdot G b b x y z + t * (2 * gdot G b db x y z) + t * t * gdot G db db x y z)); [|apply derive_quad].
      intros t. rewrite EC. cbn [nth]. symmetry. etransitivity; [exact (EG 1 1 t ltac:(lia) ltac:(lia))%nat|]. cbn [nth]. rewrite (gdot_comm G db b). ring.
Qed.

Lemma spin_cases (s : nat) : (s < length rho)%nat -> In (nth s rho []) rho /\ In (nth s d []) d.
Proof. intros Hs. split; apply nth_In; [exact Hs|now rewrite HL]. Qed.

Lemma dens_at_t x y z t s : (s < length rho)%nat ->
  nth s (dens G (perturbed rho d t) x y z) 0 = Rabs (fst (value G (nth s rho []) x y z) + t * fst (value G (nth s d []) x y z)).
Proof.
  intros Hs. unfold dens. rewrite (nth_indep _ 0 (Cmod (value G [] x y z))) by (rewrite map_length, perturbed_length; exact Hs).
  rewrite (map_nth (fun v => Cmod (value G v x y z))). rewrite perturbed_value by assumption.
  destruct (spin_cases s Hs) as [I1 I2].
  pose proof (value_real G _ x y z HC HS (HhR _ I1)) as R1. pose proof (value_real G _ x y z HC HS (HhD _ I2)) as R2.
  destruct (value G (nth s rho []) x y z) as [p q], (value G (nth s d []) x y z) as [p' q']. cbn [snd fst] in *. subst q q'.
  rewrite Cmod_real by (cbn; ring). f_equal. cbn. ring.
Qed.

Lemma point_derive f x y z : on_grid G x y z -> libxc_derivatives (length rho) f ->
  let sg t := if x_gga f then contracted G (perturbed rho d t) x y z else [] in
  let sg' := if x_gga f then contracted' G rho d x y z else [] in
  derivable_pt_lim (fun t => fst (csum (length rho) (fun s => value G (nth s (perturbed rho d t) []) x y z)) * x_zk f (dens G (perturbed rho d t) x y z) (sg t)) 0
    (rsum (length rho) (fun i => x_vrho f (dens G (perturbed rho d 0) x y z) (sg 0) i * fst (value G (nth i d []) x y z))
     + rsum (length sg') (fun i => x_vsigma f (dens G (perturbed rho d 0) x y z) (sg 0) i * nth i sg' 0)).
Proof.
  intros Hp HF sg sg'.
  assert (HEPS : exists eps, 0 < eps /\ forall t s, (s < length rho)%nat -> Rabs t < eps ->
     0 < fst (value G (nth s rho []) x y z) + t * fst (value G (nth s d []) x y z)).
  { assert (forall m, (m <= length rho)%nat -> exists eps, 0 < eps /\ forall t s, (s < m)%nat -> Rabs t < eps ->
     0 < fst (value G (nth s rho []) x y z) + t * fst (value G (nth s d []) x y z)) as HH; [|apply (HH (length rho)); lia].
    induction m as [|m IH]; intros Hm; [exists 1; split; [lra|intros; lia]|].
    destruct IH as (e1 & P1 & H1); [lia|].
    destruct (positive_near (fst (value G (nth m rho []) x y z)) (fst (value G (nth m d []) x y z))) as (e2 & P2 & H2).
    { apply HP; [now apply nth_In|exact Hp]. }
    exists (Rmin e1 e2). split; [now apply Rmin_pos|]. intros t s Hs Ht.
    destruct (Nat.eq_dec s m) as [->|]; [apply H2; eapply Rlt_le_trans; [exact Ht|apply Rmin_r]|].
    apply H1; [lia|]. eapply Rlt_le_trans; [exact Ht|apply Rmin_l]. }
  destruct HEPS as (eps & Peps & Heps).
  assert (ESG : forall t, length (sg t) = if x_gga f then (2 * length rho - 1)%nat else 0%nat).
  { intros t. unfold sg. destruct (x_gga f); [|reflexivity]. pose proof (perturbed_length rho d t) as PL. destruct HR as [HLR _].
    destruct (perturbed rho d t) as [|a [|b [|]]]; cbn [length] in PL; destruct HLR as [E|E]; rewrite E in PL; try lia; rewrite E; reflexivity. }
  assert (ESG' : length sg' = if x_gga f then (2 * length rho - 1)%nat else 0%nat).
  { unfold sg'. destruct (x_gga f); [|reflexivity]. destruct HR as [HLR _]. clear - HLR HL.
    destruct rho as [|a [|b [|]]]; destruct d as [|da [|db [|]]]; cbn [length] in *; try lia; reflexivity. }
  apply (derivable_pt_lim_local (fun t => rsum (length rho) (fun i => nth i (dens G (perturbed rho d t) x y z) 0) * x_zk f (dens G (perturbed rho d t) x y z) (sg t)) _ _ eps Peps).
  { intros t Ht. f_equal. rewrite csum_re. apply rsum_ext. intros s Hs. rewrite dens_at_t by exact Hs.
    rewrite perturbed_value by assumption. rewrite Rabs_pos_eq by (left; now apply Heps).
    destruct (value G (nth s rho []) x y z) as [p q], (value G (nth s d []) x y z) as [p' q']. cbn. ring. }
  assert (ED : forall i, (i < length rho)%nat -> nth i (map (fun v => fst (value G v x y z)) d) 0 = fst (value G (nth i d []) x y z)).
  { intros i Hi. rewrite (nth_indep _ 0 (fst (value G [] x y z))) by (rewrite map_length, HL; exact Hi).
    apply (map_nth (fun v => fst (value G v x y z))). }
  rewrite (rsum_ext (length rho) (fun i => _ * fst (value G (nth i d []) x y z))
     (fun i => x_vrho f (dens G (perturbed rho d 0) x y z) (sg 0) i * nth i (map (fun v => fst (value G v x y z)) d) 0)).
  2:{ intros i Hi. now rewrite ED. }
  apply (HF (fun t => dens G (perturbed rho d t) x y z) sg (map (fun v => fst (value G v x y z)) d) sg').
  - intros t. unfold dens. now rewrite map_length, perturbed_length.
  - now rewrite map_length, HL.
  - exact ESG.
  - exact ESG'.
  - intros i Hi. rewrite dens_at_t by exact Hi. apply Rabs_pos_lt. apply Rgt_not_eq. apply Heps; [exact Hi|now rewrite Rabs_R0].
  - intros i Hi. rewrite ED by exact Hi.
    apply (derivable_pt_lim_local (fun t => fst (value G (nth i rho []) x y z) + t * fst (value G (nth i d []) x y z)) _ _ eps Peps); [|apply derive_affine].
    intros t Ht. rewrite dens_at_t by exact Hi. symmetry. apply Rabs_pos_eq. left. now apply Heps.
  - intros i Hi. revert Hi. unfold sg, sg'. destruct (x_gga f); [|cbn; lia]. apply cd_derive.
Qed.
End Derivative.

Lemma no_core_with core rho : no_core core -> with_core core rho = rho.
Proof.
  intros HN. unfold with_core, perturbed. apply (list_eq_nth _ _ []); rewrite map_length, seq_length; [reflexivity|].
  intros s Hs. rewrite map_seq_nth by exact Hs. apply (list_eq_nth _ _ (RtoC 0)); rewrite map_length, seq_length; [reflexivity|].
  intros k Hk. rewrite map_seq_nth by exact Hk. rewrite nth_repeat_lt by exact Hs. rewrite HN. ring.
Qed.
Lemma perturbed_0 rho d : perturbed rho d 0 = rho.
Proof.
  unfold perturbed. apply (list_eq_nth _ _ []); rewrite map_length, seq_length; [reflexivity|].
  intros s Hs. rewrite map_seq_nth by exact Hs. apply (list_eq_nth _ _ (RtoC 0)); rewrite map_length, seq_length; [reflexivity|].
  intros k Hk. rewrite map_seq_nth by exact Hk. ring.
Qed.

(** Real sums over the grid. *)
Definition rover (G : gsp) (f : nat -> nat -> nat -> R) : R :=
  rsum (gp_nx G) (fun x => rsum (gp_ny G) (fun y => rsum (gp_nz G) (fun z => f x y z))).
Lemma rover_re G f : fst (over_grid G f) = rover G (fun x y z => fst (f x y z)).
Proof.
  unfold over_grid, rover. rewrite csum_re. apply rsum_ext. intros x _. rewrite csum_re. apply rsum_ext. intros y _. now rewrite csum_re.
Qed.
Lemma rover_derive G (f : nat -> nat -> nat -> R -> R) f' :
  (forall x y z, on_grid G x y z -> derivable_pt_lim (f x y z) 0 (f' x y z)) ->
  derivable_pt_lim (fun t => rover G (fun x y z => f x y z t)) 0 (rover G f').
Proof.
  intros H. unfold rover.
  apply (derivable_pt_lim_rsum _ (fun x t => rsum (gp_ny G) (fun y => rsum (gp_nz G) (fun z => f x y z t)))). intros x Hx.
  apply (derivable_pt_lim_rsum _ (fun y t => rsum (gp_nz G) (fun z => f x y z t))). intros y Hy.
  apply (derivable_pt_lim_rsum _ (fun z t => f x y z t)). intros z Hz. apply H. repeat split; assumption.
Qed.
Lemma over_grid_plus G f1 f2 : over_grid G (fun x y z => f1 x y z + f2 x y z)%C = (over_grid G f1 + over_grid G f2)%C.
Proof.
  unfold over_grid. rewrite <- csum_plus. apply csum_ext. intros x _. rewrite <- csum_plus. apply csum_ext. intros y _. now rewrite <- csum_plus.
Qed.
Lemma real_conj (c : C) : snd c = 0 -> Cconj c = c.
Proof. intros H. apply C_ext; cbn; lra. Qed.
Lemma real_RtoC (c : C) : snd c = 0 -> c = RtoC (fst c).
Proof. intros H. apply C_ext; cbn; lra. Qed.

Lemma flux_work G (rho d : list (list C)) (w : nat -> R) x y z :
  constructed G -> symmetric G -> channels G rho -> length d = length rho ->
  (forall v, In v rho -> hermitian G v) -> (forall v, In v d -> hermitian G v) ->
  csum (length rho) (fun s => csum 3 (fun c => flux G (fun i => RtoC (w i)) rho s c x y z * Cconj (gradient G (nth s d []) c x y z)))%C
  = RtoC (rsum (length (contracted' G rho d x y z)) (fun i => w i * nth i (contracted' G rho d x y z) 0)).
Proof.
  intros HC HS [HLR _] HL H1 H2.
  assert (R1 : forall v c, In v rho -> exists r, gradient G v c x y z = RtoC r).
  { intros v c Hv. exists (fst (gradient G v c x y z)). apply real_RtoC, gradient_real; auto. }
  assert (R2 : forall v c, In v d -> exists r, gradient G v c x y z = RtoC r).
  { intros v c Hv. exists (fst (gradient G v c x y z)). apply real_RtoC, gradient_real; auto. }
  destruct rho as [|a [|b [|]]]; destruct d as [|da [|db [|]]]; cbn [length] in *; try lia; clear HLR HL;
    cbn [contracted' length csum rsum nth flux Nat.eqb]; unfold gdot; cbn [csum].
  - destruct (R1 a 0%nat ltac:(now left)) as [a0 ->]. destruct (R1 a 1%nat ltac:(now left)) as [a1 ->]. destruct (R1 a 2%nat ltac:(now left)) as [a2 ->].
    destruct (R2 da 0%nat ltac:(now left)) as [d0 ->]. destruct (R2 da 1%nat ltac:(now left)) as [d1 ->]. destruct (R2 da 2%nat ltac:(now left)) as [d2 ->].
    apply C_ext; cbn; ring.
  - destruct (R1 a 0%nat ltac:(now left)) as [a0 ->]. destruct (R1 a 1%nat ltac:(now left)) as [a1 ->]. destruct (R1 a 2%nat ltac:(now left)) as [a2 ->].
    destruct (R1 b 0%nat ltac:(right; now left)) as [b0 ->]. destruct (R1 b 1%nat ltac:(right; now left)) as [b1 ->]. destruct (R1 b 2%nat ltac:(right; now left)) as [b2 ->].
    destruct (R2 da 0%nat ltac:(now left)) as [d0 ->]. destruct (R2 da 1%nat ltac:(now left)) as [d1 ->]. destruct (R2 da 2%nat ltac:(now left)) as [d2 ->].
    destruct (R2 db 0%nat ltac:(right; now left)) as [e0 ->]. destruct (R2 db 1%nat ltac:(right; now left)) as [e1 ->]. destruct (R2 db 2%nat ltac:(right; now left)) as [e2 ->].
    apply C_ext; cbn; ring.
Qed.

(** Integration by parts against the divergence of a grid vector field. *)
Lemma by_parts_grid G (g : worker) (h : list call) (H : nat -> nat -> nat -> nat -> C) d : constructed G -> length d = gp_size G ->
  over_grid G (fun x y z => grid_divergence G H x y z * Cconj (value G d x y z))%C
  = (- over_grid G (fun x y z => csum 3 (fun c => H c x y z * Cconj (gradient G d c x y z))))%C.
Proof.
  intros HC Hd.
  set (unf := fun p => (p / gp_nz G / gp_ny G, (p / gp_nz G) mod gp_ny G, p mod gp_nz G)%nat).
  assert (HU : forall x y z, on_grid G x y z -> unf (flat G x y z) = (x, y, z)).
  { intros x y z (Hx & Hy & Hz). unfold unf, flat.
    assert (E1 : (((x * gp_ny G + y) * gp_nz G + z) / gp_nz G = x * gp_ny G + y)%nat).
    { rewrite Nat.div_add_l by lia. rewrite (Nat.div_small z) by exact Hz. lia. }
    assert (E2 : (((x * gp_ny G + y) * gp_nz G + z) mod gp_nz G = z)%nat).
    { rewrite Nat.add_comm, Nat.mod_add by lia. now apply Nat.mod_small. }
    rewrite E1, E2. rewrite Nat.div_add_l by lia. rewrite (Nat.div_small y) by exact Hy.
    rewrite (Nat.add_comm (x * gp_ny G)), Nat.mod_add by lia. rewrite (Nat.mod_small y) by exact Hy. now rewrite Nat.add_0_r. }
  set (hf := fun c => map (fun p => let '(x, y, z) := unf p in H c x y z) (seq 0 (gp_n G))).
  assert (HH : forall c x y z, (c < 3)%nat -> on_grid G x y z -> at_point G (hf c) x y z = H c x y z).
  { intros c x y z _ Hp. unfold hf. rewrite at_flat by (try assumption; now apply flat_lt). now rewrite HU. }
  assert (E : over_grid G (fun x y z => grid_divergence G H x y z * Cconj (value G d x y z))%C
    = over_grid G (fun x y z => at_point G (to_r (field_fft G g h) (div1 G (fun c => to_g (field_fft G g h) (hf c)))) x y z * Cconj (value G d x y z))%C).
  { apply over_grid_ext. intros x y z Hp. f_equal. symmetry. now apply div_at. }
  rewrite E. pose proof (by_parts G g h hf d HC Hd) as B.
  rewrite (over_grid_ext G _ (fun x y z => csum 3 (fun c => H c x y z * Cconj (gradient G d c x y z)))%C) in B.
  - rewrite B. ring.
  - intros x y z Hp. apply csum_ext. intros c Hc. now rewrite HH.
Qed.

(** C66.  The potential is the derivative of the energy with respect to the density: for
    every real, positive one- or two-channel density, every real variation of it and any two
    functionals (of one family) whose vrho and vsigma are the derivatives of their energy
    density, d/dt E[n + t d] at t = 0 is the integral over the cell of sum_s v_s d_s (no core
    density). *)
Theorem C66_potential_is_energy_derivative : forall G g h fx fc rho d core b v e,
  constructed G -> symmetric G -> channels G rho -> channels G d -> length d = length rho ->
  (forall r, In r rho -> hermitian G r) -> (forall r, In r d -> hermitian G r) ->
  (forall r x y z, In r rho -> on_grid G x y z -> 0 < fst (value G r x y z)) ->
  x_gga fx = b -> x_gga fc = b -> libxc_derivatives (length rho) fx -> libxc_derivatives (length rho) fc ->
  no_core core ->
  xc_compute G (field_fft G g h) fx fc rho core = Ok (v, e) ->
  derivable_pt_lim (fun t => energy (xc_compute G (field_fft G g h) fx fc (perturbed rho d t) core)) 0
    (fst (cell_integral G (fun x y z => csum (length rho) (fun s => at_point G (nth s v []) x y z * value G (nth s d []) x y z)))%C).
Proof.
  intros G g h fx fc rho d core b v e HC HS HR HD HL H1 H2 HP Hx Hc Lx Lc HN HV.
  set (sg := fun t x y z => if b then contracted G (perturbed rho d t) x y z else []).
  set (sg' := fun x y z => if b then contracted' G rho d x y z else []).
  set (ef := fun f x y z t => fst (csum (length rho) (fun s => value G (nth s (perturbed rho d t) []) x y z)) * x_zk f (dens G (perturbed rho d t) x y z) (sg t x y z)).
  (* the energy *)
  assert (EE : forall t, energy (xc_compute G (field_fft G g h) fx fc (perturbed rho d t) core)
     = gp_dv G * rover G (fun x y z => ef fx x y z t + ef fc x y z t)).
  { intros t. pose proof (perturbed_channels G rho d t HR) as HRt.
    destruct (C66_energy_and_potential G g h fx fc (perturbed rho d t) core b HC HRt Hx Hc) as (vt & et & E1 & E2 & _).
    rewrite E1. cbn [energy]. rewrite E2. unfold cell_integral.
    match goal with |- fst (?c * RtoC ?r)%C = _ => transitivity (r * fst c); [unfold Cmult, RtoC; cbn [fst snd]; ring|] end.
    f_equal. rewrite rover_re. unfold rover. apply rsum_ext. intros x _. apply rsum_ext. intros y _. apply rsum_ext. intros z _.
    rewrite (no_core_with core) by exact HN. rewrite perturbed_length. unfold ef, sg.
    match goal with |- fst (?c * RtoC ?r)%C = _ => transitivity (fst c * r); [unfold Cmult, RtoC; cbn [fst snd]; ring|] end. ring. }
  apply (derivable_pt_lim_eq (fun t => gp_dv G * rover G (fun x y z => ef fx x y z t + ef fc x y z t))); [intros; symmetry; apply EE|].
  (* the derivative *)
  set (dn := dens G rho). set (s0 := fun x y z => if b then contracted G rho x y z else []).
  set (ef' := fun f x y z => rsum (length rho) (fun i => x_vrho f (dn x y z) (s0 x y z) i * fst (value G (nth i d []) x y z))
     + rsum (length (sg' x y z)) (fun i => x_vsigma f (dn x y z) (s0 x y z) i * nth i (sg' x y z) 0)).
  assert (HDf : forall f, x_gga f = b -> libxc_derivatives (length rho) f -> forall x y z, on_grid G x y z -> derivable_pt_lim (ef f x y z) 0 (ef' f x y z)).
  { intros f Hf Lf x y z Hp. pose proof (point_derive G rho d HC HS HR HD HL H1 H2 HP f x y z Hp Lf) as D.
    cbv zeta in D. rewrite Hf, !perturbed_0 in D. exact D. }
  match goal with |- derivable_pt_lim _ 0 ?L => replace L with (gp_dv G * rover G (fun x y z => ef' fx x y z + ef' fc x y z)) end.
  { apply (derivable_pt_lim_scal (fun t => rover G (fun x y z => ef fx x y z t + ef fc x y z t))).
    apply (rover_derive G (fun x y z t => ef fx x y z t + ef fc x y z t)). intros x y z Hp.
    apply (derivable_pt_lim_plus (ef fx x y z) (ef fc x y z)); apply HDf; assumption. }
  (* the potential *)
  destruct (C66_energy_and_potential G g h fx fc rho core b HC HR Hx Hc) as (v' & e' & E1 & _ & _ & EV).
  rewrite E1 in HV. injection HV as -> ->. rewrite (no_core_with core) in EV by exact HN.
  unfold cell_integral. symmetry.
  match goal with |- fst (?c * RtoC ?r)%C = _ => transitivity (r * fst c); [unfold Cmult, RtoC; cbn [fst snd]; ring|] end. f_equal.
  assert (RD : forall s x y z, (s < length rho)%nat -> snd (value G (nth s d []) x y z) = 0).
  { intros s x y z Hs. apply value_real; try assumption. apply H2, nth_In. now rewrite HL. }
  set (FL := fun f s c x y z => flux G (fun i => RtoC (x_vsigma f (dn x y z) (s0 x y z) i)) rho s c x y z).
  assert (K : forall f, x_gga f = b ->
     over_grid G (fun x y z => csum (length rho) (fun s =>
       (RtoC (x_vrho f (dn x y z) (s0 x y z) s) - (if b then grid_divergence G (FL f s) x y z else RtoC 0)) * value G (nth s d []) x y z))%C
     = over_grid G (fun x y z => RtoC (ef' f x y z))).
  { intros f Hf.
    rewrite (over_grid_ext G _ (fun x y z => csum (length rho) (fun s => RtoC (x_vrho f (dn x y z) (s0 x y z) s) * value G (nth s d []) x y z)
      + csum (length rho) (fun s => RtoC (-1) * ((if b then grid_divergence G (FL f s) x y z else RtoC 0) * Cconj (value G (nth s d []) x y z))))%C).
    2:{ intros x y z Hp. rewrite <- csum_plus. apply csum_ext. intros s Hs. rewrite (real_conj (value G (nth s d []) x y z)) by (now apply RD).
        replace (RtoC (-1)) with (- RtoC 1)%C by (apply C_ext; cbn; ring). ring. }
    rewrite over_grid_plus.
    rewrite (over_grid_csum G (length rho) (fun s x y z => RtoC (-1) * ((if b then grid_divergence G (FL f s) x y z else RtoC 0) * Cconj (value G (nth s d []) x y z)))%C).
    assert (KB : forall s, (s < length rho)%nat -> over_grid G (fun x y z => RtoC (-1) * ((if b then grid_divergence G (FL f s) x y z else RtoC 0) * Cconj (value G (nth s d []) x y z)))%C
       = over_grid G (fun x y z => if b then csum 3 (fun c => FL f s c x y z * Cconj (gradient G (nth s d []) c x y z)) else RtoC 0)%C).
    { intros s Hs. destruct b.
      - rewrite over_grid_scal, (by_parts_grid G g h) by (first [assumption | apply (channels_len G); [exact HD|now rewrite HL]]).
        assert (M : forall c : C, (RtoC (-1) * - c)%C = c) by (intros; apply C_ext; cbn; ring). rewrite M. reflexivity.
      - apply over_grid_ext. intros. ring. }
    rewrite (csum_ext _ _ _ KB), <- over_grid_csum, <- over_grid_plus. apply over_grid_ext. intros x y z Hp.
    unfold ef'. rewrite RtoC_plus. f_equal.
    - rewrite <- csum_RtoC. apply csum_ext. intros s Hs. rewrite RtoC_mult. f_equal. apply real_RtoC. now apply RD.
    - unfold sg'. destruct b.
      + apply flux_work; assumption.
      + rewrite csum_0. reflexivity. }
  rewrite (over_grid_ext G _ (fun x y z => csum (length rho) (fun s =>
       (RtoC (x_vrho fx (dn x y z) (s0 x y z) s) - (if b then grid_divergence G (FL fx s) x y z else RtoC 0)) * value G (nth s d []) x y z)
     + csum (length rho) (fun s =>
       (RtoC (x_vrho fc (dn x y z) (s0 x y z) s) - (if b then grid_divergence G (FL fc s) x y z else RtoC 0)) * value G (nth s d []) x y z))%C).
  2:{ intros x y z Hp. rewrite <- csum_plus. apply csum_ext. intros s Hs. rewrite EV by assumption.
      unfold FL, dn, s0. ring. }
  rewrite over_grid_plus, !K by assumption. rewrite <- over_grid_plus, rover_re.
  unfold rover. apply rsum_ext. intros x _. apply rsum_ext. intros y _. apply rsum_ext. intros z _. reflexivity.
Qed.
Print Assumptions C66_potential_is_energy_derivative.

(** C66.  Exchange and correlation functionals can be exchanged. *)
Theorem C66_functional_order_irrelevant : forall G o fx fc rho core,
  xc_compute G o fx fc rho core = xc_compute G o fc fx rho core.
Proof.
  intros G o fx fc rho core. unfold xc_compute. destruct (check_rho rho); [|reflexivity]. cbn [bind].
  rewrite (orb_comm (x_gga fx)), (andb_comm (x_gga fx)). destruct ((x_gga fc || x_gga fx) && negb (x_gga fc && x_gga fx))%bool; [reflexivity|].
  f_equal. f_equal.
  - apply map_ext. intros s. apply map_ext. intros p. ring.
  - f_equal. ring.
Qed.
Print Assumptions C66_functional_order_irrelevant.

(** C66, limit of the claim: the non-linear core correction is not applied.  With two LDA
    functionals the result is the same for every core density. *)
Theorem C66_core_correction_refuted : forall G o fx fc rho core core',
  x_gga fx = false -> x_gga fc = false ->
  xc_compute G o fx fc rho core = xc_compute G o fx fc rho core'.
Proof. intros G o fx fc rho core core' Hx Hc. unfold xc_compute. rewrite Hx, Hc. reflexivity. Qed.
Print Assumptions C66_core_correction_refuted.

(** C66, limit of the claim: an LDA and a GGA functional cannot be combined; every density
    raises KeyError. *)
Theorem C66_mixed_families_refuted : forall G o fx fc rho core,
  channels G rho -> x_gga fx <> x_gga fc -> xc_compute G o fx fc rho core = Err KeyError.
Proof.
  intros G o fx fc rho core HR HX. unfold xc_compute. rewrite (check_rho_ok G) by exact HR. cbn [bind].
  destruct (x_gga fx), (x_gga fc); try congruence; reflexivity.
Qed.
Print Assumptions C66_mixed_families_refuted.

(** C66.  Densities with a number of channels other than 1 or 2 are rejected. *)
Theorem C66_bad_shape_rejected : forall G o fx fc rho core,
  length rho <> 1%nat -> length rho <> 2%nat -> xc_compute G o fx fc rho core = Err ValueError.
Proof.
  intros G o fx fc rho core H1 H2. unfold xc_compute, check_rho.
  destruct (Nat.eqb_spec (length rho) 1); [contradiction|]. destruct (Nat.eqb_spec (length rho) 2); [contradiction|]. reflexivity.
Qed.
Print Assumptions C66_bad_shape_rejected.

(** *** Spin-degenerate densities *)
Lemma half_nth a k : nth k (half a) (RtoC 0) = (RtoC (1 / 2) * nth k a (RtoC 0))%C.
Proof.
  unfold half. destruct (le_lt_dec (length a) k) as [H|H].
  - rewrite !nth_overflow by (rewrite ?map_length; exact H). ring.
  - rewrite (nth_indep _ (RtoC 0) (RtoC (1 / 2) * RtoC 0)%C) by (rewrite map_length; exact H). apply (map_nth (fun c => RtoC (1 / 2) * c)%C).
Qed.
Lemma series_scal G f t x y z : fourier_series G (fun k => RtoC t * f k)%C x y z = (RtoC t * fourier_series G f x y z)%C.
Proof.
  unfold fourier_series. rewrite (csum_ext _ _ (fun k => RtoC t * (f k * plane_wave (gp_nx G) (gp_ny G) (gp_nz G) (gv G k) x y z))%C) by (intros; ring).
  rewrite csum_scal. ring.
Qed.
Lemma half_value G a x y z : value G (half a) x y z = (RtoC (1 / 2) * value G a x y z)%C.
Proof. unfold value. rewrite <- series_scal. unfold fourier_series. f_equal. apply csum_ext. intros k _. now rewrite half_nth. Qed.
Lemma half_gradient G a c x y z : gradient G (half a) c x y z = (RtoC (1 / 2) * gradient G a c x y z)%C.
Proof. unfold gradient. rewrite <- series_scal. unfold fourier_series. f_equal. apply csum_ext. intros k _. rewrite half_nth. ring. Qed.
Lemma half_gdot G a b x y z : gdot G (half a) (half b) x y z = gdot G a b x y z / 4.
Proof.
  unfold gdot. rewrite (csum_ext 3 _ (fun c => RtoC (1 / 4) * (gradient G a c x y z * gradient G b c x y z))%C).
  - rewrite csum_scal. unfold Cmult at 1, RtoC. cbn [fst snd]. field.
  - intros c _. rewrite !half_gradient. replace (1 / 4) with (1 / 2 * (1 / 2)) by field. rewrite RtoC_mult. ring.
Qed.
Lemma with_core_half core a : with_core core [half a; half a] = let w := nth 0 (with_core core [a]) [] in [half w; half w].
Proof.
  unfold with_core, perturbed. cbn [length seq map nth repeat]. unfold half at 2 4. rewrite !map_length.
  assert (E : map (fun k => nth k (half a) (RtoC 0) + RtoC (1 / INR 2) * nth k core (RtoC 0))%C (seq 0 (length a))
     = half (map (fun k => nth k a (RtoC 0) + RtoC (1 / INR 1) * nth k core (RtoC 0))%C (seq 0 (length a)))).
  { unfold half at 2. rewrite map_map. apply map_ext. intros k. rewrite half_nth.
    replace (1 / INR 2) with (1 / 2 * (1 / INR 1)) by (cbn; field). rewrite RtoC_mult. ring. }
  cbn [INR] in *. f_equal; [exact E|]. f_equal. exact E.
Qed.
Lemma divergence_ext G H H' x y z : (forall c x y z, on_grid G x y z -> H c x y z = H' c x y z) ->
  grid_divergence G H x y z = grid_divergence G H' x y z.
Proof.
  intros E. unfold grid_divergence, fourier_series. f_equal. apply csum_ext. intros k _. f_equal. apply csum_ext. intros c _. f_equal.
  apply over_grid_ext. intros x' y' z' Hp. now rewrite E.
Qed.

(** C66.  A spin-polarised calculation on an unpolarised density (n/2, n/2) gives the energy
    and, in both channels, the potential of the unpolarised calculation, for every core. *)
Theorem C66_spin_consistent : forall G g h fx fc gx gc a core v e v2 e2 b,
  constructed G -> length a = gp_size G ->
  x_gga fx = b -> x_gga fc = b -> spin_versions fx gx -> spin_versions fc gc ->
  xc_compute G (field_fft G g h) fx fc [a] core = Ok (v, e) ->
  xc_compute G (field_fft G g h) gx gc [half a; half a] core = Ok (v2, e2) ->
  e2 = e /\ forall s x y z, (s < 2)%nat -> on_grid G x y z ->
    at_point G (nth s v2 []) x y z = at_point G (nth 0 v []) x y z.
Proof.
  intros G g h fx fc gx gc a core v e v2 e2 b HC Ha Hx Hc SX SC E1 E2. pose proof (proj1 SX) as GX. pose proof (proj1 SC) as GC.
  assert (R1 : channels G [a]) by (split; [now left|intros r [<-|[]]; exact Ha]).
  assert (R2 : channels G [half a; half a]) by (split; [now right|intros r [<-|[<-|[]]]; unfold half; now rewrite map_length]).
  destruct (C66_energy_and_potential G g h fx fc [a] core b HC R1 Hx Hc) as (v' & e' & F1 & EN1 & _ & P1).
  rewrite F1 in E1. injection E1 as -> ->.
  destruct (C66_energy_and_potential G g h gx gc [half a; half a] core b HC R2) as (v'' & e'' & F2 & EN2 & _ & P2); [congruence|congruence|].
  rewrite F2 in E2. injection E2 as -> ->.
  set (w := nth 0 (with_core core [a]) []) in *.
  assert (W1 : with_core core [a] = [w]) by reflexivity.
  assert (W2 : with_core core [half a; half a] = [half w; half w]) by apply with_core_half.
  set (sg := fun x y z => if b then contracted G (with_core core [a]) x y z else []).
  set (sg2 := fun x y z => if b then contracted G (with_core core [half a; half a]) x y z else []).
  assert (HSG : forall x y z, sg x y z = [] /\ sg2 x y z = [] \/ exists t, sg x y z = [t] /\ sg2 x y z = [t / 4; t / 4; t / 4]).
  { intros x y z. unfold sg, sg2. destruct b; [right|now left]. rewrite W1, W2. cbn [contracted]. rewrite !half_gdot. eauto. }
  assert (HD : forall x y z, exists n, dens G [a] x y z = [n] /\ dens G [half a; half a] x y z = [n / 2; n / 2]).
  { intros x y z. exists (Cmod (value G a x y z)). split; [reflexivity|]. unfold dens. cbn [map]. rewrite !half_value.
    rewrite Cmod_mult, Cmod_R, Rabs_pos_eq by lra. replace (1 / 2 * Cmod (value G a x y z)) with (Cmod (value G a x y z) / 2) by field. reflexivity. }
  assert (ZK : forall f1 f2, spin_versions f1 f2 -> forall x y z,
     x_zk f2 (dens G [half a; half a] x y z) (sg2 x y z) = x_zk f1 (dens G [a] x y z) (sg x y z)).
  { intros f1 f2 [_ S] x y z. destruct (HD x y z) as (n & -> & ->). destruct (S n _ _ (HSG x y z)) as (-> & _). reflexivity. }
  split.
  - rewrite EN1, EN2. fold sg sg2. f_equal. unfold cell_integral. f_equal. apply over_grid_ext. intros x y z _.
    cbn [length csum nth]. fold (sg x y z). fold (sg2 x y z).
    rewrite (ZK fx gx SX), (ZK fc gc SC). rewrite !half_value. f_equal.
    transitivity (RtoC (1 / 2 + 1 / 2) * value G a x y z)%C; [rewrite RtoC_plus; ring|]. replace (1 / 2 + 1 / 2) with 1 by field. ring.
  - intros s x y z Hs Hp. rewrite P2, P1 by (cbn [length]; (assumption || lia)).
    assert (V : forall f1 f2, spin_versions f1 f2 -> 
       (RtoC (x_vrho f2 (dens G [half a; half a] x y z) (sg2 x y z) s)
        - (if b then grid_divergence G (fun c x y z => flux G (fun i => RtoC (x_vsigma f2 (dens G [half a; half a] x y z) (sg2 x y z) i)) [half a; half a] s c x y z) x y z else RtoC 0)
       = RtoC (x_vrho f1 (dens G [a] x y z) (sg x y z) 0)
        - (if b then grid_divergence G (fun c x y z => flux G (fun i => RtoC (x_vsigma f1 (dens G [a] x y z) (sg x y z) i)) [a] 0 c x y z) x y z else RtoC 0))%C).
    { intros f1 f2 [_ S]. f_equal.
      - destruct (HD x y z) as (n & -> & ->). destruct (S n _ _ (HSG x y z)) as (_ & -> & _); [reflexivity|exact Hs].
      - f_equal. destruct b; [|reflexivity]. apply divergence_ext. intros c x' y' z' _. cbn [flux]. rewrite !half_gradient.
        destruct (HD x' y' z') as (n & -> & ->). destruct (S n _ _ (HSG x' y' z')) as (_ & _ & Q1 & Q2).
        set (s0 := sg x' y' z') in *. set (s2 := sg2 x' y' z') in *.
        set (A := x_vsigma f1 [n] s0 0) in *. set (B := x_vsigma f2 [n / 2; n / 2] s2 0) in *.
        set (D := x_vsigma f2 [n / 2; n / 2] s2 1) in *. set (F := x_vsigma f2 [n / 2; n / 2] s2 2) in *.
        assert (EA : A = (2 * B + D) / 4) by lra. rewrite <- Q1. rewrite EA.
        destruct (gradient G a c x' y' z') as [p q]. destruct (Nat.eqb s 0); apply C_ext; cbn; field. }
    fold (sg x y z). fold (sg2 x y z). f_equal; apply V; assumption.
Qed.
Print Assumptions C66_spin_consistent.

(** C66.  [get_libxc_func]: the functional common to all species whose functional is known;
    None when none is known; ValueError exactly when two known ones differ. *)
Theorem C66_functional_from_species : forall (A : Type) (eqb : A -> A -> bool) (l : list (option A)),
  (forall a b, eqb a b = true <-> a = b) ->
  match get_libxc_func eqb l None with
  | Ok None => forall f, In f l -> f = None
  | Ok (Some f) => In (Some f) l /\ forall f', In (Some f') l -> f' = f
  | Err e => e = ValueError /\ exists f f', In (Some f) l /\ In (Some f') l /\ f <> f'
  end.
Proof.
  intros A eqb l HE.
  assert (K : forall l cur, match get_libxc_func eqb l cur with
    | Ok None => cur = None /\ forall f, In f l -> f = None
    | Ok (Some f) => (In (Some f) l \/ cur = Some f) /\ (forall f', In (Some f') l \/ cur = Some f' -> f' = f)
    | Err e => e = ValueError /\ exists f f', (In (Some f) l \/ cur = Some f) /\ (In (Some f') l \/ cur = Some f') /\ f <> f' end).
  { clear l. induction l as [|[f|] l IH]; intros cur; cbn [get_libxc_func].
    - destruct cur; cbn; [|now split]. split; [now right|]. intros f' [[]|[= ->]]. reflexivity.
    - destruct cur as [g|].
      + destruct (eqb f g) eqn:EQ.
        * apply HE in EQ. subst g. specialize (IH (Some f)). destruct (get_libxc_func eqb l (Some f)) as [[r|]|e].
          -- destruct IH as [I1 I2]. split.
             ++ destruct I1 as [I1|I1]; [left; now right|now right].
             ++ intros f' [[[= ->]|H]|H]; apply I2; [now right|now left|now right].
          -- destruct IH; discriminate.
          -- destruct IH as (-> & a & b & Ha & Hb & N). split; [reflexivity|]. exists a, b. cbn. tauto.
        * split; [reflexivity|]. exists f, g. cbn. split; [tauto|]. split; [tauto|]. intros ->. rewrite (proj2 (HE g g) eq_refl) in EQ. discriminate.
      + specialize (IH (Some f)). destruct (get_libxc_func eqb l (Some f)) as [[r|]|e].
        * destruct IH as [I1 I2]. split; [left; cbn; destruct I1 as [I1|[= ->]]; tauto|].
          intros f' [[[= ->]|H]|H]; [apply I2; now right|apply I2; now left|discriminate].
        * destruct IH; discriminate.
        * destruct IH as (-> & a & b & Ha & Hb & N). split; [reflexivity|]. exists a, b. cbn.
          split; [destruct Ha as [?|[= ->]]; tauto|]. split; [destruct Hb as [?|[= ->]]; tauto|exact N].
    - specialize (IH cur). destruct (get_libxc_func eqb l cur) as [[r|]|e].
      + destruct IH as [I1 I2]. split; [cbn; tauto|]. intros f' [[H|H]|H]; [discriminate|apply I2; now left|apply I2; now right].
      + destruct IH as [I1 I2]. split; [exact I1|]. intros f' [<-|H]; [reflexivity|now apply I2].
      + destruct IH as (-> & a & b & Ha & Hb & N). split; [reflexivity|]. exists a, b. cbn. tauto. }
  specialize (K l None). destruct (get_libxc_func eqb l None) as [[r|]|e].
  - destruct K as [[K1|K1] K2]; [|discriminate]. split; [exact K1|]. intros. apply K2. now left.
  - apply K.
  - destruct K as (-> & a & b & [Ha|Ha] & [Hb|Hb] & N); try discriminate. split; [reflexivity|]. now exists a, b.
Qed.
Print Assumptions C66_functional_from_species.

(** Non-vacuity: a density, a variation and a GGA functional meeting the hypotheses of the
    derivative theorem (constant density; zk = n + sum of sigma). *)
Definition poly_gga : xcf := MkXcf true
  (fun n s => rsum (length n) (fun i => nth i n 0) + rsum (length s) (fun i => nth i s 0))
  (fun n s _ => 2 * rsum (length n) (fun i => nth i n 0) + rsum (length s) (fun i => nth i s 0))
  (fun n s _ => rsum (length n) (fun i => nth i n 0)).
Example C66_derivatives_nonvacuous : forall ns, libxc_derivatives ns poly_gga.
Proof.
  intros ns n s n' s' Hn Hn' Hs Hs' _ D1 D2. cbn [x_zk x_vrho x_vsigma x_gga poly_gga] in *.
  set (N := fun t => rsum ns (fun i => nth i (n t) 0)). set (S := fun t => rsum (2 * ns - 1) (fun i => nth i (s t) 0)).
  assert (DN : derivable_pt_lim N 0 (rsum ns (fun i => nth i n' 0))) by (apply (derivable_pt_lim_rsum ns (fun i t => nth i (n t) 0)); exact D1).
  assert (DS : derivable_pt_lim S 0 (rsum (2 * ns - 1) (fun i => nth i s' 0))).
  { apply (derivable_pt_lim_rsum _ (fun i t => nth i (s t) 0)). rewrite Hs' in D2. exact D2. }
  apply (derivable_pt_lim_eq (N * (N + S))%F).
  { intros t. unfold mult_fct, plus_fct, N, S. rewrite Hn, Hs. reflexivity. }
  rewrite Hn, Hs, Hs'. fold (N 0) (S 0). rewrite !rsum_scal.
  replace ((2 * N 0 + S 0) * rsum ns (fun i => nth i n' 0) + N 0 * rsum (2 * ns - 1) (fun i => nth i s' 0))
    with (rsum ns (fun i => nth i n' 0) * (N + S)%F 0 + N 0 * (rsum ns (fun i => nth i n' 0) + rsum (2 * ns - 1) (fun i => nth i s' 0))) by (unfold plus_fct; ring).
  apply derivable_pt_lim_mult; [exact DN|]. now apply derivable_pt_lim_plus.
Qed.
Example C66_nonvacuous : exists G rho d, constructed G /\ symmetric G /\ channels G rho /\ channels G d /\ length d = length rho
  /\ (forall r, In r rho -> hermitian G r) /\ (forall r, In r d -> hermitian G r)
  /\ (forall r x y z, In r rho -> on_grid G x y z -> 0 < fst (value G r x y z)).
Proof.
  destruct (gspace_base (zshape 3 1 1) [(0, 0, 0); (1, 0, 0); (-1, 0, 0)]%Z) as [s|e] eqn:E; [|vm_compute in E; discriminate].
  assert (EC : gs_cryst s = [(0, 0, 0); (1, 0, 0); (-1, 0, 0)]%Z) by (vm_compute in E; injection E as <-; reflexivity).
  destruct (mk_lattice_of mid) as (L & HL & _); [rewrite mdet_mid; lra|].
  set (G := MkGsp L 3 1 1 s). set (a := [RtoC 1; RtoC 0; RtoC 0]). set (b := [RtoC 0; RtoC 1; RtoC 1]).
  assert (SZ : gp_size G = 3%nat) by (unfold gp_size, G; cbn [gp_gs]; now rewrite EC).
  assert (GV : forall k, (k < 3)%nat -> gv G k = nth k [(0, 0, 0); (1, 0, 0); (-1, 0, 0)]%Z (0, 0, 0)%Z) by (intros; unfold gv, G; cbn [gp_gs]; now rewrite EC).
  assert (RC : forall r : R, Cconj (RtoC r) = RtoC r) by (intros; apply C_ext; cbn; ring).
  exists G, [a], [b]. split; [split; [exists mid; exact HL|eexists; exact E]|].
  split. { unfold symmetric, G. cbn [gp_gs]. rewrite EC. intros g [<-|[<-|[<-|[]]]]; cbn; tauto. }
  split. { split; [now left|]. intros r [<-|[]]. now rewrite SZ. }
  split. { split; [now left|]. intros r [<-|[]]. now rewrite SZ. }
  split; [reflexivity|].
  assert (HH : forall u v w, u = Cconj u -> v = Cconj w -> hermitian G [u; v; w]).
  { intros u v w Hu Hv k k' Hk Hk' EQ. rewrite SZ in Hk, Hk'. rewrite !GV in EQ by assumption.
    destruct k as [|[|[|]]]; try lia; destruct k' as [|[|[|]]]; try lia; cbn in EQ; try discriminate; cbn [nth]; try assumption.
    rewrite Hv. symmetry. apply Cconj_conj. }
  split; [intros r [<-|[]]; apply HH; now rewrite RC|]. split; [intros r [<-|[]]; apply HH; now rewrite RC|].
  intros r x y z [<-|[]] _. unfold value, fourier_series. rewrite SZ. cbn [csum nth a].
  rewrite (GV 0%nat) by lia. cbn [nth]. unfold plane_wave at 1.
  replace (2 * PI * (0 * (INR x / INR (gp_nx G)) + 0 * (INR y / INR (gp_ny G)) + 0 * (INR z / INR (gp_nz G)))) with 0 by ring.
  rewrite cis_0. rewrite <- RtoC_inv by (apply not_0_INR; cbn; lia).
  match goal with |- 0 < fst ?c => replace c with (RtoC (/ INR (gp_nx G * gp_ny G * gp_nz G))) by ring end.
  cbn [fst RtoC]. apply Rinv_0_lt_compat, lt_0_INR. cbn. lia.
Qed.

(** C66: a list of functional names is accepted exactly when libxc offers every one of them, otherwise ValueError. *)
Theorem C66_names_checked : forall (A : Type) (avail : A -> bool) (names : list A),
  (check_libxc_func avail names = Ok tt <-> forall f, In f names -> avail f = true)
  /\ ((exists f, In f names /\ avail f = false) -> check_libxc_func avail names = Err ValueError).
Proof.
  intros A avail names. induction names as [|f r [IH1 IH2]]; cbn [check_libxc_func].
  - split; [split; [intros _ f []|reflexivity]|intros (f & [] & _)].
  - destruct (avail f) eqn:E.
    + split; [rewrite IH1; split; [intros H g [<-|Hg]; auto|intros H g Hg; apply H; now right]|].
      intros (g & [<-|Hg] & H); [congruence|]. apply IH2. now exists g.
    + split; [split; [discriminate|intros H; rewrite (H f) in E by (now left); discriminate]|reflexivity].
Qed.
Print Assumptions C66_names_checked.
