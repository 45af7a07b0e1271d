(** Matrix elements of the modelled Hamiltonian. *)
From Verif Require Import Base GIndexModel LatModel GSphereModel CBase FFTModel FFTSpec FFTProofs FFTProofs2 KSHamModel KSHamSpec.
Open Scope nat_scope.

Lemma zip_with_length {A B D} (f : A -> B -> D) a : forall b, length (zip_with f a b) = Nat.min (length a) (length b).
Proof. induction a as [|x a IH]; intros [|y b]; cbn; auto. Qed.

Lemma zip_with_nth {A B D} (f : A -> B -> D) a : forall b i da db dd,
  i < length a -> i < length b -> nth i (zip_with f a b) dd = f (nth i a da) (nth i b db).
Proof.
  induction a as [|x a IH]; intros [|y b] [|i] da db dd Ha Hb; cbn in *; try lia; try reflexivity.
  apply IH; lia.
Qed.

Lemma vdot1_csum bra : forall ket, length bra = length ket ->
  vdot1 bra ket = csum (length ket) (fun i => Cconj (nth i bra (RtoC 0)) * nth i ket (RtoC 0))%C.
Proof.
  induction bra as [|b bra IH]; intros [|k ket] H; cbn in H; try lia; [reflexivity|].
  unfold vdot1. cbn [zip_with fold_right length]. rewrite csum_head. cbn [nth].
  f_equal. apply IH. lia.
Qed.

Lemma csum3_scal_r nx ny nz (f : nat -> nat -> nat -> C) a :
  (csum nx (fun x => csum ny (fun y => csum nz (fun z => f x y z))) * a)%C
  = csum nx (fun x => csum ny (fun y => csum nz (fun z => (f x y z * a)%C))).
Proof.
  rewrite <- csum_scal_r. apply csum_ext. intros x _.
  rewrite <- csum_scal_r. apply csum_ext. intros y _. now rewrite <- csum_scal_r.
Qed.

Lemma csum3_swap nx ny nz n (f : nat -> nat -> nat -> nat -> C) :
  csum nx (fun x => csum ny (fun y => csum nz (fun z => csum n (fun j => f x y z j))))
  = csum n (fun j => csum nx (fun x => csum ny (fun y => csum nz (fun z => f x y z j)))).
Proof.
  transitivity (csum nx (fun x => csum n (fun j => csum ny (fun y => csum nz (fun z => f x y z j))))).
  - apply csum_ext. intros x _.
    transitivity (csum ny (fun y => csum n (fun j => csum nz (fun z => f x y z j)))).
    + apply csum_ext. intros y _. apply csum_swap.
    + apply (csum_swap ny n (fun y j => csum nz (fun z => f x y z j))).
  - apply (csum_swap nx n (fun x j => csum ny (fun y => csum nz (fun z => f x y z j)))).
Qed.

Lemma csum3_ext nx ny nz (f g : nat -> nat -> nat -> C) :
  (forall x y z, x < nx -> y < ny -> z < nz -> f x y z = g x y z) ->
  csum nx (fun x => csum ny (fun y => csum nz (fun z => f x y z)))
  = csum nx (fun x => csum ny (fun y => csum nz (fun z => g x y z))).
Proof.
  intros H. apply csum_ext. intros x Hx. apply csum_ext. intros y Hy. apply csum_ext. intros z Hz. now apply H.
Qed.

Lemma Cplus_conj a b : Cconj (a + b)%C = (Cconj a + Cconj b)%C.
Proof. apply C_ext; cbn; ring. Qed.
Lemma Cmult_conj a b : Cconj (a * b)%C = (Cconj a * Cconj b)%C.
Proof. apply C_ext; cbn; ring. Qed.
Lemma Cconj_conj a : Cconj (Cconj a) = a.
Proof. apply C_ext; cbn; ring. Qed.

Section Ham.
  Variables (nx ny nz : nat) (h : ksham).
  Hypothesis WF : well_formed nx ny nz h.
  Let idx := map Z.to_nat (gs_idxgrid (kh_gs h)).
  Let ng := length (gs_cryst (kh_gs h)).

  Lemma ke_nth i j : i < ng -> j = i -> nth i (ke_gk h) (RtoC 0) = kinetic h i j.
  Proof.
    intros Hi ->. unfold ke_gk, kinetic. rewrite Nat.eqb_refl.
    rewrite (nth_indep _ _ ((fun g => let w := cryst2cart (kh_lat h) (vadd (gvec g) (kh_k h)) in RtoC (/ 2 * vdot w w)) (0, 0, 0)%Z))
      by (now rewrite map_length).
    now rewrite (map_nth (fun g => let w := cryst2cart (kh_lat h) (vadd (gvec g) (kh_k h)) in RtoC (/ 2 * vdot w w))).
  Qed.

  (** One band through the local part, on a fresh FFT object. *)
  Lemma local_fun psi i : length psi = ng -> i < ng ->
    nth i (full_fun nx ny nz idx false (R2G (zip_with Cmult (full_fun nx ny nz idx false (G2R psi)) (kh_vloc h)))) (RtoC 0)
    = csum ng (fun j => local nx ny nz h i j * nth j psi (RtoC 0))%C.
  Proof.
    intros Hl Hi. destruct WF as ((gs & Hgs) & Hv & _).
    unfold idx. rewrite (r2g_gspace nx ny nz gs (kh_gs h) false _ i Hgs Hi).
    unfold local.
    rewrite (csum_ext ng _ (fun j => csum nx (fun x => csum ny (fun y => csum nz (fun z =>
      (Cconj (plane_wave nx ny nz (nth i (gs_cryst (kh_gs h)) (0, 0, 0)%Z) x y z)
      * nth ((x * ny + y) * nz + z) (kh_vloc h) (RtoC 0)
      * plane_wave nx ny nz (nth j (gs_cryst (kh_gs h)) (0, 0, 0)%Z) x y z * nth j psi (RtoC 0))%C)))))
      by (intros; apply csum3_scal_r).
    rewrite <- csum3_swap. apply csum3_ext. intros x y z Hx Hy Hz.
    assert (Hb : (x * ny + y) * nz + z < nx * ny * nz) by now apply flat_bound.
    rewrite (zip_with_nth Cmult _ _ _ (RtoC 0) (RtoC 0)).
    - rewrite (g2r_gspace nx ny nz gs (kh_gs h) false psi x y z Hgs Hl Hx Hy Hz).
      rewrite nfac_scal. rewrite Hl.
      rewrite Cmult_1_l, <- !csum_scal_r. apply csum_ext. intros j _. ring.
    - cbn [full_fun]. now rewrite store_length.
    - now rewrite Hv.
  Qed.

  Lemma local_band_eq o psi hpsi : full_inv nx ny nz idx false o ->
    full_inv nx ny nz idx false (fst (local_band h o psi hpsi))
    /\ snd (local_band h o psi hpsi)
       = zip_with Cplus hpsi (full_fun nx ny nz idx false (R2G (zip_with Cmult (full_fun nx ny nz idx false (G2R psi)) (kh_vloc h)))).
  Proof.
    intros Ho. unfold local_band.
    pose proof (full_call_inv nx ny nz idx false o (G2R psi) Ho) as H1.
    pose proof (full_call_fun nx ny nz idx false o (G2R psi) Ho) as E1. cbn [full_call] in H1, E1.
    destruct (full_g2r o psi) as [o1 pr]. cbn [fst snd] in H1, E1. subst pr.
    set (w := zip_with Cmult _ _).
    pose proof (full_call_inv nx ny nz idx false o1 (R2G w) H1) as H2.
    pose proof (full_call_fun nx ny nz idx false o1 (R2G w) H1) as E2. cbn [full_call] in H2, E2.
    destruct (full_r2g o1 w) as [o2 vp]. cbn [fst snd] in H2, E2. subst vp. now split.
  Qed.

  Lemma local_bands_eq l_psi : forall o l_hpsi, full_inv nx ny nz idx false o -> length l_psi = length l_hpsi ->
    full_inv nx ny nz idx false (fst (local_bands h o l_psi l_hpsi))
    /\ snd (local_bands h o l_psi l_hpsi)
       = zip_with (fun psi hpsi => zip_with Cplus hpsi
           (full_fun nx ny nz idx false (R2G (zip_with Cmult (full_fun nx ny nz idx false (G2R psi)) (kh_vloc h))))) l_psi l_hpsi.
  Proof.
    induction l_psi as [|p ps IH]; intros o [|q qs] Ho Hl; cbn in Hl; try lia; [now split|].
    cbn [local_bands zip_with].
    destruct (local_band_eq o p q Ho) as [H1 E1].
    destruct (local_band h o p q) as [o1 r]. cbn [fst snd] in H1, E1.
    destruct (IH o1 qs H1 ltac:(lia)) as [H2 E2].
    destruct (local_bands h o1 ps qs) as [o2 rs]. cbn [fst snd] in *. split; [assumption|]. now rewrite E1, E2.
  Qed.

  Lemma nonlocal_band_eq vd psi hpsi : In vd (kh_nloc h) -> length psi = ng ->
    length (nonlocal_band vd psi hpsi) = length hpsi
    /\ forall i, i < length hpsi ->
       nth i (nonlocal_band vd psi hpsi) (RtoC 0)
       = (nth i hpsi (RtoC 0) + csum ng (fun j => separable vd i j * nth j psi (RtoC 0)))%C.
  Proof.
    intros Hin Hl. destruct WF as (_ & _ & Hvk). specialize (Hvk vd).
    destruct vd as [vkb dij]. cbn [fst] in Hvk. unfold nonlocal_band.
    split; [now rewrite map_length, seq_length|]. intros i Hi.
    match goal with |- nth i (map ?f _) _ = _ => rewrite (nth_indep _ _ (f 0)) by (rewrite map_length, seq_length; lia); rewrite (map_nth f) end.
    rewrite seq_nth by lia. cbn [Nat.add]. rewrite Cplus_comm. f_equal.
    unfold separable. cbn [fst snd].
    transitivity (csum (length vkb) (fun p => csum ng (fun j => csum (length vkb) (fun q =>
       (nth i (nth p vkb []) (RtoC 0) * dij p q * Cconj (nth j (nth q vkb []) (RtoC 0)) * nth j psi (RtoC 0))%C)))).
    - apply csum_ext. intros p _. rewrite <- csum_scal.
      transitivity (csum (length vkb) (fun q => csum ng (fun j =>
        (nth i (nth p vkb []) (RtoC 0) * dij p q * Cconj (nth j (nth q vkb []) (RtoC 0)) * nth j psi (RtoC 0))%C))).
      + apply csum_ext. intros q Hq. rewrite vdot1_csum.
        * rewrite <- !csum_scal. rewrite Hl. apply csum_ext. intros j _. ring.
        * rewrite Hl. apply (Hvk (nth q vkb []) Hin). now apply nth_In.
      + apply csum_swap.
    - rewrite csum_swap. apply csum_ext. intros j _.
      rewrite <- csum_scal_r. apply csum_ext. intros p _. now rewrite <- csum_scal_r.
  Qed.

  Lemma nonlocal_bands_eq nl : forall l_psi l_hpsi, incl nl (kh_nloc h) ->
    length l_psi = length l_hpsi ->
    (forall p, In p l_psi -> length p = ng) -> (forall p, In p l_hpsi -> length p = ng) ->
    let out := fold_left (fun hp vd => zip_with (nonlocal_band vd) l_psi hp) nl l_hpsi in
    length out = length l_hpsi
    /\ (forall p, In p out -> length p = ng)
    /\ forall b i, b < length l_hpsi -> i < ng ->
       nth i (nth b out []) (RtoC 0)
       = (nth i (nth b l_hpsi []) (RtoC 0)
          + csum ng (fun j => fold_right (fun vd acc => separable vd i j + acc) (RtoC 0) nl * nth j (nth b l_psi []) (RtoC 0)))%C.
  Proof.
    induction nl as [|vd nl IH]; intros l_psi l_hpsi Hin Hl HP HH; cbn [fold_left fold_right].
    - repeat split; [assumption|]. intros b i _ _.
      rewrite (csum_zero ng); [ring|]. intros; ring.
    - set (hp := zip_with (nonlocal_band vd) l_psi l_hpsi).
      assert (Hvd : In vd (kh_nloc h)) by (apply Hin; now left).
      assert (L : length hp = length l_hpsi) by (unfold hp; rewrite zip_with_length; lia).
      assert (N : forall b, b < length l_hpsi -> nth b hp [] = nonlocal_band vd (nth b l_psi []) (nth b l_hpsi [])).
      { intros b Hb. unfold hp. apply zip_with_nth; lia. }
      assert (HH' : forall p, In p hp -> length p = ng).
      { intros p Hp. apply (In_nth _ _ []) in Hp as (b & Hb & <-). rewrite N by lia.
        destruct (nonlocal_band_eq vd (nth b l_psi []) (nth b l_hpsi []) Hvd) as [E _].
        - apply HP, nth_In. lia.
        - rewrite E. apply HH, nth_In. lia. }
      destruct (IH l_psi hp) as (A & B & D).
      + intros v Hv. apply Hin. now right.
      + lia.
      + assumption.
      + assumption.
      + repeat split; [lia|assumption|]. intros b i Hb Hi. rewrite D by lia. rewrite N by assumption.
        destruct (nonlocal_band_eq vd (nth b l_psi []) (nth b l_hpsi []) Hvd) as [_ E].
        * apply HP, nth_In. lia.
        * rewrite E by (rewrite HH; [assumption|apply nth_In; lia]).
          rewrite <- Cplus_assoc. f_equal. rewrite <- csum_plus. apply csum_ext. intros j _. ring.
  Qed.

  Lemma h_psi_eq o l_psi l_hpsi : full_inv nx ny nz idx false o ->
    length l_psi = length l_hpsi -> (forall p, In p l_psi -> length p = ng) ->
    exists o' out, h_psi h o l_psi l_hpsi = Ok (o', out)
    /\ full_inv nx ny nz idx false o'
    /\ length out = length l_psi
    /\ (forall p, In p out -> length p = ng)
    /\ forall b i, b < length l_psi -> i < ng ->
       nth i (nth b out []) (RtoC 0)
       = csum ng (fun j => hamiltonian nx ny nz h i j * nth j (nth b l_psi []) (RtoC 0))%C.
  Proof.
    intros Ho Hl HP. unfold h_psi, assert_. rewrite Hl, Nat.eqb_refl. cbn [bind].
    set (hp0 := map (zip_with Cmult (ke_gk h)) l_psi).
    destruct (local_bands_eq l_psi o hp0 Ho) as [H1 E1]; [unfold hp0; now rewrite map_length|].
    destruct (local_bands h o l_psi hp0) as [o1 hp1]. cbn [fst snd] in H1, E1.
    assert (LF : forall psi, length (full_fun nx ny nz idx false (R2G (zip_with Cmult (full_fun nx ny nz idx false (G2R psi)) (kh_vloc h)))) = ng).
    { intros psi. cbn [full_fun]. unfold taken. rewrite map_length.
      destruct WF as ((gs & Hgs) & _). now destruct (gspace_idx nx ny nz gs (kh_gs h) Hgs) as (_ & _ & HL & _). }
    assert (LK : length (ke_gk h) = ng) by (unfold ke_gk; now rewrite map_length).
    assert (L1 : length hp1 = length l_psi).
    { rewrite E1, zip_with_length. unfold hp0. rewrite map_length. lia. }
    assert (N1 : forall b, b < length l_psi -> nth b hp1 [] =
       zip_with Cplus (zip_with Cmult (ke_gk h) (nth b l_psi []))
         (full_fun nx ny nz idx false (R2G (zip_with Cmult (full_fun nx ny nz idx false (G2R (nth b l_psi []))) (kh_vloc h))))).
    { intros b Hb. rewrite E1, (zip_with_nth _ _ _ _ [] []) by (unfold hp0; rewrite ?map_length; lia).
      f_equal. unfold hp0. rewrite (nth_indep _ _ (zip_with Cmult (ke_gk h) [])) by (rewrite map_length; lia).
      now rewrite map_nth. }
    assert (HP1 : forall p, In p hp1 -> length p = ng).
    { intros p Hp. apply (In_nth _ _ []) in Hp as (b & Hb & <-). rewrite N1 by lia.
      rewrite !zip_with_length, LF, LK, HP by (apply nth_In; lia). lia. }
    destruct (nonlocal_bands_eq (kh_nloc h) l_psi hp1) as (A & B & D); [apply incl_refl|lia|assumption|assumption|].
    exists o1, (nonlocal_bands h l_psi hp1). split; [reflexivity|]. split; [assumption|].
    unfold nonlocal_bands in *. split; [lia|]. split; [assumption|].
    intros b i Hb Hi. rewrite D by lia. rewrite N1 by lia.
    assert (HPb : length (nth b l_psi []) = ng) by (apply HP, nth_In; lia).
    rewrite (zip_with_nth Cplus _ _ _ (RtoC 0) (RtoC 0)) by (rewrite ?zip_with_length, ?LF; lia).
    rewrite (zip_with_nth Cmult _ _ _ (RtoC 0) (RtoC 0)) by lia.
    rewrite local_fun by assumption.
    rewrite (ke_nth i i) by auto.
    transitivity (csum ng (fun j => kinetic h i j * nth j (nth b l_psi []) (RtoC 0))%C
      + csum ng (fun j => local nx ny nz h i j * nth j (nth b l_psi []) (RtoC 0))%C
      + csum ng (fun j => nonlocal h i j * nth j (nth b l_psi []) (RtoC 0))%C)%C.
    - f_equal. f_equal. symmetry. apply (csum_delta ng i (fun j => kinetic h i j * nth j (nth b l_psi []) (RtoC 0))%C Hi).
      intros j _ Hne. unfold kinetic. rewrite (proj2 (Nat.eqb_neq i j)) by congruence. ring.
    - rewrite <- !csum_plus. apply csum_ext. intros j _. unfold hamiltonian. ring.
  Qed.

  Lemma hamiltonian_hermitian : self_adjoint_data h -> forall i j, i < ng -> j < ng ->
    hamiltonian nx ny nz h i j = Cconj (hamiltonian nx ny nz h j i).
  Proof.
    intros [HV HD] i j Hi Hj. unfold hamiltonian. rewrite !Cplus_conj. repeat f_equal.
    - unfold kinetic. rewrite (Nat.eqb_sym j i). destruct (Nat.eqb_spec i j) as [->|]; apply C_ext; cbn; ring.
    - unfold local. rewrite csum_conj. apply csum_ext. intros x Hx.
      rewrite csum_conj. apply csum_ext. intros y Hy. rewrite csum_conj. apply csum_ext. intros z Hz.
      rewrite !Cmult_conj, Cconj_conj.
      assert (EV : Cconj (nth ((x * ny + y) * nz + z) (kh_vloc h) (RtoC 0)) = nth ((x * ny + y) * nz + z) (kh_vloc h) (RtoC 0)).
      { assert (S0 : snd (nth ((x * ny + y) * nz + z) (kh_vloc h) (RtoC 0)) = 0%R).
        { destruct (nth_in_or_default ((x * ny + y) * nz + z) (kh_vloc h) (RtoC 0)) as [Hin| ->]; [now apply HV|reflexivity]. }
        apply C_ext; cbn; [reflexivity|]. rewrite S0. ring. }
      rewrite EV. ring.
    - unfold nonlocal. revert HD. generalize (kh_nloc h) as nl. intros nl HD.
      induction nl as [|vd nl IH]; cbn [fold_right].
      + apply C_ext; cbn; ring.
      + rewrite Cplus_conj. f_equal; [|apply IH; intros vd' p q H1 H2 H3; apply HD; [now right|exact H2|exact H3]].
        unfold separable. rewrite csum_conj.
        transitivity (csum (length (fst vd)) (fun p => csum (length (fst vd)) (fun q =>
          (nth i (nth q (fst vd) []) (RtoC 0) * snd vd q p * Cconj (nth j (nth p (fst vd) []) (RtoC 0)))%C))).
        * apply csum_swap.
        * apply csum_ext. intros p Hp. rewrite csum_conj. apply csum_ext. intros q Hq.
          rewrite !Cmult_conj, Cconj_conj, <- (HD vd q p) by (try assumption; now left). ring.
  Qed.
End Ham.
