(** A concrete run of the Davidson model, used for the non-vacuity examples and for the
    counter-example of C38: three plane waves, one root, two iterations. *)
From Coq Require Import ClassicalDescription.
From Verif Require Import Base CBase MixSpec MixProofs KSHamProofs DavModel DavSpec DavProofs.
Open Scope nat_scope.

(** A dense solver that proposes a fixed answer per dimension and returns it only if it is
    right: it obeys the contract by construction. *)
Definition checked_eigh (guess : nat -> (nat -> R) * mat) : eigh_t := fun m n a b =>
  if excluded_middle_informative (lowest_pairs m n (herm_lower a) (herm_lower b) (fst (guess n)) (snd (guess n)))
  then Some (guess n) else None.
Lemma checked_eigh_contract guess : eigh_contract (checked_eigh guess).
Proof.
  intros m n a b lam c. unfold checked_eigh. destruct (excluded_middle_informative _) as [L|]; [|discriminate].
  intros [= E]. now rewrite E in L.
Qed.

Lemma normalize_dir N v t w : (0 < t)%R -> (forall g, g < N -> v g = (RtoC t * w g)%C) -> wvdot N w w = RtoC 1 ->
  exists u, normalize N v = Ok u /\ forall g, g < N -> u g = w g.
Proof.
  intros Ht Hv Hw.
  assert (E : wvdot N v v = RtoC (t * t)).
  { rewrite (wvdot_ext N v (fun g => RtoC t * w g)%C v (fun g => RtoC t * w g)%C Hv Hv), wvdot_scal_real, Hw. ring. }
  unfold normalize. rewrite E. cbn [fst RtoC]. rewrite sqrt_square by lra.
  destruct (Req_EM_T (t * t) 0) as [Z|Z]; [exfalso; nra|]. eexists. split; [reflexivity|].
  intros g Hg. cbn. rewrite (Hv g Hg). unfold Cdiv. rewrite (Cmult_comm (RtoC t)), <- Cmult_assoc, Cinv_r; [ring|].
  intros X. apply (f_equal fst) in X. cbn in X. lra.
Qed.

Section Step.
  Variables (N : nat) (Hm : mat) (guess : nat -> (nat -> R) * mat) (thr : R) (numwork : nat).
  Hypothesis HH : hermitian N Hm.
  Notation eigh := (checked_eigh guess).
  Notation pass := (dav_pass N Hm (fun _ => 0%R) eigh 1 thr numwork).

  Definition ext (s : dav) (w : vec) : nat -> vec := fun i => if i <? d_ndim s then d_psi s i else w.

  (** One pass with one root and constant preconditioner. *)
  Lemma one_root_pass s w t : dinv N Hm 1 s -> d_nunc s = 1 -> d_flag s 0 = true -> S (d_ndim s) <= ndim_max 1 numwork ->
    (0 < t)%R -> (forall g, g < N -> resid N Hm (d_evl s 0) (ritz s 0) g = (RtoC t * w g)%C) -> wvdot N w w = RtoC 1 ->
    lowest_pairs 1 (S (d_ndim s)) (fun i j => wvdot N (ext s w i) (happ N Hm (ext s w j)))
      (fun i j => wvdot N (ext s w i) (ext s w j)) (fst (guess (S (d_ndim s)))) (snd (guess (S (d_ndim s)))) ->
    exists s1, pass s = Ok s1 /\ d_evl s1 = fst (guess (S (d_ndim s)))
      /\ (forall j, j < S (d_ndim s) -> d_evcred s1 0 j = snd (guess (S (d_ndim s))) 0 j)
      /\ (forall g, g < N -> d_psi s1 (d_ndim s) g = w g).
  Proof.
    intros I Hn Hf Hd Ht Hr Hw HL.
    assert (D : (1 < g_denom 0 (d_evl s 0))%R).
    { unfold g_denom. set (x := (2 * (0 - d_evl s 0))%R).
      assert (S1 : (1 - x < sqrt (1 + (x - 1) ^ 2))%R).
      { destruct (Rle_lt_dec 0 (1 - x)) as [L|L].
        - rewrite <- (sqrt_Rsqr (1 - x) L). apply sqrt_lt_1; unfold Rsqr; nra.
        - pose proof (sqrt_pos (1 + (x - 1) ^ 2)). lra. }
      lra. }
    assert (NR : exists u, new_row N (fun _ => 0%R) (move_unconv 1 s) 0 = Ok u /\ forall g, g < N -> u g = w g).
    { unfold new_row. cbn [move_unconv d_ndim d_evcred d_evlred d_psi d_hpsi]. rewrite Hn.
      replace (0 <? 1) with true by reflexivity. unfold flagged. cbn [seq filter]. rewrite Hf. cbn [nth].
      apply (normalize_dir N _ (t / g_denom 0 (d_evl s 0)) w); [|clear HL|exact Hw].
      - apply Rdiv_lt_0_compat; lra.
      - intros g Hg. unfold apply_g_psi. rewrite <- (di_evl _ _ _ _ I 0) by lia.
        replace (combo (d_ndim s) (d_evcred s 0) (d_hpsi s) g) with (happ N Hm (ritz s 0) g).
        2:{ unfold ritz. rewrite happ_combo. apply csum_ext. intros j Hj. now rewrite (gr_h _ _ _ _ (di_gram _ _ _ _ I)). }
        transitivity (resid N Hm (d_evl s 0) (ritz s 0) g / RtoC (g_denom 0 (d_evl s 0)))%C.
        + unfold resid. fold (ritz s 0). f_equal. ring.
        + rewrite Hr by exact Hg. unfold Rdiv. rewrite RtoC_mult, RtoC_inv by (intros Z; lra). unfold Cdiv. ring. }
    destruct NR as (u & NR & Hu).
    unfold dav_pass, expand_psi. cbn [move_unconv d_ndim d_nunc]. rewrite Hn.
    destruct (Nat.ltb_spec (ndim_max 1 numwork) (d_ndim s + 1)); [lia|].
    cbn [seq map sequence]. rewrite NR. cbn [bind].
    match goal with |- context [solve_red eigh 1 (update_red N ?x)] => set (s0 := x) end.
    assert (P0 : forall i, i < d_ndim s -> d_psi s0 i = d_psi s i).
    { intros i Hi. unfold s0. cbn [d_psi]. unfold put_rows. destruct (Nat.leb_spec (d_ndim s) i); [lia|]. reflexivity. }
    assert (P1 : d_psi s0 (d_ndim s) = u).
    { unfold s0. cbn [d_psi]. unfold put_rows. rewrite Nat.leb_refl. cbn [length]. destruct (Nat.ltb_spec (d_ndim s) (d_ndim s + 1)); [|lia].
      now rewrite Nat.sub_diag. }
    assert (Sn : d_ndim s0 = S (d_ndim s)) by (change (d_ndim s + 1 = S (d_ndim s)); lia).
    assert (Un : d_nunc s0 = 1) by reflexivity.
    assert (G : gram N Hm (d_ndim s0) (update_red N s0)).
    { apply (update_gram N Hm (fun _ => 0%R)).
      - lia.
      - replace (d_ndim s0 - d_nunc s0) with (d_ndim s) by lia. destruct (di_gram _ _ _ _ I) as [G1 G2 G3]. split.
        + intros i g Hi Hg. rewrite P0 by exact Hi. rewrite <- G1 by assumption. unfold s0. cbn [d_hpsi]. unfold put_rows.
          destruct (Nat.leb_spec (d_ndim s) i); [lia|]. reflexivity.
        + intros i j Hi Hj. rewrite !P0 by lia. now apply G2.
        + intros i j Hi Hj. rewrite !P0 by lia. now apply G3.
      - intros i g Hi Hg. assert (Hi' : i < d_ndim s + 1) by lia. destruct (Nat.eq_dec i (d_ndim s)) as [->|Hne].
        + rewrite P1. unfold s0. cbn [d_hpsi]. unfold put_rows. rewrite Nat.leb_refl, map_length. cbn [length].
          destruct (Nat.ltb_spec (d_ndim s) (d_ndim s + 1)); [|lia]. now rewrite Nat.sub_diag.
        + rewrite P0 by lia. rewrite <- (gr_h _ _ _ _ (di_gram _ _ _ _ I)) by lia. unfold s0. cbn [d_hpsi]. unfold put_rows.
          destruct (Nat.leb_spec (d_ndim s) i); [lia|]. reflexivity. }
    assert (PE : forall i g, i < S (d_ndim s) -> g < N -> d_psi s0 i g = ext s w i g).
    { intros i g Hi Hg. unfold ext. destruct (Nat.ltb_spec i (d_ndim s)); [now rewrite P0|].
      replace i with (d_ndim s) by lia. rewrite P1. now apply Hu. }
    assert (L2 : lowest_pairs 1 (d_ndim s0) (herm_lower (d_ham (update_red N s0))) (herm_lower (d_ovl (update_red N s0)))
       (fst (guess (d_ndim s0))) (snd (guess (d_ndim s0)))).
    { rewrite Sn in *. eapply lowest_ext; [exact HL| | |reflexivity|reflexivity].
      - intros i j Hi Hj. rewrite (herm_ham N Hm (fun _ => 0%R) HH _ _ i j G) by assumption. cbn [update_red d_psi].
        apply wvdot_ext; [intros; symmetry; now apply PE|]. intros g _. apply happ_ext. intros g' Hg'. symmetry. now apply PE.
      - intros i j Hi Hj. rewrite (herm_ovl N Hm (fun _ => 0%R) _ _ i j G) by assumption. cbn [update_red d_psi].
        apply wvdot_ext; intros; symmetry; now apply PE. }
    unfold solve_red at 1. cbn [update_red d_ndim]. change (d_ndim (update_red N s0)) with (d_ndim s0).
    unfold checked_eigh at 1. destruct (excluded_middle_informative _) as [|X]; [|contradiction].
    destruct (guess (d_ndim s0)) as [lam c] eqn:EG. cbn [bind]. eexists. split; [reflexivity|].
    rewrite Sn in EG. rewrite EG. cbn [d_evl d_evcred d_psi update_red fst snd]. split; [reflexivity|]. split.
    - intros j Hj. destruct (Nat.ltb_spec j (d_ndim s0)); [reflexivity|lia].
    - intros g Hg. rewrite P1. now apply Hu.
  Qed.
End Step.

(* ------------------------------------------------------------------ *)
(** The run: H couples neighbouring plane waves; start from the first one. *)
Definition H3 : mat := fun i j =>
  match i, j with 0, 1 | 1, 0 | 1, 2 | 2, 1 => RtoC 1 | _, _ => RtoC 0 end.
Definition basis3 (i : nat) : vec := fun g =>
  match i, g with 0, 0 | 1, 1 => RtoC 1 | 2, 2 => RtoC (-1) | _, _ => RtoC 0 end.
Definition guess3 (n : nat) : (nat -> R) * mat :=
  match n with
  | 1 => (fun _ => 0%R, fun _ _ => RtoC 1)
  | 2 => (fun _ => (-1)%R, fun _ j => match j with 0 => RtoC (/ sqrt 2) | _ => RtoC (- / sqrt 2) end)
  | _ => (fun _ => (- sqrt 2)%R, fun _ j => match j with 0 => RtoC (/ 2) | 1 => RtoC (- sqrt 2 / 2) | _ => RtoC (- / 2) end)
  end.
(** The Gram matrices of the basis, as literals. *)
Definition gramH (i j : nat) : R := match i, j with 0, 1 | 1, 0 => 1 | 1, 2 | 2, 1 => -1 | _, _ => 0 end%R.

Lemma H3_hermitian : hermitian 3 H3.
Proof.
  intros i j Hi Hj. destruct i as [|[|[|i]]], j as [|[|[|j]]]; try lia; apply C_ext; cbn; ring.
Qed.
Lemma gramH_ok i j : i < 3 -> j < 3 -> wvdot 3 (basis3 i) (happ 3 H3 (basis3 j)) = RtoC (gramH i j).
Proof.
  intros Hi Hj. destruct i as [|[|[|i]]], j as [|[|[|j]]]; try lia; apply C_ext; cbn; ring.
Qed.
Lemma gramB_ok i j : i < 3 -> j < 3 -> wvdot 3 (basis3 i) (basis3 j) = delta i j.
Proof.
  intros Hi Hj. destruct i as [|[|[|i]]], j as [|[|[|j]]]; try lia; apply C_ext; cbn; ring.
Qed.

Lemma lowest_one n (A : nat -> nat -> R) lam c : 
  (forall i, i < n -> csum n (fun j => (RtoC (A i j) * c 0 j)%C) = (RtoC (lam 0) * c 0 i)%C) ->
  csum n (fun i => (Cconj (c 0 i) * c 0 i)%C) = RtoC 1 ->
  (forall v : vec, (lam 0%nat * rsum n (fun i => fst (v i) * fst (v i) + snd (v i) * snd (v i))
     <= rsum n (fun i => rsum n (fun j => A i j * (fst (v i) * fst (v j) + snd (v i) * snd (v j)))))%R) ->
  lowest_pairs 1 n (fun i j => RtoC (A i j)) delta lam c.
Proof.
  intros HA HB HL.
  assert (QI : forall u v, qform n delta u v = csum n (fun i => (Cconj (u i) * v i)%C)).
  { intros u v. apply csum_ext. intros i Hi.
    rewrite (csum_ext n _ (fun j => (delta i j * (Cconj (u i) * v j))%C)) by (intros; ring). now rewrite delta_l. }
  split.
  - intros k i Hk Hi. replace k with 0 by lia. rewrite HA by exact Hi. now rewrite delta_l.
  - intros k l Hk Hl. replace k with 0 by lia. replace l with 0 by lia. rewrite QI. exact HB.
  - intros k l Hkl Hl. replace k with 0 by lia. replace l with 0 by lia. lra.
  - intros k v Hk _. replace k with 0 by lia. rewrite QI. eapply Rle_trans; [|eapply Rle_trans; [apply (HL v)|]].
    + apply Req_le. f_equal. rewrite csum_re. apply rsum_ext. intros i _. rewrite conj_self. reflexivity.
    + apply Req_le. unfold qform. rewrite csum_re. apply rsum_ext. intros i _. rewrite csum_re. apply rsum_ext. intros j _.
      destruct (v i), (v j). cbn. ring.
Qed.

Lemma sqrt2_facts : (sqrt 2 * sqrt 2 = 2 /\ 0 < sqrt 2 /\ 1 < sqrt 2 < 2)%R.
Proof.
  assert (S : (sqrt 2 * sqrt 2 = 2)%R) by (apply sqrt_sqrt; lra).
  assert (P : (0 < sqrt 2)%R) by (apply sqrt_lt_R0; lra). split; [exact S|]. split; [exact P|]. split; nra.
Qed.

Lemma guess3_lowest n : 1 <= n <= 3 ->
  lowest_pairs 1 n (fun i j => RtoC (gramH i j)) delta (fst (guess3 n)) (snd (guess3 n)).
Proof.
  intros Hn. destruct sqrt2_facts as (S & P & _).
  assert (Q : (/ sqrt 2 * / sqrt 2 = / 2)%R) by (rewrite <- Rinv_mult, S; reflexivity).
  assert (n = 1 \/ n = 2 \/ n = 3) as [-> | [-> | ->]] by lia; apply lowest_one.
  - intros i Hi. replace i with 0 by lia. apply C_ext; cbn; ring.
  - apply C_ext; cbn; ring.
  - intros v. cbn. nra.
  - intros i Hi. destruct i as [|[|i]]; try lia; apply C_ext; cbn; ring.
  - apply C_ext; cbn; lra.
  - intros v. cbn. generalize (fst (v 0)) (snd (v 0)) (fst (v 1)) (snd (v 1)). intros a b c d.
    pose proof (Rle_0_sqr (a + c)). pose proof (Rle_0_sqr (b + d)). unfold Rsqr in *. lra.
  - intros i Hi. destruct i as [|[|[|i]]]; try lia; apply C_ext; cbn; try ring; lra.
  - apply C_ext; cbn; lra.
  - intros v. cbn. generalize (fst (v 0)) (snd (v 0)) (fst (v 1)) (snd (v 1)) (fst (v 2)) (snd (v 2)). intros a b c d e f.
    generalize dependent (sqrt 2). intros r S P _.
    pose proof (Rle_0_sqr (r * a + c)). pose proof (Rle_0_sqr (r * b + d)).
    pose proof (Rle_0_sqr (r * e - c)). pose proof (Rle_0_sqr (r * f - d)). unfold Rsqr in *.
    nra.
Qed.

Lemma init3 : exists s, dav_init 3 H3 (checked_eigh guess3) 1 (fun _ => basis3 0) = Ok s
  /\ d_evl s 0 = 0%R /\ d_evcred s 0 0 = RtoC 1 /\ forall g, g < 3 -> d_psi s 0 g = basis3 0 g.
Proof.
  destruct (normalize_dir 3 (basis3 0) 1 (basis3 0)) as (u & NU & Hu); [lra|intros; ring|apply gramB_ok; lia|].
  unfold dav_init. cbn [seq map sequence]. rewrite NU. cbn [bind].
  match goal with |- context [update_red 3 ?x] => set (s0 := x) end.
  assert (P0 : d_psi s0 0 = u) by reflexivity.
  assert (G : gram 3 H3 (d_ndim s0) (update_red 3 s0)).
  { apply (update_gram 3 H3 (fun _ => 0%R)).
    - apply le_n.
    - change (gram 3 H3 0 s0). split; intros; lia.
    - intros i g Hi Hg. change (i < 1) in Hi. replace i with 0 by lia. reflexivity. }
  assert (L2 : lowest_pairs 1 1 (herm_lower (d_ham (update_red 3 s0))) (herm_lower (d_ovl (update_red 3 s0)))
       (fst (guess3 1)) (snd (guess3 1))).
  { eapply lowest_ext; [apply (guess3_lowest 1); lia| | |reflexivity|reflexivity].
    - intros i j Hi Hj. replace i with 0 by lia. replace j with 0 by lia.
      rewrite (herm_ham 3 H3 (fun _ => 0%R) H3_hermitian 1 _ 0 0 G) by lia. cbn [update_red d_psi]. rewrite P0.
      rewrite <- gramH_ok by lia. apply wvdot_ext; [intros; symmetry; now apply Hu|]. intros g _. apply happ_ext. intros; symmetry; now apply Hu.
    - intros i j Hi Hj. replace i with 0 by lia. replace j with 0 by lia.
      rewrite (herm_ovl 3 H3 (fun _ => 0%R) 1 _ 0 0 G) by lia. cbn [update_red d_psi]. rewrite P0.
      rewrite <- gramB_ok by lia. apply wvdot_ext; intros; symmetry; now apply Hu. }
  unfold solve_red. change (d_ndim (update_red 3 s0)) with 1.
  unfold checked_eigh at 1. destruct (excluded_middle_informative _) as [|X]; [|contradiction].
  cbn [guess3 bind]. eexists. split; [reflexivity|]. cbn [d_evl d_evlred d_evcred d_psi update_red].
  split; [reflexivity|]. split; [reflexivity|]. rewrite P0. exact Hu.
Qed.

Lemma ext3 s w n : d_ndim s = n -> (forall i g, i < n -> g < 3 -> d_psi s i g = basis3 i g) -> (forall g, g < 3 -> w g = basis3 n g) ->
  forall i g, i < S n -> g < 3 -> ext s w i g = basis3 i g.
Proof.
  intros Hn Hp Hw i g Hi Hg. unfold ext. rewrite Hn. destruct (Nat.ltb_spec i n); [now apply Hp|].
  replace i with n by lia. now apply Hw.
Qed.

(** One more iteration from a state holding the first n of the three basis vectors. *)
Lemma step3 thr s n t : 1 <= n <= 2 -> dinv 3 H3 1 s -> d_ndim s = n -> d_nunc s = 1 -> d_flag s 0 = true ->
  d_evl s 0 = fst (guess3 n) 0 -> (forall j, j < n -> d_evcred s 0 j = snd (guess3 n) 0 j) ->
  (forall i g, i < n -> g < 3 -> d_psi s i g = basis3 i g) -> (0 < t)%R ->
  (forall g, g < 3 -> resid 3 H3 (fst (guess3 n) 0) (combo n (snd (guess3 n) 0) basis3) g = (RtoC t * basis3 n g)%C) ->
  exists s1, dav_pass 3 H3 (fun _ => 0%R) (checked_eigh guess3) 1 thr 4 s = Ok s1
    /\ d_evl s1 0 = fst (guess3 (S n)) 0 /\ (forall j, j < S n -> d_evcred s1 0 j = snd (guess3 (S n)) 0 j)
    /\ (forall i g, i < S n -> g < 3 -> d_psi s1 i g = basis3 i g).
Proof.
  intros Hn I Hd Hu Hf He Hc Hp Ht Hr.
  assert (RZ : forall g, g < 3 -> ritz s 0 g = combo n (snd (guess3 n) 0) basis3 g).
  { intros g Hg. unfold ritz, combo. rewrite Hd. apply csum_ext. intros j Hj. now rewrite Hc, Hp. }
  assert (EX := ext3 s (basis3 n) n Hd Hp (fun g _ => eq_refl)).
  destruct (one_root_pass 3 H3 guess3 thr 4 H3_hermitian s (basis3 n) t) as (s1 & P & E1 & E2 & E3); try assumption.
  - unfold ndim_max. lia.
  - intros g Hg. rewrite <- Hr by exact Hg. unfold resid. rewrite He, RZ by exact Hg.
    rewrite (happ_ext 3 H3 (ritz s 0) (combo n (snd (guess3 n) 0) basis3)) by exact RZ. reflexivity.
  - rewrite gramB_ok by lia. unfold delta. now rewrite Nat.eqb_refl.
  - rewrite Hd. eapply lowest_ext; [apply (guess3_lowest (S n)); lia| | |reflexivity|reflexivity].
    + intros i j Hi Hj. cbv beta. rewrite <- gramH_ok by lia. apply wvdot_ext; [intros; symmetry; apply EX; lia|].
      intros g _. apply happ_ext. intros; symmetry; apply EX; lia.
    + intros i j Hi Hj. cbv beta. rewrite <- gramB_ok by lia. apply wvdot_ext; intros; symmetry; apply EX; lia.
  - exists s1. split; [exact P|]. rewrite Hd in *. split; [now rewrite E1|]. split; [exact E2|].
    intros i g Hi Hg. destruct (Nat.eq_dec i n) as [->|]; [now apply E3|].
    destruct (pass_ok 3 H3 _ _ 1 _ 4 (checked_eigh_contract guess3) s s1 I P) as (_ & _ & _ & Q & _).
    rewrite Q by lia. apply Hp; [lia|exact Hg].
Qed.

(** The whole run: two iterations, eigenvalue -sqrt 2, eigenvector still the start vector. *)
Lemma run3 : exists s, dav_head 3 H3 (fun _ => 0%R) (checked_eigh guess3) 1 (/ 10) 4 (fun _ => basis3 0) 2 s
  /\ d_evl s 0 = (- sqrt 2)%R /\ d_evc s = (fun _ => basis3 0)
  /\ dav_solve 3 H3 (fun _ => 0%R) (checked_eigh guess3) 1 (/ 10) 4 2 (fun _ => basis3 0) = Ok (d_evl s, d_evc s, 2).
Proof.
  destruct sqrt2_facts as (S & P & B1 & B2).
  assert (Q : (/ sqrt 2 * / sqrt 2 = / 2)%R) by (rewrite <- Rinv_mult, S; reflexivity).
  assert (SD : (/ sqrt 2 = sqrt 2 / 2)%R) by (apply (Rmult_eq_reg_l (sqrt 2)); [rewrite Rinv_r; [nra|apply Rgt_not_eq; exact P]|apply Rgt_not_eq; exact P]).
  pose proof (checked_eigh_contract guess3) as HE.
  destruct init3 as (s0 & I0 & A1 & A2 & A3).
  destruct (init_ok 3 H3 (fun _ => 0%R) _ 1 4 HE _ _ I0) as (D0 & N0 & U0 & C0 & F0).
  assert (Hd0 := DH_init 3 H3 (fun _ => 0%R) _ 1 (/ 10) 4 _ _ I0).
  destruct (step3 (/ 10) s0 1 1) as (s1 & P1 & E1 & V1 & W1); try assumption; try lia; try lra.
  { apply F0. }
  { intros j Hj. replace j with 0 by lia. exact A2. }
  { intros i g Hi Hg. replace i with 0 by lia. now apply A3. }
  { intros g Hg. destruct g as [|[|[|g]]]; try lia; apply C_ext; cbn; ring. }
  destruct (pass_ok 3 H3 _ _ 1 _ 4 HE s0 s1 D0 P1) as (D1 & N1 & C1 & _ & _ & F1 & U1).
  assert (T1 : d_flag s1 0 = true).
  { apply F1. rewrite E1, A1. cbn. rewrite Rabs_left; lra. }
  assert (U1' : d_nunc s1 = 1) by (rewrite U1; unfold flagged; cbn [seq filter]; rewrite T1; reflexivity).
  assert (Hd1 : dav_head 3 H3 (fun _ => 0%R) (checked_eigh guess3) 1 (/ 10) 4 (fun _ => basis3 0) 1 s1).
  { apply (DH_go _ _ _ _ _ _ _ _ 0 s0); [exact Hd0|exact P1|lia|unfold ndim_max; lia]. }
  destruct (step3 (/ 10) s1 2 (/ sqrt 2)) as (s2 & P2 & E2 & V2 & W2); try assumption; try lia.
  { now apply Rinv_0_lt_compat. }
  { intros g Hg. destruct g as [|[|[|g]]]; try lia; apply C_ext; cbn; ring. }
  destruct (pass_ok 3 H3 _ _ 1 _ 4 HE s1 s2 D1 P2) as (D2 & N2 & C2 & _ & _ & F2 & U2).
  assert (T2 : d_flag s2 0 = true).
  { apply F2. rewrite E2, E1. cbn. rewrite Rabs_left; [|lra]. assert ((11 / 10) * (11 / 10) < sqrt 2 * sqrt 2)%R by lra. nra. }
  assert (U2' : d_nunc s2 = 1) by (rewrite U2; unfold flagged; cbn [seq filter]; rewrite T2; reflexivity).
  exists s2. split; [|split; [exact E2|split; [congruence|]]].
  - apply (DH_go _ _ _ _ _ _ _ _ 1 s1); [exact Hd1|exact P2|lia|unfold ndim_max; lia].
  - unfold dav_solve. destruct (Rlt_dec 0 (/ 10)); [|lra]. cbn [assert_ bind Nat.ltb Nat.leb]. rewrite I0. cbn [bind dav_loop].
    rewrite P1. cbn [bind]. rewrite U1', N1, N0, U0. cbn [Nat.eqb orb ndim_max Nat.mul Nat.add Nat.ltb Nat.leb].
    rewrite P2. cbn [bind]. rewrite U2', N2, U1', N1, N0, U0. cbn [Nat.eqb orb ndim_max Nat.mul Nat.add Nat.ltb Nat.leb bind fst snd]. reflexivity.
Qed.

(** The same with a coarser threshold and a third iteration allowed: converged in two. *)
Lemma run3_converged : exists evl evc,
  dav_solve 3 H3 (fun _ => 0%R) (checked_eigh guess3) 1 (/ 2) 4 3 (fun _ => basis3 0) = Ok (evl, evc, 2) /\ evl 0 = (- sqrt 2)%R.
Proof.
  destruct sqrt2_facts as (S & P & B1 & B2).
  assert (Q : (/ sqrt 2 * / sqrt 2 = / 2)%R) by (rewrite <- Rinv_mult, S; reflexivity).
  assert (SD : (/ sqrt 2 = sqrt 2 / 2)%R) by (apply (Rmult_eq_reg_l (sqrt 2)); [rewrite Rinv_r; [nra|apply Rgt_not_eq; exact P]|apply Rgt_not_eq; exact P]).
  pose proof (checked_eigh_contract guess3) as HE.
  destruct init3 as (s0 & I0 & A1 & A2 & A3).
  destruct (init_ok 3 H3 (fun _ => 0%R) _ 1 4 HE _ _ I0) as (D0 & N0 & U0 & C0 & F0).
  assert (Hd0 := DH_init 3 H3 (fun _ => 0%R) _ 1 (/ 2) 4 _ _ I0).
  destruct (step3 (/ 2) s0 1 1) as (s1 & P1 & E1 & V1 & W1); try assumption; try lia; try lra.
  { apply F0. }
  { intros j Hj. replace j with 0 by lia. exact A2. }
  { intros i g Hi Hg. replace i with 0 by lia. now apply A3. }
  { intros g Hg. destruct g as [|[|[|g]]]; try lia; apply C_ext; cbn; ring. }
  destruct (pass_ok 3 H3 _ _ 1 _ 4 HE s0 s1 D0 P1) as (D1 & N1 & C1 & _ & _ & F1 & U1).
  assert (T1 : d_flag s1 0 = true).
  { apply F1. rewrite E1, A1. cbn. rewrite Rabs_left; lra. }
  assert (U1' : d_nunc s1 = 1) by (rewrite U1; unfold flagged; cbn [seq filter]; rewrite T1; reflexivity).
  assert (Hd1 : dav_head 3 H3 (fun _ => 0%R) (checked_eigh guess3) 1 (/ 2) 4 (fun _ => basis3 0) 1 s1).
  { apply (DH_go _ _ _ _ _ _ _ _ 0 s0); [exact Hd0|exact P1|lia|unfold ndim_max; lia]. }
  destruct (step3 (/ 2) s1 2 (/ sqrt 2)) as (s2 & P2 & E2 & V2 & W2); try assumption; try lia.
  { now apply Rinv_0_lt_compat. }
  { intros g Hg. destruct g as [|[|[|g]]]; try lia; apply C_ext; cbn; ring. }
  destruct (pass_ok 3 H3 _ _ 1 _ 4 HE s1 s2 D1 P2) as (D2 & N2 & C2 & _ & _ & F2 & U2).
  assert (T2 : d_flag s2 0 = false).
  { apply Bool.not_true_iff_false. intros X. apply F2 in X. rewrite E2, E1 in X. cbn in X. rewrite Rabs_left in X; [|lra].
    assert (sqrt 2 * sqrt 2 < (3 / 2) * (3 / 2))%R by lra. nra. }
  assert (U2' : d_nunc s2 = 0) by (rewrite U2; unfold flagged; cbn [seq filter]; rewrite T2; reflexivity).
  exists (d_evl s2), (d_evc (set_evc s2)). split; [|exact E2].
  unfold dav_solve. destruct (Rlt_dec 0 (/ 2)); [|lra]. cbn [assert_ bind Nat.ltb Nat.leb]. rewrite I0. cbn [bind dav_loop].
  rewrite P1. cbn [bind]. rewrite U1', N1, N0, U0. cbn [Nat.eqb orb ndim_max Nat.mul Nat.add Nat.ltb Nat.leb].
  rewrite P2. cbn [bind]. rewrite U2'. cbn [Nat.eqb orb bind fst snd]. reflexivity.
Qed.
