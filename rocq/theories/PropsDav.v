(** Properties C37, C38, C60: the Davidson eigensolver.
    [eigh_contract] (DavSpec.v) is what scipy.linalg.eigh promises; [dav_head] are the states
    at the head of the loop. *)
From Verif Require Import Base CBase MixSpec MixProofs KSHamProofs DavModel DavSpec DavProofs DavExample.
Open Scope nat_scope.

(** C37.  Distributing rows over a band group of any size and gathering them back is the
    identity: the concatenation of the pieces computed by the processes, in rank order and
    with the counts given to Allgatherv, is exactly the rows start, ..., stop-1; each
    process's slice has the length of its count. *)
Theorem C37_band_scatter : forall A (f : nat -> A) start stop P, 0 < P -> start <= stop ->
  band_rows f start stop P = map f (seq start (stop - start))
  /\ forall q, q < P -> snd (dav_scatter_slice start stop P q) = fst (dav_scatter_slice start stop P q) + dav_bufspec (stop - start) P q
       /\ (start < stop -> start <= fst (dav_scatter_slice start stop P q) /\ snd (dav_scatter_slice start stop P q) <= stop).
Proof.
  intros A f start stop P HP HL. split; [now apply band_rows_eq|]. intros q Hq. unfold dav_scatter_slice, dav_bufspec.
  destruct (Nat.leb_spec stop start) as [L|L]; cbn [fst snd].
  - replace (stop - start) with 0 by lia. rewrite Nat.div_0_l, Nat.mod_0_l by lia. cbn. lia.
  - assert (HP0 : P <> 0) by lia. pose proof (Nat.div_mod (stop - start) P HP0) as DM. pose proof (Nat.mod_upper_bound (stop - start) P HP0) as U.
    revert DM U. generalize ((stop - start) / P) ((stop - start) mod P). intros d r DM U. split; [lia|]. intros _. split; [lia|].
    assert (q * d + d <= P * d) by (rewrite <- Nat.mul_succ_l; apply Nat.mul_le_mono_r; lia).
    destruct (Nat.ltb_spec q r); lia.
Qed.
Print Assumptions C37_band_scatter.

(** C37.  The search space never outgrows its workspace, whatever eigh returns: at every
    head of the loop there is room for the vectors about to be added, so no write ever
    falls outside the work arrays (which would be IndexError). *)
Theorem C37_workspace : forall N Hm hdiag eigh numeig thr numwork evc0, 1 < numwork -> 0 < numeig ->
  (forall it s, dav_head N Hm hdiag eigh numeig thr numwork evc0 it s ->
     numeig <= d_ndim s /\ 0 < d_nunc s <= numeig /\ d_ndim s + d_nunc s <= numwork * numeig)
  /\ forall maxiter, dav_solve N Hm hdiag eigh numeig thr numwork maxiter evc0 <> Err IndexError.
Proof.
  intros N Hm hdiag eigh numeig thr numwork evc0 Hw He. split.
  - intros it s H. apply head_flow in H as (A & B & C & _); [|assumption|assumption]. unfold ndim_max in C. lia.
  - intros maxiter. unfold dav_solve. destruct (Rlt_dec 0 thr); [|discriminate]. cbn [assert_ bind].
    destruct (1 <? numwork); [|discriminate]. cbn [assert_ bind]. destruct (1 <? maxiter); [|discriminate]. cbn [assert_ bind].
    destruct (dav_init N Hm eigh numeig evc0) as [s|e] eqn:EI; cbn [bind].
    + destruct (dav_loop _ _ _ _ _ _ _ _ _ _) as [[s' it]|e] eqn:EL; cbn [bind]; [discriminate|]. intros [= ->].
      apply (loop_err N Hm hdiag eigh numeig thr numwork evc0) in EL as (it0 & s0 & H & E); [|now apply DH_init].
      apply (pass_err _ _ _ _ _ _ _ _ _ _ _ Hw He H) in E as [E|E]; discriminate.
    + intros [= ->]. unfold dav_init in EI. destruct (sequence _) as [rows|e] eqn:ES; cbn [bind] in EI.
      * unfold solve_red in EI. destruct (eigh _ _ _ _) as [[lam c]|]; discriminate.
      * injection EI as ->. apply sequence_err in ES. apply in_map_iff in ES as (i & E & _). apply normalize_err in E. discriminate.
Qed.
Print Assumptions C37_workspace.

(** C37.  The number of iterations reported is between 1 and maxiter. *)
Theorem C37_iterations : forall N Hm hdiag eigh numeig thr numwork maxiter evc0 evl evc it,
  dav_solve N Hm hdiag eigh numeig thr numwork maxiter evc0 = Ok (evl, evc, it) -> 1 <= it <= maxiter.
Proof.
  intros N Hm hdiag eigh numeig thr numwork maxiter evc0 evl evc it. unfold dav_solve.
  destruct (Rlt_dec 0 thr); [|discriminate]. cbn [assert_ bind].
  destruct (1 <? numwork); [|discriminate]. cbn [assert_ bind]. destruct (Nat.ltb_spec 1 maxiter); [|discriminate]. cbn [assert_ bind].
  destruct (dav_init N Hm eigh numeig evc0) as [s|e] eqn:EI; cbn [bind]; [|discriminate].
  destruct (dav_loop _ _ _ _ _ _ _ _ _ _) as [[s' it']|e] eqn:EL; cbn [bind]; [|discriminate]. intros [= _ _ <-]. cbn.
  apply (loop_ok N Hm hdiag eigh numeig thr numwork evc0) in EL; [|now apply DH_init].
  destruct EL as [(it0 & s0 & s1 & A & B & C & D & E & F)|(E & F)]; lia.
Qed.
Print Assumptions C37_iterations.

(** C37.  What an iteration adds: the existing basis vectors stay, and vector number i of
    the new ones is a positive multiple of the preconditioned residual of the i-th
    unconverged root k, that is of (H - e_k) x_k divided componentwise by the preconditioner;
    a root is flagged unconverged exactly when its eigenvalue moved by more than the
    threshold. *)
Theorem C37_expansion : forall N Hm hdiag eigh numeig thr numwork evc0 it s s1, hermitian N Hm -> eigh_contract eigh ->
  dav_head N Hm hdiag eigh numeig thr numwork evc0 it s ->
  dav_pass N Hm hdiag eigh numeig thr numwork s = Ok s1 ->
  (forall i, i < d_ndim s -> d_psi s1 i = d_psi s i)
  /\ (forall i k, i < d_nunc s -> nth_error (filter (d_flag s) (seq 0 numeig)) i = Some k ->
      wvdot N (d_psi s1 (d_ndim s + i)) (d_psi s1 (d_ndim s + i)) = RtoC 1 /\
      exists a : R, (0 < a)%R /\ forall g, g < N ->
        d_psi s1 (d_ndim s + i) g
        = (RtoC a * (resid N Hm (d_evl s k) (ritz s k) g / RtoC (g_denom (hdiag g) (d_evl s k))))%C)
  /\ (forall k, d_flag s1 k = true <-> (thr < Rabs (d_evl s1 k - d_evl s k))%R).
Proof.
  intros N Hm hdiag eigh numeig thr numwork evc0 it s s1 HH HE Hh Hp.
  pose proof (head_inv N Hm hdiag eigh numeig thr numwork HH HE evc0 it s Hh) as I.
  destruct (pass_ok N Hm hdiag eigh numeig thr numwork HE s s1 I Hp) as (_ & _ & _ & P & Q & F & _).
  split; [exact P|]. split; [|exact F]. intros i k Hi Hk. specialize (Q i Hi). unfold new_row in Q.
  apply normalize_ok in Q as (Q1 & a & Ha & Q2). split; [exact Q1|]. exists a. split; [exact Ha|]. intros g Hg. rewrite Q2. f_equal.
  assert (Hkn : k < numeig).
  { apply nth_error_In in Hk. apply filter_In in Hk as [Hk _]. apply in_seq in Hk. lia. }
  cbn [move_unconv d_ndim d_evcred d_evlred d_psi d_hpsi]. rewrite (proj2 (Nat.ltb_lt i (d_nunc s)) Hi).
  assert (En : nth i (flagged numeig (d_flag s)) 0 = k) by (now apply nth_error_nth). rewrite En.
  rewrite <- (di_evl _ _ _ _ I k Hkn). unfold apply_g_psi. f_equal. unfold resid.
  rewrite (happ_ext N Hm (ritz s k) (combo (d_ndim s) (d_evcred s k) (d_psi s))) by reflexivity. rewrite happ_combo.
  unfold ritz. replace (combo (d_ndim s) (d_evcred s k) (d_hpsi s) g) with (combo (d_ndim s) (d_evcred s k) (fun j => happ N Hm (d_psi s j)) g).
  - ring.
  - apply csum_ext. intros j Hj. now rewrite (gr_h _ _ _ _ (di_gram _ _ _ _ I)).
Qed.
Print Assumptions C37_expansion.

(** The preconditioner: its divisor exceeds 1 for every diagonal element and eigenvalue, so
    no component is amplified and none is divided by zero. *)
Theorem C59_preconditioner_divisor : forall h evl : R, (1 < g_denom h evl)%R.
Proof.
  intros h evl. unfold g_denom. set (x := (2 * (h - evl))%R).
  assert (S : (1 - x < sqrt (1 + (x - 1) ^ 2))%R).
  { destruct (Rle_lt_dec 0 (1 - x)) as [L|L].
    - rewrite <- (sqrt_Rsqr (1 - x) L). apply sqrt_lt_1; unfold Rsqr; nra.
    - pose proof (sqrt_pos (1 + (x - 1) ^ 2)). lra. }
  lra.
Qed.
Print Assumptions C59_preconditioner_divisor.
(** Its value: with x = 2 (h - e), the divisor is (1 + x + sqrt(1 + (x - 1)^2)) / 2; it grows with the diagonal element. *)
Theorem C59_preconditioner_value : forall h evl : R,
  let x := (2 * (h - evl))%R in (2 * g_denom h evl = 1 + x + sqrt (1 + (x - 1) * (x - 1)))%R /\
  forall h', (h < h')%R -> (g_denom h evl < g_denom h' evl)%R.
Proof.
  intros h evl x. split; [unfold g_denom; fold x; replace ((x - 1) ^ 2)%R with ((x - 1) * (x - 1))%R by ring; lra|].
  intros h' L. unfold g_denom. fold x. set (y := (2 * (h' - evl))%R). assert (L' : (x < y)%R) by (unfold x, y; lra).
  enough ((x + sqrt (1 + (x - 1) ^ 2) < y + sqrt (1 + (y - 1) ^ 2))%R) by lra.
  set (a := sqrt (1 + (x - 1) ^ 2)). set (b := sqrt (1 + (y - 1) ^ 2)).
  assert (A : (a * a = 1 + (x - 1) ^ 2)%R) by (apply sqrt_sqrt; nra). assert (B : (b * b = 1 + (y - 1) ^ 2)%R) by (apply sqrt_sqrt; nra).
  assert (A0 : (0 < a)%R) by (apply sqrt_lt_R0; nra). assert (B0 : (0 < b)%R) by (apply sqrt_lt_R0; nra).
  assert (HA : (Rabs (x - 1) < a)%R) by (apply Rsqr_incrst_0; [rewrite <- Rsqr_abs; unfold Rsqr; nra|apply Rabs_pos|lra]).
  assert (HB : (Rabs (y - 1) < b)%R) by (apply Rsqr_incrst_0; [rewrite <- Rsqr_abs; unfold Rsqr; nra|apply Rabs_pos|lra]).
  assert (X : ((a - b) * (a + b) = (x - y) * ((x - 1) + (y - 1)))%R) by nra.
  apply Rabs_def2 in HA, HB. destruct HA as [HA1 HA2], HB as [HB1 HB2].
  destruct (Rlt_dec (x + a) (y + b)) as [|N]; [assumption|exfalso]. apply Rnot_lt_le in N.
  assert (((y - x) * (a + b) <= (a - b) * (a + b))%R) by (apply Rmult_le_compat_r; lra). rewrite X in H. nra.
Qed.
Print Assumptions C59_preconditioner_value.

(** C38.  When the loop stops because every root converged, the vectors returned are
    orthonormal Ritz vectors for the values returned: <x_p|x_q> = delta_pq and
    <x_p|H x_q> = e_q delta_pq, with the values in ascending order and none of them moved
    by more than the threshold in the last iteration. *)
Theorem C38_converged : forall N Hm hdiag eigh numeig thr numwork maxiter evc0 evl evc it,
  hermitian N Hm -> eigh_contract eigh ->
  dav_solve N Hm hdiag eigh numeig thr numwork maxiter evc0 = Ok (evl, evc, it) -> it < maxiter ->
  (forall p q, p < numeig -> q < numeig -> wvdot N (evc p) (evc q) = delta p q)
  /\ (forall p q, p < numeig -> q < numeig -> wvdot N (evc p) (happ N Hm (evc q)) = (RtoC (evl q) * delta p q)%C)
  /\ (forall p q, p <= q -> q < numeig -> (evl p <= evl q)%R)
  /\ exists s0, dav_head N Hm hdiag eigh numeig thr numwork evc0 (it - 1) s0
       /\ forall k, k < numeig -> (Rabs (evl k - d_evl s0 k) <= thr)%R.
Proof.
  intros N Hm hdiag eigh numeig thr numwork maxiter evc0 evl evc it HH HE. unfold dav_solve.
  destruct (Rlt_dec 0 thr); [|discriminate]. cbn [assert_ bind].
  destruct (1 <? numwork); [|discriminate]. cbn [assert_ bind]. destruct (Nat.ltb_spec 1 maxiter); [|discriminate]. cbn [assert_ bind].
  destruct (dav_init N Hm eigh numeig evc0) as [s|e] eqn:EI; cbn [bind]; [|discriminate].
  destruct (dav_loop _ _ _ _ _ _ _ _ _ _) as [[s' it']|e] eqn:EL; cbn [bind]; [|discriminate]. intros [= <- <- <-] Hit. cbn [fst snd] in *.
  apply (loop_ok N Hm hdiag eigh numeig thr numwork evc0) in EL; [|now apply DH_init].
  destruct EL as [(it0 & s0 & s1 & A & B & C & D & E & F)|(E & F)]; [|lia]. subst s' it'.
  pose proof (head_inv N Hm hdiag eigh numeig thr numwork HH HE evc0 it0 s0 A) as I0.
  destruct (pass_ok N Hm hdiag eigh numeig thr numwork HE s0 s1 I0 B) as (I & _ & _ & _ & _ & Fl & Nu).
  cbn [set_evc d_evc d_evl]. repeat split.
  - intros p q Hp Hq. now apply (ritz_orth N Hm hdiag numeig).
  - intros p q Hp Hq. now apply (ritz_diag N Hm hdiag numeig HH).
  - intros p q Hpq Hq. rewrite !(di_evl _ _ _ _ I) by lia. now apply (lp_sorted _ _ _ _ _ _ (di_pairs _ _ _ _ I)).
  - exists s0. replace (S it0 - 1) with it0 by lia. split; [exact A|]. intros k Hk.
    destruct (Rle_lt_dec (Rabs (d_evl s1 k - d_evl s0 k)) thr) as [L|L]; [exact L|exfalso].
    apply Fl in L. rewrite C in Nu. symmetry in Nu. apply length_zero_iff_nil in Nu.
    assert (In k (flagged numeig (d_flag s1))) as X by (apply filter_In; split; [apply in_seq; lia|exact L]). rewrite Nu in X. destruct X.
Qed.
Print Assumptions C38_converged.

(** C38.  However the loop stops, every value returned is an upper bound of the exact
    eigenvalue of the same index. *)
Theorem C38_upper_bound : forall N Hm hdiag eigh numeig thr numwork maxiter evc0 evl evc it E U,
  hermitian N Hm -> eigh_contract eigh -> lowest_pairs numeig N Hm delta E U ->
  dav_solve N Hm hdiag eigh numeig thr numwork maxiter evc0 = Ok (evl, evc, it) ->
  forall k, k < numeig -> (E k <= evl k)%R.
Proof.
  intros N Hm hdiag eigh numeig thr numwork maxiter evc0 evl evc it E U HH HE HL Hs k Hk. unfold dav_solve in Hs. revert Hs.
  destruct (Rlt_dec 0 thr); [|discriminate]. cbn [assert_ bind].
  destruct (1 <? numwork); [|discriminate]. cbn [assert_ bind]. destruct (Nat.ltb_spec 1 maxiter); [|discriminate]. cbn [assert_ bind].
  destruct (dav_init N Hm eigh numeig evc0) as [s|e] eqn:EI; cbn [bind]; [|discriminate].
  destruct (dav_loop _ _ _ _ _ _ _ _ _ _) as [[s' it']|e] eqn:EL; cbn [bind]; [|discriminate]. intros [= <- <- <-]. cbn [fst snd] in *.
  assert (G : exists s1, dinv N Hm numeig s1 /\ d_evl s' = d_evl s1).
  { apply (loop_ok N Hm hdiag eigh numeig thr numwork evc0) in EL; [|now apply DH_init].
    destruct EL as [(it0 & s0 & s1 & A & B & C & D & E' & F)|(E' & F)].
    - subst s'. exists s1. split; [|reflexivity]. pose proof (head_inv N Hm hdiag eigh numeig thr numwork HH HE evc0 it0 s0 A) as I0.
      now apply (pass_ok N Hm hdiag eigh numeig thr numwork HE s0 s1 I0 B).
    - exists s'. split; [|reflexivity]. now apply (head_inv N Hm hdiag eigh numeig thr numwork HH HE evc0 it' s' F). }
  destruct G as (s1 & I & ->).
  apply (minmax numeig N Hm delta E U k (ritz s1) (d_evl s1) HL Hk).
  - intros p q Hp Hq. rewrite <- (ritz_orth N Hm hdiag numeig s1 p q I) by lia. unfold qform, wvdot. apply csum_ext. intros i Hi.
    rewrite (csum_ext N _ (fun j => (delta i j * (Cconj (ritz s1 p i) * ritz s1 q j))%C)) by (intros; ring). now rewrite delta_l.
  - intros p q Hp Hq. rewrite <- (ritz_diag N Hm hdiag numeig HH s1 p q I) by lia. unfold qform, wvdot, happ. apply csum_ext. intros i Hi.
    rewrite <- csum_scal. apply csum_ext. intros; ring.
  - intros p Hp. rewrite !(di_evl _ _ _ _ I) by lia. apply (lp_sorted _ _ _ _ _ _ (di_pairs _ _ _ _ I)); lia.
Qed.
Print Assumptions C38_upper_bound.

(** C38.  No eigenvalue estimate ever increases from one iteration to the next, restarts
    included (a restart keeps the estimates). *)
Theorem C38_monotone : forall N Hm hdiag eigh numeig thr numwork evc0 it s s1,
  hermitian N Hm -> eigh_contract eigh ->
  dav_head N Hm hdiag eigh numeig thr numwork evc0 it s ->
  dav_pass N Hm hdiag eigh numeig thr numwork s = Ok s1 ->
  (forall k, k < numeig -> (d_evl s1 k <= d_evl s k)%R)
  /\ forall k, d_evl (restart numeig (set_evc s1)) k = d_evl s1 k.
Proof.
  intros N Hm hdiag eigh numeig thr numwork evc0 it s s1 HH HE Hh Hp. split; [|reflexivity]. intros k Hk.
  pose proof (head_inv N Hm hdiag eigh numeig thr numwork HH HE evc0 it s Hh) as I.
  destruct (pass_ok N Hm hdiag eigh numeig thr numwork HE s s1 I Hp) as (I1 & Nd & _ & P & _).
  rewrite (di_evl _ _ _ _ I1 k Hk).
  (* old coefficients, padded with zeros *)
  pose (y := fun p j => if j <? d_ndim s then d_evcred s p j else RtoC 0).
  assert (Y : forall p g, combo (d_ndim s1) (y p) (d_psi s1) g = ritz s p g).
  { intros p g. unfold combo, ritz, combo. rewrite Nd, csum_app.
    rewrite (csum_zero (d_nunc s)).
    - rewrite Cplus_0_r. apply csum_ext. intros j Hj. unfold y. destruct (Nat.ltb_spec j (d_ndim s)); [|lia]. now rewrite P.
    - intros j Hj. unfold y. destruct (Nat.ltb_spec (d_ndim s + j) (d_ndim s)); [lia|]. ring. }
  apply (minmax numeig (d_ndim s1) _ _ _ _ k y (d_evl s) (di_pairs _ _ _ _ I1) Hk).
  - intros p q Hp' Hq. rewrite (qform_ovl N Hm hdiag _ s1 _ _ (di_gram _ _ _ _ I1)).
    rewrite <- (ritz_orth N Hm hdiag numeig s p q I) by lia. apply wvdot_ext; intros; apply Y.
  - intros p q Hp' Hq. rewrite (qform_ham N Hm hdiag HH _ s1 _ _ (di_gram _ _ _ _ I1)).
    rewrite <- (ritz_diag N Hm hdiag numeig HH s p q I) by lia. apply wvdot_ext; intros; [apply Y|].
    apply happ_ext. intros; apply Y.
  - intros p Hp'. rewrite !(di_evl _ _ _ _ I) by lia. apply (lp_sorted _ _ _ _ _ _ (di_pairs _ _ _ _ I)); lia.
Qed.
Print Assumptions C38_monotone.

(** C38, every exit: the returned vectors are either the caller's own starting vectors,
    untouched, or an orthonormal set of Ritz vectors for values [mu] found at the last
    restart or convergence, and the returned values are at or below [mu]. *)
Theorem C38_every_exit : forall N Hm hdiag eigh numeig thr numwork maxiter evc0 evl evc it,
  hermitian N Hm -> eigh_contract eigh ->
  dav_solve N Hm hdiag eigh numeig thr numwork maxiter evc0 = Ok (evl, evc, it) ->
  it <= maxiter /\
  (evc = evc0 \/ exists mu,
     (forall p q, p < numeig -> q < numeig -> wvdot N (evc p) (evc q) = delta p q)
     /\ (forall p q, p < numeig -> q < numeig -> wvdot N (evc p) (happ N Hm (evc q)) = (RtoC (mu q) * delta p q)%C)
     /\ (forall k, k < numeig -> (evl k <= mu k)%R)
     /\ (it < maxiter -> forall k, k < numeig -> evl k = mu k)).
Proof.
  intros N Hm hdiag eigh numeig thr numwork maxiter evc0 evl evc it HH HE. unfold dav_solve.
  destruct (Rlt_dec 0 thr); [|discriminate]. cbn [assert_ bind].
  destruct (1 <? numwork); [|discriminate]. cbn [assert_ bind]. destruct (Nat.ltb_spec 1 maxiter); [|discriminate]. cbn [assert_ bind].
  destruct (dav_init N Hm eigh numeig evc0) as [s|e] eqn:EI; cbn [bind]; [|discriminate].
  destruct (dav_loop _ _ _ _ _ _ _ _ _ _) as [[s' it']|e] eqn:EL; cbn [bind]; [|discriminate]. intros [= <- <- <-]. cbn [fst snd] in *.
  apply (loop_ok N Hm hdiag eigh numeig thr numwork evc0) in EL; [|now apply DH_init].
  destruct EL as [(it0 & s0 & s1 & A & B & C & D & E & F)|(E & F)].
  - subst s' it'. split; [lia|]. right. exists (d_evl s1).
    pose proof (head_inv N Hm hdiag eigh numeig thr numwork HH HE evc0 it0 s0 A) as I0.
    destruct (pass_ok N Hm hdiag eigh numeig thr numwork HE s0 s1 I0 B) as (I & _).
    cbn [set_evc d_evc d_evl]. split; [intros p q Hp Hq; now apply (ritz_orth N Hm hdiag numeig)|].
    split; [intros p q Hp Hq; now apply (ritz_diag N Hm hdiag numeig HH)|]. split; [intros; lra|reflexivity].
  - subst it'. split; [lia|].
    assert (G : forall it s, dav_head N Hm hdiag eigh numeig thr numwork evc0 it s ->
       d_evc s = evc0 \/ exists mu,
         (forall p q, p < numeig -> q < numeig -> wvdot N (d_evc s p) (d_evc s q) = delta p q)
         /\ (forall p q, p < numeig -> q < numeig -> wvdot N (d_evc s p) (happ N Hm (d_evc s q)) = (RtoC (mu q) * delta p q)%C)
         /\ (forall k, k < numeig -> (d_evl s k <= mu k)%R)).
    { intros i x Hd. induction Hd as [x Hx|i x s1 Hd IH Hp _ _|i x s1 Hd IH Hp _ _].
      - left. now eapply (init_ok N Hm hdiag eigh numeig) in Hx.
      - pose proof (head_inv N Hm hdiag eigh numeig thr numwork HH HE evc0 i x Hd) as I0.
        destruct (pass_ok N Hm hdiag eigh numeig thr numwork HE x s1 I0 Hp) as (_ & _ & Ev & _).
        destruct (C38_monotone N Hm hdiag eigh numeig thr numwork evc0 i x s1 HH HE Hd Hp) as [Mo _].
        rewrite Ev. destruct IH as [IH|(mu & I1 & I2 & I3)]; [now left|right]. exists mu.
        split; [exact I1|]. split; [exact I2|]. intros k Hk. eapply Rle_trans; [now apply Mo|now apply I3].
      - right. exists (d_evl s1).
        pose proof (head_inv N Hm hdiag eigh numeig thr numwork HH HE evc0 i x Hd) as I0.
        destruct (pass_ok N Hm hdiag eigh numeig thr numwork HE x s1 I0 Hp) as (I & _).
        cbn [restart set_evc d_evc d_evl]. split; [intros p q Hp' Hq; now apply (ritz_orth N Hm hdiag numeig)|].
        split; [intros p q Hp' Hq; now apply (ritz_diag N Hm hdiag numeig HH)|]. intros; lra. }
    destruct (G _ _ F) as [K|(mu & I1 & I2 & I3)]; [now left|right]. exists mu.
    split; [exact I1|]. split; [exact I2|]. split; [exact I3|]. lia.
Qed.
Print Assumptions C38_every_exit.

(** C38 fails when maxiter stops the loop: the values are those of the last iteration, the
    vectors are older (here: still the starting vector, whose energy is 0, returned with
    the value -sqrt 2). *)
Theorem C38_last_iteration_refuted : exists N Hm hdiag eigh thr numwork maxiter evc0 evl evc,
  hermitian N Hm /\ eigh_contract eigh
  /\ dav_solve N Hm hdiag eigh 1 thr numwork maxiter evc0 = Ok (evl, evc, maxiter)
  /\ wvdot N (evc 0) (evc 0) = RtoC 1
  /\ wvdot N (evc 0) (happ N Hm (evc 0)) = RtoC 0 /\ evl 0 = (- sqrt 2)%R.
Proof.
  destruct run3 as (s & _ & E & C & R).
  exists 3, H3, (fun _ => 0%R), (checked_eigh guess3), (/ 10)%R, 4, 2, (fun _ => basis3 0), (d_evl s), (d_evc s).
  split; [exact H3_hermitian|]. split; [apply checked_eigh_contract|]. split; [exact R|]. rewrite C.
  split; [apply gramB_ok; lia|]. split; [apply gramH_ok; lia|exact E].
Qed.
Print Assumptions C38_last_iteration_refuted.

(** C38, in general for that exit: unless the very last pass restarted the basis, the vectors
    returned are untouched by it - they are those the state held before. *)
Theorem C38_vectors_stale : forall N Hm hdiag eigh numeig thr numwork evc0 it s s1,
  dav_head N Hm hdiag eigh numeig thr numwork evc0 it s ->
  dav_pass N Hm hdiag eigh numeig thr numwork s = Ok s1 -> d_evc s1 = d_evc s.
Proof. intros N Hm hdiag eigh numeig thr numwork evc0 it s s1 _ H. now apply pass_flow in H as (_ & _ & _ & H). Qed.
Print Assumptions C38_vectors_stale.

(** C60.  Started from exact (orthonormal) eigenvectors the solver never returns: the
    residuals are zero and are divided by their norm. *)
Theorem C60_exact_start_refuted : forall N Hm hdiag eigh numeig thr numwork maxiter evc0 (E : nat -> R),
  hermitian N Hm -> eigh_contract eigh -> 0 < numeig ->
  (forall p q, p < numeig -> q < numeig -> wvdot N (evc0 p) (evc0 q) = delta p q) ->
  (forall p g, p < numeig -> g < N -> happ N Hm (evc0 p) g = (RtoC (E p) * evc0 p g)%C) ->
  forall r, dav_solve N Hm hdiag eigh numeig thr numwork maxiter evc0 <> Ok r.
Proof.
  intros N Hm hdiag eigh numeig thr numwork maxiter evc0 E HH HE He Ho Hev r. unfold dav_solve.
  destruct (Rlt_dec 0 thr); [|discriminate]. cbn [assert_ bind].
  destruct (Nat.ltb_spec 1 numwork) as [Hw|]; [|discriminate]. cbn [assert_ bind]. destruct (Nat.ltb_spec 1 maxiter) as [Hx|]; [|discriminate]. cbn [assert_ bind].
  destruct (dav_init N Hm eigh numeig evc0) as [s|e] eqn:EI; cbn [bind]; [|discriminate].
  destruct maxiter as [|maxiter]; [lia|]. cbn [dav_loop].
  destruct (dav_pass N Hm hdiag eigh numeig thr numwork s) as [s1|e] eqn:EP; cbn [bind]; [exfalso|discriminate].
  destruct (init_ok N Hm hdiag eigh numeig numwork HE _ _ EI) as (I & Nd & Nu & _ & Fl).
  (* basis vectors of the initial state *)
  assert (PS : forall i g, i < numeig -> g < N -> d_psi s i g = evc0 i g).
  { unfold dav_init in EI. destruct (sequence _) as [rows|] eqn:ES; [|discriminate]. cbn [bind] in EI.
    match type of EI with context [update_red N ?x] => set (s0 := x) in * end.
    destruct (solve_red eigh numeig (update_red N s0)) as [s2|] eqn:ER; [|discriminate]. cbn [bind] in EI. injection EI as <-.
    assert (Ps : d_psi s2 = d_psi s0).
    { unfold solve_red in ER. destruct (eigh _ _ _ _) as [[lam c]|]; [|discriminate]. now injection ER as <-. }
    intros i g Hi Hg. cbn [d_psi]. rewrite Ps. unfold s0. cbn [d_psi]. apply sequence_ok_nth in ES as [Hl ES].
    rewrite map_length, seq_length in Hl, ES. unfold put_rows. rewrite Hl. cbn [Nat.leb andb plus].
    destruct (Nat.ltb_spec i numeig); [|lia]. rewrite Nat.sub_0_r.
    specialize (ES i (Err ValueError) (fun _ => RtoC 0) Hi).
    rewrite (nth_indep _ _ (normalize N (evc0 0))), (map_nth (fun i => normalize N (evc0 i))), seq_nth in ES
      by (rewrite ?map_length, ?seq_length; lia). cbn [plus] in ES.
    destruct (normalize_dir N (evc0 i) 1 (evc0 i)) as (u & NU & Hu); [lra|intros; ring| |].
    - rewrite Ho by assumption. unfold delta. now rewrite Nat.eqb_refl.
    - rewrite ES in NU. injection NU as NU. rewrite <- (Hu g Hg), <- NU. reflexivity. }
  (* the first row to be added has zero residual *)
  destruct (C37_expansion N Hm hdiag eigh numeig thr numwork evc0 0 s s1 HH HE) as (_ & X & _); [now apply DH_init|exact EP|].
  destruct (X 0 0) as (U & a & _ & XX); [lia| |].
  { destruct numeig as [|n]; [lia|]. cbn [seq filter]. rewrite Fl. reflexivity. }
  assert (GH : forall i j, i < numeig -> j < numeig -> herm_lower (d_ham s) i j = (RtoC (E j) * delta i j)%C).
  { intros i j Hi Hj. rewrite (herm_ham N Hm hdiag HH numeig s i j) by (assumption || (rewrite <- Nd; apply (di_gram _ _ _ _ I))).
    rewrite <- (Ho i j Hi Hj). unfold wvdot. rewrite <- csum_scal. apply csum_ext. intros g Hg.
    rewrite (happ_ext N Hm (d_psi s j) (evc0 j)) by (intros; now apply PS). rewrite Hev, PS by assumption. ring. }
  assert (GB : forall i j, i < numeig -> j < numeig -> herm_lower (d_ovl s) i j = delta i j).
  { intros i j Hi Hj. rewrite (herm_ovl N Hm hdiag numeig s i j) by (assumption || (rewrite <- Nd; apply (di_gram _ _ _ _ I))).
    rewrite <- (Ho i j Hi Hj). apply wvdot_ext; intros; now apply PS. }
  assert (Z : forall g, g < N -> resid N Hm (d_evl s 0) (ritz s 0) g = RtoC 0).
  { intros g Hg. unfold resid, ritz. rewrite happ_combo. unfold combo. rewrite Nd, <- csum_scal, <- csum_minus.
    apply csum_zero. intros j Hj. rewrite (happ_ext N Hm (d_psi s j) (evc0 j)) by (intros; now apply PS).
    rewrite Hev, PS by assumption. rewrite (di_evl _ _ _ _ I 0 He).
    pose proof (lp_eig _ _ _ _ _ _ (di_pairs _ _ _ _ I) 0 j He) as Eg. rewrite Nd in Eg. specialize (Eg Hj).
    rewrite (csum_ext numeig _ (fun j' => (delta j j' * (RtoC (E j') * d_evcred s 0 j'))%C)) in Eg by (intros; rewrite GH by assumption; ring).
    rewrite (csum_ext numeig (fun j' => (herm_lower (d_ovl s) j j' * d_evcred s 0 j')%C) (fun j' => (delta j j' * d_evcred s 0 j')%C)) in Eg
      by (intros; rewrite GB by assumption; ring).
    rewrite !delta_l in Eg by exact Hj.
    transitivity ((RtoC (E j) * d_evcred s 0 j - RtoC (d_evlred s 0) * d_evcred s 0 j) * evc0 j g)%C; [ring|]. rewrite Eg. ring. }
  assert (W : wvdot N (d_psi s1 (d_ndim s + 0)) (d_psi s1 (d_ndim s + 0)) = RtoC 0).
  { apply csum_zero. intros g Hg. rewrite XX, Z by exact Hg. unfold Cdiv. ring. }
  rewrite W in U. apply (f_equal fst) in U. cbn in U. lra.
Qed.
Print Assumptions C60_exact_start_refuted.

(** Non-vacuity: a contract-abiding eigh and a run that converges before maxiter; exact
    eigenvectors to start from (H = 0 on two plane waves). *)
Example C38_nonvacuous : hermitian 3 H3 /\ eigh_contract (checked_eigh guess3) /\
  exists evl evc, dav_solve 3 H3 (fun _ => 0%R) (checked_eigh guess3) 1 (/ 2) 4 3 (fun _ => basis3 0) = Ok (evl, evc, 2)
    /\ evl 0 = (- sqrt 2)%R.
Proof. split; [exact H3_hermitian|]. split; [apply checked_eigh_contract|]. exact run3_converged. Qed.
Example C37_nonvacuous : exists s, dav_head 3 H3 (fun _ => 0%R) (checked_eigh guess3) 1 (/ 10) 4 (fun _ => basis3 0) 2 s.
Proof. destruct run3 as (s & H & _). now exists s. Qed.
Example C37_scatter_witness : map (fun q => dav_scatter_slice 3 10 4 q) [0; 1; 2; 3] = [(3, 5); (5, 7); (7, 9); (9, 10)]
  /\ band_rows (fun i => i) 3 10 4 = [3; 4; 5; 6; 7; 8; 9].
Proof. vm_compute. split; reflexivity. Qed.
Example C38_exact_pairs_exist : lowest_pairs 1 3 (fun i j => RtoC (gramH i j)) delta (fst (guess3 3)) (snd (guess3 3)).
Proof. apply guess3_lowest. lia. Qed.
Example C60_nonvacuous : let Hz : mat := fun _ _ => RtoC 0 in hermitian 2 Hz
  /\ (forall p q, p < 2 -> q < 2 -> wvdot 2 (delta p) (delta q) = delta p q)
  /\ forall p g, p < 2 -> g < 2 -> happ 2 Hz (delta p) g = (RtoC 0 * delta p g)%C.
Proof.
  split; [intros i j _ _; apply C_ext; cbn; ring|]. split.
  2:{ intros p g _ _. apply C_ext; cbn; ring. }
  intros p q Hp Hq. destruct p as [|[|p]], q as [|[|q]]; try lia; apply C_ext; cbn; ring.
Qed.

(** The hypothesis on the Hamiltonian holds for every collinear Kohn-Sham Hamiltonian with a
    real potential and Hermitian D matrices (C46). *)
Theorem C38_ksham_is_hermitian : forall nx ny nz h, KSHamSpec.self_adjoint_data h ->
  hermitian (length (GIndexModel.gs_cryst (KSHamModel.kh_gs h))) (KSHamSpec.hamiltonian nx ny nz h).
Proof. intros nx ny nz h SA i j Hi Hj. now apply hamiltonian_hermitian. Qed.
Print Assumptions C38_ksham_is_hermitian.
