(** Lemmas for the Davidson properties. *)
From Verif Require Import Base CBase MixSpec MixProofs KSHamProofs DavModel DavSpec.
Open Scope nat_scope.

(* ------------------------------------------------------------------ *)
(** Row scattering. *)
Lemma concat_seq_blocks (st cnt : nat -> nat) s0 : forall P,
  st 0 = s0 -> (forall q, st (S q) = st q + cnt q) ->
  concat (map (fun q => seq (st q) (cnt q)) (seq 0 P)) = seq s0 (st P - s0) /\ s0 <= st P.
Proof.
  intros P H0 HS. induction P as [|P [IH L]].
  - rewrite H0, Nat.sub_diag. split; [reflexivity|lia].
  - rewrite seq_S, map_app, concat_app, IH. cbn [map concat plus]. rewrite app_nil_r, HS.
    replace (st P + cnt P - s0) with ((st P - s0) + cnt P) by lia. rewrite seq_app.
    replace (s0 + (st P - s0)) with (st P) by lia. split; [reflexivity|lia].
Qed.

Lemma dav_pieces sl_start sl_stop P : 0 < P -> sl_start <= sl_stop ->
  concat (map (fun q => seq (fst (dav_scatter_slice sl_start sl_stop P q)) (dav_bufspec (sl_stop - sl_start) P q)) (seq 0 P))
  = seq sl_start (sl_stop - sl_start).
Proof.
  intros HP HL. unfold dav_scatter_slice. destruct (Nat.leb_spec sl_stop sl_start) as [E|E].
  - replace (sl_stop - sl_start) with 0 by lia. unfold dav_bufspec.
    rewrite Nat.div_0_l, Nat.mod_0_l by lia. cbn [seq].
    induction (seq 0 P) as [|q l IH]; [reflexivity|]. cbn. exact IH.
  - cbn [fst]. set (len := sl_stop - sl_start).
    assert (HP0 : P <> 0) by lia. assert (HLen : sl_start + len = sl_stop) by (unfold len; lia).
    pose proof (Nat.div_mod len P HP0) as DM. pose proof (Nat.mod_upper_bound len P HP0) as U. clearbody len.
    unfold dav_bufspec. revert DM U. generalize (len / P) (len mod P). intros d r DM U.
    destruct (concat_seq_blocks (fun q => sl_start + q * d + Nat.min q r) (fun q => d + (if q <? r then 1 else 0)) sl_start P) as [A B].
    + cbn. lia.
    + intros q. rewrite Nat.mul_succ_l. destruct (Nat.ltb_spec q r); lia.
    + rewrite A. f_equal. rewrite Nat.min_r by lia. rewrite (Nat.mul_comm P d). lia.
Qed.

Lemma band_rows_eq {A} (f : nat -> A) sl_start sl_stop P : 0 < P -> sl_start <= sl_stop ->
  band_rows f sl_start sl_stop P = map f (seq sl_start (sl_stop - sl_start)).
Proof.
  intros HP HL. unfold band_rows. rewrite <- (dav_pieces sl_start sl_stop P HP HL).
  rewrite concat_map, map_map. reflexivity.
Qed.

(* ------------------------------------------------------------------ *)
(** Linear algebra. *)
Lemma wvdot_ext N u u' v v' : (forall g, g < N -> u g = u' g) -> (forall g, g < N -> v g = v' g) ->
  wvdot N u v = wvdot N u' v'.
Proof. intros Hu Hv. apply csum_ext. intros g Hg. now rewrite Hu, Hv. Qed.

Lemma wvdot_conj N u v : Cconj (wvdot N u v) = wvdot N v u.
Proof. unfold wvdot. rewrite csum_conj. apply csum_ext. intros g _. rewrite Cmult_conj, Cconj_conj. ring. Qed.

Lemma wvdot_herm N Hm u v : hermitian N Hm -> wvdot N u (happ N Hm v) = Cconj (wvdot N v (happ N Hm u)).
Proof.
  intros HH. unfold wvdot, happ. rewrite csum_conj.
  transitivity (csum N (fun g => csum N (fun g' => (Cconj (u g) * Hm g g' * v g')%C))).
  - apply csum_ext. intros g _. rewrite <- csum_scal. apply csum_ext. intros; ring.
  - rewrite csum_swap. apply csum_ext. intros g' Hg'. rewrite Cmult_conj, Cconj_conj, csum_conj, <- csum_scal.
    apply csum_ext. intros g Hg. rewrite Cmult_conj, <- (HH g' g) by assumption. ring.
Qed.

Lemma wvdot_combo_r N n u c psi : wvdot N u (combo n c psi) = csum n (fun j => (c j * wvdot N u (psi j))%C).
Proof.
  unfold wvdot, combo. transitivity (csum N (fun g => csum n (fun j => (c j * (Cconj (u g) * psi j g))%C))).
  - apply csum_ext. intros g _. rewrite <- csum_scal. apply csum_ext. intros; ring.
  - rewrite csum_swap. apply csum_ext. intros j _. now rewrite csum_scal.
Qed.

Lemma wvdot_combo N n m a b psi phi : wvdot N (combo n a psi) (combo m b phi)
  = csum n (fun i => csum m (fun j => (Cconj (a i) * wvdot N (psi i) (phi j) * b j)%C)).
Proof.
  rewrite <- wvdot_conj, wvdot_combo_r, csum_conj. apply csum_ext. intros i _.
  rewrite Cmult_conj, wvdot_conj, wvdot_combo_r, <- csum_scal. apply csum_ext. intros; ring.
Qed.

Lemma happ_combo N Hm n c psi g : happ N Hm (combo n c psi) g = combo n c (fun j => happ N Hm (psi j)) g.
Proof.
  unfold happ, combo. transitivity (csum N (fun g' => csum n (fun j => (c j * (Hm g g' * psi j g'))%C))).
  - apply csum_ext. intros g' _. rewrite <- csum_scal. apply csum_ext. intros; ring.
  - rewrite csum_swap. apply csum_ext. intros j _. now rewrite csum_scal.
Qed.

Lemma happ_ext N Hm u v g : (forall g', g' < N -> u g' = v g') -> happ N Hm u g = happ N Hm v g.
Proof. intros H. apply csum_ext. intros g' Hg. now rewrite H. Qed.

Lemma qform_ext n M M' u u' v v' :
  (forall i j, i < n -> j < n -> M i j = M' i j) -> (forall i, i < n -> u i = u' i) -> (forall i, i < n -> v i = v' i) ->
  qform n M u v = qform n M' u' v'.
Proof.
  intros HM Hu Hv. apply csum_ext. intros i Hi. apply csum_ext. intros j Hj. now rewrite HM, Hu, Hv.
Qed.

(** Re <v|v> is non-negative. *)
Lemma conj_self (z : C) : (Cconj z * z = RtoC (fst z * fst z + snd z * snd z))%C.
Proof. destruct z as [x y]. apply C_ext; cbn; ring. Qed.
Lemma wvdot_self N v : wvdot N v v = RtoC (rsum N (fun g => fst (v g) * fst (v g) + snd (v g) * snd (v g))%R).
Proof. unfold wvdot. rewrite <- csum_RtoC. apply csum_ext. intros; apply conj_self. Qed.
Lemma wvdot_nonneg N v : (0 <= fst (wvdot N v v))%R.
Proof. rewrite wvdot_self. cbn. apply rsum_nonneg. intros; nra. Qed.
Lemma rsum_zero_all n f : (forall i, i < n -> (0 <= f i)%R) -> rsum n f = 0%R -> forall i, i < n -> f i = 0%R.
Proof.
  induction n as [|n IH]; intros Hf H i Hi; [lia|]. cbn [rsum] in H.
  pose proof (rsum_nonneg n f ltac:(intros; apply Hf; lia)) as P. pose proof (Hf n ltac:(lia)) as Q.
  destruct (Nat.eq_dec i n) as [->|]; [lra|]. apply IH; [intros; apply Hf; lia|lra|lia].
Qed.
Lemma wvdot_zero N v : fst (wvdot N v v) = 0%R -> forall g, g < N -> v g = RtoC 0.
Proof.
  rewrite wvdot_self. cbn. intros H g Hg.
  apply rsum_zero_all with (i := g) in H; [|intros; nra|exact Hg]. apply C_ext; cbn; nra.
Qed.

Lemma wvdot_scal_real N a v : wvdot N (fun g => RtoC a * v g)%C (fun g => RtoC a * v g)%C = (RtoC (a * a) * wvdot N v v)%C.
Proof.
  unfold wvdot. rewrite <- csum_scal. apply csum_ext. intros g _. rewrite Cmult_conj, RtoC_mult.
  replace (Cconj (RtoC a)) with (RtoC a) by (apply C_ext; cbn; ring). ring.
Qed.
Lemma normalize_ok N v u : normalize N v = Ok u -> wvdot N u u = RtoC 1
  /\ exists a : R, (0 < a)%R /\ forall g, u g = (RtoC a * v g)%C.
Proof.
  unfold normalize. destruct (Req_EM_T _ _) as [|Hn]; [discriminate|]. intros [= <-].
  pose proof (wvdot_nonneg N v) as P.
  assert (S : (0 < sqrt (fst (wvdot N v v)))%R) by (apply sqrt_lt_R0; lra).
  pose proof (sqrt_sqrt _ P) as SS.
  assert (EN : wvdot N v v = RtoC (fst (wvdot N v v))) by (rewrite wvdot_self; reflexivity).
  revert S SS EN Hn. generalize (sqrt (fst (wvdot N v v))). generalize (fst (wvdot N v v)) at 1 2 3. intros n2 s S SS EN Hn.
  assert (EV : forall g, (v g / RtoC s = RtoC (/ s) * v g)%C).
  { intros g. unfold Cdiv. rewrite <- RtoC_inv by (apply Rgt_not_eq; exact S). ring. }
  split.
  - rewrite (wvdot_ext N _ (fun g => RtoC (/ s) * v g)%C _ (fun g => RtoC (/ s) * v g)%C) by (intros; apply EV).
    rewrite wvdot_scal_real, EN, <- RtoC_mult. f_equal. rewrite <- SS. field. apply Rgt_not_eq; exact S.
  - exists (/ s)%R. split; [now apply Rinv_0_lt_compat|exact EV].
Qed.

(** k homogeneous equations in k+1 unknowns have a non-zero solution. *)
Lemma homogeneous : forall k (M : nat -> nat -> C), exists w : nat -> C,
  (exists i, i < S k /\ w i <> RtoC 0) /\ forall l, l < k -> csum (S k) (fun i => (M l i * w i)%C) = RtoC 0.
Proof.
  induction k as [|k IH]; intros M.
  - exists (fun _ => RtoC 1). split; [|intros; lia]. exists 0. split; [lia|]. intros E. apply (f_equal fst) in E. cbn in E. lra.
  - assert (D : (forall l, l < S k -> M l (S k) = RtoC 0) \/ exists p, p < S k /\ M p (S k) <> RtoC 0).
    { assert (DD : forall m, (forall l, l < m -> M l (S k) = RtoC 0) \/ exists p, p < m /\ M p (S k) <> RtoC 0).
      { induction m as [|m [A|(p & P & Q)]]; [left; intros; lia| |right; exists p; split; [lia|exact Q]].
        destruct (Ceq_dec (M m (S k)) (RtoC 0)) as [E|E]; [left|right; exists m; split; [lia|exact E]].
        intros l Hl. destruct (Nat.eq_dec l m) as [->|]; [exact E|apply A; lia]. }
      apply DD. }
    destruct D as [Z|(p & Hp & Hn)].
    + exists (fun i => delta i (S k)). split.
      * exists (S k). split; [lia|]. unfold delta. rewrite Nat.eqb_refl. intros E. apply (f_equal fst) in E. cbn in E. lra.
      * intros l Hl. rewrite delta_r by lia. now apply Z.
    + pose (sk := fun l => if l <? p then l else S l).
      destruct (IH (fun l i => (M (sk l) i - M (sk l) (S k) * M p i / M p (S k))%C)) as (w & (i0 & Hi0 & Hw) & E).
      pose (w' := fun i => if i <? S k then w i else (- csum (S k) (fun i => M p i * w i) / M p (S k))%C).
      assert (EW : forall l, csum (S (S k)) (fun i => (M l i * w' i)%C)
         = (csum (S k) (fun i => M l i * w i) - M l (S k) * csum (S k) (fun i => M p i * w i) / M p (S k))%C).
      { intros l. change (csum (S (S k)) (fun i => (M l i * w' i)%C)) with (csum (S k) (fun i => (M l i * w' i)%C) + M l (S k) * w' (S k))%C.
        rewrite (csum_ext (S k) _ (fun i => (M l i * w i)%C)).
        2:{ intros i Hi. unfold w'. destruct (Nat.ltb_spec i (S k)); [reflexivity|lia]. }
        unfold w'. rewrite Nat.ltb_irrefl. unfold Cdiv. ring. }
      exists w'. split.
      * exists i0. split; [lia|]. unfold w'. destruct (Nat.ltb_spec i0 (S k)); [exact Hw|lia].
      * intros l Hl. rewrite EW. destruct (Nat.eq_dec l p) as [->|Hlp].
        -- generalize (csum (S k) (fun i => (M p i * w i)%C)). intros x. transitivity (x - x * (M p (S k) * / M p (S k)))%C; [unfold Cdiv; ring|].
           rewrite Cinv_r by exact Hn. ring.
        -- assert (exists l', l' < k /\ sk l' = l) as (l' & Hl' & <-).
           { exists (if l <? p then l else l - 1). unfold sk.
             destruct (Nat.ltb_spec l p) as [L|L]; [destruct (Nat.ltb_spec l p); lia|].
             destruct (Nat.ltb_spec (l - 1) p); lia. }
           specialize (E l' Hl'). rewrite <- E. unfold Cdiv.
           rewrite (csum_ext (S k) (fun i => ((M (sk l') i - M (sk l') (S k) * M p i * / M p (S k)) * w i)%C)
             (fun i => (M (sk l') i * w i - (M (sk l') (S k) * / M p (S k)) * (M p i * w i))%C)) by (intros; ring).
           rewrite csum_minus, csum_scal. ring.
Qed.

(* ------------------------------------------------------------------ *)
Lemma qform_combo_r n M u m w y : qform n M u (combo m w y) = csum m (fun q => (w q * qform n M u (y q))%C).
Proof.
  unfold qform, combo.
  transitivity (csum n (fun i => csum m (fun q => (w q * csum n (fun j => Cconj (u i) * M i j * y q j))%C))).
  - apply csum_ext. intros i _.
    transitivity (csum n (fun j => csum m (fun q => (w q * (Cconj (u i) * M i j * y q j))%C))).
    + apply csum_ext. intros j _. rewrite <- csum_scal. apply csum_ext. intros; ring.
    + rewrite csum_swap. apply csum_ext. intros q _. now rewrite csum_scal.
  - rewrite csum_swap. apply csum_ext. intros q _. now rewrite csum_scal.
Qed.
Lemma qform_combo_l n M u m w y : qform n M (combo m w y) u = csum m (fun q => (Cconj (w q) * qform n M (y q) u)%C).
Proof.
  unfold qform, combo.
  transitivity (csum n (fun i => csum m (fun q => (Cconj (w q) * csum n (fun j => Cconj (y q i) * M i j * u j))%C))).
  - apply csum_ext. intros i _. rewrite csum_conj.
    transitivity (csum n (fun j => csum m (fun q => (Cconj (w q) * (Cconj (y q i) * M i j * u j))%C))).
    + apply csum_ext. intros j _. rewrite <- !csum_scal_r. apply csum_ext. intros q _. rewrite Cmult_conj. ring.
    + rewrite csum_swap. apply csum_ext. intros q _. now rewrite csum_scal.
  - rewrite csum_swap. apply csum_ext. intros q _. now rewrite csum_scal.
Qed.

Lemma qform_diag n M m w y (mu : nat -> R) :
  (forall p q, p < m -> q < m -> qform n M (y p) (y q) = (RtoC (mu q) * delta p q)%C) ->
  fst (qform n M (combo m w y) (combo m w y)) = rsum m (fun q => mu q * (fst (w q) * fst (w q) + snd (w q) * snd (w q)))%R.
Proof.
  intros H. rewrite qform_combo_l.
  rewrite (csum_ext m _ (fun p => RtoC (mu p * (fst (w p) * fst (w p) + snd (w p) * snd (w p))))).
  - now rewrite csum_RtoC.
  - intros p Hp. rewrite qform_combo_r.
    rewrite (csum_ext m _ (fun q => (delta p q * (w q * RtoC (mu q)))%C)) by (intros q Hq; rewrite H by assumption; ring).
    rewrite delta_l by exact Hp. rewrite RtoC_mult, <- conj_self. ring.
Qed.

(** The k-th lowest eigenvalue is at most the largest of k+1 Rayleigh quotients taken on
    vectors diagonalising both forms. *)
Lemma minmax m n A B lam c k y mu : lowest_pairs m n A B lam c -> k < m ->
  (forall p q, p <= k -> q <= k -> qform n B (y p) (y q) = delta p q) ->
  (forall p q, p <= k -> q <= k -> qform n A (y p) (y q) = (RtoC (mu q) * delta p q)%C) ->
  (forall p, p <= k -> (mu p <= mu k)%R) -> (lam k <= mu k)%R.
Proof.
  intros L Hk HB HA Hmu.
  destruct (homogeneous k (fun l i => qform n B (c l) (y i))) as (w & (i0 & Hi0 & Hw) & E).
  assert (P := lp_least _ _ _ _ _ _ L k (combo (S k) w y) Hk).
  assert (O : forall l, l < k -> qform n B (c l) (combo (S k) w y) = RtoC 0).
  { intros l Hl. rewrite qform_combo_r. rewrite <- (E l Hl). apply csum_ext. intros; ring. }
  specialize (P O).
  rewrite (qform_diag n B (S k) w y (fun _ => 1%R)) in P by (intros; rewrite HB by lia; ring).
  rewrite (qform_diag n A (S k) w y mu) in P by (intros; apply HA; lia).
  pose (sq := fun q => (fst (w q) * fst (w q) + snd (w q) * snd (w q))%R).
  change (lam k * rsum (S k) (fun q => 1 * sq q) <= rsum (S k) (fun q => mu q * sq q))%R in P.
  rewrite (rsum_ext (S k) (fun q => 1 * sq q)%R sq) in P by (intros; ring).
  assert (U : (rsum (S k) (fun q => mu q * sq q) <= mu k * rsum (S k) sq)%R).
  { rewrite <- rsum_scal. apply rsum_le. intros i Hi. apply Rmult_le_compat_r; [unfold sq; nra|apply Hmu; lia]. }
  assert (Pos : (0 < rsum (S k) sq)%R).
  { destruct (Rle_lt_or_eq_dec 0 (rsum (S k) sq)) as [?|Z]; [apply rsum_nonneg; intros; unfold sq; nra|assumption|].
    exfalso. apply Hw. symmetry in Z. apply rsum_zero_all with (i := i0) in Z; [|intros; unfold sq; nra|exact Hi0].
    unfold sq in Z. apply C_ext; cbn; nra. }
  nra.
Qed.

Lemma lowest_ext m n A A' B B' lam lam' c c' : lowest_pairs m n A B lam c ->
  (forall i j, i < n -> j < n -> A i j = A' i j) -> (forall i j, i < n -> j < n -> B i j = B' i j) ->
  (forall k, k < m -> lam k = lam' k) -> (forall k j, k < m -> j < n -> c k j = c' k j) ->
  lowest_pairs m n A' B' lam' c'.
Proof.
  intros L HA HB Hl Hc. split.
  - intros k i Hk Hi. rewrite <- Hl by exact Hk.
    rewrite (csum_ext n _ (fun j => (A i j * c k j)%C)) by (intros; rewrite HA, Hc by assumption; reflexivity).
    rewrite (csum_ext n (fun j => (B' i j * c' k j)%C) (fun j => (B i j * c k j)%C)) by (intros; rewrite HB, Hc by assumption; reflexivity).
    now apply (lp_eig _ _ _ _ _ _ L).
  - intros k l Hk Hl'. rewrite <- (lp_orth _ _ _ _ _ _ L k l Hk Hl'). symmetry.
    apply qform_ext; [exact HB| |]; intros; now apply Hc.
  - intros k l Hkl Hl'. rewrite <- !Hl by lia. now apply (lp_sorted _ _ _ _ _ _ L).
  - intros k v Hk Hv. rewrite <- Hl by exact Hk.
    rewrite <- (qform_ext n B B' v v v v HB ltac:(reflexivity) ltac:(reflexivity)).
    rewrite <- (qform_ext n A A' v v v v HA ltac:(reflexivity) ltac:(reflexivity)).
    apply (lp_least _ _ _ _ _ _ L k v Hk). intros l Hl'. rewrite <- (Hv l Hl').
    apply qform_ext; [exact HB| |reflexivity]. intros; apply Hc; [lia|assumption].
Qed.

(** The eigenvector equation gives a diagonal form. *)
Lemma lowest_diag m n A B lam c p q : lowest_pairs m n A B lam c -> p < m -> q < m ->
  qform n A (c p) (c q) = (RtoC (lam q) * delta p q)%C.
Proof.
  intros L Hp Hq. rewrite <- (lp_orth _ _ _ _ _ _ L p q Hp Hq). unfold qform. rewrite <- csum_scal.
  apply csum_ext. intros i Hi.
  rewrite (csum_ext n _ (fun j => (Cconj (c p i) * (A i j * c q j))%C)) by (intros; ring).
  rewrite (csum_ext n (fun j => (Cconj (c p i) * B i j * c q j)%C) (fun j => (Cconj (c p i) * (B i j * c q j))%C)) by (intros; ring).
  rewrite !csum_scal, (lp_eig _ _ _ _ _ _ L q i Hq Hi). ring.
Qed.

  Lemma sequence_ok_nth {A} (l : list (res A)) r : sequence l = Ok r ->
    length r = length l /\ forall i d d', i < length l -> nth i l d = Ok (nth i r d').
  Proof.
    revert r. induction l as [|x l IH]; intros r; cbn [sequence]; [intros [= <-]; split; [reflexivity|cbn; intros; lia]|].
    destruct x as [a|]; [|discriminate]. cbn [bind]. destruct (sequence l) as [r'|]; [|discriminate]. intros [= <-].
    destruct (IH r' eq_refl) as [L E]. split; [cbn; lia|]. intros [|i] d d' Hi; [reflexivity|]. cbn. apply E. cbn in Hi. lia.
  Qed.

  (** The result of [expand_psi]. *)
  Lemma expand_ok N Hm hdiag numeig numwork s s' : expand_psi N Hm hdiag numeig numwork s = Ok s' ->
    d_ndim s + d_nunc s <= ndim_max numeig numwork
    /\ d_ndim s' = d_ndim s + d_nunc s /\ d_nunc s' = d_nunc s
    /\ d_ham s' = d_ham s /\ d_ovl s' = d_ovl s /\ d_evl s' = d_evl s /\ d_evc s' = d_evc s
    /\ (forall i, i < d_ndim s -> d_psi s' i = d_psi s i /\ d_hpsi s' i = d_hpsi s i)
    /\ (forall i, i < d_nunc s -> new_row N hdiag s i = Ok (d_psi s' (d_ndim s + i))
          /\ d_hpsi s' (d_ndim s + i) = happ N Hm (d_psi s' (d_ndim s + i))).
  Proof.
    unfold expand_psi. destruct (Nat.ltb_spec (ndim_max numeig numwork) (d_ndim s + d_nunc s)) as [|L]; [discriminate|].
    destruct (sequence _) as [rows|] eqn:E; [|discriminate]. cbn [bind]. intros [= <-]. cbn.
    apply sequence_ok_nth in E as [Hl E]. rewrite map_length, seq_length in Hl.
    repeat (split; [reflexivity || exact L|]). split.
    - intros i Hi. unfold put_rows. destruct (Nat.leb_spec (d_ndim s) i); [lia|]. split; reflexivity.
    - intros i Hi. specialize (E i (Err ValueError) (fun _ => RtoC 0)). rewrite map_length, seq_length in E. specialize (E Hi).
      rewrite (nth_indep _ _ (new_row N hdiag s 0)), (map_nth (new_row N hdiag s)), seq_nth in E by (rewrite ?map_length, ?seq_length; lia).
      unfold put_rows. rewrite map_length, Hl. destruct (Nat.leb_spec (d_ndim s) (d_ndim s + i)); [|lia].
      destruct (Nat.ltb_spec (d_ndim s + i) (d_ndim s + d_nunc s)); [|lia]. cbn [andb].
      replace (d_ndim s + i - d_ndim s) with i by lia. split; [exact E|].
      now rewrite (nth_indep (map (happ N Hm) rows) _ (happ N Hm (fun _ => RtoC 0))), (map_nth (happ N Hm)) by (rewrite map_length; lia).
  Qed.

(* ------------------------------------------------------------------ *)
Section Inv.
  Variables (N : nat) (Hm : mat) (hdiag : nat -> R) (eigh : eigh_t) (numeig : nat) (thr : R) (numwork : nat).
  Hypothesis HH : hermitian N Hm.
  Hypothesis HE : eigh_contract eigh.

  (** The reduced matrices hold the Gram matrices of the first [n] basis vectors. *)
  Record gram (n : nat) (s : dav) : Prop := {
    gr_h : forall i g, i < n -> g < N -> d_hpsi s i g = happ N Hm (d_psi s i) g;
    gr_ham : forall i j, i < n -> j <= i -> d_ham s i j = wvdot N (d_psi s i) (happ N Hm (d_psi s j));
    gr_ovl : forall i j, i < n -> j <= i -> d_ovl s i j = wvdot N (d_psi s i) (d_psi s j) }.

  Lemma herm_ham n s i j : gram n s -> i < n -> j < n ->
    herm_lower (d_ham s) i j = wvdot N (d_psi s i) (happ N Hm (d_psi s j)).
  Proof.
    intros G Hi Hj. unfold herm_lower. destruct (Nat.ltb_spec j i); [apply (gr_ham _ _ G); lia|].
    destruct (Nat.ltb_spec i j).
    - rewrite (gr_ham _ _ G) by lia. now rewrite <- wvdot_herm.
    - replace j with i by lia. rewrite (gr_ham _ _ G) by lia.
      apply C_ext; cbn [fst snd RtoC]; [reflexivity|].
      pose proof (f_equal snd (wvdot_herm N Hm (d_psi s i) (d_psi s i) HH)) as E. cbn in E. symmetry.
      unfold wvdot in *. lra.
  Qed.
  Lemma herm_ovl n s i j : gram n s -> i < n -> j < n ->
    herm_lower (d_ovl s) i j = wvdot N (d_psi s i) (d_psi s j).
  Proof.
    intros G Hi Hj. unfold herm_lower. destruct (Nat.ltb_spec j i); [apply (gr_ovl _ _ G); lia|].
    destruct (Nat.ltb_spec i j).
    - rewrite (gr_ovl _ _ G) by lia. now rewrite wvdot_conj.
    - replace j with i by lia. rewrite (gr_ovl _ _ G) by lia. rewrite wvdot_self. reflexivity.
  Qed.

  Lemma qform_ham n s u v : gram n s ->
    qform n (herm_lower (d_ham s)) u v = wvdot N (combo n u (d_psi s)) (happ N Hm (combo n v (d_psi s))).
  Proof.
    intros G. rewrite (wvdot_ext N _ (combo n u (d_psi s)) _ (combo n v (fun j => happ N Hm (d_psi s j))))
      by (intros; reflexivity || apply happ_combo).
    rewrite wvdot_combo. apply csum_ext. intros i Hi. apply csum_ext. intros j Hj. now rewrite (herm_ham n s i j G).
  Qed.
  Lemma qform_ovl n s u v : gram n s ->
    qform n (herm_lower (d_ovl s)) u v = wvdot N (combo n u (d_psi s)) (combo n v (d_psi s)).
  Proof.
    intros G. rewrite wvdot_combo. apply csum_ext. intros i Hi. apply csum_ext. intros j Hj. now rewrite (herm_ovl n s i j G).
  Qed.

  Definition ritz (s : dav) (k : nat) : vec := combo (d_ndim s) (d_evcred s k) (d_psi s).

  Record dinv (s : dav) : Prop := {
    di_gram : gram (d_ndim s) s;
    di_pairs : lowest_pairs numeig (d_ndim s) (herm_lower (d_ham s)) (herm_lower (d_ovl s)) (d_evlred s) (d_evcred s);
    di_evl : forall k, k < numeig -> d_evl s k = d_evlred s k }.

  Lemma ritz_orth s p q : dinv s -> p < numeig -> q < numeig -> wvdot N (ritz s p) (ritz s q) = delta p q.
  Proof.
    intros I Hp Hq. unfold ritz. rewrite <- (qform_ovl _ s _ _ (di_gram s I)). now apply (lp_orth _ _ _ _ _ _ (di_pairs s I)).
  Qed.
  Lemma ritz_diag s p q : dinv s -> p < numeig -> q < numeig ->
    wvdot N (ritz s p) (happ N Hm (ritz s q)) = (RtoC (d_evl s q) * delta p q)%C.
  Proof.
    intros I Hp Hq. unfold ritz. rewrite <- (qform_ham _ s _ _ (di_gram s I)), (di_evl s I) by exact Hq.
    now apply (lowest_diag _ _ _ _ _ _ _ _ (di_pairs s I)).
  Qed.

  Lemma solve_red_pairs s s' : solve_red eigh numeig s = Ok s' -> gram (d_ndim s) s ->
    d_ndim s' = d_ndim s /\ d_nunc s' = d_nunc s /\ d_psi s' = d_psi s /\ d_evl s' = d_evl s /\ d_evc s' = d_evc s
    /\ gram (d_ndim s') s' /\ lowest_pairs numeig (d_ndim s') (herm_lower (d_ham s')) (herm_lower (d_ovl s')) (d_evlred s') (d_evcred s').
  Proof.
    unfold solve_red. destruct (eigh _ _ _ _) as [[lam c]|] eqn:E; [|discriminate]. intros [= <-] G.
    cbn [d_ndim d_nunc d_psi d_evl d_evc d_ham d_ovl d_evcred d_evlred].
    repeat (split; [reflexivity|]). split; [destruct G; split; assumption|].
    apply HE in E. eapply lowest_ext; [exact E| | | |]; try reflexivity.
    intros k j _ Hj. destruct (Nat.ltb_spec j (d_ndim s)); [reflexivity|lia].
  Qed.

  Lemma update_gram s : d_nunc s <= d_ndim s -> gram (d_ndim s - d_nunc s) s ->
    (forall i g, i < d_ndim s -> g < N -> d_hpsi s i g = happ N Hm (d_psi s i) g) ->
    gram (d_ndim s) (update_red N s).
  Proof.
    intros Hn G H. split; cbn [update_red d_hpsi d_psi d_ham d_ovl].
    - exact H.
    - intros i j Hi Hj. destruct (Nat.leb_spec (d_ndim s - d_nunc s) i) as [L|L].
      + destruct (Nat.ltb_spec i (d_ndim s)); [|lia]. destruct (Nat.ltb_spec j (d_ndim s)); [|lia]. cbn [andb].
        apply wvdot_ext; [reflexivity|]. intros g Hg. apply H; [lia|exact Hg].
      + cbn [andb]. apply (gr_ham _ _ G); lia.
    - intros i j Hi Hj. destruct (Nat.leb_spec (d_ndim s - d_nunc s) i) as [L|L].
      + destruct (Nat.ltb_spec i (d_ndim s)); [|lia]. destruct (Nat.ltb_spec j (d_ndim s)); [|lia]. reflexivity.
      + cbn [andb]. apply (gr_ovl _ _ G); lia.
  Qed.

  Lemma pass_ok s s1 : dinv s -> dav_pass N Hm hdiag eigh numeig thr numwork s = Ok s1 ->
    dinv s1 /\ d_ndim s1 = d_ndim s + d_nunc s /\ d_evc s1 = d_evc s
    /\ (forall i, i < d_ndim s -> d_psi s1 i = d_psi s i)
    /\ (forall i, i < d_nunc s -> new_row N hdiag (move_unconv numeig s) i = Ok (d_psi s1 (d_ndim s + i)))
    /\ (forall k, d_flag s1 k = true <-> (thr < Rabs (d_evl s1 k - d_evl s k))%R)
    /\ d_nunc s1 = length (flagged numeig (d_flag s1)).
  Proof.
    intros I. unfold dav_pass. destruct (expand_psi _ _ _ _ _ _) as [se|] eqn:EE; [|discriminate]. cbn [bind].
    apply expand_ok in EE as (EL & E1 & E2 & E3 & E4 & E5 & E6 & E7 & E8). cbn in E1, E2, E3, E4, E5, E6, E7, E8, EL.
    destruct (solve_red eigh numeig (update_red N se)) as [s2|] eqn:ES; [|discriminate]. cbn [bind]. intros [= <-].
    assert (G : gram (d_ndim (update_red N se)) (update_red N se)).
    { cbn [update_red d_ndim]. apply update_gram.
      - lia.
      - replace (d_ndim se - d_nunc se) with (d_ndim s) by lia. destruct (di_gram s I) as [G1 G2 G3]. split.
        + intros i g Hi Hg. destruct (E7 i Hi) as [-> ->]. now apply G1.
        + intros i j Hi Hj. rewrite E3. destruct (E7 i Hi) as [-> _]. destruct (E7 j ltac:(lia)) as [-> _]. now apply G2.
        + intros i j Hi Hj. rewrite E4. destruct (E7 i Hi) as [-> _]. destruct (E7 j ltac:(lia)) as [-> _]. now apply G3.
      - intros i g Hi Hg. destruct (Nat.lt_ge_cases i (d_ndim s)) as [L|L].
        + destruct (E7 i L) as [-> ->]. now apply (gr_h _ _ (di_gram s I)).
        + replace i with (d_ndim s + (i - d_ndim s)) by lia. destruct (E8 (i - d_ndim s) ltac:(lia)) as [_ ->]. reflexivity. }
    apply solve_red_pairs in ES as (S1 & S2 & S3 & S4 & S5 & S6 & S7); [|exact G].
    cbn [update_red d_ndim d_nunc d_psi d_evl d_evc] in S1, S2, S3, S4, S5.
    split; [|repeat split].
    - split; cbn; [|exact S7|reflexivity]. destruct S6; split; assumption.
    - cbn. lia.
    - cbn. congruence.
    - intros i Hi. cbn. rewrite S3. now apply E7.
    - intros i Hi. cbn. rewrite S3. now apply E8.
    - cbn. rewrite S4, E5. destruct (Rlt_dec _ _); [auto|discriminate].
    - cbn. rewrite S4, E5. destruct (Rlt_dec _ _); [auto|contradiction].
  Qed.

  Lemma init_ok evc0 s : dav_init N Hm eigh numeig evc0 = Ok s -> dinv s /\ d_ndim s = numeig /\ d_nunc s = numeig
    /\ d_evc s = evc0 /\ (forall k, d_flag s k = true).
  Proof.
    unfold dav_init. destruct (sequence _) as [rows|] eqn:ER; [|discriminate]. cbn [bind].
    apply sequence_ok_nth in ER as [Hl _]. rewrite map_length, seq_length in Hl.
    match goal with |- context [update_red N ?x] => set (s0 := x) end.
    destruct (solve_red eigh numeig (update_red N s0)) as [s1|] eqn:ES; [|discriminate]. cbn [bind]. intros [= <-].
    assert (G : gram (d_ndim (update_red N s0)) (update_red N s0)).
    { cbn [update_red d_ndim]. apply update_gram.
      - cbn. lia.
      - cbn. rewrite Nat.sub_diag. split; intros; lia.
      - intros i g Hi Hg. cbn in Hi |- *. unfold put_rows. rewrite map_length, Hl. cbn [Nat.leb andb plus].
        destruct (Nat.ltb_spec i numeig); [|lia]. rewrite Nat.sub_0_r.
        now rewrite (nth_indep (map (happ N Hm) rows) _ (happ N Hm (fun _ => RtoC 0))), (map_nth (happ N Hm)) by (rewrite map_length; lia). }
    assert (Fl : d_flag s1 = d_flag s0).
    { unfold solve_red in ES. destruct (eigh _ _ _ _) as [[lam c]|]; [|discriminate]. now injection ES as <-. }
    apply solve_red_pairs in ES as (S1 & S2 & S3 & S4 & S5 & S6 & S7); [|exact G]. cbn in S1, S2, S3, S4, S5.
    split; [split; cbn; [destruct S6; split; assumption|exact S7|reflexivity]|]. cbn. repeat split; try assumption.
    intros k. now rewrite Fl.
  Qed.

  Lemma restart_inv s : dinv s -> dinv (restart numeig (set_evc s)).
  Proof.
    intros I. split; cbn [restart set_evc d_ndim d_nunc d_hpsi d_psi d_ham d_ovl d_evcred d_evlred d_evl d_evc].
    - split; cbn [restart set_evc d_ndim d_nunc d_hpsi d_psi d_ham d_ovl d_evcred d_evlred d_evl d_evc].
      + intros i g Hi Hg. destruct (Nat.ltb_spec i numeig); [|lia]. rewrite happ_combo. apply csum_ext. intros j Hj.
        now rewrite (gr_h _ _ (di_gram s I)).
      + intros i j Hi Hj. destruct (Nat.ltb_spec i numeig); [|lia]. destruct (Nat.ltb_spec j numeig); [|lia].
        fold (ritz s i) (ritz s j). rewrite ritz_diag by (assumption || lia). unfold delta. rewrite andb_true_r.
        destruct (Nat.eqb_spec i j) as [->|]; ring.
      + intros i j Hi Hj. destruct (Nat.ltb_spec i numeig); [|lia]. destruct (Nat.ltb_spec j numeig); [|lia].
        fold (ritz s i) (ritz s j). rewrite ritz_orth by (assumption || lia). unfold delta. rewrite andb_true_r. reflexivity.
    - (* diagonal problem *)
      assert (EI : forall i j, i < numeig -> j < numeig ->
        herm_lower (fun i j => if (i =? j) && (i <? numeig) then RtoC 1 else RtoC 0) i j = delta i j).
      { intros i j Hi Hj. unfold herm_lower, delta.
        destruct (Nat.ltb_spec j i); [destruct (Nat.eqb_spec i j); [lia|]; reflexivity|].
        destruct (Nat.ltb_spec i j); [destruct (Nat.eqb_spec j i), (Nat.eqb_spec i j); try lia; apply C_ext; cbn; ring|].
        rewrite Nat.eqb_refl. destruct (Nat.ltb_spec i numeig); [|lia]. destruct (Nat.eqb_spec i j); [reflexivity|lia]. }
      assert (EH : forall i j, i < numeig -> j < numeig ->
        herm_lower (fun i j => if (i =? j) && (i <? numeig) then RtoC (d_evl s i) else RtoC 0) i j = (RtoC (d_evl s i) * delta i j)%C).
      { intros i j Hi Hj. unfold herm_lower, delta.
        destruct (Nat.ltb_spec j i); [destruct (Nat.eqb_spec i j); [lia|]; cbn [andb]; ring|].
        destruct (Nat.ltb_spec i j); [destruct (Nat.eqb_spec j i), (Nat.eqb_spec i j); try lia; apply C_ext; cbn; ring|].
        rewrite Nat.eqb_refl. destruct (Nat.ltb_spec i numeig); [|lia]. destruct (Nat.eqb_spec i j); [cbn; ring|lia]. }
      assert (EC : forall k j, k < numeig -> j < numeig -> delta k j = (if (k =? j) && (k <? numeig) then RtoC 1 else RtoC 0)).
      { intros k j Hk Hj. unfold delta. destruct (Nat.ltb_spec k numeig); [|lia]. now rewrite andb_true_r. }
      eapply lowest_ext with (A := fun i j => (RtoC (d_evl s i) * delta i j)%C) (B := delta) (lam := d_evl s) (c := delta);
        [|intros; symmetry; now apply EH|intros; symmetry; now apply EI|exact (di_evl s I)|exact EC].
      assert (QD : forall (mu : nat -> R) u v, qform numeig (fun i j => (RtoC (mu i) * delta i j)%C) u v
                 = csum numeig (fun i => (Cconj (u i) * RtoC (mu i) * v i)%C)).
      { intros mu u v. apply csum_ext. intros i Hi.
        rewrite (csum_ext numeig _ (fun j => (delta i j * (Cconj (u i) * RtoC (mu i) * v j))%C)) by (intros; ring).
        now rewrite delta_l. }
      assert (QI : forall u v, qform numeig delta u v = csum numeig (fun i => (Cconj (u i) * v i)%C)).
      { intros u v. rewrite (qform_ext numeig delta (fun i j => (RtoC 1 * delta i j)%C) u u v v) by (intros; reflexivity || ring).
        rewrite (QD (fun _ => 1%R)). apply csum_ext. intros; ring. }
      split.
      + intros k i Hk Hi. rewrite delta_l by exact Hi.
        rewrite (csum_ext numeig _ (fun j => (delta i j * (RtoC (d_evl s i) * delta k j))%C)) by (intros; ring).
        rewrite delta_l by exact Hi. unfold delta. destruct (Nat.eqb_spec k i) as [->|]; ring.
      + intros k l Hk Hl. rewrite QI. rewrite (csum_ext numeig _ (fun i => (delta k i * delta l i)%C)) by (intros; now rewrite delta_conj).
        rewrite delta_l by exact Hk. apply delta_sym.
      + intros k l Hkl Hl. rewrite !(di_evl s I) by lia. now apply (lp_sorted _ _ _ _ _ _ (di_pairs s I)).
      + intros k v Hk Hv. rewrite QI, QD.
        assert (Z : forall l, l < k -> v l = RtoC 0).
        { intros l Hl. specialize (Hv l Hl). rewrite QI in Hv.
          rewrite (csum_ext numeig _ (fun i => (delta l i * v i)%C)) in Hv by (intros; now rewrite delta_conj).
          rewrite delta_l in Hv by lia. exact Hv. }
        rewrite !csum_re, <- rsum_scal. apply rsum_le. intros i Hi.
        destruct (Nat.lt_ge_cases i k) as [L|L]; [rewrite (Z i L); cbn; lra|].
        assert (d_evl s k <= d_evl s i)%R by (rewrite !(di_evl s I) by lia; apply (lp_sorted _ _ _ _ _ _ (di_pairs s I)); lia).
        rewrite conj_self. replace (Cconj (v i) * RtoC (d_evl s i) * v i)%C with (RtoC (d_evl s i) * (Cconj (v i) * v i))%C by ring.
        rewrite conj_self, <- RtoC_mult. cbn. nra.
    - exact (di_evl s I).
  Qed.

  Lemma head_inv evc0 it s : dav_head N Hm hdiag eigh numeig thr numwork evc0 it s -> dinv s.
  Proof.
    induction 1 as [s H|it s s1 _ IH H _ _|it s s1 _ IH H _ _].
    - now apply init_ok in H.
    - now apply (pass_ok s s1 IH) in H.
    - apply (pass_ok s s1 IH) in H. apply restart_inv, H.
  Qed.

End Inv.

(* ------------------------------------------------------------------ *)
Lemma flagged_le numeig flag : length (flagged numeig flag) <= numeig.
  Proof.
    unfold flagged. rewrite <- (seq_length numeig 0) at 2. induction (seq 0 numeig) as [|x l IH]; [reflexivity|].
    cbn [filter]. destruct (flag x); cbn [length]; lia.
  Qed.

(** Bounds and control flow; nothing is assumed of eigh here. *)
Section Flow.
  Variables (N : nat) (Hm : mat) (hdiag : nat -> R) (eigh : eigh_t) (numeig : nat) (thr : R) (numwork : nat).
  Notation pass := (dav_pass N Hm hdiag eigh numeig thr numwork).
  Notation head := (dav_head N Hm hdiag eigh numeig thr numwork).

  Lemma solve_red_flow s s' : solve_red eigh numeig s = Ok s' ->
    d_ndim s' = d_ndim s /\ d_nunc s' = d_nunc s /\ d_flag s' = d_flag s /\ d_evc s' = d_evc s.
  Proof. unfold solve_red. destruct (eigh _ _ _ _) as [[lam c]|]; [|discriminate]. intros [= <-]. cbn. auto. Qed.

  Lemma pass_flow s s1 : pass s = Ok s1 ->
    d_ndim s + d_nunc s <= ndim_max numeig numwork /\ d_ndim s1 = d_ndim s + d_nunc s
    /\ d_nunc s1 = length (flagged numeig (d_flag s1)) /\ d_evc s1 = d_evc s.
  Proof.
    unfold dav_pass. destruct (expand_psi _ _ _ _ _ _) as [se|] eqn:EE; [|discriminate]. cbn [bind].
    apply expand_ok in EE as (EL & E1 & _ & _ & _ & _ & E6 & _). cbn in EL, E1, E6.
    destruct (solve_red eigh numeig (update_red N se)) as [s2|] eqn:ES; [|discriminate]. cbn [bind]. intros [= <-].
    apply solve_red_flow in ES as (S1 & _ & _ & S4). cbn in S1, S4 |- *. repeat split; lia || congruence.
  Qed.

  Lemma head_flow evc0 it s : 1 < numwork -> 0 < numeig -> head evc0 it s ->
    numeig <= d_ndim s /\ 0 < d_nunc s <= numeig /\ d_ndim s + d_nunc s <= ndim_max numeig numwork
    /\ d_nunc s = length (flagged numeig (d_flag s)).
  Proof.
    intros Hw He. unfold ndim_max. induction 1 as [s H|it s s1 _ IH H Hn Hd|it s s1 _ IH H Hn Hd].
    - unfold dav_init in H. destruct (sequence _) as [rows|]; [|discriminate]. cbn [bind] in H.
      match type of H with context [update_red N ?x] => set (s0 := x) in * end.
      destruct (solve_red eigh numeig (update_red N s0)) as [s1|] eqn:ES; [|discriminate]. cbn [bind] in H. injection H as <-.
      apply solve_red_flow in ES as (S1 & S2 & S3 & _). cbn in S1, S2, S3 |- *. rewrite S1, S2, S3.
      split; [lia|]. split; [lia|]. split; [nia|]. unfold flagged. rewrite <- (seq_length numeig 0) at 1. f_equal.
      induction (seq 0 numeig) as [|x l IH]; [reflexivity|]. cbn. now rewrite <- IH.
    - apply pass_flow in H as (P1 & P2 & P3 & _). pose proof (flagged_le numeig (d_flag s1)). unfold ndim_max in *. lia.
    - apply pass_flow in H as (P1 & P2 & P3 & _). pose proof (flagged_le numeig (d_flag s1)). cbn. nia.
  Qed.

  Lemma normalize_err v e : normalize N v = Err e -> e = ValueError.
  Proof. unfold normalize. destruct (Req_EM_T _ _); [|discriminate]. now intros [= <-]. Qed.
  Lemma sequence_err {A} (l : list (res A)) e : sequence l = Err e -> In (Err e) l.
  Proof.
    induction l as [|x l IH]; cbn [sequence]; [discriminate|]. destruct x as [a|e']; cbn [bind]; [|intros [= <-]; now left].
    destruct (sequence l); [discriminate|]. cbn [bind]. intros [= <-]. right. now apply IH.
  Qed.
  Lemma pass_err evc0 it s e : 1 < numwork -> 0 < numeig -> head evc0 it s -> pass s = Err e -> e = ValueError \/ e = RuntimeError.
  Proof.
    intros Hw He H. apply head_flow in H as (_ & _ & H & _); [|assumption|assumption].
    unfold dav_pass, expand_psi. cbn [move_unconv d_ndim d_nunc].
    destruct (Nat.ltb_spec (ndim_max numeig numwork) (d_ndim s + d_nunc s)); [lia|].
    destruct (sequence _) as [rows|e'] eqn:E; cbn [bind].
    - match goal with |- context [solve_red eigh numeig (update_red N ?x)] => set (s0 := x) end.
      unfold solve_red. destruct (eigh _ _ _ _) as [[lam c]|]; cbn [bind]; [discriminate|]. intros [= <-]. now right.
    - intros [= <-]. left. apply sequence_err in E. apply in_map_iff in E as (i & E & _). unfold new_row in E. now apply normalize_err in E.
  Qed.

  (** How the loop ends. *)
  Lemma loop_ok evc0 fuel : forall it s s' it', head evc0 it s ->
    dav_loop N Hm hdiag eigh numeig thr numwork fuel it s = Ok (s', it') ->
    (exists it0 s0 s1, head evc0 it0 s0 /\ pass s0 = Ok s1 /\ d_nunc s1 = 0 /\ s' = set_evc s1 /\ it' = S it0 /\ it <= it0 < it + fuel)
    \/ (it' = it + fuel /\ head evc0 it' s').
  Proof.
    induction fuel as [|fuel IH]; intros it s s' it' H; cbn [dav_loop].
    - intros [= <- <-]. right. rewrite Nat.add_0_r. now split.
    - destruct (pass s) as [s1|] eqn:EP; [|discriminate]. cbn [bind].
      destruct (Nat.eqb_spec (d_nunc s1) 0) as [Z|Z]; cbn [orb].
      + intros [= <- <-]. left. exists it, s, s1. repeat split; try assumption; lia.
      + destruct (Nat.ltb_spec (ndim_max numeig numwork) (d_ndim s1 + d_nunc s1)) as [L|L]; intros E.
        * apply IH in E; [|now apply (DH_restart _ _ _ _ _ _ _ _ it s s1)].
          destruct E as [(it0 & s0 & s2 & A & B & C & D & E & F)|(E & F)]; [left; exists it0, s0, s2|right]; repeat split; try assumption; lia.
        * apply IH in E; [|now apply (DH_go _ _ _ _ _ _ _ _ it s s1)].
          destruct E as [(it0 & s0 & s2 & A & B & C & D & E & F)|(E & F)]; [left; exists it0, s0, s2|right]; repeat split; try assumption; lia.
  Qed.
  Lemma loop_err evc0 fuel : forall it s e, head evc0 it s ->
    dav_loop N Hm hdiag eigh numeig thr numwork fuel it s = Err e -> exists it0 s0, head evc0 it0 s0 /\ pass s0 = Err e.
  Proof.
    induction fuel as [|fuel IH]; intros it s e H; cbn [dav_loop]; [discriminate|].
    destruct (pass s) as [s1|e'] eqn:EP; cbn [bind]; [|intros [= <-]; eauto].
    destruct (Nat.eqb_spec (d_nunc s1) 0) as [Z|Z]; cbn [orb]; [discriminate|].
    destruct (Nat.ltb_spec (ndim_max numeig numwork) (d_ndim s1 + d_nunc s1)) as [L|L]; intros E.
    - apply IH in E; [exact E|now apply (DH_restart _ _ _ _ _ _ _ _ it s s1)].
    - apply IH in E; [exact E|now apply (DH_go _ _ _ _ _ _ _ _ it s s1)].
  Qed.
End Flow.
