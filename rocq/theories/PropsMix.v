(** Properties C31, C32, C33, C57: density mixing. *)
From Coq Require Import Lra.
From Verif Require DavProofs.
From Verif Require Import Base CBase MixModel MixSpec MixProofs.
Open Scope nat_scope.

Lemma slot_surj N M j : 0 < M -> j < Nat.min N M ->
  exists k, 1 <= k /\ k < S N /\ N < k + M /\ (k - 1) mod M = j.
Proof.
  intros HM Hj.
  destruct (Nat.le_gt_cases N M) as [Le|Gt].
  - exists (S j). repeat split; try lia. rewrite Nat.sub_succ, Nat.sub_0_r. apply Nat.mod_small. lia.
  - (* the last M values of k-1 are N-M .. N-1 *)
    pose (b := N - M).
    assert (Hb := Nat.div_mod b M ltac:(lia)).
    assert (Hr := Nat.mod_upper_bound b M ltac:(lia)).
    set (qq := b / M) in *. set (rr := b mod M) in *. clearbody qq rr.
    assert (Ex : exists k0, b <= k0 < b + M /\ (k0 = M * qq + j \/ k0 = M * (qq + 1) + j)).
    { destruct (Nat.le_gt_cases rr j) as [Lr|Gr].
      - exists (M * qq + j). split; [lia|now left].
      - exists (M * (qq + 1) + j). split; [lia|now right]. }
    destruct Ex as [k0 [Hk0 Hk0']]. exists (S k0). repeat split; try (unfold b in Hk0; lia).
    rewrite Nat.sub_succ, Nat.sub_0_r.
    destruct Hk0' as [-> | ->]; rewrite Nat.add_comm, Nat.mul_comm, Nat.mod_add by lia; apply Nat.mod_small; lia.
Qed.

(* ================= C31 ================= *)

(** After any sequence of calls the ring holds exactly the differences between
    the latest consecutive calls (at most [mixdim]; each in its own slot), and
    the overlap matrix is the table of their inner products. *)
Theorem C31_ring_holds_latest cfg m inv hist st :
  2 <= mc_mixdim cfg -> mix_history cfg m inv hist st ->
  let D := Nat.min (length hist - 1) (mc_mixdim cfg) in
  ms_idxiter st = length hist /\
  (exists slot : nat -> nat,
    (forall k, length hist - D <= k < length hist ->
       slot k < D /\
       ms_del_rho st (slot k) = mdiff m (fst (nth (k - 1) hist dp)) (fst (nth k hist dp)) /\
       ms_del_res st (slot k) = mdiff m (residual (nth (k - 1) hist dp)) (residual (nth k hist dp))) /\
    (forall k k', length hist - D <= k < length hist -> length hist - D <= k' < length hist ->
       slot k = slot k' -> k = k')) /\
  (forall i j, i < D -> j < D ->
     ms_overlap st i j = RtoC (mdot cfg (ms_del_res st i) (ms_del_res st j))).
Proof.
  intros HM H D. assert (I := history_inv _ _ _ _ _ (ltac:(lia) : 0 < mc_mixdim cfg) H).
  destruct I as [I1 _ _ I4 I5 I6].
  split; [exact I1|]. split; [|exact I6].
  exists (fun k => (k - 1) mod mc_mixdim cfg). split.
  - intros k Hk. split; [|split].
    + assert (Q := Nat.mod_upper_bound (k - 1) (mc_mixdim cfg) ltac:(lia)).
      destruct (Nat.le_gt_cases (length hist - 1) (mc_mixdim cfg)).
      * rewrite Nat.mod_small; lia.
      * lia.
    + apply I4; lia.
    + apply I5; lia.
  - intros k k' Hk Hk' E.
    destruct (Nat.lt_total k k') as [L|[L|L]]; [exfalso| exact L|exfalso].
    + revert E. apply mod_window; lia.
    + symmetry in E. revert E. apply mod_window; lia.
Qed.
Print Assumptions C31_ring_holds_latest.

(* ================= C32 ================= *)

(** The first call never fails and is the plain linear mix. *)
Theorem C32_first_step cfg m inv g h a_in a_out :
  exists st' h' a',
    mix_of m cfg inv (fresh g) h a_in a_out = MixOk st' h' a' /\
    forall s k, hp_at h' a' s k =
      (hp_at h a_in s k + RtoC (mc_beta cfg) * (hp_at h a_out s k - hp_at h a_in s k))%C.
Proof.
  rewrite mix_first by reflexivity. do 3 eexists. split; [reflexivity|].
  intros s k. unfold hwrite; cbn [hp_at]. unfold upd1. rewrite Nat.eqb_refl. reflexivity.
Qed.
Print Assumptions C32_first_step.

(** A self-consistent density is returned unchanged, after any history, whenever
    the call returns at all. *)
Theorem C32_fixed_point cfg m inv hist st h a_in a_out st' h' a' :
  2 <= mc_mixdim cfg -> mix_history cfg m inv hist st ->
  deq cfg (hp_at h a_out) (hp_at h a_in) ->
  mix_of m cfg inv st h a_in a_out = MixOk st' h' a' ->
  deq cfg (hp_at h' a') (hp_at h a_in).
Proof.
  intros HM H Heq E. assert (I := history_inv _ _ _ _ _ (ltac:(lia) : 0 < mc_mixdim cfg) H).
  assert (Z : deq cfg (dsub (hp_at h a_out) (hp_at h a_in)) (fun _ _ => RtoC 0)).
  { intros s g Hs Hg. unfold dsub. rewrite Heq by assumption. ring. }
  destruct (Nat.eq_dec (length hist) 0) as [L|L].
  - rewrite mix_first in E by (rewrite (mi_idx _ _ _ _ I); exact L).
    injection E as <- <- <-. intros s g Hs Hg. unfold hwrite; cbn [hp_at]. unfold upd1.
    rewrite Nat.eqb_refl. unfold dadd, dscal. rewrite Z by assumption. ring.
  - assert (Hi : 0 < ms_idxiter st) by (rewrite (mi_idx _ _ _ _ I); lia).
    destruct (mix_formula _ _ _ _ _ _ _ _ _ _ (ltac:(lia) : 0 < mc_mixdim cfg) Hi E) as [oinv [_ F]].
    intros s g Hs Hg. rewrite F. rewrite !csum_zero.
    + rewrite Z by assumption. ring.
    + intros i _. rewrite csum_zero; [ring|]. intros k _. rewrite (mdot_zero_r _ _ _ Z). ring.
    + intros i _. rewrite csum_zero; [ring|]. intros k _. rewrite (mdot_zero_r _ _ _ Z). ring.
Qed.
Print Assumptions C32_fixed_point.

Lemma linfun_ext cfg w a b : deq cfg a b -> linfun cfg w a = linfun cfg w b.
Proof. intros H. apply csum_ext. intros s Hs. apply csum_ext. intros g Hg. now rewrite H. Qed.
Lemma linfun_add cfg w a b : linfun cfg w (dadd a b) = (linfun cfg w a + linfun cfg w b)%C.
Proof.
  unfold linfun. rewrite <- csum_plus. apply csum_ext. intros s _. rewrite <- csum_plus.
  apply csum_ext. intros g _. unfold dadd. ring.
Qed.
Lemma linfun_scal cfg w c a : linfun cfg w (dscal c a) = (c * linfun cfg w a)%C.
Proof.
  unfold linfun. rewrite <- csum_scal. apply csum_ext. intros s _. rewrite <- csum_scal.
  apply csum_ext. intros g _. unfold dscal. ring.
Qed.
Lemma linfun_sub cfg w a b : linfun cfg w (dsub a b) = (linfun cfg w a - linfun cfg w b)%C.
Proof.
  unfold linfun. rewrite <- csum_minus. apply csum_ext. intros s _. rewrite <- csum_minus.
  apply csum_ext. intros g _. unfold dsub. ring.
Qed.
Lemma linfun_csum cfg w n (c : nat -> C) (v : nat -> dens) :
  linfun cfg w (fun s g => csum n (fun i => (c i * v i s g)%C)) = csum n (fun i => (c i * linfun cfg w (v i))%C).
Proof.
  induction n as [|n IH]; cbn [csum].
  - unfold linfun. apply csum_zero. intros s _. apply csum_zero. intros g _. ring.
  - rewrite <- IH, <- linfun_scal, <- linfun_add. reflexivity.
Qed.

(** Every linear functional shared by all densities passed in so far is shared
    by the mixed density (total charge: weight on the G = 0 component only;
    magnetisation: opposite weights on the two spins). *)
Theorem C32_charge_conserved cfg m inv hist st h a_in a_out st' h' a' w q :
  2 <= mc_mixdim cfg -> mix_history cfg m inv hist st ->
  (forall p, In p hist -> linfun cfg w (fst p) = q /\ linfun cfg w (snd p) = q) ->
  linfun cfg w (hp_at h a_in) = q -> linfun cfg w (hp_at h a_out) = q ->
  mix_of m cfg inv st h a_in a_out = MixOk st' h' a' ->
  linfun cfg w (hp_at h' a') = q.
Proof.
  intros HM H Hq Hin Hout E.
  assert (HM' : 0 < mc_mixdim cfg) by lia.
  assert (I := history_inv _ _ _ _ _ HM' H).
  assert (Zres : linfun cfg w (dsub (hp_at h a_out) (hp_at h a_in)) = RtoC 0).
  { rewrite linfun_sub, Hin, Hout. ring. }
  destruct (Nat.eq_dec (length hist) 0) as [L|L].
  - rewrite mix_first in E by (rewrite (mi_idx _ _ _ _ I); exact L).
    injection E as <- <- <-. unfold hwrite; cbn [hp_at]. unfold upd1. rewrite Nat.eqb_refl.
    rewrite linfun_add, linfun_scal, Zres, Hin. ring.
  - assert (Hi : 0 < ms_idxiter st) by (rewrite (mi_idx _ _ _ _ I); lia).
    assert (I' := history_inv _ _ _ _ _ HM' (MH_step _ _ _ _ _ _ _ _ _ _ _ H E)).
    set (hist' := hist ++ [(hp_at h a_in, hp_at h a_out)]) in *.
    assert (Ln : length hist' = S (length hist)) by (unfold hist'; rewrite app_length; cbn; lia).
    assert (Hall : forall k, k < length hist' ->
        linfun cfg w (fst (nth k hist' dp)) = q /\ linfun cfg w (snd (nth k hist' dp)) = q).
    { intros k Hk. assert (Hin' : forall p, In p hist' -> linfun cfg w (fst p) = q /\ linfun cfg w (snd p) = q).
      { unfold hist'. intros p Hp. apply in_app_or in Hp as [Hp|[<-|[]]]; [now apply Hq|]. split; assumption. }
      apply Hin', nth_In, Hk. }
    (* each slot holds a charge-free difference *)
    assert (Slot : forall j, j < Nat.min (ms_idxiter st) (mc_mixdim cfg) ->
        linfun cfg w (ms_del_rho st' j) = RtoC 0 /\ linfun cfg w (ms_del_res st' j) = RtoC 0).
    { intros j Hj.
      destruct (slot_surj (length hist) (mc_mixdim cfg) j HM') as [k [K1 [K2 [K3 K4]]]].
      { now rewrite (mi_idx _ _ _ _ I) in Hj. }
      assert (K2' : k < length hist') by lia. assert (K3' : length hist' - 1 < k + mc_mixdim cfg) by lia.
      clear K2 K3. rename K2' into K2. rename K3' into K3.
      subst j. rewrite (mi_dr _ _ _ _ I' k K1 K2 K3), (mi_de _ _ _ _ I' k K1 K2 K3).
      destruct (Hall (k - 1) ltac:(lia)) as [A1 A2]. destruct (Hall k K2) as [A3 A4].
      split; destruct m; cbn [mdiff]; rewrite linfun_sub; try unfold residual; rewrite ?linfun_sub, A1, ?A2, A3, ?A4; ring. }
    destruct (mix_formula _ _ _ _ _ _ _ _ _ _ HM' Hi E) as [oinv [_ F]].
    cbv zeta in F.
    set (n := Nat.min (ms_idxiter st) (mc_mixdim cfg)) in *.
    pose (comp := fun i => csum n (fun k => (match m with ModBro => copy_lower n oinv k i | GenBro => oinv i k end *
        RtoC (mdot cfg (ms_del_res st' k) (dsub (hp_at h a_out) (hp_at h a_in))))%C)).
    rewrite (linfun_ext cfg w (hp_at h' a')
      (dadd (dsub (hp_at h a_in) (fun s g => csum n (fun i => (comp i * ms_del_rho st' i s g)%C)))
            (dscal (RtoC (mc_beta cfg)) (dsub (dsub (hp_at h a_out) (hp_at h a_in))
                (fun s g => csum n (fun i => (comp i * ms_del_res st' i s g)%C)))))).
    2:{ intros s g _ _. rewrite F. reflexivity. }
    rewrite linfun_add, linfun_scal, !(linfun_sub cfg w _ (fun s g => csum n _)), !linfun_csum, Zres, Hin.
    rewrite !csum_zero.
    + ring.
    + intros i Hi'. destruct (Slot i Hi') as [Z1 Z2]. rewrite ?Z1, ?Z2. ring.
    + intros i Hi'. destruct (Slot i Hi') as [Z1 Z2]. rewrite ?Z1, ?Z2. ring.
Qed.
Print Assumptions C32_charge_conserved.

(** The fixed-point clause fails when a density pair is presented twice in a
    row: the difference is zero, the overlap matrix singular, and the mixer
    raises instead of returning the density. *)
Theorem C32_repeat_refuted cfg m inv hist st h a_in a_out p :
  2 <= mc_mixdim cfg -> inv_contract inv ->
  mix_history cfg m inv (hist ++ [p]) st ->
  deq cfg (hp_at h a_in) (fst p) -> deq cfg (hp_at h a_out) (snd p) ->
  exists st' h', mix_of m cfg inv st h a_in a_out = MixSingular st' h'.
Proof.
  intros HM HC H H1 H2.
  assert (HM' : 0 < mc_mixdim cfg) by lia.
  assert (I := history_inv _ _ _ _ _ HM' H).
  assert (Ln : length (hist ++ [p]) = S (length hist)) by (rewrite app_length; cbn; lia).
  destruct (mix_of m cfg inv st h a_in a_out) as [st' h' a'|st' h'] eqn:E; [exfalso|eauto].
  assert (Hi : 0 < ms_idxiter st) by (rewrite (mi_idx _ _ _ _ I); lia).
  destruct (mix_formula _ _ _ _ _ _ _ _ _ _ HM' Hi E) as [oinv [Einv _]].
  assert (I' := history_inv _ _ _ _ _ HM' (MH_step _ _ _ _ _ _ _ _ _ _ _ H E)).
  set (hist' := (hist ++ [p]) ++ [(hp_at h a_in, hp_at h a_out)]) in *.
  assert (Ln' : length hist' = S (S (length hist))) by (unfold hist'; rewrite app_length; cbn; lia).
  set (j := (S (length hist) - 1) mod mc_mixdim cfg).
  assert (Hj : j < Nat.min (S (length hist)) (mc_mixdim cfg)) by (apply isave_lt; lia).
  assert (Z : deq cfg (ms_del_res st' j) (fun _ _ => RtoC 0)).
  { unfold j. rewrite (mi_de _ _ _ _ I' (S (length hist))) by lia.
    rewrite Nat.sub_succ, Nat.sub_0_r.
    assert (N1 : nth (length hist) hist' dp = p).
    { unfold hist'. rewrite app_nth1 by lia. rewrite app_nth2 by lia. now rewrite Nat.sub_diag. }
    assert (N2 : nth (S (length hist)) hist' dp = (hp_at h a_in, hp_at h a_out)).
    { unfold hist'. rewrite app_nth2 by lia. now rewrite Ln, Nat.sub_diag. }
    rewrite N1, N2.
    intros s g Hs Hg. destruct m; cbn [mdiff]; unfold residual, dsub; cbn [fst snd];
      rewrite H1, H2 by assumption; ring. }
  rewrite (mi_idx _ _ _ _ I), Ln in Einv. destruct (HC _ _ _ Einv) as [HAB _].
  specialize (HAB j j Hj Hj). rewrite csum_zero in HAB.
  - unfold delta in HAB. rewrite Nat.eqb_refl in HAB. apply (f_equal fst) in HAB. cbn in HAB. lra.
  - intros i Hi'. rewrite (mi_ov _ _ _ _ I') by (rewrite Ln', Nat.sub_succ, Nat.sub_0_r; assumption).
    rewrite mdot_sym, (mdot_zero_r _ _ _ Z). ring.
Qed.
Print Assumptions C32_repeat_refuted.

(* ================= C57 ================= *)

Lemma mdot_mdiff cfg m (a b c : dens) :
  mdot cfg (mdiff m a b) c = ((if match m with ModBro => true | GenBro => false end then 1 else -1) * mdot cfg (dsub a b) c)%R.
Proof.
  destruct m; cbn [mdiff]; [ring|]. rewrite !(mdot_sym cfg _ c), !mdot_sub_r. ring.
Qed.

(** Every call but the first returns  x + beta*r  where x and r are the input and
    its residual extrapolated with the SAME real coefficients along the latest
    (at most mixdim) steps, and these coefficients make |r| as small as any
    choice can. Both mixers. *)
Theorem C57_least_residual cfg m inv hist st h a_in a_out st' h' a' :
  2 <= mc_mixdim cfg -> inv_contract inv -> good_grid cfg ->
  mix_history cfg m inv hist st -> hist <> [] ->
  mix_of m cfg inv st h a_in a_out = MixOk st' h' a' ->
  let hist' := hist ++ [(hp_at h a_in, hp_at h a_out)] in
  let D := Nat.min (length hist) (mc_mixdim cfg) in
  let res := dsub (hp_at h a_out) (hp_at h a_in) in
  exists c : nat -> R,
    deq cfg (hp_at h' a')
      (dadd (lincomb D c (hp_at h a_in) (step_rho hist'))
            (dscal (RtoC (mc_beta cfg)) (lincomb D c res (step_res hist')))) /\
    forall y : nat -> R,
      (mdot cfg (lincomb D c res (step_res hist')) (lincomb D c res (step_res hist')) <=
       mdot cfg (lincomb D y res (step_res hist')) (lincomb D y res (step_res hist')))%R.
Proof.
  intros HM HC [Hf Hg] H Hne E hist' D res.
  assert (HM' : 0 < mc_mixdim cfg) by lia.
  assert (Hpos : 0 < length hist) by (destruct hist; [congruence|cbn; lia]).
  assert (I := history_inv _ _ _ _ _ HM' H).
  assert (I' := history_inv _ _ _ _ _ HM' (MH_step _ _ _ _ _ _ _ _ _ _ _ H E)).
  fold hist' in I'.
  assert (Ln : length hist' = S (length hist)) by (unfold hist'; rewrite app_length; cbn; lia).
  destruct (mix_orth _ _ _ _ _ _ _ _ _ _ _ HC HM' Hpos I E) as [c [Hres [Horth _]]].
  fold res D in Hres, Horth.
  pose (sg := (if match m with ModBro => true | GenBro => false end then 1 else -1)%R).
  pose (slot := fun i => (length hist - i - 1) mod mc_mixdim cfg).
  assert (Srange : forall i, i < D -> slot i < D).
  { intros i Hi. unfold slot.
    assert (Q := Nat.mod_upper_bound (length hist - i - 1) (mc_mixdim cfg) ltac:(lia)).
    destruct (Nat.le_gt_cases (length hist) (mc_mixdim cfg)).
    - rewrite Nat.mod_small; lia.
    - unfold D. lia. }
  assert (Sinj : forall i j, i < D -> j < D -> slot i = slot j -> i = j).
  { intros i j Hi Hj Eq. unfold slot in Eq.
    destruct (Nat.lt_total i j) as [L|[L|L]]; [exfalso| exact L|exfalso].
    - symmetry in Eq. revert Eq. apply mod_window; lia.
    - revert Eq. apply mod_window; lia. }
  assert (Vrho : forall i, i < D -> forall s g, ms_del_rho st' (slot i) s g = (RtoC sg * step_rho hist' i s g)%C).
  { intros i Hi s g. unfold slot. rewrite (mi_dr _ _ _ _ I' (length hist - i)) by lia.
    unfold step_rho. rewrite Ln, Nat.sub_succ, Nat.sub_0_r.
    replace (length hist - 1 - i) with (length hist - i - 1) by lia.
    unfold sg. destruct m; cbn [mdiff]; unfold dsub; apply C_ext; cbn; ring. }
  assert (Vres : forall i, i < D -> forall s g, ms_del_res st' (slot i) s g = (RtoC sg * step_res hist' i s g)%C).
  { intros i Hi s g. unfold slot. rewrite (mi_de _ _ _ _ I' (length hist - i)) by lia.
    unfold step_res. rewrite Ln, Nat.sub_succ, Nat.sub_0_r.
    replace (length hist - 1 - i) with (length hist - i - 1) by lia.
    unfold sg. destruct m; cbn [mdiff]; unfold dsub; apply C_ext; cbn; ring. }
  assert (Hsg : (sg * sg = 1)%R) by (unfold sg; destruct m; ring).
  pose (c' := fun i => (sg * c (slot i))%R).
  assert (Conv : forall x (v v' : nat -> dens),
     (forall i, i < D -> forall s g, v (slot i) s g = (RtoC sg * v' i s g)%C) ->
     deq cfg (lincomb D c x v) (lincomb D c' x v')).
  { intros x v v' Hv s g _ _. unfold lincomb.
    rewrite <- (csum_perm D (fun i => (RtoC (c i) * v i s g)%C) slot Srange Sinj).
    rewrite (csum_ext D _ (fun i => (RtoC (c' i) * v' i s g)%C)); [reflexivity|].
    intros i Hi. rewrite (Hv i Hi). unfold c'. rewrite RtoC_mult. ring. }
  exists c'. split.
  - apply (deq_trans cfg _ _ _ Hres). intros s g Hs Hgg. unfold dadd, dscal.
    rewrite (Conv (hp_at h a_in) _ _ Vrho s g Hs Hgg), (Conv res _ _ Vres s g Hs Hgg). reflexivity.
  - apply orth_min; [exact Hf|exact Hg|].
    intros i Hi. specialize (Horth (slot i) (Srange i Hi)).
    rewrite (mdot_ext cfg _ (dscal (RtoC sg) (step_res hist' i)) _ (lincomb D c' res (step_res hist'))) in Horth.
    + rewrite mdot_sym, mdot_scal_r, mdot_sym in Horth.
      assert (sg <> 0)%R by (intros Z; rewrite Z in Hsg; lra). nra.
    + intros s g _ _. unfold dscal. now apply Vres.
    + now apply Conv.
Qed.
Print Assumptions C57_least_residual.

Lemma Forall2_len {A B} (P : A -> B -> Prop) l l' : Forall2 P l l' -> length l = length l'.
Proof. induction 1; cbn; congruence. Qed.

Lemma mdot_neg_l cfg a b : mdot cfg (dneg a) b = (- mdot cfg a b)%R.
Proof. now rewrite mdot_sym, mdot_neg_r, mdot_sym. Qed.

Lemma diff_opposite cfg (hist1 hist2 : list (dens * dens)) st1 st2 N :
  0 < mc_mixdim cfg -> minv cfg ModBro hist1 st1 -> minv cfg GenBro hist2 st2 ->
  length hist1 = S N ->
  Forall2 (fun p q => deq cfg (fst p) (fst q) /\ deq cfg (snd p) (snd q)) hist1 hist2 ->
  forall j, j < Nat.min N (mc_mixdim cfg) ->
    deq cfg (ms_del_rho st2 j) (dneg (ms_del_rho st1 j)) /\
    deq cfg (ms_del_res st2 j) (dneg (ms_del_res st1 j)).
Proof.
  intros HM I1 I2 Ln1 HF j Hj. assert (Ln2 := Forall2_len _ _ _ HF). rewrite Ln1 in Ln2.
  destruct (slot_surj N (mc_mixdim cfg) j HM Hj) as [k [K1 [K2 [K3 K4]]]]. subst j.
  rewrite (mi_dr _ _ _ _ I1 k), (mi_dr _ _ _ _ I2 k), (mi_de _ _ _ _ I1 k), (mi_de _ _ _ _ I2 k) by lia.
  assert (P : forall i, i < S N -> deq cfg (fst (nth i hist1 dp)) (fst (nth i hist2 dp)) /\
                                  deq cfg (snd (nth i hist1 dp)) (snd (nth i hist2 dp))).
  { rewrite <- Ln1. clear -HF. induction HF as [|p q l l' Hpq HF IH]; intros i Hi; cbn in Hi; [lia|].
    destruct i as [|i]; [exact Hpq|]. apply (IH i). lia. }
  destruct (P (k - 1) ltac:(lia)) as [A1 A2]. destruct (P k K2) as [B1 B2].
  cbn [mdiff]. split; intros s g Hs Hg; unfold dneg, dsub, residual, dsub;
    rewrite ?(A1 s g Hs Hg), ?(A2 s g Hs Hg), ?(B1 s g Hs Hg), ?(B2 s g Hs Hg); ring.
Qed.

(** The two mixers are the same algorithm: fed the same densities, whenever both
    return, they return the same density. *)
Theorem C57_mixers_agree cfg inv hist1 hist2 st1 st2 h1 h2 a1 b1 a2 b2 st1' st2' h1' h2' r1 r2 :
  2 <= mc_mixdim cfg -> inv_contract inv ->
  mix_history cfg ModBro inv hist1 st1 -> mix_history cfg GenBro inv hist2 st2 ->
  Forall2 (fun p q => deq cfg (fst p) (fst q) /\ deq cfg (snd p) (snd q)) hist1 hist2 ->
  deq cfg (hp_at h1 a1) (hp_at h2 a2) -> deq cfg (hp_at h1 b1) (hp_at h2 b2) ->
  modbro_mix cfg inv st1 h1 a1 b1 = MixOk st1' h1' r1 ->
  genbro_mix cfg inv st2 h2 a2 b2 = MixOk st2' h2' r2 ->
  deq cfg (hp_at h1' r1) (hp_at h2' r2).
Proof.
  intros HM HC H1 H2 HF Ha Hb E1 E2.
  assert (HM' : 0 < mc_mixdim cfg) by lia.
  assert (I1 := history_inv _ _ _ _ _ HM' H1). assert (I2 := history_inv _ _ _ _ _ HM' H2).
  assert (Ln := Forall2_len _ _ _ HF).
  assert (Hres : deq cfg (dsub (hp_at h1 b1) (hp_at h1 a1)) (dsub (hp_at h2 b2) (hp_at h2 a2))).
  { intros s g Hs Hg. unfold dsub. now rewrite Ha, Hb by assumption. }
  destruct (Nat.eq_dec (length hist1) 0) as [L|L].
  - change (modbro_mix cfg inv) with (mix_of ModBro cfg inv) in E1.
    change (genbro_mix cfg inv) with (mix_of GenBro cfg inv) in E2.
    rewrite mix_first in E1 by (rewrite (mi_idx _ _ _ _ I1); exact L).
    rewrite mix_first in E2 by (rewrite (mi_idx _ _ _ _ I2); lia).
    injection E1 as _ <- <-. injection E2 as _ <- <-.
    intros s g Hs Hg. unfold hwrite; cbn [hp_at]; unfold upd1; rewrite !Nat.eqb_refl.
    unfold dadd, dscal. now rewrite (Hres s g Hs Hg), (Ha s g Hs Hg).
  - assert (P1 : 0 < length hist1) by lia. assert (P2 : 0 < length hist2) by lia.
    destruct (mix_orth _ ModBro _ _ _ _ _ _ _ _ _ HC HM' P1 I1 E1) as [c1 [V1 [_ U1]]].
    destruct (mix_orth _ GenBro _ _ _ _ _ _ _ _ _ HC HM' P2 I2 E2) as [c2 [V2 [_ U2]]].
    rewrite <- Ln in V2, U2.
    assert (I1' := history_inv _ _ _ _ _ HM' (MH_step cfg ModBro _ _ _ _ _ _ _ _ _ H1 E1)).
    assert (I2' := history_inv _ _ _ _ _ HM' (MH_step cfg GenBro _ _ _ _ _ _ _ _ _ H2 E2)).
    set (N := length hist1) in *. set (n := Nat.min N (mc_mixdim cfg)) in *.
    assert (Ln1 : length (hist1 ++ [(hp_at h1 a1, hp_at h1 b1)]) = S N)
      by (rewrite app_length; cbn; unfold N; lia).
    assert (Ln2 : length (hist2 ++ [(hp_at h2 a2, hp_at h2 b2)]) = S N)
      by (rewrite app_length; cbn; lia).
    assert (HF' : Forall2 (fun p q => deq cfg (fst p) (fst q) /\ deq cfg (snd p) (snd q))
        (hist1 ++ [(hp_at h1 a1, hp_at h1 b1)]) (hist2 ++ [(hp_at h2 a2, hp_at h2 b2)])).
    { apply Forall2_app; [exact HF|]. constructor; [|constructor]. split; assumption. }
    assert (Opp := diff_opposite cfg _ _ _ _ N HM' I1' I2' Ln1 HF').
    assert (Eov : forall i j, i < n -> j < n -> ms_overlap st1' i j = ms_overlap st2' i j).
    { intros i j Hi Hj.
      rewrite (mi_ov _ _ _ _ I1') by (rewrite Ln1, Nat.sub_succ, Nat.sub_0_r; assumption).
      rewrite (mi_ov _ _ _ _ I2') by (rewrite Ln2, Nat.sub_succ, Nat.sub_0_r; assumption).
      f_equal. destruct (Opp i Hi) as [_ Oi]. destruct (Opp j Hj) as [_ Oj].
      rewrite (mdot_ext cfg _ _ _ _ Oi Oj), mdot_neg_r, mdot_neg_l. ring. }
    assert (Hi2 : 0 < ms_idxiter st2) by (rewrite (mi_idx _ _ _ _ I2); lia).
    destruct (mix_formula _ GenBro _ _ _ _ _ _ _ _ HM' Hi2 E2) as [oinv [Einv _]].
    rewrite (mi_idx _ _ _ _ I2), <- Ln in Einv. fold n in Einv.
    destruct (HC _ _ _ Einv) as [_ HBA].
    assert (Ec : forall i, i < n -> RtoC (c2 i) = RtoC (- c1 i)).
    { intros i Hi. rewrite RtoC_opp, (U1 oinv) by (try assumption; intros a b Ha' Hb';
        rewrite <- HBA by assumption; apply csum_ext; intros k Hk; now rewrite Eov).
      rewrite (U2 oinv HBA i Hi).
      replace (- csum n (fun k => oinv i k * RtoC (mdot cfg (ms_del_res st1' k) (dsub (hp_at h1 b1) (hp_at h1 a1)))))%C
        with (RtoC (-1) * csum n (fun k => oinv i k * RtoC (mdot cfg (ms_del_res st1' k) (dsub (hp_at h1 b1) (hp_at h1 a1)))))%C
        by (apply C_ext; cbn; ring).
      rewrite <- csum_scal. apply csum_ext. intros k Hk.
      destruct (Opp k Hk) as [_ Ok]. rewrite (mdot_ext cfg _ _ _ _ Ok (deq_sym _ _ _ Hres)).
      rewrite mdot_neg_l, RtoC_opp.
      replace (RtoC (-1)) with (- RtoC 1)%C by (apply C_ext; cbn; ring). ring. }
    intros s g Hs Hg. rewrite (V1 s g Hs Hg), (V2 s g Hs Hg).
    unfold dadd, dscal, lincomb. rewrite (Ha s g Hs Hg), (Hres s g Hs Hg).
    rewrite (csum_ext n (fun i => (RtoC (c1 i) * ms_del_rho st1' i s g)%C) (fun i => (RtoC (c2 i) * ms_del_rho st2' i s g)%C)).
    2:{ intros i Hi. destruct (Opp i Hi) as [Or _]. rewrite (Or s g Hs Hg), (Ec i Hi), RtoC_opp. unfold dneg. ring. }
    rewrite (csum_ext n (fun i => (RtoC (c1 i) * ms_del_res st1' i s g)%C) (fun i => (RtoC (c2 i) * ms_del_res st2' i s g)%C)).
    2:{ intros i Hi. destruct (Opp i Hi) as [_ Or]. rewrite (Or s g Hs Hg), (Ec i Hi), RtoC_opp. unfold dneg. ring. }
    reflexivity.
Qed.
Print Assumptions C57_mixers_agree.

(* ================= C58 ================= *)

(** On every rank of the group the returned density has the same content as on
    rank 0; the other ranks' own buffers are untouched. *)
Theorem C58_all_ranks_same cfg m inv st hs a_in a_out junk st' hs' addr :
  mix_group cfg m inv st hs a_in a_out junk = GroupOk st' hs' addr ->
  (exists h0, mix_of m cfg inv st (hs 0) (a_in 0) (a_out 0) = MixOk st' h0 (addr 0) /\ hs' 0 = h0) /\
  (forall r, hp_at (hs' r) (addr r) = hp_at (hs' 0) (addr 0)) /\
  (forall r a, r <> 0 -> a < hp_next (hs r) -> hp_at (hs' r) a = hp_at (hs r) a).
Proof.
  unfold mix_group. destruct (mix_of m cfg inv st (hs 0) (a_in 0) (a_out 0)) as [st1 h1 a1|] eqn:E; [|discriminate].
  intros H. injection H as <- <- <-. split; [|split].
  - exists h1. cbn. auto.
  - intros r. cbn [Nat.eqb]. destruct (Nat.eqb_spec r 0) as [->|Hr]; [reflexivity|].
    cbn [halloc]. unfold hwrite; cbn [hp_at]. unfold upd1. now rewrite Nat.eqb_refl.
  - intros r a Hr Ha. destruct (Nat.eqb_spec r 0) as [->|_]; [contradiction|].
    cbn [halloc]. unfold hwrite; cbn [hp_at]. unfold upd1.
    destruct (Nat.eqb_spec a (hp_next (hs r))); [lia|reflexivity].
Qed.
Print Assumptions C58_all_ranks_same.

(** A singular overlap matrix on rank 0 leaves the other ranks inside Bcast: the
    collective does not terminate on them. *)
Theorem C58_singular_blocks_refuted cfg m inv hist st hs a_in a_out junk p :
  2 <= mc_mixdim cfg -> inv_contract inv ->
  mix_history cfg m inv (hist ++ [p]) st ->
  deq cfg (hp_at (hs 0) (a_in 0)) (fst p) -> deq cfg (hp_at (hs 0) (a_out 0)) (snd p) ->
  exists st' h0, mix_group cfg m inv st hs a_in a_out junk = GroupStuck st' h0.
Proof.
  intros HM HC H H1 H2.
  destruct (C32_repeat_refuted cfg m inv hist st (hs 0) (a_in 0) (a_out 0) p HM HC H H1 H2) as [st' [h' E]].
  exists st', h'. unfold mix_group. now rewrite E.
Qed.
Print Assumptions C58_singular_blocks_refuted.

(* ================= C33 ================= *)

(** From the second call on, the modified Broyden mixer returns a fresh object
    and changes no buffer of the caller. *)
Theorem C33_modbro_later_pure cfg inv hist st h a_in a_out st' h' a' :
  2 <= mc_mixdim cfg -> mix_history cfg ModBro inv hist st -> hist <> [] ->
  a_in < hp_next h -> a_out < hp_next h ->
  modbro_mix cfg inv st h a_in a_out = MixOk st' h' a' ->
  a' = hp_next h /\ forall a, a < hp_next h -> hp_at h' a = hp_at h a.
Proof.
  intros HM H Hne Ha Hb E. assert (I := history_inv _ _ _ _ _ (ltac:(lia) : 0 < mc_mixdim cfg) H).
  assert (Hpos : 0 < length hist) by (destruct hist; [congruence|cbn; lia]).
  unfold modbro_mix in E. rewrite (mi_idx _ _ _ _ I) in E.
  destruct (Nat.eqb_spec (Nat.min (length hist) (mc_mixdim cfg)) 0); [lia|]. cbv zeta in E.
  match type of E with (match inv ?n ?ov with _ => _ end) = _ => destruct (inv n ov) as [oinv|] eqn:Einv; [|discriminate] end.
  cbn [halloc] in E.
  match type of E with (let '(_, _) := ?f in _) = _ => destruct f as [x r] eqn:F end.
  injection E as _ <- <-. split; [reflexivity|].
  intros a La. unfold hwrite; cbn [hp_at]. unfold upd1.
  destruct (Nat.eqb_spec a (hp_next h)); [lia|reflexivity].
Qed.
Print Assumptions C33_modbro_later_pure.

(** What every call of either mixer leaves alone: all buffers except the one
    passed as rho_in (so rho_out, if a different object, is never touched). *)
Theorem C33_only_rho_in_touched cfg m inv st h a_in a_out st' h' a' a :
  a < hp_next h -> a <> a_in ->
  mix_of m cfg inv st h a_in a_out = MixOk st' h' a' ->
  hp_at h' a = hp_at h a.
Proof.
  intros La Hne E. destruct m; cbn [mix_of] in E; [unfold modbro_mix in E|unfold genbro_mix in E];
    cbv zeta in E; (destruct (Nat.min (ms_idxiter st) (mc_mixdim cfg) =? 0) eqn:N;
    [injection E as _ <- _; unfold hwrite; cbn [hp_at]; unfold upd1; destruct (Nat.eqb_spec a a_in); [congruence|reflexivity]|]).
  - match type of E with (match inv ?n ?ov with _ => _ end) = _ => destruct (inv n ov) as [oinv|] eqn:Einv; [|discriminate] end.
    cbn [halloc] in E.
    match type of E with (let '(_, _) := ?f in _) = _ => destruct f as [x r] eqn:F end.
    injection E as _ <- _. unfold hwrite; cbn [hp_at]; unfold upd1.
    destruct (Nat.eqb_spec a (hp_next h)); [lia|reflexivity].
  - match type of E with (match inv ?n ?ov with _ => _ end) = _ => destruct (inv n ov) as [oinv|] eqn:Einv; [|discriminate] end.
    injection E as _ <- _. unfold hwrite; cbn [hp_at]; unfold upd1.
    destruct (Nat.eqb_spec a a_in); [congruence|reflexivity].
Qed.
Print Assumptions C33_only_rho_in_touched.

(** The property itself fails: the first call of either mixer, and every call of
    the generalised one, overwrites the caller's rho_in and returns that very
    object; its content changes wherever rho_out differs from it. *)
Theorem C33_first_call_refuted cfg m inv g h a_in a_out s k :
  (0 < mc_beta cfg)%R -> hp_at h a_out s k <> hp_at h a_in s k ->
  exists st' h',
    mix_of m cfg inv (fresh g) h a_in a_out = MixOk st' h' a_in /\
    hp_at h' a_in s k <> hp_at h a_in s k.
Proof.
  intros Hb Hne. rewrite mix_first by reflexivity. do 2 eexists. split; [reflexivity|].
  unfold hwrite; cbn [hp_at]. unfold upd1. rewrite Nat.eqb_refl. unfold dadd, dscal, dsub.
  intros E. apply Hne.
  destruct (hp_at h a_in s k) as [x1 x2], (hp_at h a_out s k) as [y1 y2].
  injection E as E1 E2. f_equal; nra.
Qed.
Print Assumptions C33_first_call_refuted.

Theorem C33_genbro_returns_argument_refuted cfg inv st h a_in a_out st' h' a' :
  genbro_mix cfg inv st h a_in a_out = MixOk st' h' a' -> a' = a_in.
Proof.
  unfold genbro_mix. cbv zeta. intros E.
  destruct (Nat.min (ms_idxiter st) (mc_mixdim cfg) =? 0); [now injection E as _ _ <-|].
  match type of E with (match inv ?n ?ov with _ => _ end) = _ => destruct (inv n ov) as [oinv|] eqn:Einv; [|discriminate] end.
  now injection E as _ _ <-.
Qed.
Print Assumptions C33_genbro_returns_argument_refuted.

(* ================= non-vacuity ================= *)

(** One spin, two plane waves (G = 0 and |G|^2 = 1), mixdim 2, beta 1/2. *)
Definition ex_cfg : mixcfg :=
  {| mc_ns := 1; mc_ng := 2; mc_fac := 1; mc_g2 := fun g => INR g; mc_has_g0 := true;
     mc_tpiba := 1; mc_beta := (1/2)%R; mc_mixdim := 2 |}.
Definition ex_inv : inv_t := fun n A =>
  if Nat.eqb n 1 then
    (if Req_EM_T (fst (A 0%nat 0%nat)) 0 then None
     else if Req_EM_T (snd (A 0%nat 0%nat)) 0 then Some (fun _ _ => RtoC (/ fst (A 0%nat 0%nat))) else None)
  else None.
Example ex_inv_contract : inv_contract ex_inv.
Proof.
  intros n A B. unfold ex_inv. destruct (Nat.eqb_spec n 1) as [->|]; [|discriminate].
  destruct (A 0 0) as [x y] eqn:EA. cbn [fst snd].
  destruct (Req_EM_T x 0) as [|H0]; [discriminate|].
  destruct (Req_EM_T y 0) as [->|]; [|discriminate].
  intros E. injection E as <-.
  split; intros i k Hi Hk; assert (i = 0) as -> by lia; assert (k = 0) as -> by lia;
    cbn [csum]; rewrite EA; unfold delta; cbn [Nat.eqb]; apply C_ext; cbn; field; exact H0.
Qed.
Example ex_good : good_grid ex_cfg.
Proof.
  split; [cbn; lra|]. intros g Hg. cbn in Hg |- *. destruct g as [|[|g]]; [left; auto|right; cbn; lra|lia].
Qed.
(** A density with the given G = 1 amplitude. *)
Definition amp (x : R) : dens := fun _ g => if Nat.eqb g 1 then RtoC x else RtoC 1.
Lemma mdot_amp x y z t :
  mdot ex_cfg (dsub (amp x) (amp y)) (dsub (amp z) (amp t)) = ((x - y) * (z - t))%R.
Proof. unfold mdot, dsub, amp, chden. cbn. field. Qed.

(** Two successful calls: the history hypotheses of C31/C32/C57 are met with a
    non-empty ring. The pairs carry the same charge (G = 0 component 1). *)
Example ex_history m : exists st, mix_history ex_cfg m ex_inv [(amp 0, amp 1); (amp (1/2), amp (3/4))] st.
Proof.
  set (g := {| ms_idxiter := 0; ms_rho_old := amp 0; ms_res_old := amp 0;
               ms_del_rho := fun _ => amp 0; ms_del_res := fun _ => amp 0; ms_overlap := fun _ _ => RtoC 0 |}).
  set (h1 := {| hp_at := fun a => if Nat.eqb a 0 then amp 0 else amp 1; hp_next := 2 |}).
  destruct (C32_first_step ex_cfg m ex_inv g h1 0 1) as [st1 [h1' [a1 [E1 _]]]].
  assert (H1 := MH_step _ _ _ _ _ _ _ _ _ _ _ (MH_init ex_cfg m ex_inv g) E1).
  set (h2 := {| hp_at := fun a => if Nat.eqb a 0 then amp (1/2) else amp (3/4); hp_next := 2 |}).
  assert (E2 : exists st2 h2' a2, mix_of m ex_cfg ex_inv st1 h2 0 1 = MixOk st2 h2' a2).
  { rewrite mix_first in E1 by reflexivity. injection E1 as <- <- <-.
    assert (K : forall u v : dens, mdot ex_cfg (dsub (dsub (amp 1) (amp 0)) (dsub (amp (3/4)) (amp (1/2))))
              (dsub (dsub (amp 1) (amp 0)) (dsub (amp (3/4)) (amp (1/2)))) = (9/16)%R).
    { intros _ _. unfold mdot, dsub, amp, chden. cbn. field. }
    assert (K2 : mdot ex_cfg (dsub (dsub (amp (3/4)) (amp (1/2))) (dsub (amp 1) (amp 0)))
              (dsub (dsub (amp (3/4)) (amp (1/2))) (dsub (amp 1) (amp 0))) = (9/16)%R).
    { unfold mdot, dsub, amp, chden. cbn. field. }
    destruct m; cbn [mix_of]; [unfold modbro_mix|unfold genbro_mix]; cbv zeta;
      cbn [ms_idxiter Nat.min mc_mixdim ex_cfg Nat.eqb ms_del_res ms_res_old];
      unfold ex_inv; cbn [Nat.eqb for_range Nat.sub Nat.modulo Nat.divmod fst snd]; unfold upd2; cbn [Nat.eqb andb Nat.modulo Nat.divmod Nat.sub fst snd];
      unfold upd1 at 1 2 3 4; cbn [Nat.eqb hp_at h1 h2 fst snd RtoC].
    - match goal with |- context [Req_EM_T (mdot ?a ?b ?c) 0] => destruct (Req_EM_T (mdot a b c) 0) as [Z|_] end.
      { exfalso. rewrite (K (amp 0) (amp 0)) in Z. lra. }
      destruct (Req_EM_T 0 0) as [_|Z]; [|congruence]. do 3 eexists; reflexivity.
    - match goal with |- context [Req_EM_T (mdot ?a ?b ?c) 0] => destruct (Req_EM_T (mdot a b c) 0) as [Z|_] end.
      { exfalso. rewrite K2 in Z. lra. }
      destruct (Req_EM_T 0 0) as [_|Z]; [|congruence]. eauto. }
  destruct E2 as [st2 [h2' [a2 E2]]].
  exists st2. exact (MH_step _ _ _ _ _ _ _ _ _ _ _ H1 E2).
Qed.

(** [compute_error], the number compared with conv_thr: it is symmetric and never negative, does not see the G = 0 component of the charge,
    and vanishes exactly when the total densities agree at every other vector and, with two spins, the spin densities agree everywhere. *)
Definition charge (ns : nat) (a : dens) (g : nat) : C := csum ns (fun s => a s g).
Theorem C32_error_estimate cfg a b :
  (0 < mc_fac cfg)%R -> (mc_ns cfg = 2 -> mc_tpiba cfg <> 0%R) ->
  (forall g, g < mc_ng cfg -> (mc_has_g0 cfg = true /\ g = 0) \/ (0 < mc_g2 cfg g)%R) ->
  (0 <= compute_error cfg a b)%R /\ compute_error cfg a b = compute_error cfg b a /\
  (compute_error cfg a b = 0%R <->
     (forall g, g < mc_ng cfg -> ~ (mc_has_g0 cfg = true /\ g = 0) -> charge (mc_ns cfg) a g = charge (mc_ns cfg) b g) /\
     (mc_ns cfg = 2 -> forall g, g < mc_ng cfg -> (a 0%nat g - a 1%nat g = b 0%nat g - b 1%nat g)%C)).
Proof.
  intros Hf Ht Hg. unfold compute_error. cbv zeta. split; [apply mdot_nonneg; [lra|exact Hg]|].
  assert (CH : forall x y g, chden cfg (dsub x y) g = (charge (mc_ns cfg) x g - charge (mc_ns cfg) y g)%C).
  { intros x y g. unfold chden, charge, dsub. clear. generalize (mc_ns cfg). induction n as [|n IH]; cbn [csum]; [ring|]. rewrite IH. ring. }
  assert (P : forall z, (0 <= re_cc z z)%R) by (intros z; unfold re_cc; nra).
  assert (RZ : forall z, re_cc z z = 0%R -> z = RtoC 0) by (intros [u v]; unfold re_cc; cbn; intros X; apply C_ext; cbn; nra).
  split.
  - rewrite !mdot_real. f_equal.
    + f_equal. apply rsum_ext. intros g _. rewrite !CH. unfold re_cc. cbn. ring.
    + destruct (mc_ns cfg =? 2); [|reflexivity]. do 2 f_equal. apply rsum_ext. intros g _. unfold re_cc, dsub. cbn. ring.
  - rewrite mdot_real. set (A := rsum _ _).
    assert (PT : forall g, g < mc_ng cfg -> (0 <= gw cfg g * re_cc (chden cfg (dsub a b) g) (chden cfg (dsub a b) g))%R).
    { intros g Lt. apply Rmult_le_pos; [|apply P]. unfold gw. destruct (mc_has_g0 cfg && (g =? 0))%bool eqn:Z; [lra|]. destruct (Hg g Lt) as [[E1 ->]|X]; [rewrite E1 in Z; discriminate|]. left. now apply Rinv_0_lt_compat. }
    assert (A0 : (0 <= A)%R) by (apply rsum_nonneg; exact PT).
    assert (AZ : A = 0%R <-> forall g, g < mc_ng cfg -> ~ (mc_has_g0 cfg = true /\ g = 0) -> charge (mc_ns cfg) a g = charge (mc_ns cfg) b g).
    { split.
      - intros Z g Lt Ng. pose proof (DavProofs.rsum_zero_all _ _ PT Z g Lt) as X. cbn beta in X. rewrite CH in X. unfold gw in X.
        destruct (mc_has_g0 cfg && (g =? 0))%bool eqn:Zb; [exfalso; apply Ng; apply andb_true_iff in Zb as [Z1 Z2]; split; [exact Z1|now apply Nat.eqb_eq]|].
        destruct (Hg g Lt) as [Y|Y]; [contradiction|]. apply Rmult_integral in X as [X|X]; [apply Rinv_neq_0_compat in X; [easy|lra]|].
        apply RZ in X. replace (charge (mc_ns cfg) a g) with (charge (mc_ns cfg) a g - charge (mc_ns cfg) b g + charge (mc_ns cfg) b g)%C by ring. rewrite X. ring.
      - intros Q. unfold A. rewrite (rsum_ext _ _ (fun _ => 0%R)); [rewrite rsum_const; ring|]. intros g Lt. rewrite CH. unfold gw. destruct (mc_has_g0 cfg && (g =? 0))%bool eqn:Zb; [ring|].
        rewrite Q; [|exact Lt|intros [Z1 ->]; rewrite Z1 in Zb; discriminate]. unfold re_cc. cbn. ring. }
    destruct (mc_ns cfg =? 2) eqn:E2; cbn match.
    + apply Nat.eqb_eq in E2. set (B := rsum _ _).
      assert (PB : forall g, g < mc_ng cfg -> (0 <= re_cc (dsub a b 0%nat g - dsub a b 1%nat g)%C (dsub a b 0%nat g - dsub a b 1%nat g)%C)%R) by (intros; apply P).
      assert (B0 : (0 <= B)%R) by (apply rsum_nonneg; exact PB).
      assert (BZ : B = 0%R <-> forall g, g < mc_ng cfg -> (a 0%nat g - a 1%nat g = b 0%nat g - b 1%nat g)%C).
      { split.
        - intros Z g Lt. pose proof (DavProofs.rsum_zero_all _ _ PB Z g Lt) as X. cbn beta in X. apply RZ in X. unfold dsub in X.
          replace (a 0%nat g - a 1%nat g)%C with ((a 0%nat g - b 0%nat g - (a 1%nat g - b 1%nat g)) + (b 0%nat g - b 1%nat g))%C by ring. rewrite X. ring.
        - intros Q. unfold B. rewrite (rsum_ext _ _ (fun _ => 0%R)); [rewrite rsum_const; ring|]. intros g Lt. unfold dsub.
          replace (a 0%nat g - b 0%nat g - (a 1%nat g - b 1%nat g))%C with ((a 0%nat g - a 1%nat g) - (b 0%nat g - b 1%nat g))%C by ring. rewrite Q by exact Lt. unfold re_cc. cbn. ring. }
      fold B. specialize (Ht E2). assert (T2 : (0 < mc_tpiba cfg * mc_tpiba cfg)%R) by (destruct (Rdichotomy _ _ Ht); nra).
      rewrite <- AZ. split.
      * intros Z. assert (X1 : (0 <= mc_fac cfg * A)%R) by nra. assert (X2 : (0 <= mc_fac cfg * B / (mc_tpiba cfg * mc_tpiba cfg))%R) by (apply Rmult_le_pos; [nra|left; now apply Rinv_0_lt_compat]).
        assert (ZA : (mc_fac cfg * A = 0)%R) by lra. assert (ZB : (mc_fac cfg * B / (mc_tpiba cfg * mc_tpiba cfg) = 0)%R) by lra.
        split; [apply Rmult_integral in ZA as [|]; lra|]. intros _. apply BZ. apply Rmult_integral in ZB as [ZB|ZB]; [apply Rmult_integral in ZB as [|]; lra|]. apply Rinv_neq_0_compat in ZB; [easy|lra].
      * intros [-> Q]. rewrite (proj2 BZ (Q E2)). unfold Rdiv. ring.
    + apply Nat.eqb_neq in E2. rewrite <- AZ. split.
      * intros Z. split; [|contradiction]. rewrite Rplus_0_r in Z. apply Rmult_integral in Z as [|]; lra.
      * intros [-> _]. ring.
Qed.
Print Assumptions C32_error_estimate.
Example C32_error_case : exists cfg a b, (0 < mc_fac cfg)%R /\ (mc_ns cfg = 2 -> mc_tpiba cfg <> 0%R) /\
  (forall g, g < mc_ng cfg -> (mc_has_g0 cfg = true /\ g = 0) \/ (0 < mc_g2 cfg g)%R) /\ compute_error cfg a b <> 0%R.
Proof.
  set (cfg := {| mc_ns := 1; mc_ng := 2; mc_fac := 1; mc_g2 := INR; mc_has_g0 := true; mc_tpiba := 1; mc_beta := 1; mc_mixdim := 1 |}).
  exists cfg, (fun _ g => RtoC (INR g)), (fun _ _ => RtoC 0). cbn [cfg mc_fac mc_ns mc_ng mc_g2 mc_has_g0].
  split; [lra|]. split; [discriminate|]. split.
  - intros [|[|g]] H; [now left|right; cbn; lra|lia].
  - unfold compute_error, mdot, chden, dsub. cbn. intros X. apply (f_equal (fun x => x)) in X. field_simplify in X. lra.
Qed.
