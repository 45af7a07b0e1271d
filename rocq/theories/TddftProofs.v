From Verif Require Import Base GIndexModel LatModel GSphereModel CBase FFTModel FFTSpec FFTProofs FFTProofs2 KSHamModel KSHamSpec KSHamProofs PropsKSHam TddftModel TddftSpec.
Open Scope nat_scope.

Lemma zip_length {A B D} (f : A -> B -> D) a : forall b, length a = length b -> length (zip_with f a b) = length a.
Proof. induction a as [|x a IH]; intros [|y b] H; cbn in *; try lia. rewrite IH; lia. Qed.
Lemma zip_nth {A B D} (f : A -> B -> D) da db dd a : forall b i, length a = length b -> i < length a ->
  nth i (zip_with f a b) dd = f (nth i a da) (nth i b db).
Proof.
  induction a as [|x a IH]; intros [|y b] i H Hi; cbn in *; try lia.
  destruct i; [reflexivity|]. apply IH; lia.
Qed.

Lemma list_ext {A} (d : A) l : forall l', length l = length l' -> (forall i, i < length l -> nth i l d = nth i l' d) -> l = l'.
Proof.
  induction l as [|x l IH]; intros [|y l'] L H; cbn in L; try lia; [reflexivity|].
  f_equal; [exact (H 0 ltac:(cbn; lia))|]. apply IH; [lia|]. intros i Hi. exact (H (S i) ltac:(cbn; lia)).
Qed.

Lemma cpow_S z p : cpow z (S p) = (z * cpow z p)%C. Proof. reflexivity. Qed.
Lemma fact_neq p : RtoC (INR (fact p)) <> RtoC 0.
Proof. intros E. apply RtoC_inj in E. pose proof (INR_fact_neq_0 p). contradiction. Qed.
Lemma exp_term_S z p : exp_term z (S p) = (exp_term z p * (z / RtoC (INR (p + 1))))%C.
Proof.
  unfold exp_term. rewrite cpow_S. change (fact (S p)) with (S p * fact p).
  rewrite mult_INR, RtoC_mult, Nat.add_1_r. field.
  split; [|apply fact_neq]. intros E. apply RtoC_inj in E. now apply not_0_INR in E.
Qed.
Lemma exp_term_0 z : exp_term z 0 = RtoC 1.
Proof. unfold exp_term. cbn. field. intros E. apply RtoC_inj in E. lra. Qed.

Lemma mat_vec_length n M v : length (mat_vec n M v) = n.
Proof. unfold mat_vec. now rewrite map_length, seq_length. Qed.
Lemma mat_pow_length n M p v : length v = n -> length (mat_pow n M p v) = n.
Proof. destruct p; [easy|]. intros _. apply mat_vec_length. Qed.
Lemma mat_vec_nth n M v i : i < n -> nth i (mat_vec n M v) (RtoC 0) = csum n (fun j => M i j * nth j v (RtoC 0))%C.
Proof.
  intros Hi. unfold mat_vec. rewrite (nth_indep _ _ (csum n (fun j => M 0 j * nth j v (RtoC 0))%C)) by now rewrite map_length, seq_length.
  rewrite (map_nth (fun i => csum n (fun j => M i j * nth j v (RtoC 0))%C)). now rewrite seq_nth.
Qed.
Lemma nth_map_seq {A} (f : nat -> A) d n i : i < n -> nth i (map f (seq 0 n)) d = f i.
Proof. intros Hi. rewrite (nth_indep _ _ (f 0)) by now rewrite map_length, seq_length. rewrite map_nth. now rewrite seq_nth. Qed.

Lemma nth_map_lt {A B} (f : A -> B) da db l i : i < length l -> nth i (map f l) db = f (nth i l da).
Proof. intros Hi. rewrite (nth_indep _ _ (f da)) by now rewrite map_length. apply map_nth. Qed.

Section Taylor.
  Variables nx ny nz : nat.
  Variable h : ksham.
  Variable dt : R.
  Hypothesis WF : well_formed nx ny nz h.
  Let ng := length (gs_cryst (kh_gs h)).
  Let H := hamiltonian nx ny nz h.
  Let idx := map Z.to_nat (gs_idxgrid (kh_gs h)).

  Definition rect (n : nat) (b : bands) : Prop := forall p, In p b -> length p = n.

  (** State after [k] passes. *)
  Definition tinv (evc : bands) (k : nat) (s : tay) : Prop :=
    full_inv nx ny nz idx false (t_fft s)
    /\ t_prop s = 2 /\ ((t_psi s = 0 /\ t_hpsi s = 1) \/ (t_psi s = 1 /\ t_hpsi s = 0))
    /\ t_fac s = exp_term (- Ci * RtoC dt)%C k
    /\ t_mem s (t_psi s) = map (mat_pow ng H k) evc
    /\ length (t_mem s (t_hpsi s)) = length evc
    /\ t_mem s (t_prop s) = map (truncated_exp ng H dt k) evc.

  Lemma h_psi_pow o evc buf k : full_inv nx ny nz idx false o -> rect ng evc -> length buf = length evc ->
    exists o', h_psi h o (map (mat_pow ng H k) evc) buf = Ok (o', map (mat_pow ng H (S k)) evc)
    /\ full_inv nx ny nz idx false o'.
  Proof.
    intros Ho Hr Hb.
    destruct (h_psi_eq nx ny nz h WF o (map (mat_pow ng H k) evc) buf Ho) as (o' & out & E & Ho' & L & P & D).
    - now rewrite map_length.
    - intros p Hp. apply in_map_iff in Hp. destruct Hp as (q & <- & Hq). apply mat_pow_length. now apply Hr.
    - exists o'. split; [|exact Ho']. rewrite E. do 2 f_equal.
      rewrite map_length in L. apply (list_ext []); [now rewrite map_length|].
      intros b Hb'. rewrite L in Hb'.
      rewrite (nth_map_lt (mat_pow ng H (S k)) [] []) by exact Hb'.
      apply (list_ext (RtoC 0)).
      + rewrite P by (apply nth_In; lia). fold ng. symmetry. apply mat_pow_length. apply Hr, nth_In. exact Hb'.
      + intros i Hi. rewrite P in Hi by (apply nth_In; lia). fold ng in Hi.
        rewrite D; [|rewrite map_length; exact Hb'|exact Hi].
        cbn [mat_pow]. rewrite mat_vec_nth by exact Hi. apply csum_ext. intros j _. unfold H. f_equal. f_equal.
        now rewrite (nth_map_lt (mat_pow ng H k) [] []) by exact Hb'.
  Qed.

  Lemma truncated_exp_0 v : length v = ng -> truncated_exp ng H dt 0 v = v.
  Proof.
    intros L. apply (list_ext (RtoC 0)).
    - unfold truncated_exp. now rewrite map_length, seq_length.
    - intros i Hi. unfold truncated_exp in *. rewrite map_length, seq_length in Hi. rewrite nth_map_seq by exact Hi.
      cbn [csum mat_pow]. rewrite exp_term_0. ring.
  Qed.
  Lemma truncated_exp_length k v : length (truncated_exp ng H dt k v) = ng.
  Proof. unfold truncated_exp. now rewrite map_length, seq_length. Qed.

  Lemma axpy_truncated evc k : rect ng evc ->
    axpy (exp_term (- Ci * RtoC dt) (S k))%C (map (mat_pow ng H (S k)) evc) (map (truncated_exp ng H dt k) evc)
    = map (truncated_exp ng H dt (S k)) evc.
  Proof.
    unfold axpy. induction evc as [|v evc IH]; intros Hr; [reflexivity|]. cbn [map zip_with]. f_equal.
    - apply (list_ext (RtoC 0)).
      + rewrite zip_length; rewrite !truncated_exp_length || idtac; rewrite ?mat_pow_length; auto; apply Hr; now left.
      + assert (Lv : length (mat_pow ng H (S k) v) = ng) by (apply mat_pow_length, Hr; now left).
        intros i Hi. rewrite zip_length in Hi by now rewrite truncated_exp_length. rewrite Lv in Hi.
        rewrite (zip_nth _ (RtoC 0) (RtoC 0)) by (rewrite ?truncated_exp_length, ?Lv; auto).
        unfold truncated_exp. rewrite !nth_map_seq by exact Hi. cbn [csum]. ring.
    - apply IH. intros p Hp. apply Hr. now right.
  Qed.

  Lemma taylor_iter_ok evc k s : rect ng evc -> tinv evc k s ->
    exists s', taylor_iter h dt k s = Ok s' /\ tinv evc (S k) s'.
  Proof.
    intros Hr (Ho & Hp & Hsw & Hf & Hpsi & Hl & Hprop). unfold taylor_iter. rewrite Hpsi.
    destruct (h_psi_pow (t_fft s) evc (t_mem s (t_hpsi s)) k Ho Hr Hl) as (o' & E & Ho').
    rewrite E. cbn [bind fst snd]. eexists. split; [reflexivity|].
    unfold tinv. cbn [t_fft t_prop t_psi t_hpsi t_fac t_mem].
    assert (Hne : t_hpsi s <> 2 /\ t_psi s <> 2 /\ t_psi s <> t_hpsi s) by (destruct Hsw; lia).
    assert (Hfac : (t_fac s * (- Ci * RtoC dt / RtoC (INR (k + 1))))%C = exp_term (- Ci * RtoC dt)%C (S k))
      by (rewrite Hf, exp_term_S; reflexivity).
    rewrite Hfac. rewrite Hp. unfold mset. rewrite !Nat.eqb_refl.
    destruct (Nat.eqb_spec 2 (t_hpsi s)) as [X|_]; [lia|].
    destruct (Nat.eqb_spec (t_hpsi s) 2) as [X|_]; [lia|].
    destruct (Nat.eqb_spec (t_psi s) 2) as [X|_]; [lia|].
    destruct (Nat.eqb_spec (t_psi s) (t_hpsi s)) as [X|_]; [lia|].
    rewrite Hp in Hprop. rewrite Hprop. repeat split; try apply Ho'.
    - destruct Hsw; lia.
    - now rewrite Hpsi, map_length.
    - now apply axpy_truncated.
  Qed.

  Lemma taylor_loop_ok evc n : forall k s, rect ng evc -> tinv evc k s ->
    exists s', taylor_loop h dt (seq k n) s = Ok s' /\ tinv evc (k + n) s'.
  Proof.
    induction n as [|n IH]; intros k s Hr Hs.
    - exists s. split; [reflexivity|]. now rewrite Nat.add_0_r.
    - cbn [seq taylor_loop]. destruct (taylor_iter_ok evc k s Hr Hs) as (s1 & E & H1). rewrite E. cbn [bind].
      destruct (IH (S k) s1 Hr H1) as (s' & E' & H'). exists s'. split; [exact E'|].
      now replace (k + S n) with (S k + n) by lia.
  Qed.

  Lemma taylor_prop_ok o m src dst l1 l2 order : full_inv nx ny nz idx false o -> rect ng (m src) ->
    exists o', taylor_prop (MkTaylor h dt order false false) o m (src :: l1) (dst :: l2)
      = Ok (o', mset m dst (map (truncated_exp ng H dt order) (m src)))
    /\ full_inv nx ny nz idx false o'.
  Proof.
    intros Ho Hr. unfold taylor_prop. cbn [te_noncolin te_spin te_ham te_dt te_order].
    set (s0 := MkTay _ _ _ _ _ _).
    destruct (taylor_loop_ok (m src) order 0 s0 Hr) as (s & E & Hs).
    - unfold tinv, s0. cbn [t_fft t_prop t_psi t_hpsi t_fac t_mem].
      split; [exact Ho|]. split; [reflexivity|]. split; [now left|]. split; [symmetry; apply exp_term_0|].
      unfold mset. cbn [Nat.eqb]. split.
      { symmetry. rewrite <- (map_id (m src)) at 2. reflexivity. }
      split; [now rewrite map_length|].
      rewrite <- (map_id (m src)) at 1. apply map_ext_in. intros v Hv. symmetry. apply truncated_exp_0, Hr, Hv.
    - rewrite E. cbn [bind]. exists (t_fft s). destruct Hs as (A & _ & _ & _ & _ & _ & B). rewrite B. split; [reflexivity|exact A].
  Qed.
End Taylor.
