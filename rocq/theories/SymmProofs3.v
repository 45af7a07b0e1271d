(** C25 in real space, the constructor's operation list and the grid filter. *)
From Verif Require Import Base SortModel SortProofs LatModel LatProofs GIndexModel GIndexProofs
  GSphereModel GSphereProofs SymmModel SymmSpec SymmProofs SymmProofs2 CBase.
Open Scope Z_scope.

Lemma lsum_plus {A} (f g : A -> C) l : lsum (map (fun x => (f x + g x)%C) l) = (lsum (map f l) + lsum (map g l))%C.
Proof.
  unfold lsum. induction l as [|a l IH]; cbn [map fold_right]; [ring|]. rewrite IH. ring.
Qed.
Lemma lsum_zero {A} (l : list A) : lsum (map (fun _ => RtoC 0) l) = RtoC 0.
Proof. rewrite lsum_const. ring. Qed.
Lemma lsum_swap {A B} (f : A -> B -> C) l m :
  lsum (map (fun x => lsum (map (f x) m)) l) = lsum (map (fun y => lsum (map (fun x => f x y) l)) m).
Proof.
  induction l as [|a l IH].
  - cbn [map]. symmetry. apply (lsum_zero m).
  - cbn [map]. change (lsum (lsum (map (f a) m) :: map (fun x => lsum (map (f x) m)) l))
      with (lsum (map (f a) m) + lsum (map (fun x => lsum (map (f x) m)) l))%C.
    rewrite IH, <- lsum_plus. f_equal.
Qed.

Lemma field_at_lsum gs : forall rho F r, (forall i, (i < length gs)%nat -> rho i = F (nth i gs (0, 0, 0))) ->
  field_at gs rho r = lsum (map (fun g => (F g * cis (2 * PI * zrdot g r))%C) gs).
Proof.
  induction gs as [|g gs IH]; intros rho F r H; [reflexivity|].
  cbn [field_at map]. rewrite (IH _ F).
  - rewrite (H 0%nat) by (cbn; lia). reflexivity.
  - intros i Hi. rewrite (H (S i)) by (cbn; lia). reflexivity.
Qed.

Section RealSpace.
  Variables (gs : list vec3) (ops : list symop).
  Hypothesis HND : NoDup gs.
  Hypothesis HG : space_group ops.
  Hypothesis Hcl : forall o g, In o ops -> In g gs -> In (imv (recilat_rot o) g) gs.

  Lemma rot_perm o : In o ops -> Permutation (map (imv (recilat_rot o)) gs) gs.
  Proof.
    intros Ho. apply NoDup_Permutation_bis.
    - apply FinFun.Injective_map_NoDup; [|assumption]. intros g h. now apply (op_inj ops HG).
    - rewrite map_length. lia.
    - intros g Hg. apply in_map_iff in Hg as (h & <- & Hh). now apply Hcl.
  Qed.

  Lemma transported_sum F o r : In o ops ->
    lsum (map (fun g => (transported F o g * cis (2 * PI * zrdot g r))%C) gs)
    = lsum (map (fun g => (F g * cis (2 * PI * zrdot g (act o r)))%C) gs).
  Proof.
    intros Ho. rewrite <- (lsum_perm _ _ (Permutation_map (fun g => (F g * cis (2 * PI * zrdot g (act o r)))%C) (rot_perm o Ho))).
    rewrite map_map. f_equal. apply map_ext. intros g. unfold transported, act.
    rewrite zrdot_add, (sg_reciprocal _ HG o Ho), recip_dot by now apply (op_unimod ops HG).
    rewrite Rmult_plus_distr_l, cis_plus. ring.
  Qed.

  Lemma average_field F r :
    lsum (map (fun g => (group_average ops F g * cis (2 * PI * zrdot g r))%C) gs)
    = (lsum (map (fun o => lsum (map (fun g => (F g * cis (2 * PI * zrdot g (act o r)))%C) gs)) ops)
       / RtoC (INR (length ops)))%C.
  Proof.
    unfold group_average.
    rewrite (map_ext _ (fun g => (/ RtoC (INR (length ops)) * lsum (map (fun o => (transported F o g * cis (2 * PI * zrdot g r))%C) ops))%C)).
    - rewrite <- (map_map (fun g => lsum (map (fun o => (transported F o g * cis (2 * PI * zrdot g r))%C) ops)) (fun x => (/ RtoC (INR (length ops)) * x)%C)).
      rewrite lsum_scal, lsum_swap. unfold Cdiv. rewrite Cmult_comm. f_equal. f_equal.
      apply map_ext_in. intros o Ho. now apply transported_sum.
    - intros g. rewrite (map_ext (fun o => (transported F o g * cis (2 * PI * zrdot g r))%C) (fun o => (cis (2 * PI * zrdot g r) * transported F o g)%C)) by (intros; apply Cmult_comm).
      rewrite <- (map_map (fun o => transported F o g) (fun x => (cis (2 * PI * zrdot g r) * x)%C)), lsum_scal.
      unfold Cdiv. ring.
  Qed.
End RealSpace.

(* ---------------- plane waves are independent ---------------- *)
Definition grid_pt (n : nat) (a b c : nat) : rvec :=
  V (INR a / INR n) (INR b / INR n) (INR c / INR n).
Lemma cis_grid n g a b c : (0 < n)%nat ->
  cis (2 * PI * zrdot g (grid_pt n a b c))
  = (root n (Z.of_nat a * fst (fst g)) * root n (Z.of_nat b * snd (fst g)) * root n (Z.of_nat c * snd g))%C.
Proof.
  intros Hn. destruct g as [[x y] z]. cbn [fst snd]. unfold root. rewrite <- !cis_plus. f_equal.
  rewrite !mult_IZR, <- !INR_IZR_INZ. cbn [zrdot grid_pt vx vy vz]. assert (INR n <> 0%R) by (apply not_0_INR; lia). field. assumption.
Qed.

Definition small (n : nat) (g : vec3) : Prop :=
  let '(x, y, z) := g in 2 * Z.abs x < Z.of_nat n /\ 2 * Z.abs y < Z.of_nat n /\ 2 * Z.abs z < Z.of_nat n.
Lemma small_exists gs : exists n, (0 < n)%nat /\ forall g, In g gs -> small n g.
Proof.
  induction gs as [|[[x y] z] gs (n & Hn & H)]; [exists 1%nat; split; [lia|intros g []]|].
  exists (n + Z.to_nat (2 * Z.abs x + 2 * Z.abs y + 2 * Z.abs z) + 1)%nat. split; [lia|].
  intros g [<-|Hg]; [unfold small; lia|]. specialize (H g Hg). destruct g as [[a b] c]. unfold small in *. lia.
Qed.
Lemma small_mod n x y : 2 * Z.abs x < Z.of_nat n -> 2 * Z.abs y < Z.of_nat n ->
  ((x - y) mod Z.of_nat n =? 0) = true -> x = y.
Proof.
  intros Hx Hy E. apply Z.eqb_eq in E. apply Z.mod_divide in E; [|lia]. destruct E as [k Ek].
  assert (k = 0) by nia. lia.
Qed.

(** Sum of a plane wave against another over an n^3 grid. *)
Lemma grid_ortho n g h : (0 < n)%nat -> small n g -> small n h ->
  csum n (fun a => csum n (fun b => csum n (fun c =>
    (cis (2 * PI * zrdot g (grid_pt n a b c)) * Cconj (cis (2 * PI * zrdot h (grid_pt n a b c))))%C)))
  = if vec3_eqb g h then (RtoC (INR n) * RtoC (INR n) * RtoC (INR n))%C else RtoC 0.
Proof.
  intros Hn Sg Sh. destruct g as [[x y] z], h as [[x' y'] z']. cbn [small] in *.
  rewrite (csum_ext n _ (fun a => (root n (Z.of_nat a * (x - x'))
     * (csum n (fun b => root n (Z.of_nat b * (y - y'))) * csum n (fun c => root n (Z.of_nat c * (z - z')))))%C)).
  - rewrite csum_scal_r, !root_orthogonal by assumption. unfold vec3_eqb.
    destruct (Z.eqb_spec x x') as [->|Nx].
    + rewrite Z.sub_diag, Z.mod_0_l, Z.eqb_refl by lia.
      destruct (Z.eqb_spec y y') as [->|Ny].
      * rewrite Z.sub_diag, Z.mod_0_l, Z.eqb_refl by lia.
        destruct (Z.eqb_spec z z') as [->|Nz].
        -- rewrite Z.sub_diag, Z.mod_0_l, Z.eqb_refl by lia. cbn [andb]. ring.
        -- destruct ((z - z') mod Z.of_nat n =? 0) eqn:E; [apply small_mod in E; [contradiction|lia|lia]|]. cbn [andb]. ring.
      * destruct ((y - y') mod Z.of_nat n =? 0) eqn:E; [apply small_mod in E; [contradiction|lia|lia]|]. cbn [andb]. ring.
    + destruct ((x - x') mod Z.of_nat n =? 0) eqn:E; [apply small_mod in E; [contradiction|lia|lia]|]. cbn [andb]. ring.
  - intros a _. rewrite csum_mult, <- csum_scal. apply csum_ext. intros b _.
    rewrite <- csum_scal. apply csum_ext. intros c _.
    rewrite !cis_grid by assumption. cbn [fst snd].
    assert (Hc : forall u v : C, Cconj (u * v)%C = (Cconj u * Cconj v)%C) by (intros u v; apply C_ext; cbn; ring).
    rewrite !Hc, !root_conj.
    replace (Z.of_nat a * (x - x')) with (Z.of_nat a * x + - (Z.of_nat a * x')) by ring.
    replace (Z.of_nat b * (y - y')) with (Z.of_nat b * y + - (Z.of_nat b * y')) by ring.
    replace (Z.of_nat c * (z - z')) with (Z.of_nat c * z + - (Z.of_nat c * z')) by ring.
    rewrite !root_add. ring.
Qed.

Lemma csum_lsum {A} n (f : nat -> A -> C) l : csum n (fun i => lsum (map (f i) l)) = lsum (map (fun x => csum n (fun i => f i x)) l).
Proof.
  induction n as [|n IH]; [cbn [csum]; symmetry; apply (lsum_zero l)|].
  cbn [csum]. rewrite IH, <- lsum_plus. reflexivity.
Qed.

Lemma lsum_pick (F : vec3 -> C) (k : C) h gs : NoDup gs -> In h gs ->
  lsum (map (fun g => (F g * (if vec3_eqb g h then k else RtoC 0))%C) gs) = (F h * k)%C.
Proof.
  intros HN Hin. induction HN as [|g gs Hn HN IH]; [destruct Hin|].
  cbn [map]. change (lsum (?a :: ?l)) with (a + lsum l)%C.
  unfold lsum in *. cbn [fold_right]. destruct (vec3_eqb_spec g h) as [->|Hne].
  - rewrite (map_ext_in _ (fun _ => RtoC 0)).
    + pose proof (lsum_zero gs) as Hz. unfold lsum in Hz. rewrite Hz. ring.
    + intros g Hg. destruct (vec3_eqb_spec g h) as [->|]; [contradiction|ring].
  - destruct Hin as [->|Hin]; [congruence|]. rewrite IH by assumption. ring.
Qed.

Lemma planewaves_independent gs F F' : NoDup gs ->
  (forall r, lsum (map (fun g => (F g * cis (2 * PI * zrdot g r))%C) gs)
           = lsum (map (fun g => (F' g * cis (2 * PI * zrdot g r))%C) gs)) ->
  forall h, In h gs -> F h = F' h.
Proof.
  intros HN H h Hh. destruct (small_exists gs) as (n & Hn & Hs).
  assert (G : forall F, csum n (fun a => csum n (fun b => csum n (fun c =>
     (lsum (map (fun g => (F g * cis (2 * PI * zrdot g (grid_pt n a b c)))%C) gs)
      * Cconj (cis (2 * PI * zrdot h (grid_pt n a b c))))%C)))
     = (F h * (RtoC (INR n) * RtoC (INR n) * RtoC (INR n)))%C).
  { clear F F' H. intros F.
    rewrite <- (lsum_pick F _ h gs HN Hh).
    rewrite (csum_ext n _ (fun a => lsum (map (fun g => csum n (fun b => csum n (fun c =>
       (F g * (cis (2 * PI * zrdot g (grid_pt n a b c)) * Cconj (cis (2 * PI * zrdot h (grid_pt n a b c)))))%C))) gs))).
    - rewrite csum_lsum. f_equal. apply map_ext_in. intros g Hg.
      rewrite <- (grid_ortho n g h Hn (Hs g Hg) (Hs h Hh)). rewrite <- csum_scal. apply csum_ext. intros a _.
      rewrite <- csum_scal. apply csum_ext. intros b _. rewrite <- csum_scal. apply csum_ext. reflexivity.
    - intros a _. rewrite <- csum_lsum. apply csum_ext. intros b _. rewrite <- csum_lsum. apply csum_ext. intros c _.
      rewrite Cmult_comm, <- lsum_scal, map_map. f_equal. apply map_ext. intros g. ring. }
  pose proof (G F) as G1. pose proof (G F') as G2. clear G.
  rewrite (csum_ext n _ (fun a => csum n (fun b => csum n (fun c =>
     (lsum (map (fun g => (F' g * cis (2 * PI * zrdot g (grid_pt n a b c)))%C) gs)
      * Cconj (cis (2 * PI * zrdot h (grid_pt n a b c))))%C)))) in G1.
  - rewrite G2 in G1. assert (N0 : RtoC (INR n) <> RtoC 0).
    { intros E. apply RtoC_inj in E. apply (lt_0_INR n) in Hn. lra. }
    set (k := (RtoC (INR n) * RtoC (INR n) * RtoC (INR n))%C) in *.
    assert (K0 : k <> RtoC 0) by (unfold k; repeat apply Cmult_neq_0; assumption).
    apply (f_equal (fun x => (x * / k)%C)) in G1. rewrite <- !Cmult_assoc, Cinv_r, !Cmult_1_r in G1 by assumption. now symmetry.
  - intros a _. apply csum_ext. intros b _. apply csum_ext. intros c _. now rewrite H.
Qed.

(* ---------------- the operation list ---------------- *)
(** What spglib is relied on for: a finite set of operations, normalised translations
    (below 1, exactly 0 or longer than symprec), containing the identity first, closed
    under composition modulo lattice translations.  Several operations may share a
    rotation (supercells). *)
Record spglib_dataset (D : list (imat * rvec)) : Prop := {
  sd_identity : exists rest, D = (iid, V 0 0 0) :: rest;
  sd_nodup : NoDup D;
  sd_unimodular : forall p, In p D -> idet (fst p) = 1 \/ idet (fst p) = -1;
  sd_normal : forall p, In p D -> (0 <= vx (snd p) < 1 /\ 0 <= vy (snd p) < 1 /\ 0 <= vz (snd p) < 1)%R;
  sd_exact : forall p, In p D -> tiny (snd p) = true -> snd p = V 0 0 0;
  sd_closed : forall p q, In p D -> In q D -> exists s, In s D
     /\ fst s = imm (fst p) (fst q) /\ eq_mod1 (snd s) (vadd (imr (fst p) (snd q)) (snd p)) }.

Lemma unit_int (x : R) k : (0 <= x < 1)%R -> forall y, (0 <= y < 1)%R -> (x - y = IZR k)%R -> x = y.
Proof.
  intros Hx y Hy E. assert (IZR (-1) < IZR k < IZR 1)%R by lra. destruct H as [H1 H2].
  apply lt_IZR in H1. apply lt_IZR in H2. assert (k = 0) by lia. subst. lra.
Qed.
Lemma normal_eq x y : (0 <= vx x < 1 /\ 0 <= vy x < 1 /\ 0 <= vz x < 1)%R ->
  (0 <= vx y < 1 /\ 0 <= vy y < 1 /\ 0 <= vz y < 1)%R -> eq_mod1 x y -> x = y.
Proof.
  destruct x, y. cbn. intros (A1 & A2 & A3) (B1 & B2 & B3) (a & b & c & E). injection E as E1 E2 E3. cbn in *.
  f_equal; eapply unit_int; eassumption.
Qed.
Lemma eq_mod1_sym x y : eq_mod1 x y -> eq_mod1 y x.
Proof.
  intros (a & b & c & E). exists (- a), (- b), (- c). destruct x, y. injection E as E1 E2 E3. cbn in *.
  unfold vsub. cbn. rewrite !opp_IZR. f_equal; lra.
Qed.
Lemma eq_mod1_trans x y z : eq_mod1 x y -> eq_mod1 y z -> eq_mod1 x z.
Proof.
  intros (a & b & c & E) (a' & b' & c' & E'). exists (a + a'), (b + b'), (c + c'). destruct x, y, z.
  injection E as E1 E2 E3. injection E' as F1 F2 F3. cbn in *. unfold vsub. cbn. rewrite !plus_IZR. f_equal; lra.
Qed.
Lemma eq_mod1_refl x : eq_mod1 x x.
Proof. exists 0, 0, 0. destruct x. unfold vsub. cbn. f_equal; lra. Qed.
Lemma imr_int A x : int_vec x -> int_vec (imr A x).
Proof.
  intros H. destruct A as [[r1 r2] r3]. cbn [imr].
  destruct (zrdot_int r1 x H) as [a Ea]. destruct (zrdot_int r2 x H) as [b Eb]. destruct (zrdot_int r3 x H) as [c Ec].
  exists a, b, c. now rewrite Ea, Eb, Ec.
Qed.
Lemma imr_sub A x y : imr A (vsub x y) = vsub (imr A x) (imr A y).
Proof. destruct A as [[r1 r2] r3]. unfold vsub at 2. cbn [imr vx vy vz]. now rewrite !zrdot_sub. Qed.
Lemma imr_mod1 A x y : eq_mod1 x y -> eq_mod1 (imr A x) (imr A y).
Proof. unfold eq_mod1. intros H. rewrite <- imr_sub. now apply imr_int. Qed.
Lemma vadd_mod1 x x' y y' : eq_mod1 x x' -> eq_mod1 y y' -> eq_mod1 (vadd x y) (vadd x' y').
Proof.
  intros (a & b & c & E) (a' & b' & c' & E'). exists (a + a'), (b + b'), (c + c'). destruct x, x', y, y'.
  injection E as E1 E2 E3. injection E' as F1 F2 F3. cbn in *. unfold vsub. cbn. rewrite !plus_IZR. f_equal; lra.
Qed.

Lemma imat_eqb_spec A B : reflect (A = B) (imat_eqb A B).
Proof.
  destruct A as [[a1 a2] a3], B as [[b1 b2] b3]. unfold imat_eqb.
  destruct (vec3_eqb_spec a1 b1), (vec3_eqb_spec a2 b2), (vec3_eqb_spec a3 b3); cbn; constructor; congruence.
Qed.

Lemma tiny_0 : tiny (V 0 0 0) = true.
Proof.
  unfold tiny. apply rleb_spec. unfold vnorm, vdot. cbn. replace (0 * 0 + 0 * 0 + 0 * 0)%R with 0%R by ring.
  rewrite sqrt_0. unfold symprec. lra.
Qed.

  Lemma map_NoDup_on {A B} (f : A -> B) l : NoDup l -> (forall x y, In x l -> In y l -> f x = f y -> x = y) -> NoDup (map f l).
  Proof.
    induction 1 as [|x l Hx HN IH]; intros H; cbn; constructor.
    - intros Hin. apply in_map_iff in Hin as (y & E & Hy). apply Hx. rewrite <- (H y x); [assumption|now right|now left|assumption].
    - apply IH. intros a b Ha Hb. apply H; now right.
  Qed.

Section Dataset.
  Variable D : list (imat * rvec).
  Hypothesis HD : spglib_dataset D.

  Lemma ds_id : In (iid, V 0 0 0) D.
  Proof. destruct (sd_identity _ HD) as [r ->]. now left. Qed.
  Lemma ds_eq p q : In p D -> In q D -> fst p = fst q -> eq_mod1 (snd p) (snd q) -> p = q.
  Proof.
    intros Hp Hq E E'. pose proof (sd_normal _ HD p Hp). pose proof (sd_normal _ HD q Hq).
    destruct p, q. cbn in *. subst. f_equal. now apply normal_eq.
  Qed.
  (** Every operation of the set has a left inverse in it. *)
  Lemma ds_inverse p : In p D -> exists q, In q D /\ imm (fst q) (fst p) = iid
     /\ int_vec (vadd (imr (fst q) (snd p)) (snd q)).
  Proof.
    intros Hp.
    (* right multiplication by p, choosing the product in D *)
    assert (Hprod : exists f : imat * rvec -> imat * rvec, forall q, In q D -> In (f q) D
         /\ fst (f q) = imm (fst q) (fst p) /\ eq_mod1 (snd (f q)) (vadd (imr (fst q) (snd p)) (snd q))).
    { assert (G : forall L, incl L D -> exists f : imat * rvec -> imat * rvec, forall q, In q L -> In (f q) D
         /\ fst (f q) = imm (fst q) (fst p) /\ eq_mod1 (snd (f q)) (vadd (imr (fst q) (snd p)) (snd q))).
      { induction L as [|x L IH]; intros HL; [exists (fun q => q); intros q []|].
        destruct IH as [f Hf]; [intros y Hy; apply HL; now right|].
        destruct (sd_closed _ HD x p (HL x (or_introl eq_refl)) Hp) as (s & Hs & E1 & E2).
        assert (dec : forall q : imat * rvec, {q = x} + {q <> x}).
        { intros [A t] . destruct x as [B u]. destruct (imat_dec A B) as [->|N]; [|right; congruence].
          destruct t as [t1 t2 t3], u as [u1 u2 u3].
          destruct (Req_EM_T t1 u1) as [->|N]; [|right; congruence].
          destruct (Req_EM_T t2 u2) as [->|N]; [|right; congruence].
          destruct (Req_EM_T t3 u3) as [->|N]; [|right; congruence]. now left. }
        exists (fun q => if dec q then s else f q). intros q Hq. destruct (dec q) as [->|N]; [auto|].
        destruct Hq as [->|Hq]; [congruence|]. now apply Hf. }
      apply (G D). intros x Hx. exact Hx. }
    destruct Hprod as [f Hf].
    assert (Hperm : Permutation (map f D) D).
    { apply NoDup_Permutation_bis.
      - apply NoDup_map_inv with (f := fun x => x). rewrite map_id.
        assert (Hinj : forall x y, In x D -> In y D -> f x = f y -> x = y).
        { intros x y Hx Hy E. destruct (Hf x Hx) as (_ & X1 & X2). destruct (Hf y Hy) as (_ & Y1 & Y2).
          assert (Ef : fst x = fst y).
          { apply (unimod_cancel_r (fst p)); [now apply (sd_unimodular _ HD)|]. now rewrite <- X1, <- Y1, E. }
          apply ds_eq; auto. rewrite E in X2. pose proof (eq_mod1_trans _ _ _ (eq_mod1_sym _ _ X2) Y2) as Z.
          rewrite Ef in Z. destruct Z as (a & b & c & Z). exists a, b, c. rewrite <- Z.
          destruct (snd x), (snd y). unfold vsub, vadd. cbn. f_equal; ring. }
        now apply map_NoDup_on; [apply (sd_nodup _ HD)|].
      - rewrite map_length. lia.
      - intros x Hx. apply in_map_iff in Hx as (y & <- & Hy). now apply Hf. }
    pose proof (Permutation_in _ (Permutation_sym Hperm) ds_id) as Hin.
    apply in_map_iff in Hin as (q & Eq & Hq). exists q. destruct (Hf q Hq) as (_ & E1 & E2). rewrite Eq in E1, E2.
    cbn [fst snd] in *. repeat split; auto. apply eq_mod1_sym in E2. destruct E2 as (a & b & c & E2).
    exists a, b, c. rewrite <- E2. destruct (vadd (imr (fst q) (snd p)) (snd q)). unfold vsub. cbn. f_equal; ring.
  Qed.
  (** One pure translation: one operation per rotation. *)
  Lemma ds_unique p q : length (filter (fun p => imat_eqb (fst p) iid) D) = 1%nat ->
    In p D -> In q D -> fst p = fst q -> p = q.
  Proof.
    intros H1 Hp Hq E. destruct (ds_inverse p Hp) as (s & Hs & Es & Ei).
    destruct (sd_closed _ HD s q Hs Hq) as (w & Hw & Ew & Ewt).
    assert (Ew' : fst w = iid) by (rewrite Ew, <- E; exact Es).
    assert (w = (iid, V 0 0 0)).
    { destruct (filter (fun p => imat_eqb (fst p) iid) D) as [|x [|? ?]] eqn:Ef; cbn in H1; try discriminate.
      assert (Hx : forall z, In z D -> fst z = iid -> z = x).
      { intros z Hz Ez. assert (Hin : In z (filter (fun p => imat_eqb (fst p) iid) D)).
        { apply filter_In. split; [assumption|]. rewrite Ez. now destruct (imat_eqb_spec iid iid). }
        rewrite Ef in Hin. destruct Hin as [->|[]]. reflexivity. }
      rewrite (Hx w Hw Ew'). symmetry. now apply Hx; [apply ds_id|]. }
    subst w. cbn [fst snd] in *.
    apply ds_eq; auto.
    assert (Hd : eq_mod1 (imr (fst s) (snd p)) (imr (fst s) (snd q))).
    { destruct Ei as (a & b & c & Ei). destruct Ewt as (a' & b' & c' & Ew2).
      exists (a + a'), (b + b'), (c + c'). rewrite !plus_IZR.
      destruct (imr (fst s) (snd p)), (imr (fst s) (snd q)), (snd s). unfold vsub, vadd in *. cbn in *.
      injection Ei as A1 A2 A3. injection Ew2 as B1 B2 B3. f_equal; lra. }
    apply (imr_mod1 (fst p)) in Hd. rewrite <- !imm_mr in Hd.
    assert (Er : imm (fst p) (fst s) = iid).
    { apply (unimod_cancel_l (fst s)); [now apply (sd_unimodular _ HD)|].
      now rewrite <- imm_assoc, Es, imm_iid_l, imm_iid_r. }
    now rewrite Er, !imr_iid in Hd.
  Qed.

  Lemma crystal_symm_group : space_group (crystal_symm D).
  Proof.
    unfold crystal_symm. cbv zeta. set (mk := fun p : imat * rvec => MkOp (fst p) (snd p) (recip (fst p))).
    destruct (Nat.eqb_spec (length (filter (fun p => imat_eqb (fst p) iid) D)) 1) as [H1|Hn].
    - constructor.
      + destruct (sd_identity _ HD) as [rest E]. rewrite E. exists (mk (iid, V 0 0 0)), (map mk rest).
        repeat split. now exists 0, 0, 0.
      + intros o Ho. apply in_map_iff in Ho as (p & <- & Hp). now apply (sd_unimodular _ HD).
      + intros o Ho. apply in_map_iff in Ho as (p & <- & Hp). reflexivity.
      + rewrite map_map. cbn [mk reallat_rot]. apply map_NoDup_on; [apply (sd_nodup _ HD)|].
        intros p q Hp Hq E. now apply ds_unique.
      + intros o p Ho Hp. apply in_map_iff in Ho as (a & <- & Ha). apply in_map_iff in Hp as (b & <- & Hb).
        destruct (sd_closed _ HD a b Ha Hb) as (s & Hs & E1 & E2). exists (mk s). split; [now apply in_map|].
        split; assumption.
    - assert (Hk : forall p, In p (filter (fun p => tiny (snd p)) D) <-> In p D /\ snd p = V 0 0 0).
      { intros p. rewrite filter_In. split; intros [Hp H]; (split; [assumption|]).
        - now apply (sd_exact _ HD). - rewrite H. apply tiny_0. }
      constructor.
      + destruct (sd_identity _ HD) as [rest E]. rewrite E. cbn [filter snd]. rewrite tiny_0.
        eexists (mk (iid, V 0 0 0)), _. split; [reflexivity|]. split; [reflexivity|]. now exists 0, 0, 0.
      + intros o Ho. apply in_map_iff in Ho as (p & <- & Hp). apply Hk in Hp as [Hp _]. now apply (sd_unimodular _ HD).
      + intros o Ho. apply in_map_iff in Ho as (p & <- & Hp). reflexivity.
      + rewrite map_map. cbn [mk reallat_rot]. apply map_NoDup_on; [apply NoDup_filter, (sd_nodup _ HD)|].
        intros p q Hp Hq E. apply Hk in Hp as [_ Hp]. apply Hk in Hq as [_ Hq]. destruct p, q. cbn in *. congruence.
      + intros o p Ho Hp. apply in_map_iff in Ho as (a & <- & Ha). apply in_map_iff in Hp as (b & <- & Hb).
        apply Hk in Ha as [Ha Ta]. apply Hk in Hb as [Hb Tb].
        destruct (sd_closed _ HD a b Ha Hb) as (s & Hs & E1 & E2). exists (mk s). cbn [mk reallat_rot reallat_trans].
        split; [|split; assumption]. apply in_map. apply Hk. split; [assumption|].
        rewrite Ta, Tb in E2. assert (E3 : vadd (imr (fst a) (V 0 0 0)) (V 0 0 0) = V 0 0 0).
        { destruct (fst a) as [[[[a1 a2] a3] [[a4 a5] a6]] [[a7 a8] a9]]. unfold vadd. cbn. f_equal; ring. }
        rewrite E3 in E2. apply normal_eq; [now apply (sd_normal _ HD)| |assumption]. cbn. lra.
  Qed.
End Dataset.

(* ---------------- the grid filter ---------------- *)
(** The translation points of the FFT grid. *)
Definition grid_translation (sh : shape3) (t : rvec) : Prop :=
  let '(n1, n2, n3) := sh in int_vec (V (vx t * IZR n1) (vy t * IZR n2) (vz t * IZR n3)).

Lemma grid_translation_mod1 sh x y : eq_mod1 x y -> grid_translation sh y -> grid_translation sh x.
Proof.
  destruct sh as [[n1 n2] n3]. intros (a & b & c & E) (u & v & w & F).
  exists (u + a * n1), (v + b * n2), (w + c * n3). destruct x, y. unfold vsub in E. cbn in *.
  injection E as E1 E2 E3. injection F as F1 F2 F3. rewrite !plus_IZR, !mult_IZR, <- E1, <- E2, <- E3, <- F1, <- F2, <- F3.
  f_equal; ring.
Qed.
Lemma grid_translation_add sh x y : grid_translation sh x -> grid_translation sh y -> grid_translation sh (vadd x y).
Proof.
  destruct sh as [[n1 n2] n3]. intros (a & b & c & E) (u & v & w & F).
  exists (a + u), (b + v), (c + w). destruct x, y. unfold vadd. cbn in *.
  injection E as E1 E2 E3. injection F as F1 F2 F3. rewrite !plus_IZR, <- E1, <- E2, <- E3, <- F1, <- F2, <- F3.
  f_equal; ring.
Qed.
Lemma grid_translation_int sh x : int_vec x -> grid_translation sh x.
Proof.
  destruct sh as [[n1 n2] n3]. intros (a & b & c & ->). exists (a * n1), (b * n2), (c * n3). cbn.
  now rewrite !mult_IZR.
Qed.

Lemma filter_group sh ops : space_group ops ->
  (forall o, In o ops -> (on_grid sh (reallat_trans o) = true <-> grid_translation sh (reallat_trans o))) ->
  (forall o t, In o ops -> grid_translation sh t -> grid_translation sh (imr (reallat_rot o) t)) ->
  space_group (filter_frac_trans sh ops).
Proof.
  intros HG Hex Hc. unfold filter_frac_trans.
  assert (Hk : forall o, In o (filter (fun o => on_grid sh (reallat_trans o)) ops) <-> In o ops /\ grid_translation sh (reallat_trans o)).
  { intros o. rewrite filter_In. split; intros [H1 H2]; (split; [assumption|]); now apply Hex. }
  constructor.
  - destruct (sg_identity _ HG) as (o & rest & E & E1 & E2).
    assert (Ht : on_grid sh (reallat_trans o) = true)
      by (apply Hex; [rewrite E; now left|now apply grid_translation_int]).
    rewrite E. cbn [filter]. rewrite Ht. eauto.
  - intros o Ho. apply Hk in Ho as [Ho _]. now apply (sg_unimodular _ HG).
  - intros o Ho. apply Hk in Ho as [Ho _]. now apply (sg_reciprocal _ HG).
  - pose proof (sg_distinct _ HG) as HN. clear - HN. induction ops as [|o l IH]; [constructor|].
    cbn [map] in HN. inversion_clear HN as [|? ? Hn HN']. cbn [filter]. destruct (on_grid _ _); [|auto]. cbn [map].
    constructor; [|auto]. intros Hin. apply Hn. apply in_map_iff in Hin as (p & E & Hp). apply filter_In in Hp as [Hp _].
    apply in_map_iff. now exists p.
  - intros o p Ho Hp. apply Hk in Ho as [Ho To]. apply Hk in Hp as [Hp Tp].
    destruct (sg_closed _ HG o p Ho Hp) as (q & Hq & E1 & E2). exists q. split; [|auto].
    apply Hk. split; [assumption|]. eapply grid_translation_mod1; [exact E2|].
    apply grid_translation_add; [|assumption]. now apply Hc.
Qed.
(** A cubic grid is compatible with every rotation. *)
Lemma cubic_compatible n A t : grid_translation (n, n, n) t -> grid_translation (n, n, n) (imr A t).
Proof.
  intros H. cbn [grid_translation] in *. apply (imr_int A) in H.
  destruct A as [[[[a1 a2] a3] [[a4 a5] a6]] [[a7 a8] a9]], t. cbn in *.
  destruct H as (a & b & c & H). exists a, b, c. rewrite <- H. f_equal; ring.
Qed.
