(** C116: Quantum ESPRESSO HDF5 files. *)
From Coq Require Import Reals Lra Lia Sorted Permutation String DecimalString.
From Verif Require Import Base LatModel CheckModel SortModel SortProofs WfnIOModel WfnPyModel PropsWfnPy
  GIndexModel PropsGIndex QeH5Model QeH5Spec CBase.
Local Open Scope nat_scope.

Lemma closeb_near x y : closeb x y = true <-> near x y.
Proof. unfold closeb, near. destruct (Rle_dec _ _); split; intros; try discriminate; auto; contradiction. Qed.
Lemma vclose_near a b : vclose a b = true <-> near3 a b.
Proof. unfold vclose, near3. rewrite !Bool.andb_true_iff, !closeb_near. tauto. Qed.
Lemma bg_ok_near bg axes : bg_ok bg axes = true <-> forall i, i < 3 -> near3 (bg i) (axes i).
Proof.
  unfold bg_ok. rewrite forallb_forall. split; intros H i Hi.
  - apply vclose_near, H, in_seq. lia.
  - apply in_seq in Hi. apply vclose_near, H. lia.
Qed.
Lemma z3leb_lex a b : z3leb a b = true <-> lex_le a b.
Proof. destruct a as [[a1 a2] a3], b as [[b1 b2] b3]. cbn. lia. Qed.
Lemma below_small a : below_100000 a -> small a.
Proof. destruct a as [[a1 a2] a3]. unfold small. cbn. tauto. Qed.

Lemma mapR_ok {A B} (f : A -> res B) l r : mapR f l = Ok r ->
  length r = length l /\ forall i x, nth_error l i = Some x -> exists y, f x = Ok y /\ nth_error r i = Some y.
Proof.
  revert r; induction l as [|x l IH]; intros r H; cbn in H.
  - injection H as <-. split; [reflexivity|]. intros [|i] x; discriminate.
  - destruct (f x) as [y|e] eqn:E; cbn in H; [|discriminate].
    destruct (mapR f l) as [r'|e] eqn:E'; cbn in H; [|discriminate]. injection H as <-.
    destruct (IH _ eq_refl) as [L P]. split; [cbn; now rewrite L|].
    intros [|i] z Hz; cbn in Hz.
    + injection Hz as <-. exists y. auto.
    + destruct (P i z Hz) as [w Hw]. exists w. exact Hw.
Qed.
Lemma mapR_total {A B} (f : A -> res B) l : (forall x, In x l -> exists y, f x = Ok y) -> exists r, mapR f l = Ok r.
Proof.
  induction l as [|x l IH]; intros H; cbn; [eauto|].
  destruct (H x (or_introl eq_refl)) as [y ->]. destruct IH as [r ->]; [auto with datatypes|]. cbn. eauto.
Qed.
Lemma pick_ok {A} (l : list A) i x : pick l i = Ok x <-> nth_error l i = Some x.
Proof. unfold pick. destruct (nth_error l i); split; congruence. Qed.

Lemma view_ok row : forall r, view_c16 row = Ok r ->
  length row = 2 * length r /\
  forall p a b, nth_error r p = Some (a, b) -> nth_error row (2 * p) = Some a /\ nth_error row (2 * p + 1) = Some b.
Proof.
  assert (H : forall n row, length row <= n -> forall r, view_c16 row = Ok r ->
    length row = 2 * length r /\
    forall p a b, nth_error r p = Some (a, b) -> nth_error row (2 * p) = Some a /\ nth_error row (2 * p + 1) = Some b).
  { clear row. induction n as [|n IH]; intros row L r.
    - destruct row; cbn in *; [|lia]. intros E; injection E as <-. split; [reflexivity|]. intros [|p]; discriminate.
    - destruct row as [|x [|y t]]; cbn [view_c16]; try discriminate.
      + intros E; injection E as <-. split; [reflexivity|]. intros [|p]; discriminate.
      + destruct (view_c16 t) as [r'|] eqn:E; cbn; [|discriminate]. intros E'; injection E' as <-.
        cbn in L. destruct (IH t ltac:(lia) r' E) as [L' P]. split; [cbn; lia|].
        intros [|p] a b Hp; cbn in Hp.
        * injection Hp as <- <-. auto.
        * destruct (P p a b Hp) as [P1 P2].
          assert (N1 : forall q, q = S (S (2 * p)) -> nth_error (x :: y :: t) q = Some a) by (intros q ->; exact P1).
          assert (N2 : forall q, q = S (S (2 * p + 1)) -> nth_error (x :: y :: t) q = Some b) by (intros q ->; exact P2).
          split; [apply N1; lia|apply N2; lia]. }
  exact (H (length row) row (le_n _)).
Qed.
Lemma view_total n : forall row, length row = 2 * n -> exists r, view_c16 row = Ok r /\ length r = n.
Proof.
  induction n as [|n IH]; intros row L.
  - destruct row; [|cbn in L; lia]. exists []. auto.
  - destruct row as [|x [|y t]]; cbn in L; try lia.
    destruct (IH t ltac:(lia)) as (r & E & Lr). exists ((x, y) :: r). cbn. rewrite E. cbn. auto.
Qed.

(** One file. *)
Lemma load_one_ok A ik f old m : load_one A ik f old = Ok m ->
  bg_ok (w_bg f) (a_axes A) = true /\ vclose (w_xk f) (a_kcart A ik) = true /\ a_numg A ik = w_igwx f /\
  rows_close (take z0 (w_miller f) (lexsort (w_miller f))) (take z0 (a_cryst A) (a_idxg A ik)) = Ok true /\
  (exists evc rows, mapR view_c16 (w_evc f) = Ok evc /\ mapR (pick evc) (a_bands A) = Ok rows
     /\ mapR (fun row => mapR (pick row) (lexsort (w_miller f))) rows = Ok m) /\
  length old = length m.
Proof.
  unfold load_one. destruct (bg_ok _ _) eqn:E1; [|discriminate]. destruct (vclose _ _) eqn:E2; [|discriminate].
  destruct (Nat.eqb_spec (a_numg A ik) (w_igwx f)) as [E3|]; [|discriminate]. cbn [negb].
  destruct (rows_close _ _) as [b|] eqn:E4; cbn [bind]; [|discriminate].
  destruct b; [|discriminate]. cbn [negb].
  destruct (mapR view_c16 _) as [evc|] eqn:E5; cbn [bind]; [|discriminate].
  destruct (mapR (pick evc) _) as [rows|] eqn:E6; cbn [bind]; [|discriminate].
  destruct (mapR _ rows) as [v|] eqn:E7; cbn [bind]; [|discriminate].
  destruct (Nat.eqb_spec (length old) (length v)) as [E8|]; cbn [andb]; [|discriminate].
  destruct (forallb _ _); [|discriminate]. intros H; injection H as <-.
  split; [reflexivity|]. split; [reflexivity|]. split; [exact E3|]. split; [first [exact E4|reflexivity]|].
  split; [exists evc, rows; split; [first [exact E5|reflexivity]|split; [exact E6|exact E7]]|exact E8].
Qed.

Lemma upd_same s ik isp m : upd s ik isp m ik isp = m.
Proof. unfold upd. now rewrite !Nat.eqb_refl. Qed.
Lemma upd_other s ik isp m i j : (i, j) <> (ik, isp) -> upd s ik isp m i j = s i j.
Proof. unfold upd. destruct (Nat.eqb_spec i ik), (Nat.eqb_spec j isp); subst; cbn; congruence. Qed.

Lemma load_all_frame A fs todo : forall s s' r i j, load_all A fs todo s = (s', r) -> ~ In (i, j) todo -> s' i j = s i j.
Proof.
  induction todo as [|[ik isp] t IH]; intros s s' r i j H Hn; cbn in H; [congruence|].
  destruct (fs _) as [f|]; [|congruence]. destruct (load_one _ _ _ _) as [m|]; [|congruence].
  erewrite (IH _ _ _ i j H) by (intros Hi; apply Hn; now right). apply upd_other. intros E. apply Hn. left. congruence.
Qed.
Lemma load_all_ok A fs todo : NoDup todo -> forall s s', load_all A fs todo s = (s', Ok tt) ->
  forall i j, In (i, j) todo -> exists f, fs (file_name (a_numspin A) (a_idxk A i)) = Some f /\ load_one A i f (s i j) = Ok (s' i j).
Proof.
  induction 1 as [|[ik isp] t Hn Nt IH]; intros s s' H i j Hi; [destruct Hi|]. cbn in H.
  destruct (fs _) as [f|] eqn:Ef; [|discriminate]. destruct (load_one _ _ _ _) as [m|] eqn:El; [|discriminate].
  destruct Hi as [E|Hi].
  - injection E as -> ->. exists f. split; [exact Ef|].
    rewrite (load_all_frame _ _ _ _ _ _ _ _ H Hn), upd_same. exact El.
  - destruct (IH _ _ H i j Hi) as (g & Hg & Hl). exists g. split; [exact Hg|].
    rewrite upd_other in Hl; [exact Hl|]. intros E. injection E as -> ->. contradiction.
Qed.
Definition todo_of A := flat_map (fun ik => map (fun isp => (ik, isp)) (seq 0 (a_numspin A))) (seq 0 (a_numk A)).
Lemma todo_in A i j : In (i, j) (todo_of A) <-> i < a_numk A /\ j < a_numspin A.
Proof.
  unfold todo_of. rewrite in_flat_map. split.
  - intros (k & Hk & H). apply in_map_iff in H as (l & E & Hl). injection E as -> ->.
    apply in_seq in Hk. apply in_seq in Hl. lia.
  - intros [H1 H2]. exists i. split; [apply in_seq; lia|]. apply in_map_iff. exists j. split; [reflexivity|apply in_seq; lia].
Qed.
Lemma todo_NoDup A : NoDup (todo_of A).
Proof.
  unfold todo_of. generalize (seq_NoDup (a_numk A) 0). generalize (seq 0 (a_numk A)) as l.
  induction 1 as [|k l Hk Nl IH]; cbn; [constructor|].
  assert (D : forall x, In x (map (fun isp => (k, isp)) (seq 0 (a_numspin A))) ->
    ~ In x (flat_map (fun ik => map (fun isp => (ik, isp)) (seq 0 (a_numspin A))) l)).
  { intros x H1 H2. apply in_map_iff in H1 as (a & <- & _). apply in_flat_map in H2 as (k' & Hk' & H2).
    apply in_map_iff in H2 as (b & E & _). injection E as -> _. contradiction. }
  revert D. generalize (flat_map (fun ik => map (fun isp => (ik, isp)) (seq 0 (a_numspin A))) l), IH. clear.
  intros tl IH. generalize (seq_NoDup (a_numspin A) 0). generalize (seq 0 (a_numspin A)).
  induction 1 as [|a q Ha Nq IHq]; intros D; cbn; [exact IH|]. constructor.
  - rewrite in_app_iff. intros [H|H].
    + apply in_map_iff in H as (b & E & Hb). injection E as ->. contradiction.
    + exact (D _ (or_introl eq_refl) H).
  - apply IHq. intros x Hx. apply D. now right.
Qed.

Lemma take_nth' {A} (d : A) l idx j : j < length idx -> nth j (take d l idx) d = nth (nth j idx 0) l d.
Proof.
  intros H. unfold take. rewrite (nth_indep _ d (nth 0 l d)) by (rewrite map_length; exact H).
  exact (map_nth (fun i => nth i l d) idx 0 j).
Qed.
Lemma rows_close_eq a b : length a = length b -> Forall small b -> rows_close a b = Ok true -> a = b.
Proof.
  intros L S. unfold rows_close. rewrite L, Nat.eqb_refl. intros H.
  injection H as H. exact (forall_close a b L S H).
Qed.

(** If the wavefunction files are loaded without an exception, then the file opened for
    every k-point and spin has the axes and the k-point of the calculation, and the number
    stored for a band at the j-th plane wave of the k-point is the pair of floats that the file
    holds for that band at the position where the file lists the same plane wave. *)
Theorem C116_each_coefficient : forall A fs s s' ik isp,
  read_wfc A fs s = (s', Ok tt) -> ik < a_numk A -> isp < a_numspin A ->
  (forall k, a_numg A k = length (a_idxg A k)) ->
  (forall j, j < length (a_idxg A ik) -> below_100000 (nth (nth j (a_idxg A ik) 0) (a_cryst A) (0, 0, 0)%Z)) ->
  (forall n f, fs n = Some f -> w_igwx f = length (w_miller f)) ->
  exists f,
    (let number := NilZero.string_of_uint (Nat.to_uint (a_idxk A ik + 1)) in
     fs (if Nat.eqb (a_numspin A) 1 then ("wfc" ++ number ++ ".hdf5")%string else ("wfcdw" ++ number ++ ".hdf5")%string) = Some f)
    /\ (forall i, i < 3 -> near3 (w_bg f i) (a_axes A i)) /\ near3 (w_xk f) (a_kcart A ik)
    /\ length (s' ik isp) = length (a_bands A)
    /\ forall b band, nth_error (a_bands A) b = Some band ->
       exists row out, nth_error (w_evc f) band = Some row /\ nth_error (s' ik isp) b = Some out
       /\ length out = length (a_idxg A ik)
       /\ forall j, j < length (a_idxg A ik) ->
          exists p re im,
            nth_error (w_miller f) p = Some (nth (nth j (a_idxg A ik) 0) (a_cryst A) (0, 0, 0)%Z)
            /\ nth_error row (2 * p) = Some re /\ nth_error row (2 * p + 1) = Some im
            /\ nth_error out j = Some (re, im).
Proof.
  intros A fs s s' ik isp H Hk Hs HN HB HF.
  destruct (load_all_ok A fs _ (todo_NoDup A) s s' H ik isp) as (f & Ef & El); [apply todo_in; auto|].
  exists f. split.
  { cbv zeta. rewrite <- Ef, Nat.add_1_r. f_equal. unfold file_name.
    destruct (Nat.eqb_spec (a_numspin A) 1); [reflexivity|]. destruct (Nat.eqb_spec (a_numspin A) 0); [lia|reflexivity]. }
  destruct (load_one_ok _ _ _ _ _ El) as (E1 & E2 & E3 & E4 & (evc & rows & E5 & E6 & E7) & E8).
  split; [apply bg_ok_near, E1|]. split; [apply vclose_near, E2|].
  destruct (mapR_ok _ _ _ E5) as [L5 P5]. destruct (mapR_ok _ _ _ E6) as [L6 P6]. destruct (mapR_ok _ _ _ E7) as [L7 P7].
  split; [congruence|]. intros b band Hb.
  destruct (P6 b band Hb) as (r & Hr & Hrb). apply pick_ok in Hr.
  destruct (P7 b r Hrb) as (out & Ho & Hob).
  assert (Hrow : exists row, nth_error (w_evc f) band = Some row).
  { destruct (nth_error (w_evc f) band) eqn:E; [eauto|]. apply nth_error_None in E.
    assert (nth_error evc band <> None) as Hx by congruence. apply nth_error_Some in Hx. lia. }
  destruct Hrow as [row Hrow]. destruct (P5 band row Hrow) as (r' & Hv & Hr').
  assert (r' = r) as -> by congruence. exists row, out. split; [exact Hrow|]. split; [exact Hob|].
  destruct (view_ok row r Hv) as [Lv Pv]. destruct (mapR_ok _ _ _ Ho) as [Lo Po].
  assert (Ll : length (lexsort (w_miller f)) = length (a_idxg A ik)).
  { unfold lexsort. rewrite argsort_length, <- (HF _ _ Ef), <- E3. apply HN. }
  split; [congruence|].
  assert (EQ : take z0 (w_miller f) (lexsort (w_miller f)) = take z0 (a_cryst A) (a_idxg A ik)).
  { apply rows_close_eq; [rewrite !take_length; exact Ll| |exact E4].
    apply Forall_forall. intros g Hg. apply (In_nth _ _ z0) in Hg as (j & Hj & <-). rewrite take_length in Hj.
    rewrite take_nth' by exact Hj. apply below_small, HB, Hj. }
  intros j Hj.
  set (p := nth j (lexsort (w_miller f)) 0).
  assert (Hp : nth_error (lexsort (w_miller f)) j = Some p) by (apply nth_error_nth'; lia).
  destruct (Po j p Hp) as ([re im] & Hq & Hoj). apply pick_ok in Hq.
  exists p, re, im. destruct (Pv p re im Hq) as [V1 V2]. split; [|auto].
  assert (Hpb : p < length (w_miller f)) by (apply (argsort_bound z3leb), nth_In; fold (lexsort (w_miller f)); lia).
  rewrite (nth_error_nth' _ z0 Hpb). f_equal.
  change (0, 0, 0)%Z with z0. rewrite <- (take_nth' z0 (a_cryst A)) by exact Hj. rewrite <- EQ.
  rewrite take_nth' by lia. reflexivity.
Qed.
Print Assumptions C116_each_coefficient.

Lemma take_lexsort_sorted m : StronglySorted lex_le (take z0 m (lexsort m)).
Proof.
  eapply StronglySorted_impl; [|apply (take_argsort_sorted z3leb m z0 z3leb_total z3leb_trans)].
  intros a b H. apply z3leb_lex, H.
Qed.
Lemma take_lexsort_eq l m : StronglySorted lex_le l -> Permutation m l -> take z0 m (lexsort m) = l.
Proof.
  intros S P. apply (sorted_unique lex_le).
  - intros x y Hx Hy. apply z3leb_anti; apply z3leb_lex; assumption.
  - apply take_lexsort_sorted.
  - exact S.
  - rewrite <- P. apply take_perm, argsort_perm.
Qed.

Lemma load_all_total A fs (good : store -> nat -> nat -> Prop) todo : NoDup todo ->
  (forall s i j m i' j', good s i j -> (i, j) <> (i', j') -> good (upd s i' j' m) i j) ->
  (forall s i j, In (i, j) todo -> good s i j ->
     exists f m, fs (file_name (a_numspin A) (a_idxk A i)) = Some f /\ load_one A i f (s i j) = Ok m) ->
  forall s, (forall i j, In (i, j) todo -> good s i j) -> exists s', load_all A fs todo s = (s', Ok tt).
Proof.
  intros Nd Fr. induction Nd as [|[ik isp] t Hn Nt IH]; intros St s Hg; cbn; [eauto|].
  destruct (St s ik isp (or_introl eq_refl) (Hg _ _ (or_introl eq_refl))) as (f & m & -> & ->).
  apply IH; [intros; apply St; [now right|assumption]|].
  intros i j Hi. apply Fr; [apply Hg; now right|]. intros E. injection E as -> ->. contradiction.
Qed.

(** Files that list exactly the plane waves of each k-point, in any order, are loaded when
    the calculation keeps its plane waves in lexicographic order of their three integers. *)
Theorem C116_loads : forall A fs s,
  (forall ik isp, ik < a_numk A -> isp < a_numspin A ->
     let B := map (fun i => nth i (a_cryst A) (0, 0, 0)%Z) (a_idxg A ik) in
     StronglySorted lex_le B
     /\ a_numg A ik = length B
     /\ length (s ik isp) = length (a_bands A) /\ (forall row, In row (s ik isp) -> length row = length B)
     /\ exists f, fs (file_name (a_numspin A) (a_idxk A ik)) = Some f
        /\ (forall i, i < 3 -> near3 (w_bg f i) (a_axes A i)) /\ near3 (w_xk f) (a_kcart A ik)
        /\ Permutation (w_miller f) B /\ w_igwx f = length B
        /\ (forall row, In row (w_evc f) -> length row = 2 * length B)
        /\ (forall b, In b (a_bands A) -> b < length (w_evc f))) ->
  exists s', read_wfc A fs s = (s', Ok tt).
Proof.
  intros A fs s H.
  set (N := fun ik => length (a_idxg A ik)).
  apply (load_all_total A fs (fun s ik isp => length (s ik isp) = length (a_bands A) /\ forall row, In row (s ik isp) -> length row = N ik)).
  - apply todo_NoDup.
  - intros t i j m i' j' Hg Hn. rewrite upd_other by exact Hn. exact Hg.
  - intros t i j Hi [G1 G2]. apply todo_in in Hi as [Hi Hj].
    destruct (H i j Hi Hj) as (S & Hnum & _ & _ & f & Ef & Hbg & Hxk & HP & Hig & Hrow & Hbnd).
    exists f. unfold load_one.
    fold (take z0 (a_cryst A) (a_idxg A i)) in *. 
    change (map (fun i0 => nth i0 (a_cryst A) (0, 0, 0)%Z) (a_idxg A i)) with (take z0 (a_cryst A) (a_idxg A i)) in *.
    set (B := take z0 (a_cryst A) (a_idxg A i)) in *.
    assert (LB : length B = N i) by apply take_length.
    rewrite (proj2 (bg_ok_near _ _) Hbg), (proj2 (vclose_near _ _) Hxk), Hnum, Hig, Nat.eqb_refl. cbn [negb].
    rewrite (take_lexsort_eq B (w_miller f) S HP), rows_close_refl. cbn [bind negb].
    assert (EV : exists evc, mapR view_c16 (w_evc f) = Ok evc).
    { apply mapR_total. intros row Hr. destruct (view_total (length B) row (Hrow row Hr)) as (r & -> & _). eauto. }
    destruct EV as [evc EV]. rewrite EV. cbn [bind]. destruct (mapR_ok _ _ _ EV) as [L1 P1].
    assert (Hevc : forall r, In r evc -> length r = length B).
    { intros r Hr. apply In_nth_error in Hr as [n Hn].
      destruct (nth_error (w_evc f) n) as [row|] eqn:En.
      - destruct (P1 n row En) as (r' & Hv & Hr'). assert (r' = r) as -> by congruence.
        destruct (view_ok _ _ Hv) as [Lv _]. pose proof (Hrow row (nth_error_In _ _ En)). lia.
      - apply nth_error_None in En. assert (nth_error evc n <> None) as Hx by congruence. apply nth_error_Some in Hx. lia. }
    assert (RW : exists rows, mapR (pick evc) (a_bands A) = Ok rows).
    { apply mapR_total. intros b Hb. destruct (nth_error evc b) as [r|] eqn:E.
      - exists r. apply pick_ok, E.
      - apply nth_error_None in E. pose proof (Hbnd b Hb). lia. }
    destruct RW as [rows RW]. rewrite RW. cbn [bind]. destruct (mapR_ok _ _ _ RW) as [L2 P2].
    assert (Hrows : forall r, In r rows -> length r = length B).
    { intros r Hr. apply In_nth_error in Hr as [n Hn].
      destruct (nth_error (a_bands A) n) as [b|] eqn:En.
      - destruct (P2 n b En) as (r' & Hv & Hr'). assert (r' = r) as -> by congruence.
        apply pick_ok in Hv. apply Hevc. eapply nth_error_In; exact Hv.
      - apply nth_error_None in En. assert (nth_error rows n <> None) as Hx by congruence. apply nth_error_Some in Hx. lia. }
    assert (VL : exists v, mapR (fun row => mapR (pick row) (lexsort (w_miller f))) rows = Ok v).
    { apply mapR_total. intros r Hr. apply mapR_total. intros p Hp.
      destruct (nth_error r p) as [x|] eqn:E; [exists x; apply pick_ok, E|].
      apply nth_error_None in E. apply (argsort_bound z3leb) in Hp. rewrite (Permutation_length HP) in Hp. rewrite (Hrows r Hr) in E. lia. }
    destruct VL as [v VL]. rewrite VL. cbn [bind]. destruct (mapR_ok _ _ _ VL) as [L3 P3].
    assert (Hv : forall o, In o v -> length o = N i).
    { intros o Ho. apply In_nth_error in Ho as [n Hn].
      destruct (nth_error rows n) as [r|] eqn:En.
      - destruct (P3 n r En) as (o' & Hm & Ho'). assert (o' = o) as -> by congruence.
        destruct (mapR_ok _ _ _ Hm) as [Lm _]. rewrite Lm. unfold lexsort. rewrite argsort_length, (Permutation_length HP). exact LB.
      - apply nth_error_None in En. assert (nth_error v n <> None) as Hx by congruence. apply nth_error_Some in Hx. lia. }
    exists v. split; [exact Ef|].
    assert (EL : length (t i j) = length v) by congruence. rewrite EL, Nat.eqb_refl. cbn [andb].
    replace (forallb _ _) with true; [reflexivity|]. symmetry. apply forallb_forall. intros [a b] Hab. cbn.
    apply Nat.eqb_eq. rewrite (G2 a (in_combine_l _ _ _ _ Hab)), (Hv b (in_combine_r _ _ _ _ Hab)). reflexivity.
  - intros i j Hi. apply todo_in in Hi as [Hi Hj]. destruct (H i j Hi Hj) as (_ & _ & H1 & H2 & _).
    split; [exact H1|]. intros row Hr. rewrite (H2 row Hr). apply map_length.
Qed.
Print Assumptions C116_loads.

(** A list of plane waves that starts with G = 0, as every G-space of the library that
    contains 0 does (C08), and contains a vector and its opposite is never in that order: the
    files of such a calculation are always refused. *)
Theorem C116_centred_basis_always_refused : forall A fs s ik isp v,
  ik < a_numk A -> isp < a_numspin A ->
  (forall k, a_numg A k = length (a_idxg A k)) ->
  (forall n f, fs n = Some f -> w_igwx f = length (w_miller f)) ->
  let B := map (fun i => nth i (a_cryst A) (0, 0, 0)%Z) (a_idxg A ik) in
  Forall below_100000 B ->
  hd_error B = Some (0, 0, 0)%Z -> In v B -> In (opposite v) B -> v <> (0, 0, 0)%Z ->
  snd (read_wfc A fs s) <> Ok tt.
Proof.
  intros A fs s ik isp v Hk Hs HN HF B HB H0 Hv Ho Hn H.
  destruct (read_wfc A fs s) as [s' r] eqn:E. cbn in H. subst r.
  destruct (load_all_ok A fs _ (todo_NoDup A) s s' E ik isp) as (f & Ef & El); [apply todo_in; auto|].
  destruct (load_one_ok _ _ _ _ _ El) as (_ & _ & E3 & E4 & _ & _).
  change (map (fun i => nth i (a_cryst A) (0, 0, 0)%Z) (a_idxg A ik)) with (take z0 (a_cryst A) (a_idxg A ik)) in B.
  apply rows_close_eq in E4.
  - fold B in E4. pose proof (take_lexsort_sorted (w_miller f)) as S. rewrite E4 in S.
    destruct B as [|b B']; [discriminate|]. injection H0 as ->. inversion_clear S as [|? ? _ Hall].
    rewrite Forall_forall in Hall.
    assert (L : forall w, In w ((0, 0, 0)%Z :: B') -> lex_le (0, 0, 0)%Z w).
    { intros w [<-|Hw]; [cbn; lia|apply Hall, Hw]. }
    pose proof (L v Hv) as L1. pose proof (L _ Ho) as L2. apply Hn.
    destruct v as [[v1 v2] v3]. cbn in L1, L2. f_equal; [f_equal|]; lia.
  - rewrite !take_length. unfold lexsort. rewrite argsort_length, <- (HF _ _ Ef), <- E3. apply HN.
  - eapply Forall_impl; [exact below_small|exact HB].
Qed.
Print Assumptions C116_centred_basis_always_refused.

(** In particular for any G-space the library builds from a set of vectors holding 0 and a
    nonzero vector with its opposite, when a k-point uses all of it. *)
Theorem C116_library_gspace_always_refused : forall sh gs g A fs s ik isp v,
  gspace_base sh gs = Ok g -> a_cryst A = gs_cryst g -> a_idxg A ik = seq 0 (length gs) ->
  ik < a_numk A -> isp < a_numspin A ->
  (forall k, a_numg A k = length (a_idxg A k)) ->
  (forall n f, fs n = Some f -> w_igwx f = length (w_miller f)) ->
  Forall below_100000 gs -> In (0, 0, 0)%Z gs -> In v gs -> In (opposite v) gs -> v <> (0, 0, 0)%Z ->
  snd (read_wfc A fs s) <> Ok tt.
Proof.
  intros sh gs g A fs s ik isp v HG HA Hidx Hk Hs HN HF HB H0 Hv Ho Hn.
  destruct (C07_gspace_sorted_permutation sh gs g HG) as (P & _).
  destruct (C08_g0_first_iff_present sh gs g HG) as (_ & F & _).
  apply (C116_centred_basis_always_refused A fs s ik isp v Hk Hs HN HF); [| | | |exact Hn].
  all: rewrite Hidx, HA, <- (Permutation_length P);
    change (map (fun i => nth i (gs_cryst g) (0, 0, 0)%Z) (seq 0 (length (gs_cryst g))))
      with (take z0 (gs_cryst g) (seq 0 (length (gs_cryst g)))); rewrite take_perm_seq.
  - rewrite Forall_forall in *. intros x Hx. apply HB. eapply Permutation_in; [exact P|exact Hx].
  - apply F, H0.
  - eapply Permutation_in; [symmetry; exact P|exact Hv].
  - eapply Permutation_in; [symmetry; exact P|exact Ho].
Qed.
Print Assumptions C116_library_gspace_always_refused.

(** With two spins both channels are read from the files named dw: the contents (or absence)
    of the files named up have no influence, and the two channels receive the same numbers.
    The up coefficients are thus not those of the up file. *)
Theorem C116_up_files_never_read_refuted : forall A fs fs' s,
  a_numspin A = 2 ->
  (forall n : string, (exists k : nat, n = ("wfcdw" ++ NilZero.string_of_uint (Nat.to_uint k) ++ ".hdf5")%string) -> fs n = fs' n) ->
  read_wfc A fs s = read_wfc A fs' s
  /\ forall s', read_wfc A fs s = (s', Ok tt) -> forall ik, ik < a_numk A -> s' ik 0 = s' ik 1.
Proof.
  intros A fs fs' s H2 Hf.
  assert (FN : forall k, file_name (a_numspin A) k = ("wfcdw" ++ NilZero.string_of_uint (Nat.to_uint (S k)) ++ ".hdf5")%string)
    by (intros k; rewrite H2; reflexivity).
  split.
  - unfold read_wfc. generalize (flat_map (fun ik => map (fun isp => (ik, isp)) (seq 0 (a_numspin A))) (seq 0 (a_numk A))) as todo.
    intros todo. revert s. induction todo as [|[ik isp] t IH]; intros s; cbn; [reflexivity|].
    rewrite (Hf (file_name (a_numspin A) (a_idxk A ik))) by (rewrite FN; eauto).
    destruct (fs' _) as [f|]; [|reflexivity]. destruct (load_one _ _ _ _); [apply IH|reflexivity].
  - intros s' H ik Hk.
    destruct (load_all_ok A fs _ (todo_NoDup A) s s' H ik 0) as (f & Ef & El); [apply todo_in; lia|].
    destruct (load_all_ok A fs _ (todo_NoDup A) s s' H ik 1) as (f' & Ef' & El'); [apply todo_in; lia|].
    assert (f' = f) as -> by congruence.
    destruct (load_one_ok _ _ _ _ _ El) as (_ & _ & _ & _ & (e & r & A1 & A2 & A3) & _).
    destruct (load_one_ok _ _ _ _ _ El') as (_ & _ & _ & _ & (e' & r' & B1 & B2 & B3) & _). congruence.
Qed.
Print Assumptions C116_up_files_never_read_refuted.

Lemma argsort_hits {K} (leb : K -> K -> bool) keys i : i < length keys -> In i (argsort leb keys).
Proof. intros H. eapply Permutation_in; [symmetry; apply argsort_perm|]. apply in_seq. lia. Qed.

(** A charge-density file with more than three plane waves is never read, whatever it holds
    and whatever field it is read into: the table of plane waves is transposed before its rows
    are taken.  With three or fewer the field still needs a method update_rho, which the
    library's fields do not have. *)
Theorem C116_charge_density_never_read_refuted : forall cmp r f,
  3 < length (c_miller f) \/ d_has_update_rho r = false -> read_chargeden cmp r f <> Ok tt.
Proof.
  intros cmp r f H. unfold read_chargeden. destruct (bg_ok _ _); cbn [negb]; [|discriminate].
  destruct (c_ngm f) as [n|]; [|discriminate]. destruct (Nat.eqb n _); cbn [negb]; [|discriminate].
  destruct (mapR _ _) as [l|e] eqn:E; cbn [bind]; [|discriminate].
  destruct H as [H| ->].
  - exfalso. destruct (mapR_ok _ _ _ E) as [L P].
    pose proof (argsort_hits z3leb (c_miller f) 3 H) as Hi. fold (lexsort (c_miller f)) in Hi.
    apply In_nth_error in Hi as [i Hi]. destruct (P i 3 Hi) as (y & Hy & _). discriminate.
  - destruct cmp as [[|]|]; cbn [bind negb]; try discriminate.
    destruct (c_nspin f); [|discriminate]. destruct (c_has_rhotot_g f); cbn [negb]; [|discriminate].
    destruct (Nat.eqb _ 2 && _)%bool; discriminate.
Qed.
Print Assumptions C116_charge_density_never_read_refuted.

(** Non-vacuity: two waves, one band, listed by the file in the other order. *)
Definition ex_v : rvec := V 0 0 0.
Definition ex_args : wfc_args := MkWfcArgs (fun _ => ex_v) [(0, 0, 0); (0, 0, 1)]%Z 1 (fun _ => ex_v) (fun _ => 4) 1
  (fun _ => 2) (fun _ => [0; 1]) [0].
Definition ex_file (a b c d : R) : wfc_file := MkWfc (fun _ => ex_v) ex_v 2 [(0, 0, 1); (0, 0, 0)]%Z [[a; b; c; d]].
Definition ex_fs (a b c d : R) (n : string) := if String.eqb n "wfc5.hdf5" then Some (ex_file a b c d) else None.
Lemma near_refl x : near x x.
Proof. unfold near. rewrite Rminus_diag_eq, Rabs_R0 by reflexivity. pose proof (Rabs_pos x). lra. Qed.
Example C116_witness : forall a b c d, exists s',
  read_wfc ex_args (ex_fs a b c d) (fun _ _ => [[(0, 0); (0, 0)]%R]) = (s', Ok tt) /\ s' 0 0 = [[(c, d); (a, b)]].
Proof.
  intros a b c d. unfold read_wfc. cbn [ex_args a_numspin a_numk seq flat_map map app load_all a_idxk].
  change (ex_fs a b c d (file_name 1 4)) with (Some (ex_file a b c d)).
  unfold load_one. cbn [ex_args a_axes a_kcart ex_file w_bg w_xk a_numg w_igwx].
  rewrite (proj2 (bg_ok_near _ _)), (proj2 (vclose_near _ _)).
  - cbn. eexists. split; reflexivity.
  - split; [apply near_refl|split; apply near_refl].
  - intros i _. split; [apply near_refl|split; apply near_refl].
Qed.
Example C116_centred_witness :
  let gs := [(0, 0, 0); (0, 0, 1); (0, 0, -1)]%Z in
  (exists g, gspace_base (3, 3, 3)%Z gs = Ok g) /\ Forall below_100000 gs /\ In (0, 0, 0)%Z gs
  /\ In (0, 0, 1)%Z gs /\ In (opposite (0, 0, 1)%Z) gs.
Proof.
  cbn. split; [eexists; reflexivity|]. split; [repeat constructor; cbn; lia|].
  split; [now left|]. split; [right; now left|]. right; right; now left.
Qed.
