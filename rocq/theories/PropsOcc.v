(** Properties C27-C30: occupations. *)
From Verif Require Import Base LatModel KPtsModel KPtsProofs OccModel OccProofs.
From Coq Require Import Reals Lra.
Open Scope R_scope.

(** All wavefunctions of all k-groups. *)
Definition wfns (world : list kgroup) : list kswfn := concat (concat world).
(** Number of electrons held: sum of weight times occupation. *)
Definition electrons (world : list kgroup) : R :=
  fold_right Rplus 0 (map (fun w => k_weight w * fold_right Rplus 0 (occ w)) (wfns world)).
(** Total capacity: sum of weight times number of bands. *)
Definition capacity (world : list kgroup) : R :=
  fold_right Rplus 0 (map (fun w => k_weight w * INR (length (evl w))) (wfns world)).
Definition total_weight (world : list kgroup) : R := fold_right Rplus 0 (map k_weight (wfns world)).

(** What scf.py sets up: every k-group has k-points, every k-point one wavefunction with
    [numbnd] bands. *)
Definition unpolarised (world : list kgroup) (numbnd : nat) : Prop :=
  world <> [] /\ (forall g, In g world -> g <> []) /\
  (forall g wk, In g world -> In wk g -> exists w, wk = [w] /\ length (evl w) = numbnd /\ length (occ w) = numbnd).

Lemma wfns_in world w : In w (wfns world) <-> exists g wk, In g world /\ In wk g /\ In w wk.
Proof.
  unfold wfns. rewrite in_concat. split.
  - intros (wk & Hwk & Hw). apply in_concat in Hwk as (g & Hg & Hwk). eauto.
  - intros (g & wk & Hg & Hwk & Hw). exists wk. split; [apply in_concat; eauto|exact Hw].
Qed.

Lemma wfns_map f world : wfns (map (map (map f)) world) = map f (wfns world).
Proof. unfold wfns. now rewrite <- !concat_map. Qed.

Lemma rsum_repeat x n : rsum (repeat x n) = INR n * x.
Proof. induction n as [|n IH]; [cbn; ring|]. cbn [repeat]. rewrite rsum_cons, IH, S_INR. ring. Qed.

Lemma fill_nth n m b : (0 <= m)%Z -> (b < n)%nat -> nth b (fill n m) 0 = if (Z.of_nat b <? m)%Z then 1 else 0.
Proof.
  intros Hm Hb. unfold fill, py_bound. replace (m <? 0)%Z with false by lia.
  set (k := Nat.min n (Z.to_nat m)). destruct (Z.ltb_spec (Z.of_nat b) m) as [L|L].
  - rewrite app_nth1 by (rewrite repeat_length; unfold k; lia).
    rewrite (nth_indep _ 0 1) by (rewrite repeat_length; unfold k; lia). apply nth_repeat.
  - rewrite app_nth2 by (rewrite repeat_length; unfold k; lia). apply nth_repeat.
Qed.

Lemma fill_length n m : (0 <= m)%Z -> length (fill n m) = n.
Proof. intros H. unfold fill, py_bound. replace (m <? 0)%Z with false by lia. rewrite app_length, !repeat_length. lia. Qed.

Lemma fill_sum n m : (0 <= m)%Z -> rsum (fill n m) = INR (Nat.min n (Z.to_nat m)).
Proof. intros H. unfold fill, py_bound. replace (m <? 0)%Z with false by lia. rewrite rsum_app, !rsum_repeat. ring. Qed.

(** C27.  An odd electron count is refused. *)
Theorem C27_odd_refused : forall world numel, Z.odd numel = true ->
  fixed_compute_occ world numel = Err AssertionError.
Proof.
  intros world numel H. unfold fixed_compute_occ. rewrite Zmod_odd, H. reflexivity.
Qed.
Print Assumptions C27_odd_refused.

(** C27.  Spin-polarised input (not exactly one wavefunction per k-point) is refused. *)
Theorem C27_spin_refused : forall world numel g wk, In g world -> In wk g -> length wk <> 1%nat ->
  fixed_compute_occ world numel = Err AssertionError.
Proof.
  intros world numel g wk Hg Hwk Hl. unfold fixed_compute_occ.
  destruct (numel mod 2 =? 0)%Z; [|reflexivity]. cbn [assert_ bind].
  replace (forallb _ world) with false; [reflexivity|]. symmetry. apply Bool.not_true_is_false. intros F.
  rewrite forallb_forall in F. specialize (F g Hg). rewrite forallb_forall in F. specialize (F wk Hwk).
  apply Nat.eqb_eq in F. contradiction.
Qed.
Print Assumptions C27_spin_refused.

Section FixedOk.
  Variables (world : list kgroup) (numbnd : nat) (numel : Z).
  Hypothesis HW : unpolarised world numbnd.
  Hypothesis HE : Z.even numel = true.
  Hypothesis HP : (0 < numel)%Z.

  Lemma fixed_core : (0 < numbnd)%nat -> exists ho lu,
    fixed_compute_occ world numel = Ok (map (map (map (fun w => set_occ w (fill numbnd (numel / 2))))) world, (ho, lu))
    /\ (forall w, In w (wfns world) -> forall e, In e (firstn (Z.to_nat (numel / 2)) (evl w)) -> e <= ho)
    /\ (exists w, In w (wfns world) /\ In ho (firstn (Z.to_nat (numel / 2)) (evl w)))
    /\ ((Z.of_nat numbnd <= numel / 2)%Z -> lu = None)
    /\ ((numel / 2 < Z.of_nat numbnd)%Z -> exists l, lu = Some l
         /\ (forall w, In w (wfns world) -> forall e, In e (skipn (Z.to_nat (numel / 2)) (evl w)) -> l <= e)
         /\ (exists w, In w (wfns world) /\ In l (skipn (Z.to_nat (numel / 2)) (evl w)))).
  Proof.
    intros Hnb. destruct HW as (W1 & W2 & W3).
    assert (Hh : (1 <= numel / 2)%Z). { rewrite Zeven_mod in HE. apply Zeq_bool_eq in HE. lia. }
    set (nf := Z.to_nat (numel / 2)).
    (* flatten singletons *)
    set (f := fun wk : list kswfn => match wk with w :: _ => firstn (py_bound (length (evl w)) (numel / 2)) (evl w) | [] => [] end).
    set (h := fun wk : list kswfn => match wk with w :: _ => skipn (py_bound (length (evl w)) (numel / 2)) (evl w) | [] => [] end).
    assert (FB : forall w, length (evl w) = numbnd -> firstn (py_bound (length (evl w)) (numel / 2)) (evl w) = firstn nf (evl w)).
    { intros w L. unfold py_bound. replace (numel / 2 <? 0)%Z with false by lia. fold nf.
      destruct (Nat.le_ge_cases (length (evl w)) nf) as [G|G].
      - rewrite Nat.min_l by lia. rewrite firstn_all. symmetry. now apply firstn_all2.
      - now rewrite Nat.min_r by lia. }
    assert (SB : forall w, length (evl w) = numbnd -> skipn (py_bound (length (evl w)) (numel / 2)) (evl w) = skipn nf (evl w)).
    { intros w L. unfold py_bound. replace (numel / 2 <? 0)%Z with false by lia. fold nf.
      destruct (Nat.le_ge_cases (length (evl w)) nf) as [G|G].
      - rewrite Nat.min_l by lia. rewrite skipn_all. symmetry. now apply skipn_all2.
      - now rewrite Nat.min_r by lia. }
    assert (Lnf : (1 <= nf)%nat) by (unfold nf; lia).
    unfold fixed_compute_occ.
    replace (numel mod 2 =? 0)%Z with true by (rewrite Zeven_mod in HE; apply Zeq_bool_eq in HE; lia). cbn [assert_ bind].
    replace (forallb (forallb (fun wk => Nat.eqb (length wk) 1)) world) with true.
    2:{ symmetry. apply forallb_forall. intros g Hg. apply forallb_forall. intros wk Hwk. destruct (W3 g wk Hg Hwk) as (w & -> & _). reflexivity. }
    cbn [assert_ bind].
    assert (FI : exists firsts, sequence (map (fun g : list (list kswfn) => match g with (w :: _) :: _ => Ok (length (evl w)) | _ => Err IndexError end) world) = Ok firsts
       /\ hd 0%nat firsts = numbnd).
    { destruct (sequence_ex (fun g : list (list kswfn) => match g with (w :: _) :: _ => Ok (length (evl w)) | _ => Err IndexError end) world) as (r & Er).
      { intros g Hg. destruct g as [|wk g']; [destruct (W2 [] Hg eq_refl)|]. destruct (W3 _ wk Hg (or_introl eq_refl)) as (w & -> & _). eauto. }
      exists r. split; [exact Er|]. destruct world as [|g0 ws]; [congruence|]. cbn in Er.
      destruct g0 as [|wk g']; [destruct (W2 [] (or_introl eq_refl) eq_refl)|].
      destruct (W3 _ wk (or_introl eq_refl) (or_introl eq_refl)) as (w & -> & L & _).
      cbn in Er. destruct (sequence _) in Er; cbn in Er; [|discriminate]. injection Er as <-. exact L. }
    destruct FI as (firsts & Ef & Eh). rewrite Ef. cbn [bind].
    (* maxima *)
    destruct (max_nested world f W1 W2) as (maxs & ho & Em & Eho & M1 & M2).
    { intros g wk Hg Hwk. destruct (W3 g wk Hg Hwk) as (w & -> & L & _). unfold f. rewrite FB by exact L.
      intros Z. apply (f_equal (@length _)) in Z. rewrite firstn_length in Z. cbn in Z. lia. }
    assert (Em' : sequence (map (fun g : list (list kswfn) => do l <- sequence (map (fun wk => match wk with
                   | w :: _ => rmaximum (firstn (py_bound (length (evl w)) (numel / 2)) (evl w))
                   | [] => Err IndexError end) g); rmaximum l) world) = Ok maxs).
    { rewrite <- Em. f_equal. apply map_ext_in. intros g Hg. f_equal. f_equal. apply map_ext_in. intros wk Hwk.
      destruct (W3 g wk Hg Hwk) as (w & -> & _). reflexivity. }
    rewrite Em'. cbn [bind]. rewrite Eho. cbn [bind]. rewrite Eh.
    assert (WB : map (map (map (fun w => set_occ w (fill (length (occ w)) (numel / 2))))) world
               = map (map (map (fun w => set_occ w (fill numbnd (numel / 2))))) world).
    { apply map_ext_in. intros g Hg. apply map_ext_in. intros wk Hwk. destruct (W3 g wk Hg Hwk) as (w & -> & _ & L). cbn. now rewrite L. }
    rewrite WB.
    assert (HO : (forall w, In w (wfns world) -> forall e, In e (firstn nf (evl w)) -> e <= ho)
       /\ (exists w, In w (wfns world) /\ In ho (firstn nf (evl w)))).
    { split.
      - intros w Hw e He. apply wfns_in in Hw as (g & wk & Hg & Hwk & Hw). destruct (W3 g wk Hg Hwk) as (w' & -> & L & _).
        destruct Hw as [->|[]]. apply (M1 g [w] e Hg Hwk). unfold f. now rewrite FB.
      - destruct M2 as (g & wk & Hg & Hwk & Hin). destruct (W3 g wk Hg Hwk) as (w & -> & L & _).
        exists w. split; [apply wfns_in; exists g, [w]; cbn; tauto|]. unfold f in Hin. now rewrite FB in Hin. }
    destruct (Z.ltb_spec (numel / 2) (Z.of_nat numbnd)) as [Lt|Ge].
    - destruct (min_nested world h W1 W2) as (mins & lu & En & Elu & N1 & N2).
      { intros g wk Hg Hwk. destruct (W3 g wk Hg Hwk) as (w & -> & L & _). unfold h. rewrite SB by exact L.
        intros Z. apply (f_equal (@length _)) in Z. rewrite skipn_length in Z. cbn in Z. unfold nf in Z. lia. }
      assert (En' : sequence (map (fun g : list (list kswfn) => do l <- sequence (map (fun wk => match wk with
                   | w :: _ => rminimum (skipn (py_bound (length (evl w)) (numel / 2)) (evl w))
                   | [] => Err IndexError end) g); rminimum l) world) = Ok mins).
      { rewrite <- En. f_equal. apply map_ext_in. intros g Hg. f_equal. f_equal. apply map_ext_in. intros wk Hwk.
        destruct (W3 g wk Hg Hwk) as (w & -> & _). reflexivity. }
      rewrite En'. cbn [bind]. rewrite Elu. cbn [bind]. exists ho, (Some lu). split; [reflexivity|].
      split; [apply HO|]. split; [apply HO|]. split; [intros; lia|]. intros _. exists lu. split; [reflexivity|]. split.
      + intros w Hw e He. apply wfns_in in Hw as (g & wk & Hg & Hwk & Hw). destruct (W3 g wk Hg Hwk) as (w' & -> & L & _).
        destruct Hw as [->|[]]. apply (N1 g [w] e Hg Hwk). unfold h. now rewrite SB.
      + destruct N2 as (g & wk & Hg & Hwk & Hin). destruct (W3 g wk Hg Hwk) as (w & -> & L & _).
        exists w. split; [apply wfns_in; exists g, [w]; cbn; tauto|]. unfold h in Hin. now rewrite SB in Hin.
    - cbn [bind]. exists ho, None. split; [reflexivity|]. split; [apply HO|]. split; [apply HO|]. split; [reflexivity|]. intros; lia.
  Qed.
End FixedOk.

(** C27.  For an even positive electron count that fits in the bands: every wavefunction
    keeps its eigenvalues and weight, exactly its numel/2 lowest-indexed bands get
    occupation 1 and the others 0; the electrons held are numel/2 times the total weight
    (so numel when the weights, doubled by the driver, sum to 2); the levels returned are
    the largest filled and the smallest empty eigenvalue over all k-points, the latter
    None when every band is filled. *)
Theorem C27_fixed_fills : forall world numbnd numel, unpolarised world numbnd ->
  Z.even numel = true -> (0 < numel)%Z -> (numel / 2 <= Z.of_nat numbnd)%Z ->
  exists world' ho lu, fixed_compute_occ world numel = Ok (world', (ho, lu))
  /\ Forall2 (fun w w' => evl w' = evl w /\ k_weight w' = k_weight w /\ length (occ w') = numbnd
       /\ forall b, (b < numbnd)%nat -> nth b (occ w') 0 = if (Z.of_nat b <? numel / 2)%Z then 1 else 0)
       (wfns world) (wfns world')
  /\ electrons world' = total_weight world * IZR (numel / 2)
  /\ (total_weight world = 2 -> electrons world' = IZR numel)
  /\ (forall w b, In w (wfns world) -> (Z.of_nat b < numel / 2)%Z -> (b < numbnd)%nat -> nth b (evl w) 0 <= ho)
  /\ (exists w b, In w (wfns world) /\ (Z.of_nat b < numel / 2)%Z /\ (b < numbnd)%nat /\ nth b (evl w) 0 = ho)
  /\ match lu with
     | None => (numel / 2 = Z.of_nat numbnd)%Z
     | Some l => (forall w b, In w (wfns world) -> (numel / 2 <= Z.of_nat b)%Z -> (b < numbnd)%nat -> l <= nth b (evl w) 0)
        /\ (exists w b, In w (wfns world) /\ (numel / 2 <= Z.of_nat b)%Z /\ (b < numbnd)%nat /\ nth b (evl w) 0 = l)
     end.
Proof.
  intros world numbnd numel HW HE HP Hfit.
  assert (Hev : (numel = 2 * (numel / 2))%Z) by (rewrite Zeven_mod in HE; apply Zeq_bool_eq in HE; lia).
  assert (Hnb : (0 < numbnd)%nat) by lia.
  destruct (fixed_core world numbnd numel HW HE HP Hnb) as (ho & lu & E & H1 & H2 & H3 & H4).
  exists (map (map (map (fun w => set_occ w (fill numbnd (numel / 2))))) world), ho, lu.
  assert (Len : forall w, In w (wfns world) -> length (evl w) = numbnd).
  { intros w Hw. apply wfns_in in Hw as (g & wk & Hg & Hwk & Hw). destruct HW as (_ & _ & W3).
    destruct (W3 g wk Hg Hwk) as (w' & -> & L & _). destruct Hw as [<-|[]]. exact L. }
  assert (NthF : forall (l : list R) n b, (b < n)%nat -> (b < length l)%nat -> In (nth b l 0) (firstn n l)).
  { clear. intros l n b Hb Hl. revert n b Hb Hl. induction l as [|x l IH]; intros [|n] [|b] Hb Hl; cbn in *; try lia; [now left|].
    right. apply IH; lia. }
  assert (InF : forall (l : list R) n x, In x (firstn n l) -> exists b, (b < n)%nat /\ (b < length l)%nat /\ nth b l 0 = x).
  { clear. intros l. induction l as [|y l IH]; intros [|n] x H; cbn in H; try contradiction.
    destruct H as [->|H]; [exists 0%nat; cbn; lia || (repeat split; lia)|].
    destruct (IH n x H) as (b & A & B & C). exists (S b). cbn. repeat split; [lia|lia|exact C]. }
  assert (NthS : forall (l : list R) n b, (n <= b)%nat -> (b < length l)%nat -> In (nth b l 0) (skipn n l)).
  { clear. intros l n. revert l. induction n as [|n IH]; intros l b Hb Hl; [cbn; now apply nth_In|].
    destruct l as [|x l]; [cbn in Hl; lia|]. destruct b as [|b]; [lia|]. cbn in *. apply IH; lia. }
  assert (InS : forall (l : list R) n x, In x (skipn n l) -> exists b, (n <= b)%nat /\ (b < length l)%nat /\ nth b l 0 = x).
  { clear. intros l n. revert l. induction n as [|n IH]; intros l x H.
    - cbn in H. apply (In_nth _ _ 0) in H as (b & Hb & Eb). exists b. repeat split; [lia|exact Hb|exact Eb].
    - destruct l as [|y l]; [destruct H|]. cbn in H. destruct (IH l x H) as (b & A & B & C). exists (S b). cbn. repeat split; [lia|lia|exact C]. }
  split; [exact E|]. split.
  { rewrite wfns_map. clear - HW HP. assert (Hn : (0 <= numel / 2)%Z) by lia. generalize (wfns world) as l. intros l.
    induction l as [|w l IH]; cbn [map]; constructor; [|exact IH]. cbn. rewrite fill_length by exact Hn.
    repeat split. intros b Hb. now apply fill_nth. }
  assert (EL : electrons (map (map (map (fun w => set_occ w (fill numbnd (numel / 2))))) world) = total_weight world * IZR (numel / 2)).
  { unfold electrons, total_weight. rewrite wfns_map, map_map. cbn [k_weight occ set_occ].
    change (rsum (map (fun x => k_weight x * rsum (fill numbnd (numel / 2))) (wfns world)) = rsum (map k_weight (wfns world)) * IZR (numel / 2)).
    rewrite fill_sum by lia. rewrite Nat.min_r by lia.
    replace (INR (Z.to_nat (numel / 2))) with (IZR (numel / 2)) by (rewrite INR_IZR_INZ, Z2Nat.id by lia; reflexivity).
    rewrite (rsum_ext _ (fun x => IZR (numel / 2) * k_weight x)) by (intros; ring). rewrite rsum_scale. ring. }
  split; [exact EL|]. split.
  { intros Hw. rewrite EL, Hw. rewrite Hev at 2. rewrite mult_IZR. ring. }
  split.
  { intros w b Hw Hb Hb'. apply (H1 w Hw). apply NthF; [lia|]. rewrite (Len w Hw). exact Hb'. }
  split.
  { destruct H2 as (w & Hw & Hin). apply InF in Hin as (b & B1 & B2 & B3). rewrite (Len w Hw) in B2.
    exists w, b. repeat split; [exact Hw|lia|exact B2|exact B3]. }
  destruct (Z_lt_dec (numel / 2) (Z.of_nat numbnd)) as [L|L].
  - destruct (H4 L) as (l & -> & K1 & K2). split.
    + intros w b Hw Hb Hb'. apply (K1 w Hw). apply NthS; [lia|]. rewrite (Len w Hw). exact Hb'.
    + destruct K2 as (w & Hw & Hin). apply InS in Hin as (b & B1 & B2 & B3). rewrite (Len w Hw) in B2.
      exists w, b. repeat split; [exact Hw|lia|exact B2|exact B3].
  - rewrite (H3 ltac:(lia)). lia.
Qed.
Print Assumptions C27_fixed_fills.

(** C27 fails when there are too few bands: the call is accepted, fills every band, and
    the electrons held are fewer than asked for. *)
Theorem C27_too_few_bands_refuted : forall world numbnd numel, unpolarised world numbnd ->
  Z.even numel = true -> (0 < numbnd)%nat -> (Z.of_nat numbnd < numel / 2)%Z -> total_weight world = 2 ->
  exists world' ho, fixed_compute_occ world numel = Ok (world', (ho, None))
    /\ electrons world' = 2 * INR numbnd /\ electrons world' < IZR numel.
Proof.
  intros world numbnd numel HW HE Hnb Hmany Hw.
  assert (HP : (0 < numel)%Z) by lia.
  destruct (fixed_core world numbnd numel HW HE HP Hnb) as (ho & lu & E & _ & _ & H3 & _).
  rewrite (H3 ltac:(lia)) in E. eexists. exists ho. split; [exact E|].
  assert (EL : electrons (map (map (map (fun w => set_occ w (fill numbnd (numel / 2))))) world) = 2 * INR numbnd).
  { rewrite <- Hw. unfold electrons, total_weight. rewrite wfns_map, map_map. cbn [k_weight occ set_occ].
    change (rsum (map (fun x => k_weight x * rsum (fill numbnd (numel / 2))) (wfns world)) = rsum (map k_weight (wfns world)) * INR numbnd).
    rewrite fill_sum by lia. rewrite Nat.min_l by lia.
    rewrite (rsum_ext _ (fun x => INR numbnd * k_weight x)) by (intros; ring). rewrite rsum_scale. ring. }
  split; [exact EL|]. rewrite EL, INR_IZR_INZ, <- mult_IZR. apply IZR_lt. lia.
Qed.
Print Assumptions C27_too_few_bands_refuted.

(** C28.  Clamped Fermi-Dirac occupations as the code computes them: between 0 and 1,
    non-increasing in the energy, 1/2 at the chemical potential, symmetric about it. *)
Theorem C28_fermi_dirac : forall degauss mu, 0 < degauss ->
  (forall e, 0 <= occ_one fd_occ degauss mu e <= 1)
  /\ (forall e e', e <= e' -> occ_one fd_occ degauss mu e' <= occ_one fd_occ degauss mu e)
  /\ occ_one fd_occ degauss mu mu = 1 / 2
  /\ (forall d, occ_one fd_occ degauss mu (mu + d) + occ_one fd_occ degauss mu (mu - d) = 1)
  /\ (forall e, Rabs ((e - mu) / degauss) <= 50 -> occ_one fd_occ degauss mu e = 1 / (1 + exp ((e - mu) / degauss)))
  /\ (forall e, Rabs (occ_one fd_occ degauss mu e - 1 / (1 + exp ((e - mu) / degauss))) <= exp (-50)).
Proof.
  intros degauss mu Hd.
  assert (HB : forall f, 0 <= fd_occ f <= 1) by (intros f; pose proof (fd_bounds f); lra).
  split; [intros e; now apply occ_one_bounds|].
  split; [intros e e' H; apply occ_one_decr; try assumption; apply fd_decr|].
  assert (Q0 : (mu - mu) / degauss = 0) by (unfold Rdiv; ring).
  split.
  { unfold occ_one. rewrite Q0, Rabs_R0. destruct (Rle_dec 0 SMEAR_THRESHOLD) as [|L]; [rewrite fd_zero; lra|].
    exfalso. apply L. unfold SMEAR_THRESHOLD. lra. }
  split.
  { intros d. unfold occ_one. replace ((mu + d - mu) / degauss) with (d / degauss) by (unfold Rdiv; ring).
    replace ((mu - d - mu) / degauss) with (- (d / degauss)) by (unfold Rdiv; ring).
    set (f := d / degauss). rewrite Rabs_Ropp. destruct (Rle_dec (Rabs f) SMEAR_THRESHOLD) as [|L]; [apply fd_symm|].
    apply Rnot_le_lt in L. assert (PT : 0 < SMEAR_THRESHOLD) by (unfold SMEAR_THRESHOLD; lra).
    unfold Rabs in L. destruct (Rcase_abs f).
    - destruct (Rlt_dec f (- SMEAR_THRESHOLD)); destruct (Rlt_dec (- f) (- SMEAR_THRESHOLD)); lra.
    - destruct (Rlt_dec f (- SMEAR_THRESHOLD)); destruct (Rlt_dec (- f) (- SMEAR_THRESHOLD)); lra. }
  split.
  { intros e H. unfold occ_one. destruct (Rle_dec _ SMEAR_THRESHOLD) as [|L]; [reflexivity|]. exfalso. apply L. exact H. }
  intros e. unfold occ_one. set (f := (e - mu) / degauss). change (1 / (1 + exp f)) with (fd_occ f).
  replace (-50) with (- SMEAR_THRESHOLD) by (unfold SMEAR_THRESHOLD; lra). pose proof (exp_pos (- SMEAR_THRESHOLD)).
  pose proof (fd_bounds f). destruct (Rle_dec (Rabs f) SMEAR_THRESHOLD) as [|L].
  - rewrite Rminus_diag_eq, Rabs_R0 by reflexivity. lra.
  - destruct (Rlt_dec f (- SMEAR_THRESHOLD)) as [L'|L'].
    + rewrite <- (fd_symm f). replace (fd_occ f + fd_occ (- f) - fd_occ f) with (fd_occ (- f)) by ring.
      pose proof (fd_bounds (- f)). rewrite Rabs_pos_eq by lra. apply fd_small. lra.
    + rewrite Rabs_left1 by lra. rewrite Rminus_0_l, Ropp_involutive. apply fd_small.
      apply Rnot_le_lt in L. apply Rnot_lt_le in L'. unfold Rabs in L. destruct (Rcase_abs f); lra.
Qed.
Print Assumptions C28_fermi_dirac.

(** C29.  The electron count is monotone in the chemical potential, for any smearing
    function that is itself a decreasing occupation. *)
Theorem C29_numel_monotone : forall occf degauss world mu mu', 0 < degauss ->
  (forall f, 0 <= occf f <= 1) -> (forall a b, a <= b -> occf b <= occf a) ->
  (forall w, In w (wfns world) -> 0 <= k_weight w) -> mu <= mu' ->
  compute_numel occf degauss world mu <= compute_numel occf degauss world mu'.
Proof.
  intros occf degauss world mu mu' Hd Hb Hm Hw H. apply compute_numel_incr; try assumption.
  intros g wk w Hg Hwk Hin. apply Hw, wfns_in. eauto.
Qed.
Print Assumptions C29_numel_monotone.

(** C29.  If the routine returns: the occupations written are those of the Fermi level it
    returns, that level lies between the lowest and the highest eigenvalue, and the
    electrons held differ from the requested number by at most 1e-10. *)
Theorem C29_result_sound : forall occf enf degauss fuel world numel world' e_fermi e_smear,
  smear_compute_occ occf enf degauss fuel world numel = Ok (Some (world', (e_fermi, e_smear))) ->
  Forall2 (fun w w' => evl w' = evl w /\ k_weight w' = k_weight w
      /\ occ w' = map (occ_one occf degauss e_fermi) (evl w)) (wfns world) (wfns world')
  /\ (exists w w' e e', In w (wfns world) /\ In e (evl w) /\ In w' (wfns world) /\ In e' (evl w') /\ e <= e_fermi <= e')
  /\ Rabs (numel - electrons world') <= / 10 ^ 10.
Proof.
  intros occf enf degauss fuel world numel world' e_fermi e_smear H. unfold smear_compute_occ in H.
  destruct (sequence (map (fun g : list (list kswfn) => rminimum (concat (map evl (concat g)))) world)) as [mins|] eqn:E1; [|discriminate].
  cbn [bind] in H. destruct (sequence (map (fun g : list (list kswfn) => rmaximum (concat (map evl (concat g)))) world)) as [maxs|] eqn:E2; [|discriminate].
  cbn [bind] in H. destruct (rminimum mins) as [lo|] eqn:E3; [|discriminate]. cbn [bind] in H.
  destruct (rmaximum maxs) as [hi|] eqn:E4; [|discriminate]. cbn [bind] in H.
  destruct (bisect fuel (compute_numel occf degauss world) numel lo hi) as [mu|] eqn:EB; [|discriminate].
  injection H as <- <- <-.
  apply sequence_in in E1 as (A1 & A2 & _). apply sequence_in in E2 as (B1 & B2 & _).
  apply rminimum_ok in E3 as (C1 & C2). apply rmaximum_ok in E4 as (D1 & D2).
  assert (Hin : forall g x, In g world -> In x (concat (map evl (concat g))) -> exists w, In w (wfns world) /\ In x (evl w)).
  { intros g x Hg Hx. apply in_concat in Hx as (l & Hl & Hx). apply in_map_iff in Hl as (w & <- & Hw).
    exists w. split; [|exact Hx]. apply in_concat in Hw as (wk & Hwk & Hw). apply wfns_in. eauto. }
  assert (Hlohi : lo <= hi).
  { apply A1 in C2 as (g & Hg & Eg). destruct (B2 g Hg) as (y & Ey & Hy). apply rminimum_ok in Eg as (_ & F2).
    apply rmaximum_ok in Ey as (G1 & _). eapply Rle_trans; [apply G1, F2|apply D1, Hy]. }
  split; [|split].
  - rewrite wfns_map. generalize (wfns world) as l. induction l as [|w l IH]; cbn [map]; constructor; [cbn; auto|exact IH].
  - pose proof (bisect_range _ _ _ _ _ _ Hlohi EB) as R.
    apply A1 in C2 as (g & Hg & Eg). apply rminimum_ok in Eg as (_ & F2). destruct (Hin g lo Hg F2) as (w & Hw & Hwe).
    apply B1 in D2 as (g' & Hg' & Eg'). apply rmaximum_ok in Eg' as (_ & F2'). destruct (Hin g' hi Hg' F2') as (w' & Hw' & Hwe').
    exists w, w', lo, hi. tauto.
  - apply bisect_some in EB. fold EPS. erewrite <- (f_equal (fun x => Rabs (numel - x))) in EB; [exact EB|].
    unfold electrons. rewrite wfns_map, map_map. cbn [k_weight occ set_occ]. unfold compute_numel, group_numel.
    unfold wfns. clear. induction world as [|g ws IH]; [reflexivity|]. cbn [concat map]. rewrite concat_app, map_app.
    match goal with |- fold_right Rplus 0 ?l = _ => change (rsum l = rsum (map (fun g => rsum (map (fun w => rsum (map (fun e => occ_one occf degauss mu e * k_weight w) (evl w))) (concat g))) (g :: ws))) end.
    rewrite rsum_app. cbn [map]. rewrite rsum_cons. f_equal; [|exact IH].
    apply rsum_ext. intros w _. fold (rsum (map (occ_one occf degauss mu) (evl w))).
    rewrite <- rsum_scale. apply rsum_ext. intros; ring.
Qed.
Print Assumptions C29_result_sound.

(** C29.  The search: after n passes that did not stop, the loop continues from a bracket
    that lies in the initial one, is 2^n times shorter, and still encloses the requested
    count - provided the initial one does. *)
Theorem C29_bracket : forall N numel lo hi n fuel, lo <= hi -> N lo <= numel <= N hi ->
  bisect n N numel lo hi <> None \/
  exists a b, bisect (S n + fuel) N numel lo hi = bisect fuel N numel a b
    /\ lo <= a /\ a <= b /\ b <= hi /\ N a <= numel <= N b /\ b - a = (hi - lo) / 2 ^ S n.
Proof.
  intros N numel lo hi n fuel H HN.
  assert (D : forall m, bisect m N numel lo hi <> None \/
     forall i, (i <= m)%nat -> let '(a, b) := bracket_after i N numel lo hi in EPS < Rabs (numel - N ((a + b) / 2))).
  { induction m as [|m IH].
    - cbn [bisect]. destruct (Rlt_dec EPS _) as [L|L]; [|left; discriminate]. right. intros i Hi.
      replace i with 0%nat by lia. exact L.
    - destruct IH as [IH|IH].
      + left. clear HN H. revert lo hi IH. induction m as [|m IHm]; intros lo hi IH.
        * cbn [bisect] in *. destruct (Rlt_dec EPS (Rabs _)); [congruence|discriminate].
        * cbn [bisect] in IH |- *. destruct (Rlt_dec EPS (Rabs (numel - N ((lo + hi) / 2)))); [|discriminate].
          destruct (Rlt_dec 0 (numel - N ((lo + hi) / 2))); [apply (IHm _ _ IH)|apply (IHm _ _ IH)].
      + destruct (bracket_after (S m) N numel lo hi) as [a b] eqn:E.
        destruct (Rlt_dec EPS (Rabs (numel - N ((a + b) / 2)))) as [L|L].
        * right. intros i Hi. destruct (Nat.eq_dec i (S m)) as [->|]; [rewrite E; exact L|apply IH; lia].
        * left. rewrite <- (Nat.add_0_r (S m)). rewrite bisect_from by (intros i Hi; apply IH; lia).
          rewrite E. cbn [fst snd bisect]. destruct (Rlt_dec EPS _); [contradiction|discriminate]. }
  destruct (D n) as [A|A]; [left; exact A|]. right.
  exists (fst (bracket_after (S n) N numel lo hi)), (snd (bracket_after (S n) N numel lo hi)).
  rewrite bisect_from by (intros i Hi; apply A; lia). split; [reflexivity|].
  pose proof (bracket_inv (S n) N numel lo hi H HN) as I. destruct (bracket_after (S n) N numel lo hi) as [a b]. exact I.
Qed.
Print Assumptions C29_bracket.

(** C29.  The smearing correction returned is the weighted sum over all wavefunctions of the
    width times the entropy function of the scaled eigenvalues (those within 50 widths). *)
Theorem C29_smearing_energy : forall occf enf degauss fuel world numel world' e_fermi e_smear,
  smear_compute_occ occf enf degauss fuel world numel = Ok (Some (world', (e_fermi, e_smear))) ->
  e_smear = fold_right Rplus 0 (map (fun w => k_weight w * (degauss *
    fold_right Rplus 0 (map (fun e => if Rle_dec (Rabs ((e - e_fermi) / degauss)) 50 then enf ((e - e_fermi) / degauss) else 0)
       (evl w)))) (wfns world)).
Proof.
  intros occf enf degauss fuel world numel world' e_fermi e_smear H. unfold smear_compute_occ in H.
  destruct (sequence _) as [mins|] in H; [|discriminate]. cbn [bind] in H. destruct (sequence _) as [maxs|] in H; [|discriminate].
  cbn [bind] in H. destruct (rminimum mins) as [lo|] in H; [|discriminate]. cbn [bind] in H.
  destruct (rmaximum maxs) as [hi|] in H; [|discriminate]. cbn [bind] in H.
  destruct (bisect _ _ _ _ _) as [mu|] in H; [|discriminate]. injection H as _ <- <-.
  unfold wfns. induction world as [|g ws IH]; [reflexivity|]. cbn [concat map]. rewrite concat_app, map_app.
  rewrite rsum_cons, IH. clear IH. symmetry.
  match goal with |- fold_right Rplus 0 (?l ++ ?m) = _ => change (rsum (l ++ m) = rsum (map (fun w => k_weight w * en_wfn enf degauss w mu) (concat g)) + rsum m) end.
  rewrite rsum_app. f_equal. apply rsum_ext. intros w _. unfold en_wfn. f_equal. f_equal.
  generalize (evl w). clear. unfold SMEAR_THRESHOLD. induction l as [|e l IH]; [reflexivity|]. cbn [map filter fold_right].
  destruct (Rle_dec _ _); cbn [map]; rewrite ?rsum_cons; rewrite IH; [reflexivity|ring].
Qed.
Print Assumptions C29_smearing_energy.

(** C29.  The smearing correction (-TS) reported for Fermi-Dirac smearing is never positive. *)
Theorem C29_entropy_sign : forall degauss fuel world numel world' e_fermi e_smear, 0 < degauss ->
  (forall w, In w (wfns world) -> 0 <= k_weight w) ->
  smear_compute_occ fd_occ fd_en degauss fuel world numel = Ok (Some (world', (e_fermi, e_smear))) -> e_smear <= 0.
Proof.
  intros degauss fuel world numel world' e_fermi e_smear Hd Hw H. unfold smear_compute_occ in H.
  destruct (sequence _) as [mins|] in H; [|discriminate]. cbn [bind] in H. destruct (sequence _) as [maxs|] in H; [|discriminate].
  cbn [bind] in H. destruct (rminimum mins) as [lo|] in H; [|discriminate]. cbn [bind] in H.
  destruct (rmaximum maxs) as [hi|] in H; [|discriminate]. cbn [bind] in H.
  destruct (bisect _ _ _ _ _) as [mu|] in H; [|discriminate]. injection H as _ <- <-.
  assert (NP : forall l, (forall x, In x l -> x <= 0) -> rsum l <= 0).
  { clear. induction l as [|x l IH]; intros H; [cbn; lra|]. rewrite rsum_cons.
    pose proof (H x (or_introl eq_refl)). pose proof (IH (fun y Hy => H y (or_intror Hy))). lra. }
  apply NP. intros x Hx. apply in_map_iff in Hx as (g & <- & Hg). apply NP. intros x Hx. apply in_map_iff in Hx as (w & <- & Hin).
  assert (HW : 0 <= k_weight w). { apply Hw. apply in_concat in Hin as (wk & Hwk & Hin). apply wfns_in. eauto. }
  assert (HE : en_wfn fd_en degauss w mu <= 0).
  { unfold en_wfn. assert (rsum (map fd_en (filter (fun f => if Rle_dec (Rabs f) SMEAR_THRESHOLD then true else false)
       (map (fun e => (e - mu) / degauss) (evl w)))) <= 0).
    { apply NP. intros x Hx. apply in_map_iff in Hx as (f & <- & _). unfold fd_en. pose proof (fd_bounds f).
      assert (X : forall o, 0 < o < 1 -> xlogy o o <= 0).
      { intros o Ho. unfold xlogy. destruct (Req_EM_T o 0); [lra|].
        assert (ln o < 0) by (rewrite <- ln_1; apply ln_increasing; lra).
        assert (0 <= o * - ln o) by (apply Rmult_le_pos; lra). lra. }
      pose proof (X (fd_occ f) H). pose proof (X (1 - fd_occ f) ltac:(lra)). lra. }
    assert (0 <= degauss * - rsum (map fd_en (filter (fun f => if Rle_dec (Rabs f) SMEAR_THRESHOLD then true else false)
       (map (fun e => (e - mu) / degauss) (evl w))))) by (apply Rmult_le_pos; lra). lra. }
  assert (0 <= k_weight w * - en_wfn fd_en degauss w mu) by (apply Rmult_le_pos; lra). lra.
Qed.
Print Assumptions C29_entropy_sign.

(** C30 fails in general: when the requested count is not enclosed by the counts at the
    lowest and highest eigenvalues (the initial bracket), the loop never ends. *)
Theorem C30_unbracketed_diverges_refuted : forall N numel lo hi, lo <= hi ->
  (forall a b, a <= b -> N a <= N b) -> numel > N hi + / 10 ^ 10 \/ numel < N lo - / 10 ^ 10 ->
  forall fuel, bisect fuel N numel lo hi = None.
Proof.
  intros N numel lo hi H Hm [K|K] fuel; [now apply bisect_none_high|now apply bisect_none_low].
Qed.
Print Assumptions C30_unbracketed_diverges_refuted.

(** A concrete admissible case: one k-point with two degenerate bands (capacity 4) and one
    electron.  The search runs forever, whatever the smearing width. *)
Theorem C30_degenerate_bands_refuted : forall degauss fuel, 0 < degauss ->
  let world := [[[MkKS [0; 0] 2 [0; 0]]]] in
  capacity world = 4 /\ smear_compute_occ fd_occ fd_en degauss fuel world 1 = Ok None.
Proof.
  intros degauss fuel Hd world. split; [unfold capacity, wfns, world; cbn; lra|].
  unfold smear_compute_occ, world. cbn [map sequence bind rminimum rmaximum concat app fold_left evl].
  rewrite Rmin_left, Rmax_left by lra. 
  rewrite bisect_none_low; [reflexivity|lra| |].
  - intros a b H. apply compute_numel_incr; try assumption.
    + intros f. pose proof (fd_bounds f). lra.
    + apply fd_decr.
    + intros g wk w [<-|[]] [<-|[]] [<-|[]]. cbn. lra.
  - destruct (C28_fermi_dirac degauss 0 Hd) as (_ & _ & Z & _).
    unfold compute_numel, group_numel. cbn. rewrite Z. 
    assert (EPS < 1). { unfold EPS. assert (1 < 10 ^ 10) by (apply Rlt_pow_R1; [lra|lia]).
      rewrite <- Rinv_1. apply Rinv_lt_contravar; lra. } lra.
Qed.
Print Assumptions C30_degenerate_bands_refuted.

(** The initial bracket of the search: the lowest and the highest eigenvalue over all k-groups. *)
Lemma smear_unfold world : world <> [] ->
  (forall g, In g world -> exists wk w e, In wk g /\ In w wk /\ In e (evl w)) ->
  exists lo hi, (forall w e, In w (wfns world) -> In e (evl w) -> lo <= e <= hi)
    /\ (exists w, In w (wfns world) /\ In lo (evl w)) /\ (exists w, In w (wfns world) /\ In hi (evl w))
    /\ forall occf enf degauss fuel numel, smear_compute_occ occf enf degauss fuel world numel =
         match bisect fuel (compute_numel occf degauss world) numel lo hi with
         | None => Ok None
         | Some e_fermi =>
             Ok (Some (map (map (map (fun w => set_occ w (map (occ_one occf degauss e_fermi) (evl w))))) world,
               (e_fermi, rsum (map (fun g => rsum (map (fun w => k_weight w * en_wfn enf degauss w e_fermi) (concat g))) world))))
         end.
Proof.
  intros Hne Hg.
  assert (NE : forall g, In g world -> concat (map evl (concat g)) <> []).
  { intros g Hin E. destruct (Hg g Hin) as (wk & w & e & H1 & H2 & H3).
    assert (X : In e (concat (map evl (concat g)))).
    { apply in_concat. exists (evl w). split; [apply in_map, in_concat; eauto|exact H3]. }
    rewrite E in X. destruct X. }
  assert (Hin : forall g x, In g world -> (In x (concat (map evl (concat g))) <-> exists wk w, In wk g /\ In w wk /\ In x (evl w))).
  { intros g x _. rewrite in_concat. split.
    - intros (l & Hl & Hx). apply in_map_iff in Hl as (w & <- & Hwi). apply in_concat in Hwi as (wk & ? & ?). eauto.
    - intros (wk & w & H1 & H2 & H3). exists (evl w). split; [apply in_map, in_concat; eauto|exact H3]. }
  destruct (min_nested (map (fun g => [g]) world) (fun g : list (list kswfn) => concat (map evl (concat g)))) as (mins' & lo & M1 & M2 & M3 & M4).
  { destruct world; [congruence|discriminate]. } { intros g Hx. apply in_map_iff in Hx as (? & <- & _). discriminate. }
  { intros g a Hx Ha. apply in_map_iff in Hx as (g' & <- & Hg'). destruct Ha as [<-|[]]. now apply NE. }
  destruct (max_nested (map (fun g => [g]) world) (fun g : list (list kswfn) => concat (map evl (concat g)))) as (maxs' & hi & X1 & X2 & X3 & X4).
  { destruct world; [congruence|discriminate]. } { intros g Hx. apply in_map_iff in Hx as (? & <- & _). discriminate. }
  { intros g a Hx Ha. apply in_map_iff in Hx as (g' & <- & Hg'). destruct Ha as [<-|[]]. now apply NE. }
  assert (LE : forall w e, In w (wfns world) -> In e (evl w) -> lo <= e <= hi).
  { intros w e Hwi He. apply wfns_in in Hwi as (g & wk & H1 & H2 & H3).
    assert (Y : In e (concat (map evl (concat g)))) by (apply (Hin g e H1); eauto).
    split; [apply (M3 [g] g e)|apply (X3 [g] g e)]; try exact Y; try (now left); apply (in_map (fun g => [g])), H1. }
  assert (LA : exists w, In w (wfns world) /\ In lo (evl w)).
  { destruct M4 as (g & a & H1 & H2 & H3). apply in_map_iff in H1 as (g' & <- & H1). destruct H2 as [<-|[]].
    apply (Hin g' lo H1) in H3 as (wk & w & ? & ? & ?). exists w. split; [apply wfns_in; eauto|assumption]. }
  assert (HA : exists w, In w (wfns world) /\ In hi (evl w)).
  { destruct X4 as (g & a & H1 & H2 & H3). apply in_map_iff in H1 as (g' & <- & H1). destruct H2 as [<-|[]].
    apply (Hin g' hi H1) in H3 as (wk & w & ? & ? & ?). exists w. split; [apply wfns_in; eauto|assumption]. }
  exists lo, hi. split; [exact LE|]. split; [exact LA|]. split; [exact HA|]. intros occf enf degauss fuel numel.
  unfold smear_compute_occ.
  assert (S1 : forall f, (forall x, f [x] = Ok x) -> forall (h : list (list kswfn) -> res R) r,
     sequence (map (fun g => do l <- sequence (map h g); f l) (map (fun g => [g]) world)) = Ok r -> sequence (map h world) = Ok r).
  { intros f Hf h r Hr. rewrite map_map in Hr. rewrite <- Hr. f_equal. apply map_ext. intros g. cbn.
    destruct (h g); cbn; [now rewrite Hf|reflexivity]. }
  rewrite (S1 rminimum (fun x => eq_refl) _ _ M1). cbn [bind].
  rewrite (S1 rmaximum (fun x => eq_refl) _ _ X1). cbn [bind]. rewrite M2. cbn [bind]. rewrite X2. cbn [bind].
  reflexivity.
Qed.

(** C30.  The search ends (in exact arithmetic) for every smearing function that is
    Lipschitz and within [delta] of its limits outside [-50, 50], with non-negative weights,
    whenever the request is enclosed by the counts at the lowest and highest eigenvalue and
    the clamping jumps of all states together stay below the tolerance.  Instances for the
    three functions of the code: C30_terminates_fd, _gauss, _mv (PropsSmear). *)
Theorem C30_terminates : forall occf enf L delta degauss world numel, 0 < degauss -> 0 <= L -> 0 <= delta ->
  (forall x y, Rabs (occf x - occf y) <= L * Rabs (x - y)) ->
  (forall x, 50 <= x -> Rabs (occf x) <= delta) -> (forall x, x <= -50 -> Rabs (1 - occf x) <= delta) ->
  world <> [] -> (forall g, In g world -> exists wk w e, In wk g /\ In w wk /\ In e (evl w)) ->
  (forall w, In w (wfns world) -> 0 <= k_weight w) ->
  2 * capacity world * delta < / 10 ^ 10 ->
  (forall lo, (forall w e, In w (wfns world) -> In e (evl w) -> lo <= e) ->
      (exists w, In w (wfns world) /\ In lo (evl w)) -> compute_numel occf degauss world lo <= numel) ->
  (forall hi, (forall w e, In w (wfns world) -> In e (evl w) -> e <= hi) ->
      (exists w, In w (wfns world) /\ In hi (evl w)) -> numel <= compute_numel occf degauss world hi) ->
  exists fuel r, smear_compute_occ occf enf degauss fuel world numel = Ok (Some r).
Proof.
  intros occf enf L delta degauss world numel Hd HL0 Hdel HL Htr Htl Hne Hg Hw Hcap Hlo Hhi.
  destruct (smear_unfold world Hne Hg) as (lo & hi & LE & LA & HA & UNF).
  set (N := compute_numel occf degauss world).
  assert (CP : 0 <= capacity world).
  { unfold capacity. apply rsum_nonneg. intros x Hx. apply in_map_iff in Hx as (w & <- & Hwi).
    apply Rmult_le_pos; [now apply Hw|apply pos_INR]. }
  assert (Var : forall a b, a <= b -> Rabs (N b - N a) <= (capacity world * L / degauss) * (b - a) + 2 * capacity world * delta).
  { intros a b H. set (d := L * ((b - a) / degauss) + 2 * delta).
    assert (Nf : forall m, N m = rsum (map (fun w => rsum (map (fun e => occ_one occf degauss m e * k_weight w) (evl w))) (wfns world))).
    { intros m. unfold N, compute_numel, group_numel, wfns. clear. induction world as [|g ws IH]; [reflexivity|].
      cbn [concat map]. rewrite concat_app, map_app, rsum_app, rsum_cons, IH. reflexivity. }
    assert (E : forall u v, (forall e, occ_one occf degauss u e <= occ_one occf degauss v e + d) -> N u <= N v + capacity world * d).
    { intros u v Huv. rewrite !Nf. unfold capacity. fold (rsum (map (fun w => k_weight w * INR (length (evl w))) (wfns world))).
      rewrite (Rmult_comm (rsum _) d), <- rsum_scale, <- rsum_plus. apply rsum_le. intros w Hwi.
      replace (rsum (map (fun e => occ_one occf degauss v e * k_weight w) (evl w)) + d * (k_weight w * INR (length (evl w))))
        with (rsum (map (fun e => occ_one occf degauss v e * k_weight w + d * k_weight w) (evl w))).
      2:{ rewrite rsum_plus, (rsum_const (d * k_weight w) (evl w)). ring. }
      apply rsum_le. intros e _. rewrite <- Rmult_plus_distr_r. apply Rmult_le_compat_r; [now apply Hw|]. apply Huv. }
    assert (V : forall e, Rabs (occ_one occf degauss b e - occ_one occf degauss a e) <= d)
      by (intros e; unfold d; now apply clamp_var).
    assert (E1 : N b <= N a + capacity world * d).
    { apply E. intros e. specialize (V e). unfold Rabs in V. destruct (Rcase_abs _) in V; lra. }
    assert (E2 : N a <= N b + capacity world * d).
    { apply E. intros e. specialize (V e). unfold Rabs in V. destruct (Rcase_abs _) in V; lra. }
    replace ((capacity world * L / degauss) * (b - a) + 2 * capacity world * delta) with (capacity world * d); [apply Rabs_le; lra|].
    unfold d. field. lra. }
  destruct (bisect_terminates N numel lo hi (capacity world * L / degauss) (2 * capacity world * delta)) as (fuel & mu & EB).
  - destruct LA as (w & H1 & H2). pose proof (LE w lo H1 H2). lra.
  - split; [apply Hlo; [intros w e H1 H2; apply (LE w e H1 H2)|exact LA]|apply Hhi; [intros w e H1 H2; apply (LE w e H1 H2)|exact HA]].
  - apply Rmult_le_pos; [now apply Rmult_le_pos|left; now apply Rinv_0_lt_compat].
  - exact Hcap.
  - exact Var.
  - exists fuel. rewrite UNF. fold N. rewrite EB. eauto.
Qed.
Print Assumptions C30_terminates.

(** Non-vacuity of the hypotheses of C27, C29, C30: two k-groups, two k-points, two bands,
    weights as scf.py sets them. *)
Definition example_world : list kgroup := [[[MkKS [0; 1] 1 [0; 0]]]; [[MkKS [0; 1] 1 [0; 0]]]].
Example C27_nonvacuous : unpolarised example_world 2 /\ total_weight example_world = 2
  /\ Z.even 2 = true /\ (0 < 2)%Z /\ (2 / 2 <= Z.of_nat 2)%Z.
Proof.
  split; [|unfold total_weight, wfns, example_world; cbn; repeat split; try lra; lia].
  split; [discriminate|]. split.
  - intros g [<-|[<-|[]]]; discriminate.
  - intros g wk [<-|[<-|[]]] [<-|[]]; eexists; repeat split.
Qed.
Example C30_nonvacuous : forall degauss, 0 < degauss ->
  (forall lo, (forall w e, In w (wfns example_world) -> In e (evl w) -> lo <= e) ->
      (exists w, In w (wfns example_world) /\ In lo (evl w)) -> compute_numel fd_occ degauss example_world lo <= 2)
  /\ (forall hi, (forall w e, In w (wfns example_world) -> In e (evl w) -> e <= hi) ->
      (exists w, In w (wfns example_world) /\ In hi (evl w)) -> 2 <= compute_numel fd_occ degauss example_world hi)
  /\ 2 * capacity example_world * exp (-50) < / 10 ^ 10.
Proof.
  intros degauss Hd. split; [|split].
  - intros lo H1 (w & Hw & Hl). assert (E : lo = 0).
    { assert (lo <= 0). { apply (H1 (MkKS [0; 1] 1 [0; 0])); cbn; auto. }
      destruct Hw as [<-|[<-|[]]]; cbn in Hl; destruct Hl as [<-|[<-|[]]]; lra. }
    rewrite E. destruct (C28_fermi_dirac degauss 0 Hd) as (B & D & Z & _).
    unfold compute_numel, group_numel, example_world. cbn. rewrite Z. pose proof (D 0 1 ltac:(lra)). rewrite Z in H. lra.
  - intros hi H1 (w & Hw & Hl). assert (E : hi = 1).
    { assert (1 <= hi). { apply (H1 (MkKS [0; 1] 1 [0; 0])); cbn; auto. }
      destruct Hw as [<-|[<-|[]]]; cbn in Hl; destruct Hl as [<-|[<-|[]]]; lra. }
    rewrite E. destruct (C28_fermi_dirac degauss 1 Hd) as (B & D & Z & _).
    unfold compute_numel, group_numel, example_world. cbn. rewrite Z. pose proof (D 0 1 ltac:(lra)). rewrite Z in H. lra.
  - unfold capacity, wfns, example_world. cbn [concat app map fold_right k_weight evl length INR].
    assert (E2 : 2 < exp 1) by (pose proof (exp_ineq1 1 ltac:(lra)); lra).
    assert (E50 : exp 50 = exp 1 ^ 50).
    { assert (G : forall n : nat, exp (INR n) = exp 1 ^ n).
      { intro n. induction n as [|n IH]; [cbn; apply exp_0|].
        rewrite S_INR, exp_plus, IH. cbn [pow]. ring. }
      rewrite <- (G 50%nat). f_equal. rewrite INR_IZR_INZ. reflexivity. }
    assert (P : 2 ^ 50 <= exp 50) by (rewrite E50; apply pow_incr; lra).
    replace (-50) with (- (50)) by lra. rewrite exp_Ropp.
    assert (Q : / exp 50 <= / 2 ^ 50) by (apply Rinv_le_contravar; [apply pow_lt; lra|exact P]).
    assert (T : 8 * / 2 ^ 50 < / 10 ^ 10) by lra. 
    pose proof (Rinv_0_lt_compat _ (exp_pos 50)). lra.
Qed.

(** C27: with no electrons there is no filled band to report: the call raises ValueError. *)
Theorem C27_no_electrons_refuted : forall world numbnd, unpolarised world numbnd -> fixed_compute_occ world 0 = Err ValueError.
Proof.
  intros world numbnd (H1 & H2 & H3). unfold fixed_compute_occ. cbn [assert_ Z.modulo Z.div_eucl Z.eqb bind].
  assert (A : forallb (forallb (fun wk => Nat.eqb (length wk) 1)) world = true).
  { apply forallb_forall. intros g Hg. apply forallb_forall. intros wk Hwk. destruct (H3 g wk Hg Hwk) as (w & -> & _). reflexivity. }
  rewrite A. cbn [assert_ bind]. change (0 / 2)%Z with 0%Z.
  assert (F : exists fs, sequence (map (fun g : list (list kswfn) => match g with (w :: _) :: _ => Ok (length (evl w)) | _ => Err IndexError end) world) = Ok fs).
  { clear A H1. induction world as [|g world IH]; [now exists []|]. cbn [map sequence].
    destruct IH as (fs & ->); [intros; apply H2; now right|intros g' wk' X; apply H3; now right|].
    destruct g as [|wk g]; [exfalso; now apply (H2 [] (or_introl eq_refl))|].
    destruct (H3 _ wk (or_introl eq_refl) (or_introl eq_refl)) as (w & -> & _). eexists. reflexivity. }
  destruct F as (fs & F). rewrite F. cbn [bind].
  destruct world as [|g world]; [easy|]. destruct g as [|wk g]; [exfalso; now apply (H2 [] (or_introl eq_refl))|].
  destruct (H3 _ wk (or_introl eq_refl) (or_introl eq_refl)) as (w & -> & _). cbn [map sequence].
  assert (P : py_bound (length (evl w)) 0 = 0%nat) by (unfold py_bound; cbn; lia). rewrite P. reflexivity.
Qed.
Print Assumptions C27_no_electrons_refuted.
