(** C90: matrix products with accumulation. *)
From Coq Require Import Reals Lra.
From Flocq Require Import Core Relative.
From Verif Require Import Base LatModel GIndexModel GSphereModel FFTModel KSHamModel KSHamSpec KSHamProofs PropsKSHam GemmModel CBase.
Open Scope R_scope.

(* ------------------------------------------------------------------ *)
(** Vocabulary: numbers a single-precision float holds (range aside). *)
Definition representable (x : R) : Prop := exists m e : Z, (Z.abs m < 2 ^ 24)%Z /\ (-149 <= e)%Z /\ x = IZR m * powerRZ 2 e.
Definition crepresentable (z : C) : Prop := representable (fst z) /\ representable (snd z).
(** op(X), entry by entry. *)
Definition entry (t : trans) (x : arr2) (i j : nat) : C :=
  match t with NoTrans => a_at x i j | Trans => a_at x j i | ConjTrans => Cconj (a_at x j i) end.
Definition rows_of (t : trans) (x : arr2) : nat := match t with NoTrans => a_rows x | _ => a_cols x end.
Definition cols_of (t : trans) (x : arr2) : nat := match t with NoTrans => a_cols x | _ => a_rows x end.
Definition product (a b : arr2) (ta tb : trans) (i j : nat) : C :=
  csum (cols_of ta a) (fun k => Cmult (entry ta a i k) (entry tb b k j)).

Lemma op_rows t x : a_rows (op t x) = rows_of t x. Proof. now destruct t. Qed.
Lemma op_cols t x : a_cols (op t x) = cols_of t x. Proof. now destruct t. Qed.
Lemma op_at t x i j : a_at (op t x) i j = entry t x i j. Proof. now destruct t. Qed.

(* ------------------------------------------------------------------ *)
(** Single precision. *)
Lemma bpow_powerRZ e : bpow radix2 e = powerRZ 2 e.
Proof. rewrite bpow_powerRZ. reflexivity. Qed.
Lemma representable_iff x : representable x <-> generic_format radix2 (FLT_exp (-149) 24) x.
Proof.
  split.
  - intros (m & e & Hm & He & ->). apply generic_format_FLT. apply FLT_spec with (Float radix2 m e); cbn [Fnum Fexp].
    + unfold F2R. cbn [Fnum Fexp]. now rewrite bpow_powerRZ.
    + exact Hm.
    + exact He.
  - intros H. apply FLT_format_generic in H; [|exact eq_refl].
    destruct H as [f Hf Hm He]. exists (Fnum f), (Fexp f). split; [exact Hm|]. split; [exact He|].
    rewrite Hf. unfold F2R. now rewrite bpow_powerRZ.
Qed.
Lemma prec24 : Prec_gt_0 24. Proof. exact eq_refl. Qed.
#[local] Existing Instance prec24.

(** The conversion gives a representable number at least as close as any other. *)
Theorem C90_conversion : forall x,
  representable (single x)
  /\ (forall y, representable y -> Rabs (single x - x) <= Rabs (y - x))
  /\ (representable x <-> single x = x)
  /\ Rabs (single x - x) <= / 2 ^ 24 * Rabs x + / 2 ^ 150.
Proof.
  intros x. unfold single.
  assert (V : Valid_exp (FLT_exp (-149) 24)) by (apply FLT_exp_valid; exact prec24).
  split; [apply representable_iff; apply generic_format_round; auto with typeclass_instances|].
  split.
  { intros y Hy. apply representable_iff in Hy.
    destruct (round_N_pt radix2 (FLT_exp (-149) 24) (fun z => negb (Z.even z)) x) as [_ P].
    apply P. exact Hy. }
  split.
  { split; intros H.
    - apply round_generic; [apply valid_rnd_N|]. now apply representable_iff.
    - rewrite <- H. apply representable_iff. apply generic_format_round; auto with typeclass_instances. }
  destruct (error_N_FLT radix2 (-149) 24 eq_refl (fun z => negb (Z.even z)) x) as (eps & eta & He & Ht & _ & E).
  change (round radix2 (FLT_exp (-149) 24) (Znearest (fun z => negb (Z.even z))) x) with (round radix2 (FLT_exp (-149) 24) ZnearestE x) in E.
  rewrite E. replace (x * (1 + eps) + eta - x) with (x * eps + eta) by ring.
  eapply Rle_trans; [apply Rabs_triang|]. rewrite Rabs_mult.
  assert (B1 : / 2 * bpow radix2 (- (24) + 1) = / 2 ^ 24) .
  { rewrite bpow_powerRZ. change (powerRZ 2 (- (24) + 1)) with (/ 2 ^ 23). rewrite <- Rinv_mult. f_equal. }
  assert (B2 : / 2 * bpow radix2 (-149) = / 2 ^ 150).
  { rewrite bpow_powerRZ. change (powerRZ 2 (-149)) with (/ 2 ^ 149). rewrite <- Rinv_mult. f_equal. }
  rewrite B1 in He. rewrite B2 in Ht. 
  apply Rplus_le_compat; [|exact Ht]. rewrite Rmult_comm. apply Rmult_le_compat_r; [apply Rabs_pos|exact He].
Qed.
Print Assumptions C90_conversion.

(* ------------------------------------------------------------------ *)
(** C90, the wrapper.  With fitting shapes the result is alpha op(A) op(B), plus beta times
    the single-precision value of [out] when one is given. *)
Theorem C90_zgemm : forall a b ta tb alpha out beta,
  (cols_of ta a = rows_of tb b -> match out with Some c => a_rows c = rows_of ta a /\ a_cols c = cols_of tb b | None => True end ->
   exists m, zgemm_sp a b ta tb alpha out beta = Ok m /\ a_rows m = rows_of ta a /\ a_cols m = cols_of tb b
   /\ forall i j, a_at m i j = (alpha * product a b ta tb i j
                                + match out with Some c => beta * csingle (a_at c i j) | None => RtoC 0 end)%C)
  /\ (cols_of ta a <> rows_of tb b \/ (exists c, out = Some c /\ (a_rows c <> rows_of ta a \/ a_cols c <> cols_of tb b)) ->
      zgemm_sp a b ta tb alpha out beta = Err ValueError).
Proof.
  intros a b ta tb alpha out beta. unfold zgemm_sp, blas_zgemm, product. rewrite !op_rows, !op_cols. split.
  - intros H1 H2. rewrite H1, Nat.eqb_refl. cbn [negb]. destruct out as [c|].
    + destruct H2 as [H2 H3]. cbn [a_rows a_cols a_at]. rewrite H2, H3, !Nat.eqb_refl. cbn [andb negb].
      eexists. split; [reflexivity|]. cbn [a_rows a_cols a_at]. repeat split; try reflexivity. intros i j.
      rewrite <- H1. f_equal. f_equal. apply csum_ext. intros k _. now rewrite !op_at.
    + eexists. split; [reflexivity|]. cbn [a_rows a_cols a_at]. repeat split; try reflexivity. intros i j.
      rewrite <- H1, Cplus_0_r. f_equal. apply csum_ext. intros k _. now rewrite !op_at.
  - intros H. destruct (Nat.eqb_spec (cols_of ta a) (rows_of tb b)) as [E|E]; [|reflexivity]. cbn [negb].
    destruct H as [H|(c & -> & H)]; [contradiction|]. cbn [a_rows a_cols].
    destruct (Nat.eqb_spec (a_rows c) (rows_of ta a)), (Nat.eqb_spec (a_cols c) (cols_of tb b)); try reflexivity. tauto.
Qed.
Print Assumptions C90_zgemm.

Lemma Cmod_le_sum (z : C) : Cmod z <= Rabs (fst z) + Rabs (snd z).
Proof.
  unfold Cmod. rewrite <- (sqrt_Rsqr (Rabs (fst z) + Rabs (snd z))).
  2:{ assert (0 <= Rabs (fst z)) by apply Rabs_pos. assert (0 <= Rabs (snd z)) by apply Rabs_pos. lra. }
  apply sqrt_le_1_alt. unfold Rsqr. rewrite <- (pow2_abs (fst z)), <- (pow2_abs (snd z)).
  assert (0 <= Rabs (fst z)) by apply Rabs_pos. assert (0 <= Rabs (snd z)) by apply Rabs_pos. nra.
Qed.
Lemma csingle_error z : Cmod (csingle z - z)%C <= / 2 ^ 23 * Cmod z + / 2 ^ 149.
Proof.
  eapply Rle_trans; [apply Cmod_le_sum|]. unfold csingle, Cminus, Cplus, Copp. cbn [fst snd].
  destruct (C90_conversion (fst z)) as (_ & _ & _ & E1). destruct (C90_conversion (snd z)) as (_ & _ & _ & E2).
  unfold Rminus in E1, E2.
  assert (M := Rmax_Cmod z).
  assert (Rabs (fst z) <= Cmod z) by (eapply Rle_trans; [apply Rmax_l|exact M]).
  assert (Rabs (snd z) <= Cmod z) by (eapply Rle_trans; [apply Rmax_r|exact M]).
  assert (B1 : / 2 ^ 23 = 2 * / 2 ^ 24) by (replace (2 ^ 24) with (2 * 2 ^ 23) by ring; rewrite Rinv_mult; field; try (apply pow_nonzero; lra)).
  assert (B2 : / 2 ^ 149 = 2 * / 2 ^ 150).
  { replace (2 ^ 150) with (2 * 2 ^ 149) by (change (2 ^ 150) with (2 * 2 ^ 149); reflexivity). rewrite Rinv_mult. field; try (apply pow_nonzero; lra). }
  rewrite B1, B2. assert (P24 : 0 < / 2 ^ 24) by (apply Rinv_0_lt_compat, pow_lt; lra).
  generalize dependent (/ 2 ^ 24). generalize dependent (/ 2 ^ 150). intros. nra.
Qed.
Lemma csingle_exact z : crepresentable z <-> csingle z = z.
Proof.
  unfold crepresentable, csingle. destruct z as [x y]. cbn [fst snd].
  destruct (C90_conversion x) as (_ & _ & Ex & _). destruct (C90_conversion y) as (_ & _ & Ey & _). rewrite Ex, Ey.
  split; [intros [-> ->]; reflexivity|]. intros H. injection H. intros. now split.
Qed.

(** C90, accumulation.  Against the documented alpha op(A) op(B) + beta C the result is exact
    for beta = 0 and when every entry of C is a single-precision number; otherwise the error
    of an entry is at most |beta| (2^-23 |c| + 2^-149). *)
Theorem C90_accumulate : forall a b ta tb alpha c beta m,
  zgemm_sp a b ta tb alpha (Some c) beta = Ok m ->
  forall i j,
  let documented := (alpha * product a b ta tb i j + beta * a_at c i j)%C in
  (beta = RtoC 0 \/ crepresentable (a_at c i j) -> a_at m i j = documented)
  /\ Cmod (a_at m i j - documented)%C <= Cmod beta * (/ 2 ^ 23 * Cmod (a_at c i j) + / 2 ^ 149).
Proof.
  intros a b ta tb alpha c beta m H i j documented.
  destruct (C90_zgemm a b ta tb alpha (Some c) beta) as [A B].
  assert (E : cols_of ta a = rows_of tb b /\ a_rows c = rows_of ta a /\ a_cols c = cols_of tb b).
  { destruct (Nat.eq_dec (cols_of ta a) (rows_of tb b)) as [E1|E1]; [|rewrite B in H by (now left); discriminate].
    destruct (Nat.eq_dec (a_rows c) (rows_of ta a)) as [E2|E2]; [|rewrite B in H by (right; exists c; tauto); discriminate].
    destruct (Nat.eq_dec (a_cols c) (cols_of tb b)) as [E3|E3]; [|rewrite B in H by (right; exists c; tauto); discriminate]. auto. }
  destruct E as (E1 & E2). destruct (A E1 E2) as (m' & Hm & _ & _ & V). rewrite H in Hm. injection Hm as <-.
  rewrite V. unfold documented. split.
  - intros [->|R0]; [ring|]. apply csingle_exact in R0. now rewrite R0.
  - match goal with |- Cmod ?w <= _ => replace w with (beta * (csingle (a_at c i j) - a_at c i j))%C by ring end.
    rewrite Cmod_mult. apply Rmult_le_compat_l; [apply Cmod_ge_0|]. apply csingle_error.
Qed.
Print Assumptions C90_accumulate.

(** C90, the rounding is real: adding a zero product to an entry that is not a
    single-precision number changes it. *)
Theorem C90_accumulate_refuted : forall z, ~ crepresentable z ->
  exists m, zgemm_sp (MkArr2 1 1 (fun _ _ => RtoC 0)) (MkArr2 1 1 (fun _ _ => RtoC 0)) NoTrans NoTrans (RtoC 1)
              (Some (MkArr2 1 1 (fun _ _ => z))) (RtoC 1) = Ok m /\ a_at m 0 0 <> z.
Proof.
  intros z Hz. eexists. split; [reflexivity|]. cbn [a_at]. intros H. apply Hz, csingle_exact.
  rewrite <- H at 2. cbn [csum]. cbn. ring.
Qed.
Print Assumptions C90_accumulate_refuted.
Example C90_not_representable : ~ representable (1 + / 2 ^ 30).
Proof.
  intros (m & e & Hm & He & H).
  assert (P : forall k, (0 <= k)%Z -> powerRZ 2 k = IZR (2 ^ k)).
  { intros k Hk. rewrite <- (Z2Nat.id k Hk) at 1. rewrite <- pow_powerRZ. rewrite pow_IZR. now rewrite Z2Nat.id. }
  assert (E : IZR m * powerRZ 2 (e + 30) = IZR (2 ^ 30 + 1)).
  { rewrite powerRZ_add by lra. rewrite <- Rmult_assoc, <- H. rewrite (P 30%Z) by lia. rewrite plus_IZR.
    change (2 ^ 30) with (2 * 2 ^ 29). rewrite !pow_IZR. rewrite <- mult_IZR. change (2 * 2 ^ Z.of_nat 29)%Z with (2 ^ 30)%Z.
    field. apply not_0_IZR. lia. }
  destruct (Z_le_gt_dec (e + 30) 0) as [L|L].
  - (* m = (2^30+1) 2^-(e+30) *)
    assert (E2 : IZR m = IZR ((2 ^ 30 + 1) * 2 ^ (- (e + 30)))).
    { rewrite mult_IZR, <- P by lia. rewrite <- E. rewrite Rmult_assoc, <- powerRZ_add by lra.
      replace (e + 30 + - (e + 30))%Z with 0%Z by lia. cbn. ring. }
    apply eq_IZR in E2. assert (0 < 2 ^ (- (e + 30)))%Z by (apply Z.pow_pos_nonneg; lia). nia.
  - rewrite P in E by lia. rewrite <- mult_IZR in E. apply eq_IZR in E.
    replace (e + 30)%Z with (1 + (e + 29))%Z in E by lia. rewrite Z.pow_add_r in E by lia. lia.
Qed.

(** C90, which routine. *)
Theorem C90_dispatch : forall cupy t,
  (t = NumpyArray -> get_zgemm cupy t = Ok (Some ScipyBlas))
  /\ (t = CupyArray -> cupy = true -> get_zgemm cupy t = Ok (Some CupyBlas))
  /\ (t <> NumpyArray -> cupy = false -> get_zgemm cupy t = Err NotImplementedError)
  /\ (t = OtherArray -> cupy = true -> get_zgemm cupy t = Ok None).
Proof. intros [] []; repeat split; try reflexivity; try discriminate; congruence. Qed.
Print Assumptions C90_dispatch.

(* ------------------------------------------------------------------ *)
(** The Hamiltonian. *)
Definition wstep (l_psi : list (list C)) (hp : list (list C)) vd : list (list C) :=
  zip_with (nonlocal_band vd) l_psi (map (map csingle) hp).
Definition estep (l_psi : list (list C)) (hp : list (list C)) vd : list (list C) := zip_with (nonlocal_band vd) l_psi hp.

Lemma nonlocal_species_eq ng vd l_psi l_hpsi : length l_psi = length l_hpsi -> (forall p, In p l_hpsi -> length p = ng) ->
  nonlocal_species ng vd l_psi l_hpsi = Ok (wstep l_psi l_hpsi vd).
Proof.
  intros HL HN. unfold nonlocal_species, wstep. destruct vd as [vkb dij].
  set (n := length vkb).
  set (D := MkArr2 (length l_psi) n _).
  destruct (C90_zgemm (of_rows ng vkb) D NoTrans Trans (RtoC 1) (Some (of_rows ng l_hpsi)) (RtoC 1)) as [A _].
  destruct A as (m & Hm & R1 & R2 & V); [reflexivity|split; [reflexivity|exact (eq_sym HL)]|].
  rewrite Hm. cbn [bind]. f_equal. cbn [rows_of cols_of of_rows a_rows a_cols] in R1, R2. unfold D in R2. cbn [a_rows] in R2.
  apply (nth_ext _ _ [] []).
  - unfold to_rows. rewrite map_length, seq_length, zip_with_length, map_length, R2. lia.
  - unfold to_rows. rewrite map_length, seq_length, R2. intros b Hb.
    match goal with |- nth b (map ?f _) _ = _ => rewrite (nth_indep _ [] (f 0%nat)) by (rewrite map_length, seq_length; lia); rewrite (map_nth f) end.
    rewrite seq_nth by lia. cbn [Nat.add].
    rewrite (zip_with_nth _ _ _ b [] (map csingle [])) by (rewrite ?map_length; lia).
    rewrite (map_nth (map csingle)).
    assert (Lb : length (nth b l_hpsi []) = ng) by (apply HN, nth_In; lia).
    unfold nonlocal_band. rewrite map_length, Lb, R1. apply map_ext_in. intros g Hg. apply in_seq in Hg.
    rewrite V. unfold product, D. cbn [cols_of entry of_rows a_cols a_at]. fold n. rewrite !Cmult_1_l.
    rewrite (nth_indep (map csingle _) (RtoC 0) (csingle (RtoC 0))) by (rewrite map_length; lia).
    rewrite map_nth. reflexivity.
Qed.

Lemma wstep_shape ng l_psi hp vd : length l_psi = length hp -> (forall p, In p hp -> length p = ng) ->
  length (wstep l_psi hp vd) = length hp /\ forall p, In p (wstep l_psi hp vd) -> length p = ng.
Proof.
  intros HL HN. unfold wstep. split; [rewrite zip_with_length, map_length; lia|].
  intros p Hp. apply (In_nth _ _ []) in Hp. destruct Hp as (b & Hb & <-). rewrite zip_with_length, map_length in Hb.
  rewrite (zip_with_nth _ _ _ b [] (map csingle [])) by (rewrite ?map_length; lia).
  unfold nonlocal_band. destruct vd. rewrite map_length, seq_length. rewrite (map_nth (map csingle)), map_length.
  apply HN, nth_In. lia.
Qed.
Lemma nonlocal_all_eq ng nl l_psi : forall hp, length l_psi = length hp -> (forall p, In p hp -> length p = ng) ->
  nonlocal_all ng nl l_psi hp = Ok (fold_left (wstep l_psi) nl hp).
Proof.
  induction nl as [|vd nl IH]; intros hp HL HN; [reflexivity|]. cbn [nonlocal_all fold_left].
  rewrite nonlocal_species_eq by assumption. cbn [bind].
  destruct (wstep_shape ng l_psi hp vd HL HN) as [A B]. apply IH; [lia|exact B].
Qed.

(** The object with its first [s] species only. *)
Definition with_species (s : nat) (h : ksham) : ksham :=
  MkKSHam (kh_lat h) (kh_k h) (kh_gs h) (kh_vloc h) (firstn s (kh_nloc h)).
Lemma with_species_wf nx ny nz s h : well_formed nx ny nz h -> well_formed nx ny nz (with_species s h).
Proof.
  intros (A & B & D). split; [exact A|]. split; [exact B|]. cbn [with_species kh_nloc kh_gs]. intros vd v Hin.
  apply D. rewrite <- (firstn_skipn s). apply in_or_app. now left.
Qed.
Lemma with_all_species h : with_species (length (kh_nloc h)) h = h.
Proof. destruct h. unfold with_species. cbn. now rewrite firstn_all. Qed.
Lemma local_bands_species s h : forall l_psi o l_hpsi, local_bands (with_species s h) o l_psi l_hpsi = local_bands h o l_psi l_hpsi.
Proof. induction l_psi as [|p ps IH]; intros o [|q qs]; try reflexivity. cbn [local_bands]. change (local_band (with_species s h)) with (local_band h).
  destruct (local_band h o p q). now rewrite IH. Qed.
Lemma firstn_snoc {A} (l : list A) s d : (s < length l)%nat -> firstn (S s) l = firstn s l ++ [nth s l d].
Proof. revert s. induction l as [|a l IH]; intros [|s] H; cbn [length] in H; try lia; [reflexivity|]. cbn [firstn nth app]. f_equal. apply IH. lia. Qed.

Lemma wstep_nth nx ny nz h vd l_psi hp b i : well_formed nx ny nz h -> In vd (kh_nloc h) -> length l_psi = length hp ->
  (forall p, In p l_psi -> length p = length (gs_cryst (kh_gs h))) ->
  (forall p, In p hp -> length p = length (gs_cryst (kh_gs h))) -> (b < length l_psi)%nat -> (i < length (gs_cryst (kh_gs h)))%nat ->
  nth i (nth b (wstep l_psi hp vd) []) (RtoC 0)
  = (csingle (nth i (nth b hp []) (RtoC 0))
     + csum (length (gs_cryst (kh_gs h))) (fun j => separable vd i j * nth j (nth b l_psi []) (RtoC 0)))%C.
Proof.
  intros WF Hin HL HP HN Hb Hi. unfold wstep.
  assert (Lb : length (nth b hp []) = length (gs_cryst (kh_gs h))) by (apply HN, nth_In; lia).
  rewrite (zip_with_nth _ _ _ b [] (map csingle [])) by (rewrite ?map_length; lia). rewrite (map_nth (map csingle)).
  destruct (nonlocal_band_eq nx ny nz h WF vd (nth b l_psi []) (map csingle (nth b hp [])) Hin) as [_ E]; [apply HP, nth_In; lia|].
  rewrite E by (rewrite map_length; lia). f_equal.
  rewrite (nth_indep (map csingle _) (RtoC 0) (csingle (RtoC 0))) by (rewrite map_length; lia). apply map_nth.
Qed.
Lemma estep_nth nx ny nz h vd l_psi hp b i : well_formed nx ny nz h -> In vd (kh_nloc h) -> length l_psi = length hp ->
  (forall p, In p l_psi -> length p = length (gs_cryst (kh_gs h))) ->
  (forall p, In p hp -> length p = length (gs_cryst (kh_gs h))) -> (b < length l_psi)%nat -> (i < length (gs_cryst (kh_gs h)))%nat ->
  nth i (nth b (estep l_psi hp vd) []) (RtoC 0)
  = (nth i (nth b hp []) (RtoC 0)
     + csum (length (gs_cryst (kh_gs h))) (fun j => separable vd i j * nth j (nth b l_psi []) (RtoC 0)))%C.
Proof.
  intros WF Hin HL HP HN Hb Hi. unfold estep.
  assert (Lb : length (nth b hp []) = length (gs_cryst (kh_gs h))) by (apply HN, nth_In; lia).
  rewrite (zip_with_nth _ _ _ b [] []) by lia.
  destruct (nonlocal_band_eq nx ny nz h WF vd (nth b l_psi []) (nth b hp []) Hin) as [_ E]; [apply HP, nth_In; lia|].
  rewrite E by lia. reflexivity.
Qed.
Lemma estep_shape ng l_psi hp vd : length l_psi = length hp -> (forall p, In p hp -> length p = ng) ->
  length (estep l_psi hp vd) = length hp /\ forall p, In p (estep l_psi hp vd) -> length p = ng.
Proof.
  intros HL HN. unfold estep. split; [rewrite zip_with_length; lia|].
  intros p Hp. apply (In_nth _ _ []) in Hp. destruct Hp as (b & Hb & <-). rewrite zip_with_length in Hb.
  rewrite (zip_with_nth _ _ _ b [] []) by lia.
  unfold nonlocal_band. destruct vd. rewrite map_length, seq_length. apply HN, nth_In. lia.
Qed.
Lemma fold_shape ng (l_psi : list (list C)) (F : list (list C) -> (list (list C) * (nat -> nat -> C)) -> list (list C)) nl :
  (forall hp vd, length l_psi = length hp -> (forall p, In p hp -> length p = ng) ->
     length (F hp vd) = length hp /\ forall p, In p (F hp vd) -> length p = ng) ->
  forall hp, length l_psi = length hp -> (forall p, In p hp -> length p = ng) ->
  length (fold_left F nl hp) = length hp /\ forall p, In p (fold_left F nl hp) -> length p = ng.
Proof.
  intros HF. induction nl as [|vd nl IH]; intros hp HL HN; [now split|]. cbn [fold_left].
  destruct (HF hp vd HL HN) as [A B]. destruct (IH (F hp vd)) as [A' B']; [lia|exact B|]. split; [lia|exact B'].
Qed.

(** C90, KSHam.h_psi.  The nonlocal terms are accumulated species by species through the
    wrapper, so the value reached before each species is rounded to single precision: the
    result differs from the dense Hamiltonian's product by at most the sum, over the species,
    of 2^-23 |value before that species| + 2^-149. *)
Theorem C90_h_psi_error : forall nx ny nz h garbage history l_psi l_hpsi,
  well_formed nx ny nz h -> length l_psi = length l_hpsi ->
  (forall psi, In psi l_psi -> length psi = length (gs_cryst (kh_gs h))) ->
  exists out : nat -> list (list C),
    (forall s, (s <= length (kh_nloc h))%nat -> exists fft',
       h_psi_w (with_species s h) (used_fft nx ny nz h garbage history) l_psi l_hpsi = Ok (fft', out s))
    /\ (exists fft', h_psi_w h (used_fft nx ny nz h garbage history) l_psi l_hpsi = Ok (fft', out (length (kh_nloc h))))
    /\ forall b i, (b < length l_psi)%nat -> (i < length (gs_cryst (kh_gs h)))%nat ->
       Cmod (nth i (nth b (out (length (kh_nloc h))) []) (RtoC 0)
             - csum (length (gs_cryst (kh_gs h))) (fun j =>
                 (kinetic h i j + local nx ny nz h i j + nonlocal h i j) * nth j (nth b l_psi []) (RtoC 0)))%C
       <= rsum (length (kh_nloc h)) (fun s => / 2 ^ 23 * Cmod (nth i (nth b (out s) []) (RtoC 0)) + / 2 ^ 149).
Proof.
  intros nx ny nz h garbage history l_psi l_hpsi WF HL HP.
  set (ng := length (gs_cryst (kh_gs h))) in *.
  set (o := used_fft nx ny nz h garbage history).
  set (hp0 := map (zip_with Cmult (ke_gk h)) l_psi).
  destruct (local_bands h o l_psi hp0) as [o1 hp1] eqn:EL.
  (* shapes of the local part, from the object without species *)
  assert (S1 : length hp1 = length l_psi /\ forall p, In p hp1 -> length p = ng).
  { destruct (h_psi_eq nx ny nz (with_species 0 h) (with_species_wf nx ny nz 0 h WF) o l_psi l_hpsi
                (used_fft_inv nx ny nz h garbage history) HL HP) as (o' & out & E & _ & A & B & _).
    unfold h_psi in E. rewrite HL, Nat.eqb_refl in E. cbn [bind assert_] in E.
    change (ke_gk (with_species 0 h)) with (ke_gk h) in E. fold hp0 in E. rewrite local_bands_species, EL in E.
    unfold nonlocal_bands in E. cbn [with_species kh_nloc firstn fold_left] in E. injection E as <- <-. split; assumption. }
  destruct S1 as [L1 N1].
  set (W := fun s => fold_left (wstep l_psi) (firstn s (kh_nloc h)) hp1).
  set (X := fun s => fold_left (estep l_psi) (firstn s (kh_nloc h)) hp1).
  assert (SW : forall s, length (W s) = length l_psi /\ forall p, In p (W s) -> length p = ng).
  { intros s. destruct (fold_shape ng l_psi (wstep l_psi) (firstn s (kh_nloc h)) (fun hp vd => wstep_shape ng l_psi hp vd) hp1) as [A B];
      [lia|exact N1|]. split; [unfold W; lia|exact B]. }
  assert (SX : forall s, length (X s) = length l_psi /\ forall p, In p (X s) -> length p = ng).
  { intros s. destruct (fold_shape ng l_psi (estep l_psi) (firstn s (kh_nloc h)) (fun hp vd => estep_shape ng l_psi hp vd) hp1) as [A B];
      [lia|exact N1|]. split; [unfold X; lia|exact B]. }
  assert (HW : forall s, h_psi_w (with_species s h) o l_psi l_hpsi = Ok (o1, W s)).
  { intros s. unfold h_psi_w. rewrite HL, Nat.eqb_refl. cbn [bind assert_].
    change (ke_gk (with_species s h)) with (ke_gk h). fold hp0. rewrite local_bands_species, EL.
    cbn [with_species kh_nloc kh_gs]. rewrite nonlocal_all_eq by (try lia; exact N1). reflexivity. }
  exists W. split; [intros s _; eauto|].
  split; [exists o1; rewrite <- (with_all_species h) at 1; apply HW|].
  intros b i Hb Hi.
  assert (EX : nth i (nth b (X (length (kh_nloc h))) []) (RtoC 0)
     = csum ng (fun j => (kinetic h i j + local nx ny nz h i j + nonlocal h i j) * nth j (nth b l_psi []) (RtoC 0))%C).
  { destruct (h_psi_eq nx ny nz h WF o l_psi l_hpsi (used_fft_inv nx ny nz h garbage history) HL HP) as (o' & out & E & _ & _ & _ & V).
    unfold h_psi in E. rewrite HL, Nat.eqb_refl in E. cbn [bind assert_] in E. fold hp0 in E. rewrite EL in E.
    injection E as _ <-. unfold X. rewrite firstn_all. exact (V b i Hb Hi). }
  rewrite <- EX.
  (* induction on the number of species *)
  enough (G : forall s, (s <= length (kh_nloc h))%nat ->
     Cmod (nth i (nth b (W s) []) (RtoC 0) - nth i (nth b (X s) []) (RtoC 0))%C
     <= rsum s (fun s => / 2 ^ 23 * Cmod (nth i (nth b (W s) []) (RtoC 0)) + / 2 ^ 149)) by (apply G; lia).
  induction s as [|s IH]; intros Hs.
  - unfold W, X. cbn [firstn fold_left rsum]. match goal with |- Cmod ?w <= _ => replace w with (RtoC 0) by ring end. rewrite Cmod_0. lra.
  - set (vd := nth s (kh_nloc h) ([], fun _ _ => RtoC 0)).
    assert (Hin : In vd (kh_nloc h)) by (apply nth_In; lia).
    assert (E1 : W (S s) = wstep l_psi (W s) vd).
    { unfold W. rewrite (firstn_snoc _ _ ([], fun _ _ => RtoC 0)) by lia. rewrite fold_left_app. reflexivity. }
    assert (E2 : X (S s) = estep l_psi (X s) vd).
    { unfold X. rewrite (firstn_snoc _ _ ([], fun _ _ => RtoC 0)) by lia. rewrite fold_left_app. reflexivity. }
    rewrite E1, E2. destruct (SW s) as [A B]. destruct (SX s) as [A' B'].
    rewrite (wstep_nth nx ny nz h) by (try assumption; lia). rewrite (estep_nth nx ny nz h) by (try assumption; lia).
    cbn [rsum]. set (w := nth i (nth b (W s) []) (RtoC 0)) in *. set (x := nth i (nth b (X s) []) (RtoC 0)) in *.
    match goal with |- Cmod ?q <= _ => replace q with ((w - x) + (csingle w - w))%C by ring end.
    eapply Rle_trans; [apply Cmod_triangle|]. apply Rplus_le_compat; [apply IH; lia|]. apply csingle_error.
Qed.
Print Assumptions C90_h_psi_error.

(** C90, consequence.  With one species whose coupling vanishes the result is the
    single-precision value of the exact one: h_psi is not the matrix product, hence not
    linear, as soon as some value is not a single-precision number. *)
Theorem C90_h_psi_rounded_refuted : forall nx ny nz h garbage history l_psi l_hpsi vkb,
  well_formed nx ny nz h -> length l_psi = length l_hpsi ->
  (forall psi, In psi l_psi -> length psi = length (gs_cryst (kh_gs h))) ->
  kh_nloc h = [(vkb, fun _ _ => RtoC 0)] ->
  exists fft' out, h_psi_w h (used_fft nx ny nz h garbage history) l_psi l_hpsi = Ok (fft', out)
  /\ forall b i, (b < length l_psi)%nat -> (i < length (gs_cryst (kh_gs h)))%nat ->
     let exact := csum (length (gs_cryst (kh_gs h))) (fun j =>
           (kinetic h i j + local nx ny nz h i j + nonlocal h i j) * nth j (nth b l_psi []) (RtoC 0))%C in
     nth i (nth b out []) (RtoC 0) = csingle exact /\ (nth i (nth b out []) (RtoC 0) = exact <-> crepresentable exact).
Proof.
  intros nx ny nz h garbage history l_psi l_hpsi vkb WF HL HP HN.
  set (ng := length (gs_cryst (kh_gs h))) in *. set (o := used_fft nx ny nz h garbage history).
  destruct (h_psi_eq nx ny nz (with_species 0 h) (with_species_wf nx ny nz 0 h WF) o l_psi l_hpsi
                (used_fft_inv nx ny nz h garbage history) HL HP) as (o' & hp1 & E & _ & A & B & V).
  unfold h_psi in E. rewrite HL, Nat.eqb_refl in E. cbn [bind assert_] in E.
  change (ke_gk (with_species 0 h)) with (ke_gk h) in E. rewrite local_bands_species in E.
  destruct (local_bands h o l_psi (map (zip_with Cmult (ke_gk h)) l_psi)) as [o1 hp] eqn:EL.
  unfold nonlocal_bands in E. cbn [with_species kh_nloc firstn fold_left] in E. injection E as <- <-.
  exists o1, (wstep l_psi hp (vkb, fun _ _ => RtoC 0)). split.
  { unfold h_psi_w. rewrite HL, Nat.eqb_refl. cbn [bind assert_]. fold o. rewrite EL, HN.
    rewrite nonlocal_all_eq; [reflexivity|lia|exact B]. }
  intros b i Hb Hi exact.
  assert (Z0 : forall i j, separable (vkb, fun _ _ => RtoC 0) i j = RtoC 0).
  { intros i' j'. unfold separable. cbn [fst snd]. rewrite (csum_ext _ _ (fun _ => RtoC 0)).
    - apply csum_0.
    - intros p _. rewrite (csum_ext _ _ (fun _ => RtoC 0)); [apply csum_0|]. intros q _. ring. }
  assert (EE : nth i (nth b (wstep l_psi hp (vkb, fun _ _ => RtoC 0)) []) (RtoC 0) = csingle exact).
  { rewrite (wstep_nth nx ny nz h) by (try assumption; try lia; rewrite HN; now left).
    rewrite (csum_ext _ _ (fun _ => RtoC 0)) by (intros j _; rewrite Z0; ring). rewrite csum_0, Cplus_0_r.
    f_equal. rewrite V by assumption. apply csum_ext. intros j _. unfold hamiltonian. f_equal. f_equal.
    unfold nonlocal. cbn [with_species kh_nloc firstn fold_right]. rewrite HN. cbn [fold_right]. rewrite Z0. ring. }
  split; [exact EE|]. rewrite EE. symmetry. apply csingle_exact.
Qed.
Print Assumptions C90_h_psi_rounded_refuted.
(** Non-vacuity: the object of C46_nonvacuous has one species. *)
Example C90_nonvacuous : well_formed 2 1 2 ex_h /\ length (kh_nloc ex_h) = 1%nat.
Proof. split; [exact (proj1 C46_nonvacuous)|reflexivity]. Qed.
