(** C45: wavefunction files; C70: overlaps between k-points. *)
From Coq Require Import Reals Lra.
From Verif Require Import Base NlocSpec NlocProofs WfnIOModel WfnIOSpec WfnIOProofs CBase.
Open Scope R_scope.

(** ** C45 *)
(** Interleaved storage is read back exactly, and every even-length row is such a storage. *)
Theorem C45_interleaved_roundtrip (zs : list C) : f8_to_c16_interleaved (interleaved zs) = Ok zs.
Proof. apply f8_interleaved. Qed.
Theorem C45_interleaved_onto (data : list R) : Nat.Even (length data) ->
  exists zs, f8_to_c16_interleaved data = Ok zs /\ interleaved zs = data /\ length data = (2 * length zs)%nat.
Proof.
  intros [m Hm]. destruct (interleaved_onto data m Hm) as (zs & -> & L). exists zs.
  split; [apply f8_interleaved|]. split; [reflexivity|]. rewrite L. exact Hm.
Qed.
(** Odd lengths are refused, except one and three numbers: there broadcasting
    produces an empty, respectively a wrong, answer. *)
Theorem C45_odd_length_refused (data : list R) : Nat.Odd (length data) -> (5 <= length data)%nat ->
  f8_to_c16_interleaved data = Err ValueError.
Proof.
  intros [m Hm] H5. unfold f8_to_c16_interleaved, add_1j.
  destruct (evens_length data) as [L1 L2]. rewrite Hm in L1, L2.
  replace (2 * m + 1 + 1)%nat with ((m + 1) * 2)%nat in L1 by lia. rewrite Nat.div_mul in L1 by lia.
  replace (2 * m + 1)%nat with (1 + m * 2)%nat in L2 by lia. rewrite Nat.div_add in L2 by lia. cbn in L2.
  destruct (Nat.eqb_spec (length (evens data)) (length (odds data))); [lia|].
  destruct (evens data) as [|a [|a' t]]; cbn in L1; try lia.
  destruct (odds data) as [|b [|b' t']]; cbn in L2; try lia. reflexivity.
Qed.
Theorem C45_odd_length_refuted (a b c : R) :
  f8_to_c16_interleaved [a] = Ok [] /\ f8_to_c16_interleaved [a; b; c] = Ok [(a, b); (c, b)].
Proof. split; reflexivity. Qed.

(** BerkeleyGW pairs, both directions; the addressed read skips the conversion. *)
Theorem C45_pairs_roundtrip (zs : list C) :
  real_to_cplx (cplx_to_real zs) = Ok zs /\ h5_to_arr (arr_to_h5 zs) true false = Ok (CplxArr zs).
Proof.
  assert (E : real_to_cplx (cplx_to_real zs) = Ok zs).
  { unfold real_to_cplx, cplx_to_real. rewrite map_map. rewrite (sequence_map_ok _ (fun z : C => z)).
    - now rewrite map_id.
    - intros [a b] _. reflexivity. }
  split; [exact E|]. unfold h5_to_arr, arr_to_h5. rewrite E. reflexivity.
Qed.
Theorem C45_pairs_inverse (d : list (list R)) (zs : list C) :
  (forall p, In p d -> length p = 2%nat) -> real_to_cplx d = Ok zs -> cplx_to_real zs = d.
Proof.
  revert zs. induction d as [|p t IH]; intros zs Hp H.
  - injection H as <-. reflexivity.
  - assert (L := Hp p (or_introl eq_refl)). destruct p as [|a [|b [|]]]; try discriminate.
    unfold real_to_cplx in *. cbn [map sequence bind] in H.
    destruct (sequence _) as [r|e] eqn:E; [|discriminate]. cbn [bind] in H. injection H as <-.
    cbn [cplx_to_real map]. unfold to_c at 1 2. cbn [fst snd]. f_equal. apply (IH r); [|reflexivity].
    intros p Hin. apply Hp. now right.
Qed.
Theorem C45_addressed_read_refuted (zs : list C) (cplx : bool) :
  h5_to_arr (arr_to_h5 zs) cplx true = Ok (RealArr (cplx_to_real zs)).
Proof. destruct cplx; reflexivity. Qed.

(** [parse_wfns] does not invert [cplx_to_real]: it exchanges real and imaginary parts,
    i.e. returns i times the conjugate; only moduli survive. *)
Theorem C45_parse_wfns_refuted : exists z : C, swap_c (fst z, snd z) <> z.
Proof. exists (1, 0). unfold swap_c, to_c. cbn. intros H. injection H. lra. Qed.
Theorem C45_parse_wfns_exact (z w : C) :
  swap_c (fst z, snd z) = (Ci * Cconj z)%C /\
  (Cconj (swap_c (fst z, snd z)) * swap_c (fst w, snd w))%C = Cconj (Cconj z * w)%C.
Proof. destruct z, w. split; apply C_ext; cbn; ring. Qed.

(** The k-point blocks: each has its own number of plane waves and nothing is lost. *)
Lemma split_at_concat sizes {A} (l : list A) : concat (split_at sizes l) = l.
Proof. revert l. induction sizes as [|n t IH]; intros l; cbn; [apply app_nil_r|]. rewrite IH. apply firstn_skipn. Qed.
Lemma split_at_lengths sizes last {A} (l : list A) :
  (fold_right Nat.add O sizes + last)%nat = length l ->
  map (@length A) (split_at sizes l) = sizes ++ [last].
Proof.
  revert l. induction sizes as [|n t IH]; intros l H; cbn in H |- *; [now subst|].
  rewrite IH by (rewrite skipn_length; lia). rewrite firstn_length. f_equal. lia.
Qed.
Theorem C45_parse_wfns_blocks coeffs gvecs ngk ks gs : ngk <> [] ->
  fold_right Nat.add O ngk = length gvecs ->
  parse_wfns coeffs gvecs ngk = Ok (ks, gs) ->
  concat gs = gvecs /\ map (@length z3) gs = ngk /\ length ks = length ngk.
Proof.
  intros Hne Hs H. unfold parse_wfns in H. destruct (sequence _) as [rows|]; [|discriminate]. cbn [bind] in H.
  injection H as <- <-. unfold np_split.
  destruct (exists_last Hne) as (t & last & ->). rewrite removelast_last.
  rewrite fold_right_app in Hs. cbn in Hs.
  assert (Hs' : (fold_right Nat.add O t + last)%nat = length gvecs).
  { rewrite <- Hs. clear. induction t as [|n t IH]; cbn; lia. }
  split; [apply split_at_concat|]. split.
  - now apply split_at_lengths.
  - rewrite map_length, seq_length. rewrite <- (map_length (@length z3)).
    unfold z3 in *. rewrite (split_at_lengths t last gvecs Hs'). reflexivity.
Qed.

(** C45: each band's coefficients of the first spin component are dealt out block by block: put together again over the
    k-points they are that row of the dataset (real and imaginary parts exchanged), one block of the right size per
    k-point. *)
Theorem C45_parse_wfns_coefficients coeffs gvecs ngk ks gs b sp0 rest : ngk <> [] ->
  fold_right Nat.add O ngk = length gvecs -> parse_wfns coeffs gvecs ngk = Ok (ks, gs) ->
  nth_error coeffs b = Some (sp0 :: rest) -> length sp0 = length gvecs ->
  concat (map (fun k => nth b k []) ks) = map (fun p : R * R => (snd p, fst p)) sp0
  /\ map (fun k => length (nth b k [])) ks = ngk /\ (forall k, In k ks -> length k = length coeffs).
Proof.
  intros Hne Hs H Hb L. unfold parse_wfns in H. destruct (sequence _) as [rows|] eqn:ER; [|discriminate]. cbn [bind] in H.
  apply sequence_ok in ER. assert (LR : length rows = length coeffs) by (apply (f_equal (@length _)) in ER; rewrite !map_length in ER; now symmetry).
  assert (RB : nth_error rows b = Some (map swap_c sp0)).
  { apply (f_equal (fun l => nth_error l b)) in ER. rewrite !nth_error_map, Hb in ER. cbn [option_map] in ER.
    destruct (nth_error rows b) as [x|]; [|discriminate]. cbn [option_map] in ER. injection ER as ER. now rewrite ER. }
  injection H as <- _. destruct (exists_last Hne) as (t & last & ->). unfold np_split. rewrite removelast_last.
  rewrite fold_right_app in Hs. cbn in Hs.
  assert (Hs' : (fold_right Nat.add O t + last)%nat = length gvecs).
  { rewrite <- Hs. clear. induction t as [|n t IH]; cbn; lia. }
  assert (LG : length (split_at t gvecs) = length (t ++ [last])).
  { rewrite <- (map_length (@length z3)). unfold z3 in *. now rewrite (split_at_lengths t last gvecs Hs'). }
  rewrite LG. set (row := map swap_c sp0) in *. assert (LRow : length row = length gvecs) by (unfold row; now rewrite map_length).
  assert (LS : length (split_at t row) = length (t ++ [last])).
  { rewrite <- (map_length (@length Complex.C)). rewrite (split_at_lengths t last row); [reflexivity|lia]. }
  assert (E : map (fun k => nth b k []) (map (fun k => map (fun row0 => nth k (split_at t row0) []) rows) (seq 0 (length (t ++ [last])))) = split_at t row).
  { rewrite map_map. rewrite <- LS. rewrite (map_ext _ (fun k => nth k (split_at t row) [])).
    - apply nth_ext with (d := []) (d' := []); [now rewrite map_length, seq_length|].
      intros n Hn. rewrite map_length, seq_length in Hn.
      rewrite (nth_indep _ [] (nth 0 (split_at t row) [])) by (now rewrite map_length, seq_length).
      change (nth 0 (split_at t row) []) with ((fun k => nth k (split_at t row) []) 0%nat) at 1. rewrite map_nth, seq_nth by exact Hn. reflexivity.
    - intros k. pose proof (nth_error_nth _ _ [] RB) as X.
      assert (Hlt : (b < length rows)%nat) by (apply nth_error_Some; now rewrite RB).
      rewrite (nth_indep _ [] (nth k (split_at t []) [])) by now rewrite map_length.
      change (nth k (split_at t []) []) with ((fun row0 : list Complex.C => nth k (split_at t row0) []) []). rewrite map_nth. now rewrite X. }
  split; [|split].
  - rewrite E, split_at_concat. unfold row. apply map_ext. intros [x y]. reflexivity.
  - rewrite <- (map_map (fun k => nth b k []) (@length Complex.C)), E. apply split_at_lengths. lia.
  - intros k Hk. apply in_map_iff in Hk as (i & <- & _). now rewrite map_length.
Qed.
Print Assumptions C45_parse_wfns_coefficients.

(** [init_from_hdf5]: when the file lists the same vectors in any order, every band's
    coefficient ends at its own vector, normalised; the order of the file, the grid and
    the previous contents do not matter. *)
Theorem C45_init_from_hdf5 (sh : z3) (G miller : list z3) (old : list (list C)) (cs : list (z3 -> C)) :
  pos3 sh -> NoDup G -> Permutation G miller ->
  length old = length cs -> (forall r, In r old -> length r = length G) ->
  (forall c, In c cs -> sum_sq G c <> 0) ->
  init_from_hdf5 sh G old miller (map (fun c => interleaved (map c miller)) cs)
  = Ok (map (fun c => Some (map (fun g => (c g / RtoC (sqrt (sum_sq G c)))%C) G)) cs).
Proof.
  intros Hp ND HP HL Hr Hc. unfold init_from_hdf5.
  rewrite map_map. rewrite (sequence_map_ok _ (fun c => map c miller)) by (intros; apply f8_interleaved).
  cbn [bind]. rewrite <- (Permutation_length HP), Nat.eqb_refl. cbn [negb].
  rewrite map_map.
  set (sc := fun c : z3 -> C => fun g => (c g * RtoC (nprod sh))%C).
  assert (E0 : map (fun c : z3 -> C => map (fun z => (z * RtoC (nprod sh))%C) (map c miller)) cs
             = map (fun c => map c ([] ++ miller)) (map sc cs)).
  { rewrite map_map. apply map_ext. intros c. rewrite map_map. reflexivity. }
  rewrite E0.
  assert (E1 : old = map (fun p => row_of G [] (fst p) (snd p)) (combine (map sc cs) old)).
  { assert (L' : length (map sc cs) = length old) by (rewrite map_length; congruence).
    revert L'. generalize (map sc cs). clear -Hr. induction old as [|r t IH]; intros l L'; [now destruct l|].
    destruct l as [|c l]; [discriminate|]. cbn [combine map fst snd].
    rewrite row_none by (apply Hr; now left). f_equal. apply IH; [|cbn in L'; congruence].
    intros r' Hr'. apply Hr. now right. }
  rewrite E1 at 1. change 0%nat with (@length z3 []).
  rewrite scatter_ok; [|exact ND|rewrite map_length; congruence|].
  2:{ intros m Hm. now apply (Permutation_in _ (Permutation_sym HP)). }
  cbn [bind app]. f_equal. rewrite map_map.
  assert (E2 : map (fun x : (z3 -> C) * list C => normalize (row_of G miller (fst x) (snd x))) (combine (map sc cs) old)
             = map (fun c => normalize (map (sc c) G)) cs).
  { assert (L' : length cs = length old) by congruence. clear -L' HP.
    revert old L'. induction cs as [|c t IH]; intros [|o old] L'; try discriminate; [reflexivity|].
    cbn [map combine fst snd]. rewrite row_all by (intros g Hg; now apply (Permutation_in _ HP)).
    f_equal. apply IH. cbn in L'. congruence. }
  rewrite E2. apply map_ext_in. intros c Hin. unfold sc.
  rewrite <- (map_map c (fun z => (z * RtoC (nprod sh))%C)). rewrite normalize_scale.
  - unfold normalize. rewrite norm2_map. destruct (Req_EM_T (sum_sq G c) 0) as [E|_]; [now apply Hc in E|].
    now rewrite map_map.
  - destruct sh as [[a b] c']. cbn in Hp |- *. destruct Hp as (H1 & H2 & H3).
    apply IZR_lt in H1, H2, H3. repeat apply Rmult_lt_0_compat; assumption.
Qed.
Example C45_init_case : exists G miller : list z3, NoDup G /\ Permutation G miller /\ G <> miller /\ pos3 (4, 4, 4)%Z
  /\ sum_sq G (fun g => if z3eqb g (0, 0, 1)%Z then RtoC 1 else RtoC 0) <> 0.
Proof.
  exists [(0, 0, 0); (0, 0, 1)]%Z, [(0, 0, 1); (0, 0, 0)]%Z. repeat split; try lia.
  - repeat constructor; cbn; intuition discriminate.
  - apply perm_swap.
  - discriminate.
  - cbn. lra.
Qed.
(** A file with a vector that is not in the basis is refused with IndexError; the
    ValueError written for that case cannot be reached. *)
Theorem C45_unknown_vector (sh : z3) (G miller : list z3) (old : list (list C)) (cs : list (z3 -> C)) m :
  length miller = length G -> length old = length cs -> NoDup G -> (forall r, In r old -> length r = length G) ->
  In m miller -> ~ In m G ->
  init_from_hdf5 sh G old miller (map (fun c => interleaved (map c miller)) cs) = Err IndexError.
Proof.
  intros HL HO ND Hr Hm Hn. unfold init_from_hdf5.
  rewrite map_map. rewrite (sequence_map_ok _ (fun c => map c miller)) by (intros; apply f8_interleaved).
  cbn [bind]. rewrite HL, Nat.eqb_refl. cbn [negb]. rewrite map_map.
  set (sc := fun c : z3 -> C => fun g => (c g * RtoC (nprod sh))%C).
  assert (E0 : map (fun c : z3 -> C => map (fun z => (z * RtoC (nprod sh))%C) (map c miller)) cs
             = map (fun c => map c ([] ++ miller)) (map sc cs)).
  { rewrite map_map. apply map_ext. intros c. rewrite map_map. reflexivity. }
  rewrite E0. clear E0.
  assert (L' : length (map sc cs) = length old) by (rewrite map_length; congruence).
  revert L'. generalize (map sc cs). intros cs'. clear HO cs sc. intros HO. clear Hr HL.
  assert (X : scatter G miller 0 (map (fun c => map c ([] ++ miller)) cs') old = Err IndexError).
  { change 0%nat with (@length z3 []). generalize (@nil z3) as pre. revert old HO Hm.
    induction miller as [|a t IH]; intros old HO Hm pre; [destruct Hm|]. cbn [scatter].
    destruct (find_pos a G) as [k|] eqn:Ek; [|reflexivity].
    rewrite get_col_files. cbn [bind]. unfold set_col. rewrite map_length, HO, Nat.eqb_refl. cbn [bind].
    destruct Hm as [->|Hm]; [exfalso; apply Hn, find_pos_in; congruence|].
    replace (S (length pre)) with (length (pre ++ [a])) by (rewrite app_length; cbn; lia).
    replace (pre ++ a :: t) with ((pre ++ [a]) ++ t) by (rewrite <- app_assoc; reflexivity).
    apply IH; [|exact Hm]. rewrite map_length, combine_length, map_length. lia. }
  rewrite X. reflexivity.
Qed.
(** A file that repeats one vector and omits another passes every check, and the
    omitted coefficient keeps whatever the array held before. *)
Theorem C45_repeated_vector_refuted : exists (G miller : list z3) (old1 old2 : list (list C)) r1 r2,
  NoDup G /\ length miller = length G /\
  init_from_hdf5 (1, 1, 1)%Z G old1 miller [interleaved [RtoC 1; RtoC 1]] = Ok r1 /\
  init_from_hdf5 (1, 1, 1)%Z G old2 miller [interleaved [RtoC 1; RtoC 1]] = Ok r2 /\
  r1 <> r2.
Proof.
  exists [(0,0,0); (0,0,1)]%Z, [(0,0,0); (0,0,0)]%Z, [[RtoC 0; RtoC 0]], [[RtoC 0; RtoC 1]].
  do 2 eexists. split; [repeat constructor; cbn; intuition discriminate|]. split; [reflexivity|].
  split; [cbv -[normalize Rmult RtoC Cmult IZR]; reflexivity|].
  split; [cbv -[normalize Rmult RtoC Cmult IZR]; reflexivity|].
  set (p := (_ * _)%C). assert (P : p = RtoC 1) by (unfold p; apply C_ext; cbn; ring). rewrite !P. clear p P.
  unfold normalize. cbn [norm2 fold_right fst snd RtoC].
  destruct (Req_EM_T _ _) as [E|_]; [lra|]. destruct (Req_EM_T _ _) as [E|N2]; [lra|].
  cbn [map]. intros H.
  assert (H2 : (RtoC 0 / RtoC (sqrt (1 * 1 + 0 * 0 + (0 * 0 + 0 * 0 + 0))))%C = (RtoC 1 / RtoC (sqrt (1 * 1 + 0 * 0 + (1 * 1 + 0 * 0 + 0))))%C).
  { injection H. intros. apply C_ext; cbn; assumption. }
  set (s := sqrt (1 * 1 + 0 * 0 + (1 * 1 + 0 * 0 + 0))) in *.
  assert (Hs : 0 < s) by (apply sqrt_lt_R0; lra).
  assert (N : RtoC s <> RtoC 0) by (intros Q; apply (f_equal fst) in Q; cbn in Q; lra).
  set (t := sqrt (1 * 1 + 0 * 0 + (0 * 0 + 0 * 0 + 0))) in *.
  assert (Ht : 0 < t) by (apply sqrt_lt_R0; lra).
  assert (Nt : RtoC t <> RtoC 0) by (intros Q; apply (f_equal fst) in Q; cbn in Q; lra).
  assert (Z1 : RtoC 1 = RtoC 0).
  { transitivity (RtoC 1 / RtoC s * RtoC s)%C; [field; exact N|]. rewrite <- H2. field. exact Nt. }
  apply (f_equal fst) in Z1. cbn in Z1. lra.
Qed.

(** ** C70 *)
(** No two vectors of the basis are the same grid point. *)
Definition distinct_on_grid (S_ : states) : Prop :=
  forall i j g g', nth_error (st_g S_) i = Some g -> nth_error (st_g S_) j = Some g' ->
    same_grid_point (st_shape S_) g g' -> i = j.
(** Shifting the ket's vectors by u does not fold one onto another of the bra's. *)
Definition no_aliasing (bra ket : states) (u : z3) : Prop :=
  forall g g', In g (st_g bra) -> In g' (st_g ket) ->
    same_grid_point (st_shape bra) g (z3add g' u) -> g = z3add g' u.
(** <bra a| exp(i u.r) ket b> : sum over pairs with G = G' + u. *)
Definition shifted_inner_product (bra ket : states) (u : z3) (a b : nat) : C :=
  lsum (combine (seq 0 (length (st_g bra))) (st_g bra)) (fun p =>
  lsum (combine (seq 0 (length (st_g ket))) (st_g ket)) (fun q =>
    if z3eqb (snd p) (z3add (snd q) u) then (Cconj (st_c bra a (fst p)) * st_c ket b (fst q))%C else RtoC 0)).

Lemma z3add_0 g : z3add g (0, 0, 0)%Z = g.
Proof. destruct g as [[x y] z]. unfold z3add. now rewrite !Z.add_0_r. Qed.

Lemma find_opt {A} (f : nat -> C) (o1 o2 : option (nat * A)) : o1 = o2 ->
  match option_map fst o1 with Some j => f j | None => RtoC 0 end
  = match o2 with Some a => f (fst a) | None => RtoC 0 end.
Proof. intros <-. destruct o1; reflexivity. Qed.
Theorem C70_overlap (bra ket : states) (u : z3) (a b : nat) :
  st_shape bra = st_shape ket -> pos3 (st_shape bra) ->
  distinct_on_grid bra -> distinct_on_grid ket -> no_aliasing bra ket u ->
  overlap bra ket u a b = shifted_inner_product bra ket u a b.
Proof.
  intros Hs Hp Db Dk Ha. unfold overlap, shifted_inner_product, idxgrid_to_dict.
  fold (positions (st_g bra)). fold (positions (st_g ket)).
  assert (Nb := keys_nodup (st_shape bra) (0, 0, 0)%Z (st_g bra) Hp Db).
  assert (Nk : NoDup (map (fun p : nat * z3 => gcryst2int (st_shape ket) u (snd p)) (positions (st_g ket)))).
  { apply keys_nodup; [congruence|exact Dk]. }
  rewrite (dict_fold (fun p : nat * z3 => gcryst2int (st_shape bra) (0,0,0)%Z (snd p)) fst) by exact Nb.
  rewrite (dict_fold (fun p : nat * z3 => gcryst2int (st_shape ket) u (snd p)) fst) by exact Nk.
  cbn [app].
  rewrite (fold_left_sum (fun kv => match dict_get (fst kv) (map (fun p : nat * z3 => (gcryst2int (st_shape ket) u (snd p), fst p)) (positions (st_g ket)))
     with Some j => (Cconj (st_c bra a (snd kv)) * st_c ket b j)%C | None => RtoC 0 end)).
  2:{ intros s kv. destruct (dict_get _ _); [reflexivity|ring]. }
  rewrite lsum_map. cbn [fst snd].
  transitivity (lsum (positions (st_g bra)) (fun p =>
    lsum (positions (st_g ket)) (fun q => if z3eqb (snd p) (z3add (snd q) u)
       then (Cconj (st_c bra a (fst p)) * st_c ket b (fst q))%C else RtoC 0))); [|reflexivity].
  rewrite <- (lsum_zero [] (fun _ : nat => RtoC 0)) at 1 by (intros ? []). rewrite lsum_nil.
  match goal with |- (_ + ?x)%C = _ => transitivity x; [ring|] end.
  apply lsum_ext. intros [i g] Hi. cbn [fst snd].
  rewrite dict_get_map.
  assert (Hmatch : forall q, In q (positions (st_g ket)) ->
     (gcryst2int (st_shape ket) u (snd q) =? gcryst2int (st_shape bra) (0,0,0) g)%Z = z3eqb g (z3add (snd q) u)).
  { intros [j g'] Hq. cbn [snd]. apply positions_In in Hi, Hq. rewrite <- Hs.
    destruct (z3eqb g (z3add g' u)) eqn:E.
    - apply z3eqb_eq in E. apply Z.eqb_eq. apply hash_eq; [exact Hp|]. rewrite z3add_0, <- E.
      destruct (st_shape bra) as [[? ?] ?], g as [[? ?] ?]. cbn. tauto.
    - apply Z.eqb_neq. intros Q. apply hash_eq in Q; [|exact Hp]. rewrite z3add_0 in Q.
      assert (X : g = z3add g' u).
      { apply Ha; [now apply nth_error_In in Hi|now apply nth_error_In in Hq|].
        destruct (st_shape bra) as [[? ?] ?], g as [[? ?] ?]. destruct (z3add g' u) as [[? ?] ?].
        cbn in Q |- *. intuition congruence. }
      apply z3eqb_eq in X. congruence. }
  assert (Hfind : find (fun b0 : nat * z3 => (gcryst2int (st_shape ket) u (snd b0) =? gcryst2int (st_shape bra) (0,0,0) g)%Z) (positions (st_g ket))
     = find (fun q => z3eqb g (z3add (snd q) u)) (positions (st_g ket))).
  { clear -Hmatch. induction (positions (st_g ket)) as [|q t IH]; [reflexivity|]. cbn [find].
    rewrite Hmatch by now left. destruct (z3eqb _ _); [reflexivity|]. apply IH. intros q' Hq'. apply Hmatch. now right. }
  rewrite Hfind.
  rewrite (lsum_single (fun q => z3eqb g (z3add (snd q) u))).
  - exact (find_opt (fun j => (Cconj (st_c bra a i) * st_c ket b j)%C) _ _ eq_refl).
  - intros [j g1] [k g2] H1 H2 E1 E2. apply z3eqb_eq in E1, E2. cbn [snd] in *. apply positions_In in H1, H2.
    assert (Eg : g1 = g2).
    { rewrite E1 in E2. destruct g1 as [[? ?] ?], g2 as [[? ?] ?], u as [[? ?] ?]. cbn in E2. injection E2. intros.
      f_equal; [f_equal|]; lia. }
    subst g2. f_equal. apply (Dk j k g1 g1 H1 H2). destruct (st_shape ket) as [[? ?] ?], g1 as [[? ?] ?]. cbn. tauto.
  - clear -Nk. apply (NoDup_map_inv (fun p : nat * z3 => gcryst2int (st_shape ket) u (snd p))). exact Nk.
Qed.

(** Exchanging bra and ket and reversing the shift conjugates the result. *)
Theorem C70_overlap_hermitian (bra ket : states) (u v : z3) (a b : nat) :
  st_shape bra = st_shape ket -> pos3 (st_shape bra) ->
  distinct_on_grid bra -> distinct_on_grid ket -> no_aliasing bra ket u -> no_aliasing ket bra v ->
  z3add u v = (0, 0, 0)%Z ->
  overlap ket bra v b a = Cconj (overlap bra ket u a b).
Proof.
  intros Hs Hp Db Dk A1 A2 Huv. rewrite !C70_overlap; try assumption; try congruence.
  unfold shifted_inner_product. rewrite lsum_swap.
  assert (LC : forall A (l : list A) f, Cconj (lsum l f) = lsum l (fun x => Cconj (f x))).
  { intros A l f. induction l as [|x t IH]; [apply C_ext; cbn; ring|]. rewrite !lsum_cons, <- IH. apply C_ext; cbn; ring. }
  rewrite LC. apply lsum_ext. intros p _. rewrite LC. apply lsum_ext. intros q _.
  assert (E : z3eqb (snd q) (z3add (snd p) v) = z3eqb (snd p) (z3add (snd q) u)).
  { destruct (snd q) as [[q1 q2] q3], (snd p) as [[p1 p2] p3], u as [[u1 u2] u3], v as [[v1 v2] v3].
    cbn in *. injection Huv. intros. lia. }
  rewrite E. clear E. destruct (z3eqb (snd p) (z3add (snd q) u)). 2:{ apply C_ext; cbn; ring. }
  destruct (st_c ket b (fst q)), (st_c bra a (fst p)). apply C_ext; cbn; ring.
Qed.

Example C70_overlap_case : exists S_ : states, st_shape S_ = (6, 6, 6)%Z /\ pos3 (st_shape S_) /\ distinct_on_grid S_
  /\ no_aliasing S_ S_ (1, 0, 0)%Z /\ overlap S_ S_ (1, 0, 0)%Z 0 0 = RtoC 6.
Proof.
  exists {| st_shape := (6, 6, 6)%Z; st_g := [(0, 0, 0); (1, 0, 0)]%Z;
            st_c := fun _ i => if (i =? 0)%nat then RtoC 2 else RtoC 3 |}.
  split; [reflexivity|]. split; [cbn; lia|]. split; [|split].
  - intros i j g g' H1 H2. destruct i as [|[|i]], j as [|[|j]]; cbn in H1, H2; try reflexivity;
      try (destruct i; discriminate); try (destruct j; discriminate); try discriminate;
      injection H1 as <-; injection H2 as <-; cbn; intuition discriminate.
  - intros g g' H1 H2. cbn in H1, H2. destruct H1 as [<-|[<-|[]]], H2 as [<-|[<-|[]]]; cbn; intuition (try discriminate; reflexivity).
  - cbv -[Cmult Cplus Cconj RtoC]. apply C_ext; cbn; ring.
Qed.

(** Without that room the hash folds distinct vectors together: here the two states share
    no plane wave, the inner product is 0, and the code returns 1. *)
Theorem C70_aliasing_refuted : exists (bra ket : states) (u : z3),
  st_shape bra = st_shape ket /\ pos3 (st_shape bra) /\ distinct_on_grid bra /\ distinct_on_grid ket /\
  shifted_inner_product bra ket u 0 0 = RtoC 0 /\ overlap bra ket u 0 0 = RtoC 1.
Proof.
  exists {| st_shape := (4, 1, 1)%Z; st_g := [(-1, 0, 0)]%Z; st_c := fun _ _ => RtoC 1 |},
         {| st_shape := (4, 1, 1)%Z; st_g := [(2, 0, 0)]%Z; st_c := fun _ _ => RtoC 1 |}, (1, 0, 0)%Z.
  split; [reflexivity|]. split; [cbn; lia|].
  assert (D : forall g, distinct_on_grid {| st_shape := (4, 1, 1)%Z; st_g := [g]; st_c := fun _ _ => RtoC 1 |}).
  { intros g i j x y H1 H2 _. destruct i as [|[|i]]; cbn in H1; try discriminate.
    destruct j as [|[|j]]; cbn in H2; try discriminate. reflexivity. }
  split; [apply D|]. split; [apply D|]. split.
  - unfold shifted_inner_product. cbn -[Cmult Cconj RtoC]. unfold lsum. cbn [fold_right]. ring.
  - cbv -[Cmult Cplus Cconj RtoC]. apply C_ext; cbn; ring.
Qed.

Print Assumptions C45_interleaved_roundtrip.
Print Assumptions C45_interleaved_onto.
Print Assumptions C45_odd_length_refused.
Print Assumptions C45_odd_length_refuted.
Print Assumptions C45_pairs_roundtrip.
Print Assumptions C45_pairs_inverse.
Print Assumptions C45_addressed_read_refuted.
Print Assumptions C45_parse_wfns_refuted.
Print Assumptions C45_parse_wfns_exact.
Print Assumptions C45_parse_wfns_blocks.
Print Assumptions C45_init_from_hdf5.
Print Assumptions C45_unknown_vector.
Print Assumptions C45_repeated_vector_refuted.
Print Assumptions C70_overlap.
Print Assumptions C70_overlap_hermitian.
Print Assumptions C70_aliasing_refuted.
(** Repeated vectors are not summed: when a vector (modulo the grid) occurs several times in the ket only its last
    coefficient enters, whatever precedes it. *)
Lemma dict_get_set_same {A} k (v : A) d : dict_get k (dict_set k v d) = Some v.
Proof.
  induction d as [|[k' v'] t IH]; cbn; [now rewrite Z.eqb_refl|].
  destruct (k' =? k)%Z eqn:E; cbn; rewrite E; [reflexivity|exact IH].
Qed.
Theorem C70_last_occurrence : forall sh l g cb ck a b, pos3 sh ->
  overlap {| st_shape := sh; st_g := [g]; st_c := cb |} {| st_shape := sh; st_g := l ++ [g]; st_c := ck |} (0, 0, 0)%Z a b
  = (Cconj (cb a 0%nat) * ck b (length l))%C.
Proof.
  intros sh l g cb ck a b Hp. unfold overlap, idxgrid_to_dict. cbn [st_shape st_g length seq combine fold_left dict_set fst snd st_c].
  rewrite app_length. cbn [length]. rewrite seq_app. cbn [seq].
  assert (X : forall (A B : Type) (u : list A) (v : list B) x y, length u = length v -> combine (u ++ [x]) (v ++ [y]) = combine u v ++ [(x, y)]).
  { intros A B u. induction u as [|p u IH]; intros [|q v] x y H; cbn in *; try easy. injection H as H. now rewrite IH. }
  rewrite X by apply seq_length. rewrite fold_left_app. cbn [fold_left fst snd]. rewrite dict_get_set_same.
  rewrite Nat.add_0_l. generalize (cb a 0%nat), (ck b (length l)). intros x y. apply C_ext; cbn; ring.
Qed.
Print Assumptions C70_last_occurrence.
Example C70_last_occurrence_instance :
  overlap {| st_shape := (4, 4, 4)%Z; st_g := [(1, 0, 0)%Z]; st_c := fun _ _ => RtoC 1 |}
          {| st_shape := (4, 4, 4)%Z; st_g := [(1, 0, 0)%Z; (1, 0, 0)%Z]; st_c := fun _ i => RtoC (INR i) |} (0, 0, 0)%Z 0 0 = RtoC 1.
Proof. rewrite (C70_last_occurrence (4, 4, 4)%Z [(1, 0, 0)%Z] (1, 0, 0)%Z); [apply C_ext; cbn; ring|cbn; lia]. Qed.
