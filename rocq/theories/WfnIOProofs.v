(** Lemmas for wavefunction files and overlaps. *)
From Coq Require Import Reals Lra.
From Verif Require Import Base NlocSpec NlocProofs WfnIOModel WfnIOSpec CBase.
Open Scope R_scope.

Lemma evens_interleaved zs : evens (interleaved zs) = map fst zs /\ odds (interleaved zs) = map snd zs.
Proof.
  induction zs as [|z t [I1 I2]]; [split; reflexivity|]. split.
  - cbn [interleaved evens map]. now rewrite I1.
  - cbn [interleaved odds]. destruct t as [|z' t']; [reflexivity|]. cbn [interleaved evens map odds] in *.
    now rewrite I2.
Qed.
Lemma zipc_map zs : zipc (map fst zs) (map snd zs) = zs.
Proof. induction zs as [|[a b] t IH]; [reflexivity|]. unfold zipc in *. cbn. now rewrite IH. Qed.
Lemma f8_interleaved zs : f8_to_c16_interleaved (interleaved zs) = Ok zs.
Proof.
  unfold f8_to_c16_interleaved, add_1j. destruct (evens_interleaved zs) as [-> ->].
  rewrite !map_length, Nat.eqb_refl. now rewrite zipc_map.
Qed.
Lemma interleaved_onto data m : length data = (2 * m)%nat -> exists zs, data = interleaved zs /\ length zs = m.
Proof.
  revert data. induction m as [|m IH]; intros data H.
  - destruct data; [|discriminate]. now exists [].
  - destruct data as [|a [|b t]]; try (cbn in H; lia). destruct (IH t) as (zs & -> & L); [cbn in H; lia|].
    exists ((a, b) :: zs). split; [reflexivity|]. cbn. lia.
Qed.
Lemma evens_length {A} (l : list A) : length (evens l) = ((length l + 1) / 2)%nat /\ length (odds l) = (length l / 2)%nat.
Proof.
  assert (G : forall n (l : list A), (length l <= n)%nat -> length (evens l) = ((length l + 1) / 2)%nat).
  { induction n as [|n IH]; intros [|a [|b t]] H; try reflexivity; cbn [length] in H; try lia.
    cbn [evens length]. rewrite IH by lia.
    replace (S (S (length t)) + 1)%nat with (length t + 1 + 1 * 2)%nat by lia. rewrite Nat.div_add by lia. lia. }
  split; [now apply (G (length l))|]. destruct l as [|a t]; [reflexivity|]. cbn [odds length].
  rewrite (G (length t)) by lia. f_equal. lia.
Qed.

(** lists *)
Lemma sequence_map_ok {A B} (f : A -> res B) (g : A -> B) l :
  (forall a, In a l -> f a = Ok (g a)) -> sequence (map f l) = Ok (map g l).
Proof.
  induction l as [|a t IH]; intros H; [reflexivity|]. cbn [map sequence]. rewrite (H a) by now left. cbn [bind].
  rewrite IH; [reflexivity|]. intros b Hb. apply H. now right.
Qed.
Lemma z3eqb_eq a b : z3eqb a b = true <-> a = b.
Proof.
  destruct a as [[a1 a2] a3], b as [[b1 b2] b3]. unfold z3eqb. rewrite !andb_true_iff, !Z.eqb_eq.
  split; [intros [[-> ->] ->]; reflexivity|]. intros H. now injection H.
Qed.
Lemma z3eqb_refl a : z3eqb a a = true. Proof. now apply z3eqb_eq. Qed.
Lemma find_pos_some p G k : find_pos p G = Some k -> (k < length G)%nat /\ nth k G p = p.
Proof.
  revert k. induction G as [|g t IH]; intros k H; [discriminate|]. cbn in H.
  destruct (z3eqb g p) eqn:E.
  - injection H as <-. apply z3eqb_eq in E. cbn. split; [lia|exact E].
  - destruct (find_pos p t) as [j|]; [|discriminate]. injection H as <-. destruct (IH j eq_refl) as [H1 H2].
    cbn. split; [lia|exact H2].
Qed.
Lemma find_pos_in p G : In p G <-> find_pos p G <> None.
Proof.
  induction G as [|g t IH]; [cbn; split; [tauto|congruence]|]. cbn. destruct (z3eqb g p) eqn:E.
  - apply z3eqb_eq in E. split; [congruence|]. now left.
  - destruct (find_pos p t) eqn:E2; cbn in *.
    + split; [congruence|]. intros _. right. apply IH. congruence.
    + split; [|congruence]. intros [->|H]; [rewrite z3eqb_refl in E; discriminate|]. apply IH in H. congruence.
Qed.

Section Scatter.
Variable G : list z3.
Hypothesis ND : NoDup G.
Definition row_of (pre : list z3) (c : z3 -> C) (old : list C) : list C :=
  map (fun k => let g := nth k G (0, 0, 0)%Z in
    if existsb (z3eqb g) pre then c g else nth k old (RtoC 0)) (seq 0 (length G)).
Lemma existsb_app' (f : z3 -> bool) l m : existsb f (l ++ [m]) = existsb f l || f m.
Proof. rewrite existsb_app. cbn. now rewrite orb_false_r. Qed.
Lemma set_nth_map {A} (f : nat -> A) n k x : (k < n)%nat ->
  set_nth k x (map f (seq 0 n)) = map (fun i => if (i =? k)%nat then x else f i) (seq 0 n).
Proof.
  intros Hk. unfold set_nth.
  replace (seq 0 n) with (seq 0 k ++ k :: seq (S k) (n - S k)).
  2:{ replace n with (k + S (n - S k))%nat at 2 by lia. rewrite seq_app. reflexivity. }
  rewrite !map_app. cbn [map]. rewrite firstn_app, skipn_app.
  rewrite firstn_all2 by (rewrite map_length, seq_length; lia).
  rewrite (skipn_all2 (map f (seq 0 k))) by (rewrite map_length, seq_length; lia).
  rewrite !map_length, !seq_length. replace (k - k)%nat with O by lia.
  replace (S k - k)%nat with 1%nat by lia. cbn [firstn skipn]. rewrite app_nil_r. cbn [app].
  rewrite Nat.eqb_refl. f_equal; [|f_equal].
  - apply map_ext_in. intros i Hi. apply in_seq in Hi. destruct (Nat.eqb_spec i k); [lia|reflexivity].
  - apply map_ext_in. intros i Hi. apply in_seq in Hi. destruct (Nat.eqb_spec i k); [lia|reflexivity].
Qed.
Lemma row_step pre c old m k : find_pos m G = Some k ->
  set_nth k (c m) (row_of pre c old) = row_of (pre ++ [m]) c old.
Proof.
  intros Hk. apply find_pos_some in Hk. destruct Hk as [Hk Hm].
  unfold row_of. rewrite set_nth_map by exact Hk. apply map_ext_in. intros i Hi. apply in_seq in Hi.
  assert (Hm' : nth k G (0, 0, 0)%Z = m) by (transitivity (nth k G m); [apply nth_indep, Hk|exact Hm]).
  cbv zeta. rewrite existsb_app'.
  destruct (Nat.eqb_spec i k) as [->|Hne].
  - rewrite Hm', z3eqb_refl, orb_true_r. reflexivity.
  - assert (E : z3eqb (nth i G (0, 0, 0)%Z) m = false).
    { destruct (z3eqb _ m) eqn:E; [|reflexivity]. apply z3eqb_eq in E. exfalso. apply Hne.
      apply (proj1 (NoDup_nth G (0, 0, 0)%Z) ND); [lia|exact Hk|congruence]. }
    rewrite E, orb_false_r. reflexivity.
Qed.
Lemma get_col_files cs pre m suf : get_col (length pre) (map (fun c => map c (pre ++ m :: suf)) cs) = Ok (map (fun c : z3 -> C => c m) cs).
Proof.
  unfold get_col. rewrite map_map. apply sequence_map_ok. intros c _.
  rewrite nth_error_map, nth_error_app2 by lia. rewrite Nat.sub_diag. reflexivity.
Qed.
Lemma combine_map2 {A B D E} (f : A -> D) (h : A * B -> E) (l : list A) (l' : list B) : length l = length l' ->
  combine (map f l) (map h (combine l l')) = map (fun p => (f (fst p), h p)) (combine l l').
Proof.
  revert l'. induction l as [|a t IH]; intros [|b t'] H; try discriminate; [reflexivity|]. cbn in *. f_equal. apply IH. lia.
Qed.
Lemma scatter_ok cs olds suf : length cs = length olds -> forall pre,
  (forall m, In m suf -> In m G) ->
  scatter G suf (length pre) (map (fun c => map c (pre ++ suf)) cs)
     (map (fun p => row_of pre (fst p) (snd p)) (combine cs olds))
  = Ok (map (fun p => row_of (pre ++ suf) (fst p) (snd p)) (combine cs olds)).
Proof.
  intros HL. induction suf as [|m suf IH]; intros pre Hin; [now rewrite app_nil_r|].
  cbn [scatter]. destruct (find_pos m G) as [k|] eqn:Ek.
  2:{ exfalso. apply (proj1 (find_pos_in m G)); [apply Hin; now left|exact Ek]. }
  rewrite get_col_files. cbn [bind]. unfold set_col.
  rewrite !map_length, combine_length, HL, Nat.min_id, Nat.eqb_refl. cbn [bind].
  rewrite combine_map2 by exact HL. rewrite map_map. cbn [fst snd].
  assert (E1 : map (fun x : (z3 -> C) * list C => set_nth k (fst x m) (row_of pre (fst x) (snd x))) (combine cs olds)
             = map (fun p => row_of (pre ++ [m]) (fst p) (snd p)) (combine cs olds)).
  { apply map_ext. intros [c o]. cbn [fst snd]. now apply row_step. }
  rewrite E1.
  replace (S (length pre)) with (length (pre ++ [m])) by (rewrite app_length; cbn; lia).
  replace (pre ++ m :: suf) with ((pre ++ [m]) ++ suf) by (rewrite <- app_assoc; reflexivity).
  apply IH. intros m' H'. apply Hin. now right.
Qed.
Lemma row_none c old : length old = length G -> row_of [] c old = old.
Proof.
  intros H. unfold row_of. cbn [existsb]. rewrite <- H. clear.
  induction old as [|a t IH]; [reflexivity|]. cbn [length seq map nth]. f_equal.
  rewrite <- seq_shift, map_map. exact IH.
Qed.
Lemma row_all pre c old : (forall g, In g G -> In g pre) -> row_of pre c old = map c G.
Proof.
  intros H. unfold row_of.
  assert (E : map c G = map (fun k => c (nth k G (0,0,0)%Z)) (seq 0 (length G))).
  { rewrite <- (map_map (fun k => nth k G (0,0,0)%Z) c). f_equal. symmetry.
    clear. induction G as [|a t IH]; [reflexivity|]. cbn [length seq map nth]. f_equal.
    rewrite <- seq_shift, map_map. exact IH. }
  rewrite E. apply map_ext_in. intros k Hk. apply in_seq in Hk. cbv zeta.
  assert (X : existsb (z3eqb (nth k G (0,0,0)%Z)) pre = true).
  { apply existsb_exists. exists (nth k G (0,0,0)%Z). split; [apply H, nth_In; lia|apply z3eqb_refl]. }
  now rewrite X.
Qed.
End Scatter.

Lemma norm2_scale (s : R) row : norm2 (map (fun z => (z * RtoC s)%C) row) = s * s * norm2 row.
Proof.
  induction row as [|[a b] t IH]; [cbn; ring|]. cbn [map norm2 fold_right]. unfold norm2 in IH. rewrite IH.
  cbn. ring.
Qed.
Lemma norm2_nonneg row : 0 <= norm2 row.
Proof. induction row as [|[a b] t IH]; [cbn; lra|]. cbn [norm2 fold_right fst snd]. fold (norm2 t). nra. Qed.
Lemma norm2_map (G : list z3) c : norm2 (map c G) = sum_sq G c.
Proof. induction G as [|g t IH]; [reflexivity|]. cbn [map norm2 fold_right sum_sq]. unfold norm2 in IH. now rewrite IH. Qed.
Lemma normalize_scale s row : 0 < s -> normalize (map (fun z => (z * RtoC s)%C) row) = normalize row.
Proof.
  intros Hs. unfold normalize. rewrite norm2_scale. pose proof (norm2_nonneg row) as Hn.
  destruct (Req_EM_T (norm2 row) 0) as [E|E]; destruct (Req_EM_T (s * s * norm2 row) 0) as [E'|E'].
  - reflexivity.
  - exfalso. apply E'. rewrite E. ring.
  - exfalso. assert (0 < s * s * norm2 row) by (apply Rmult_lt_0_compat; nra). lra.
  - f_equal. rewrite map_map. apply map_ext. intros z.
    rewrite sqrt_mult by nra. rewrite sqrt_square by lra. rewrite RtoC_mult.
    assert (0 < sqrt (norm2 row)) by (apply sqrt_lt_R0; lra).
    assert (N1 : RtoC s <> RtoC 0) by (intros Q; apply (f_equal fst) in Q; cbn in Q; lra).
    assert (N2 : RtoC (sqrt (norm2 row)) <> RtoC 0) by (intros Q; apply (f_equal fst) in Q; cbn in Q; lra).
    field. split; assumption.
Qed.

(** overlap *)
Lemma radix_inj n0 n1 x y z x' y' z' :
  (0 < n0 -> 0 < n1 -> 0 <= x < n0 -> 0 <= x' < n0 -> 0 <= y < n1 -> 0 <= y' < n1 ->
   x + y * n0 + z * n0 * n1 = x' + y' * n0 + z' * n0 * n1 -> x = x' /\ y = y' /\ z = z')%Z.
Proof.
  intros H0 H1 Hx Hx' Hy Hy' E.
  assert (E1 : (x + (y + z * n1) * n0 = x' + (y' + z' * n1) * n0)%Z) by nia.
  assert (X : x = x').
  { assert (M := f_equal (fun t => Z.modulo t n0) E1). cbv beta in M.
    rewrite !Z.mod_add, !Z.mod_small in M by lia. exact M. }
  subst x'. assert (E2 : (y + z * n1 = y' + z' * n1)%Z) by nia.
  assert (Y_ : y = y').
  { assert (M := f_equal (fun t => Z.modulo t n1) E2). cbv beta in M.
    rewrite !Z.mod_add, !Z.mod_small in M by lia. exact M. }
  subst y'. repeat split. assert (E3 : (z * n1 = z' * n1)%Z) by lia. apply Z.mul_cancel_r in E3; lia.
Qed.
Definition pos3 (sh : z3) : Prop := let '(a, b, c) := sh in (0 < a /\ 0 < b /\ 0 < c)%Z.
Lemma hash_eq sh u g u' g' : pos3 sh ->
  gcryst2int sh u g = gcryst2int sh u' g' <-> same_grid_point sh (z3add g u) (z3add g' u').
Proof.
  destruct sh as [[n0 n1] n2], u as [[u0 u1] u2], g as [[x y] z], u' as [[v0 v1] v2], g' as [[x' y'] z'].
  cbn [pos3]. intros (H0 & H1 & H2). unfold gcryst2int, same_grid_point, z3add.
  pose proof (Z.mod_pos_bound (x + u0) n0 H0) as A1. pose proof (Z.mod_pos_bound (x' + v0) n0 H0) as A2.
  pose proof (Z.mod_pos_bound (y + u1) n1 H1) as A3. pose proof (Z.mod_pos_bound (y' + v1) n1 H1) as A4.
  split.
  - intros E. apply (radix_inj n0 n1 _ _ _ _ _ _ H0 H1 A1 A2 A3 A4 E).
  - now intros (-> & -> & ->).
Qed.

Lemma dict_set_fresh {A} k (v : A) d : ~ In k (map fst d) -> dict_set k v d = d ++ [(k, v)].
Proof.
  induction d as [|[k' v'] t IH]; intros H; [reflexivity|]. cbn in *. destruct (Z.eqb_spec k' k) as [->|Hne]; [tauto|].
  rewrite IH by tauto. reflexivity.
Qed.
Lemma dict_fold {A B} (key : B -> Z) (val : B -> A) l d :
  NoDup (map fst d ++ map key l) ->
  fold_left (fun d b => dict_set (key b) (val b) d) l d = d ++ map (fun b => (key b, val b)) l.
Proof.
  revert d. induction l as [|b t IH]; intros d H; [now rewrite app_nil_r|]. cbn [fold_left map].
  cbn [map] in H.
  rewrite dict_set_fresh.
  - rewrite IH; [rewrite <- app_assoc; reflexivity|]. rewrite map_app. cbn [map fst]. rewrite <- app_assoc. exact H.
  - apply NoDup_remove_2 in H. intros Hi. apply H, in_app_iff. now left.
Qed.
Lemma dict_get_map {B} (key : B -> Z) (val : B -> nat) l k :
  dict_get k (map (fun b => (key b, val b)) l) = option_map val (find (fun b => (key b =? k)%Z) l).
Proof. induction l as [|b t IH]; [reflexivity|]. cbn. destruct (key b =? k)%Z; [reflexivity|exact IH]. Qed.

Definition positions (G : list z3) : list (nat * z3) := combine (seq 0 (length G)) G.
Lemma positions_In G i g : In (i, g) (positions G) <-> nth_error G i = Some g.
Proof.
  unfold positions.
  assert (X : forall s, In (i, g) (combine (seq s (length G)) G) <-> (s <= i)%nat /\ nth_error G (i - s) = Some g).
  { induction G as [|a t IH]; intros s; cbn [length seq combine].
    - split; [intros []|]. intros [_ H]. destruct (i - s)%nat; discriminate.
    - cbn [In]. rewrite IH. destruct (Nat.eq_dec i s) as [->|Hne].
      + rewrite Nat.sub_diag. cbn [nth_error]. split.
        * intros [H|[H _]]; [injection H as ->; now split|lia].
        * intros [_ H]. injection H as ->. now left.
      + split.
        * intros [H|[H1 H2]]; [injection H as ->; contradiction|]. split; [lia|].
          replace (i - s)%nat with (S (i - S s)) by lia. exact H2.
        * intros [H1 H2]. right. split; [lia|]. replace (i - s)%nat with (S (i - S s)) in H2 by lia. exact H2. }
  rewrite X, Nat.sub_0_r. split; [tauto|]. intros H. split; [lia|exact H].
Qed.
Lemma keys_nodup sh u G : pos3 sh ->
  (forall i j g g', nth_error G i = Some g -> nth_error G j = Some g' -> same_grid_point sh g g' -> i = j) ->
  NoDup (map (fun p : nat * z3 => gcryst2int sh u (snd p)) (positions G)).
Proof.
  intros Hp Hd.
  assert (L : length (positions G) = length G) by (unfold positions; rewrite combine_length, seq_length; apply Nat.min_id).
  assert (E : forall i, nth_error (positions G) i = option_map (fun g => (i, g)) (nth_error G i)).
  { clear. unfold positions. assert (X : forall s i, nth_error (combine (seq s (length G)) G) i = option_map (fun g => ((s + i)%nat, g)) (nth_error G i)).
    { induction G as [|a t IH]; intros s [|i]; cbn; try reflexivity.
      - do 2 f_equal. lia.
      - rewrite IH. destruct (nth_error t i); cbn; [do 2 f_equal; lia|reflexivity]. }
    intros i. now rewrite X. }
  apply NoDup_nth_error. intros i j Hi Hij. rewrite map_length, L in Hi. rewrite !nth_error_map, !E in Hij.
  destruct (nth_error G i) as [g|] eqn:Ei; [|apply nth_error_None in Ei; lia].
  destruct (nth_error G j) as [g'|] eqn:Ej; [|discriminate]. cbn in Hij. injection Hij as Hh.
  apply (hash_eq sh u g u g' Hp) in Hh. apply (Hd i j g g' Ei Ej).
  destruct sh as [[n0 n1] n2], u as [[u0 u1] u2], g as [[x y] z], g' as [[x' y'] z'].
  cbn [pos3] in Hp. unfold same_grid_point, z3add in *. destruct Hp as (P0 & P1 & P2), Hh as (Q0 & Q1 & Q2).
  assert (X : forall a b c n : Z, (0 < n)%Z -> ((a + c) mod n = (b + c) mod n)%Z -> (a mod n = b mod n)%Z).
  { clear. intros a b c n Hn H.
    assert (A : (a = (a + c) - c)%Z) by lia. assert (B : (b = (b + c) - c)%Z) by lia.
    rewrite A, B, (Zminus_mod (a + c)), (Zminus_mod (b + c)), H. reflexivity. }
  repeat split; eapply X; eassumption.
Qed.
Lemma fold_left_sum {A} (f : A -> C) (h : C -> A -> C) l acc :
  (forall s a, h s a = (s + f a)%C) -> fold_left h l acc = (acc + lsum l f)%C.
Proof.
  intros H. revert acc. induction l as [|a t IH]; intros acc; cbn [fold_left]; [rewrite lsum_nil; ring|].
  rewrite IH, lsum_cons, H. ring.
Qed.
Lemma lsum_single {A} (p : A -> bool) (l : list A) (f : A -> C) :
  (forall a b, In a l -> In b l -> p a = true -> p b = true -> a = b) -> NoDup l ->
  lsum l (fun a => if p a then f a else RtoC 0) = match find p l with Some a => f a | None => RtoC 0 end.
Proof.
  intros Hu Hn. induction Hn as [|a t Ha Hn IH]; [reflexivity|]. rewrite lsum_cons. cbn [find].
  destruct (p a) eqn:E.
  - rewrite lsum_zero; [ring|]. intros b Hb. destruct (p b) eqn:Eb; [|reflexivity]. exfalso.
    assert (a = b) by (apply Hu; [now left|now right|exact E|exact Eb]). subst. contradiction.
  - rewrite IH; [ring|]. intros x y Hx Hy. apply Hu; now right.
Qed.
