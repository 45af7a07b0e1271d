(** Lemmas for the non-local pseudopotential. *)
From Coq Require Import Reals Lra.
From Verif Require Import Base LatModel NlocModel NlocSpec CBase.
Open Scope R_scope.

Lemma lsum_cons {A} (a : A) t f : lsum (a :: t) f = (f a + lsum t f)%C.
Proof. reflexivity. Qed.
Lemma lsum_nil {A} (f : A -> C) : lsum [] f = RtoC 0.
Proof. reflexivity. Qed.

Lemma lsum_app {A} (l1 l2 : list A) f : lsum (l1 ++ l2) f = (lsum l1 f + lsum l2 f)%C.
Proof. induction l1 as [|a t IH]; cbn [map app flat_map]; rewrite ?lsum_cons, ?lsum_nil; [ring|]. rewrite IH. ring. Qed.
Lemma lsum_map {A B} (h : A -> B) l f : lsum (map h l) f = lsum l (fun a => f (h a)).
Proof. induction l as [|a t IH]; cbn [map]; rewrite ?lsum_cons, ?lsum_nil; [reflexivity|]. now rewrite IH. Qed.
Lemma lsum_flat_map {A B} (h : A -> list B) l f : lsum (flat_map h l) f = lsum l (fun a => lsum (h a) f).
Proof. induction l as [|a t IH]; [reflexivity|]. cbn [flat_map]. rewrite lsum_app, IH. reflexivity. Qed.
Lemma lsum_ext {A} (l : list A) f g : (forall a, In a l -> f a = g a) -> lsum l f = lsum l g.
Proof.
  induction l as [|a t IH]; intros H; [reflexivity|]. rewrite !lsum_cons. f_equal; [apply H; now left|].
  apply IH. intros b Hb. apply H. now right.
Qed.
Lemma lsum_scal {A} (l : list A) (c : C) f : lsum l (fun a => (c * f a)%C) = (c * lsum l f)%C.
Proof. induction l as [|a t IH]; cbn [map app flat_map]; rewrite ?lsum_cons, ?lsum_nil; [ring|]. rewrite IH. ring. Qed.
Lemma lsum_scal_r {A} (l : list A) (c : C) f : lsum l (fun a => (f a * c)%C) = (lsum l f * c)%C.
Proof. induction l as [|a t IH]; cbn [map app flat_map]; rewrite ?lsum_cons, ?lsum_nil; [ring|]. rewrite IH. ring. Qed.
Lemma lsum_zero {A} (l : list A) f : (forall a, In a l -> f a = RtoC 0) -> lsum l f = RtoC 0.
Proof.
  intros H. induction l as [|a t IH]; [reflexivity|]. rewrite lsum_cons, (H a) by now left.
  rewrite IH by (intros; apply H; now right). ring.
Qed.
Lemma lsum_plus {A} (l : list A) f g : lsum l (fun a => (f a + g a)%C) = (lsum l f + lsum l g)%C.
Proof. induction l as [|a t IH]; cbn [map app flat_map]; rewrite ?lsum_cons, ?lsum_nil; [ring|]. rewrite IH. ring. Qed.
Lemma lsum_perm {A} (l1 l2 : list A) f : Permutation l1 l2 -> lsum l1 f = lsum l2 f.
Proof. induction 1; rewrite ?lsum_cons, ?lsum_nil in *; [reflexivity| now rewrite IHPermutation | ring | congruence]. Qed.
Lemma lsum_nth {A} (l : list A) (d : A) f : csum (length l) (fun i => f (nth i l d)) = lsum l f.
Proof.
  assert (G : forall n, (n <= length l)%nat -> csum n (fun i => f (nth i l d)) = lsum (firstn n l) f).
  { induction n as [|n IH]; intros Hn; [reflexivity|]. cbn [csum]. rewrite IH by lia.
    replace (firstn (S n) l) with (firstn n l ++ [nth n l d]).
    - rewrite lsum_app, lsum_cons, lsum_nil. ring.
    - clear -Hn. revert n Hn. induction l as [|a t IH]; intros n Hn; cbn in Hn; [lia|].
      destruct n; [reflexivity|]. cbn. f_equal. apply IH. lia. }
  rewrite G by lia. now rewrite firstn_all.
Qed.
Lemma lsum_swap {A B} (l1 : list A) (l2 : list B) f :
  lsum l1 (fun a => lsum l2 (fun b => f a b)) = lsum l2 (fun b => lsum l1 (fun a => f a b)).
Proof.
  induction l1 as [|a t IH]; [symmetry; now apply lsum_zero|].
  rewrite lsum_cons, IH. rewrite <- lsum_plus. apply lsum_ext. reflexivity.
Qed.
(** Only one key matches. *)
Lemma lsum_select {A} (eqb : A -> A -> bool) (l : list A) a f :
  (forall x y, eqb x y = true <-> x = y) -> NoDup l -> In a l ->
  lsum l (fun b => if eqb a b then f b else RtoC 0) = f a.
Proof.
  intros He Hn Hin. induction l as [|x t IH]; [destruct Hin|]. inversion Hn; subst. rewrite lsum_cons.
  destruct Hin as [->|Hin].
  - assert (E : eqb a a = true) by now apply He. rewrite E.
    rewrite lsum_zero; [ring|]. intros b Hb. destruct (eqb a b) eqn:E2; [|reflexivity].
    apply He in E2. subst. contradiction.
  - destruct (eqb a x) eqn:E; [apply He in E; subst; contradiction|].
    rewrite IH by assumption. ring.
Qed.

(* ------------------------------------------------------------------ *)
(** The m labels of one projector are -l .. l, in the order 0, -1, 1, -2, 2, .. *)
Lemma zrange_S a n : zrange a (a + Z.of_nat (S n)) = zrange a (a + Z.of_nat n) ++ [(a + Z.of_nat n)%Z].
Proof.
  unfold zrange. replace (Z.to_nat (a + Z.of_nat (S n) - a)) with (S n) by lia.
  replace (Z.to_nat (a + Z.of_nat n - a)) with n by lia. rewrite seq_S, map_app. reflexivity.
Qed.
Lemma m_of_odd n : m_of (2 * Z.of_nat n + 1) = (- (Z.of_nat n + 1))%Z.
Proof.
  unfold m_of. assert (E : ((2 * Z.of_nat n + 1) mod 2 = 1)%Z) by lia. rewrite E. cbn [Z.eqb]. lia.
Qed.
Lemma m_of_even n : m_of (2 * Z.of_nat n) = Z.of_nat n.
Proof.
  unfold m_of. assert (E : ((2 * Z.of_nat n) mod 2 = 0)%Z) by lia. rewrite E. cbn [Z.eqb]. lia.
Qed.
Definition mlist (l : nat) : list Z := map m_of (zrange 0 (2 * Z.of_nat l + 1)).
Lemma mlist_S l : mlist (S l) = mlist l ++ [(- Z.of_nat (S l))%Z; Z.of_nat (S l)].
Proof.
  unfold mlist.
  replace (2 * Z.of_nat (S l) + 1)%Z with (0 + Z.of_nat (S (S (S (2 * l)))))%Z by lia.
  rewrite (zrange_S 0 (S (S (2 * l)))), (zrange_S 0 (S (2 * l))), !map_app.
  replace (0 + Z.of_nat (S (2 * l)))%Z with (2 * Z.of_nat l + 1)%Z by lia.
  rewrite <- app_assoc. cbn [map app]. rewrite m_of_odd.
  replace (0 + Z.of_nat (S (S (2 * l))))%Z with (2 * Z.of_nat (S l))%Z by lia. rewrite m_of_even.
  repeat f_equal. lia.
Qed.
Lemma mlist_perm l : Permutation (mlist l) (zrange (- Z.of_nat l) (Z.of_nat l + 1)).
Proof.
  induction l as [|l IH]; [reflexivity|]. rewrite mlist_S.
  replace (zrange (- Z.of_nat (S l)) (Z.of_nat (S l) + 1))
    with ((- Z.of_nat (S l))%Z :: zrange (- Z.of_nat l) (Z.of_nat l + 1) ++ [Z.of_nat (S l)]).
  - rewrite IH. rewrite Permutation_app_comm. cbn [app]. apply perm_skip.
    apply (Permutation_app_comm [_]).
  - rewrite <- (zrange_app (- Z.of_nat (S l)) (Z.of_nat (S l)) (Z.of_nat (S l) + 1)) by lia.
    rewrite (zrange_cons (- Z.of_nat (S l)) (Z.of_nat (S l))) by lia.
    rewrite (zrange_cons (Z.of_nat (S l))), (zrange_nil (Z.of_nat (S l) + 1)) by lia.
    replace (- Z.of_nat (S l) + 1)%Z with (- Z.of_nat l)%Z by lia.
    replace (Z.of_nat (S l)) with (Z.of_nat l + 1)%Z by lia. reflexivity.
Qed.
Lemma mlist_NoDup l : NoDup (mlist l).
Proof.
  eapply Permutation_NoDup; [symmetry; apply mlist_perm|]. unfold zrange.
  apply FinFun.Injective_map_NoDup; [|apply seq_NoDup]. intros a b H. lia.
Qed.
Lemma mlist_length l : length (mlist l) = (2 * l + 1)%nat.
Proof. unfold mlist, zrange. rewrite !map_length, seq_length. lia. Qed.

(** One record per projector: (index of the radial function, l, m). *)
Definition labels (ls : list nat) : list (nat * nat * Z) :=
  flat_map (fun bl => map (fun m => (fst bl, snd bl, m)) (mlist (snd bl))) (combine (seq 0 (length ls)) ls).

Lemma map_const_length {A B} (c : B) (l1 l2 : list A) : length l1 = length l2 ->
  map (fun _ => c) l1 = map (fun _ => c) l2.
Proof. revert l2. induction l1; intros [|x l2] H; cbn in *; try lia; [reflexivity|]. f_equal. apply IHl1. lia. Qed.
Lemma map_const_length' {A B D} (c : D) (l1 : list A) (l2 : list B) : length l1 = length l2 ->
  map (fun _ => c) l1 = map (fun _ => c) l2.
Proof. revert l2. induction l1; intros [|x l2] H; cbn in *; try lia; [reflexivity|]. f_equal. apply IHl1. lia. Qed.
Lemma zrange_length a b : length (zrange a b) = Z.to_nat (b - a).
Proof. unfold zrange. now rewrite map_length, seq_length. Qed.

Lemma flat_map_map' {A B D} (f : B -> D) (h : A -> list B) l :
  map f (flat_map h l) = flat_map (fun a => map f (h a)) l.
Proof. induction l as [|a t IH]; cbn; [reflexivity|]. now rewrite map_app, IH. Qed.
Lemma flat_map_combine_snd {B} (f : nat -> list B) ls s :
  flat_map (fun bl => f (snd bl)) (combine (seq s (length ls)) ls) = flat_map f ls.
Proof. revert s. induction ls as [|l t IH]; intros s; [reflexivity|]. cbn. now rewrite IH. Qed.

Lemma idx_labels ls : vkb_idxbeta ls = map (fun x => fst (fst x)) (labels ls).
Proof.
  unfold vkb_idxbeta, labels. rewrite flat_map_map'. apply flat_map_ext. intros [b l]. cbn [fst snd].
  rewrite map_map. cbn [fst]. apply map_const_length. rewrite zrange_length, mlist_length. lia.
Qed.
Lemma l_labels ls : vkb_l ls = map (fun x => snd (fst x)) (labels ls).
Proof.
  unfold vkb_l, labels. rewrite flat_map_map'.
  rewrite <- (flat_map_combine_snd (fun l => map (fun _ => l) (zrange (- Z.of_nat l) (Z.of_nat l + 1))) ls 0).
  apply flat_map_ext. intros [b l]. cbn [fst snd].
  rewrite map_map. cbn [fst snd]. apply map_const_length. rewrite zrange_length, mlist_length. lia.
Qed.
Lemma m_labels ls : vkb_m ls = map snd (labels ls).
Proof.
  unfold vkb_m, labels. rewrite flat_map_map'. change (fun l => map m_of (zrange 0 (2 * Z.of_nat l + 1))) with mlist.
  rewrite <- (flat_map_combine_snd mlist ls 0). apply flat_map_ext. intros [b l]. cbn [fst snd].
  rewrite map_map. cbn [snd]. now rewrite map_id.
Qed.
Lemma numvkb_labels ls : numvkb ls = length (labels ls).
Proof. unfold numvkb. now rewrite l_labels, map_length. Qed.

Section Rows.
Variable ylm : nat -> nat -> R -> R -> C.
(** The angular function of label m as the code writes it. *)
Definition ang (l : nat) (m : Z) (t p : R) : C :=
  if (m =? 0)%Z then ylm l 0 t p
  else if (m <? 0)%Z then RtoC (- sqrt 2 * alt (Z.to_nat (- m)) * snd (ylm l (Z.to_nat (- m)) t p))
  else RtoC (- sqrt 2 * alt (Z.to_nat m) * fst (ylm l (Z.to_nat m) t p)).
Definition row (K : kpoint) (x : nat * nat * Z) (g : nat) : C :=
  (ang (snd (fst x)) (snd x) (k_theta K g) (k_phi K g) * RtoC (k_beta K (fst (fst x)) g))%C.

Lemma rows_of_labels K b l g :
  map (fun f => f g) (rows_of ylm K b l) = map (fun m => row K (b, l, m) g) (mlist l).
Proof.
  unfold rows_of.
  assert (G : forall n, map (fun f => f g) (flat_map (fun m =>
    let y := fun g => ylm l m (k_theta K g) (k_phi K g) in
    match m with
    | O => [fun g => (y g * RtoC (k_beta K b g))%C]
    | S _ => [fun g => RtoC (- sqrt 2 * alt m * snd (y g) * k_beta K b g);
              fun g => RtoC (- sqrt 2 * alt m * fst (y g) * k_beta K b g)]
    end) (seq 0 (S n))) = map (fun m => row K (b, l, m) g) (mlist n)).
  { induction n as [|n IH].
    - cbn. unfold row, ang. cbn. reflexivity.
    - rewrite seq_S, flat_map_app, map_app, IH, mlist_S, map_app. f_equal.
      cbn [flat_map app plus map]. unfold row, ang. cbn [fst snd].
      assert (E1 : (- Z.of_nat (S n) =? 0)%Z = false) by lia. rewrite E1.
      assert (E2 : (- Z.of_nat (S n) <? 0)%Z = true) by lia. rewrite E2.
      assert (E3 : (Z.of_nat (S n) =? 0)%Z = false) by lia. rewrite E3.
      assert (E4 : (Z.of_nat (S n) <? 0)%Z = false) by lia. rewrite E4.
      replace (Z.to_nat (- - Z.of_nat (S n))) with (S n) by lia.
      replace (Z.to_nat (Z.of_nat (S n))) with (S n) by lia.
      rewrite <- !RtoC_mult. reflexivity. }
  apply G.
Qed.

Lemma atom_labels S_ K g :
  map (fun f => f g) (vkb_atom ylm S_ K) = map (fun x => row K x g) (labels (s_l S_)).
Proof.
  unfold vkb_atom, labels. rewrite !flat_map_map'. apply flat_map_ext. intros [b l].
  cbn [fst snd]. rewrite rows_of_labels, map_map. reflexivity.
Qed.
Lemma atom_length S_ K : length (vkb_atom ylm S_ K) = numvkb (s_l S_).
Proof.
  rewrite numvkb_labels. rewrite <- (map_length (fun f => f 0%nat)), atom_labels. apply map_length.
Qed.
End Rows.

Section Op.
Variable ylm : nat -> nat -> R -> R -> C.

Lemma alt_even n : alt n = if Z.even (Z.of_nat n) then 1 else -1.
Proof.
  unfold alt. assert (H : Nat.even n = Z.even (Z.of_nat n)); [|now rewrite H].
  destruct (Nat.even n) eqn:E.
  - apply Nat.even_spec in E. destruct E as [k ->]. symmetry. apply Z.even_spec. exists (Z.of_nat k). lia.
  - symmetry. rewrite <- Z.negb_odd. apply Bool.negb_false_iff, Z.odd_spec.
    assert (O : Nat.odd n = true) by (unfold Nat.odd; now rewrite E). apply Nat.odd_spec in O.
    destruct O as [k ->]. exists (Z.of_nat k). lia.
Qed.
Lemma ang_real_harmonic l m t p :
  ang ylm l m t p = if (m =? 0)%Z then real_harmonic ylm l m t p else (- real_harmonic ylm l m t p)%C.
Proof.
  unfold ang, real_harmonic. destruct (m =? 0)%Z eqn:E0; [reflexivity|].
  rewrite <- RtoC_opp. destruct (m <? 0)%Z eqn:E; f_equal; rewrite alt_even.
  - rewrite Z2Nat.id by lia. rewrite Z.even_opp. ring.
  - rewrite Z2Nat.id by lia. ring.
Qed.

Lemma sq2 : sqrt 2 * sqrt 2 = 2. Proof. apply sqrt_sqrt. lra. Qed.
Lemma alt_sq n : alt n * alt n = 1. Proof. unfold alt. destruct (Nat.even n); ring. Qed.

Lemma angular_sum_gen l n t p t' p' :
  lsum (mlist n) (fun m => (ang ylm l m t p * Cconj (ang ylm l m t' p'))%C)
  = lsum (mlist n) (fun m => (Y ylm l m t p * Cconj (Y ylm l m t' p'))%C).
Proof.
  induction n as [|n IH].
  - reflexivity.
  - rewrite mlist_S, !lsum_app, IH. f_equal. rewrite !lsum_cons, !lsum_nil.
    unfold ang, Y.
    assert (E1 : (- Z.of_nat (S n) =? 0)%Z = false) by lia. rewrite E1.
    assert (E2 : (- Z.of_nat (S n) <? 0)%Z = true) by lia. rewrite E2.
    assert (E3 : (Z.of_nat (S n) =? 0)%Z = false) by lia. rewrite E3.
    assert (E4 : (Z.of_nat (S n) <? 0)%Z = false) by lia. rewrite E4.
    replace (Z.to_nat (- - Z.of_nat (S n))) with (S n) by lia.
    replace (Z.to_nat (Z.of_nat (S n))) with (S n) by lia.
    rewrite Z.even_opp.
    generalize (alt_sq (S n)) (ylm l (S n) t p) (ylm l (S n) t' p'). intros Ha [a b] [c d].
    pose proof sq2 as H2. set (s := sqrt 2) in *. clearbody s. set (e := alt (S n)) in *. clearbody e.
    assert (Hp : (s * e) * (s * e) = 2) by (transitivity ((s * s) * (e * e)); [ring|rewrite Ha, H2; ring]).
    destruct (Z.even (Z.of_nat (S n))); apply C_ext; cbn [fst snd Cmult Cplus Cconj Copp RtoC].
    all: ring_simplify.
    all: try (replace (s ^ 2 * e ^ 2 * b * d) with ((s * e) * (s * e) * (b * d)) by ring;
              replace (s ^ 2 * e ^ 2 * a * c) with ((s * e) * (s * e) * (a * c)) by ring; rewrite Hp; ring).
    all: try ring.
Qed.
Lemma angular_sum l t p t' p' :
  lsum (mlist l) (fun m => (ang ylm l m t p * Cconj (ang ylm l m t' p'))%C) = angular ylm l t p t' p'.
Proof. rewrite angular_sum_gen. unfold angular. apply lsum_perm, mlist_perm. Qed.

Lemma ipow_norm l : (- ipow l * Cconj (- ipow l))%C = RtoC 1.
Proof.
  induction l as [|l IH]; [apply C_ext; cbn; ring|]. cbn [ipow].
  rewrite <- IH. destruct (ipow l) as [a b]. apply C_ext; cbn; ring.
Qed.
Lemma conj_mul (a b : C) : Cconj (a * b)%C = (Cconj a * Cconj b)%C.
Proof. destruct a, b. apply C_ext; cbn; ring. Qed.
Lemma conj_RtoC (a : R) : Cconj (RtoC a) = RtoC a.
Proof. apply C_ext; cbn; ring. Qed.

Definition d0 : nat * nat * Z := (O, O, 0%Z).
Lemma nth_row S_ K i g : (i < numvkb (s_l S_))%nat ->
  nth i (vkb_atom ylm S_ K) (fun _ => RtoC 0) g = row ylm K (nth i (labels (s_l S_)) d0) g.
Proof.
  intros Hi.
  rewrite <- (map_nth (fun f : nat -> C => f g) (vkb_atom ylm S_ K) (fun _ => RtoC 0) i).
  rewrite atom_labels. rewrite nth_indep with (d' := row ylm K d0 g).
  - now rewrite (map_nth (fun x => row ylm K x g)).
  - rewrite map_length, <- numvkb_labels. exact Hi.
Qed.
Lemma nth_l ls i : (i < numvkb ls)%nat -> nth i (vkb_l ls) O = snd (fst (nth i (labels ls) d0)).
Proof. intros. rewrite l_labels. now rewrite (map_nth (fun x => snd (fst x)) (labels ls) d0). Qed.
Lemma nth_m ls i : nth i (vkb_m ls) 0%Z = snd (nth i (labels ls) d0).
Proof. intros. rewrite m_labels. now rewrite (map_nth snd (labels ls) d0). Qed.
Lemma nth_b ls i : nth i (vkb_idxbeta ls) O = fst (fst (nth i (labels ls) d0)).
Proof. intros. rewrite idx_labels. now rewrite (map_nth (fun x => fst (fst x)) (labels ls) d0). Qed.

Definition keq (x y : nat * nat * Z) : bool := (snd (fst x) =? snd (fst y))%nat && (snd x =? snd y)%Z.

Lemma atom_op S_ K tau g g' :
  let n := numvkb (s_l S_) in
  csum n (fun i => csum n (fun j =>
     (vkb_iat ylm S_ K tau i g * RtoC (dij_atom S_ i j) * Cconj (vkb_iat ylm S_ K tau j g'))%C))
  = (phase tau (k_cryst K g) * Cconj (phase tau (k_cryst K g')) *
     lsum (labels (s_l S_)) (fun x => lsum (labels (s_l S_)) (fun y =>
       if keq x y then row ylm K x g * RtoC (s_dij S_ (fst (fst x)) (fst (fst y))) * Cconj (row ylm K y g')
       else RtoC 0)))%C.
Proof.
  cbv zeta. rewrite <- lsum_scal. rewrite numvkb_labels. rewrite <- (lsum_nth _ d0).
  apply csum_ext. intros i Hi. rewrite <- (lsum_nth _ d0), <- csum_scal. apply csum_ext. intros j Hj.
  rewrite <- numvkb_labels in Hi, Hj.
  unfold vkb_iat, dij_atom. rewrite !nth_row by assumption. rewrite !nth_l by assumption.
  rewrite !nth_m, !nth_b. unfold keq.
  set (x := nth i (labels (s_l S_)) d0). set (y := nth j (labels (s_l S_)) d0). clearbody x y.
  destruct (snd (fst x) =? snd (fst y))%nat eqn:E1; cbn [andb]; [|ring].
  apply Nat.eqb_eq in E1. rewrite <- E1.
  destruct (snd x =? snd y)%Z; [|ring].
  rewrite !conj_mul.
  transitivity (phase tau (k_cryst K g) * Cconj (phase tau (k_cryst K g')) *
    (row ylm K x g * RtoC (s_dij S_ (fst (fst x)) (fst (fst y))) * Cconj (row ylm K y g'))
    * (- ipow (snd (fst x)) * Cconj (- ipow (snd (fst x)))))%C; [ring|].
  rewrite ipow_norm. ring.
Qed.

Lemma pair_sum ls (D : nat -> nat -> R) K g g' :
  lsum (labels ls) (fun x => lsum (labels ls) (fun y =>
       if keq x y then (row ylm K x g * RtoC (D (fst (fst x)) (fst (fst y))) * Cconj (row ylm K y g'))%C
       else RtoC 0))
  = lsum (projectors ls) (fun x => lsum (projectors ls) (fun y =>
       if (snd x =? snd y)%nat
       then (RtoC (D (fst x) (fst y) * k_beta K (fst x) g * k_beta K (fst y) g')
            * angular ylm (snd x) (k_theta K g) (k_phi K g) (k_theta K g') (k_phi K g'))%C
       else RtoC 0)).
Proof.
  unfold labels at 1. fold (projectors ls). rewrite lsum_flat_map. apply lsum_ext. intros [b l] _.
  rewrite lsum_map. cbn [fst snd].
  transitivity (lsum (mlist l) (fun m => lsum (projectors ls) (fun y => lsum (mlist (snd y)) (fun m' =>
     if keq (b, l, m) (fst y, snd y, m') then (row ylm K (b, l, m) g * RtoC (D b (fst y)) * Cconj (row ylm K (fst y, snd y, m') g'))%C
     else RtoC 0)))).
  { apply lsum_ext. intros m _. unfold labels. fold (projectors ls). rewrite lsum_flat_map. apply lsum_ext.
    intros [b' l'] _. rewrite lsum_map. reflexivity. }
  rewrite lsum_swap. apply lsum_ext. intros [b' l'] _. cbn [fst snd].
  destruct (l =? l')%nat eqn:E.
  - apply Nat.eqb_eq in E. subst l'.
    rewrite <- angular_sum, <- lsum_scal. apply lsum_ext. intros m Hm.
    rewrite (lsum_ext _ _ (fun m' => if (m =? m')%Z then (row ylm K (b, l, m) g * RtoC (D b b') * Cconj (row ylm K (b', l, m') g'))%C else RtoC 0)).
    2:{ intros m' _. unfold keq. cbn [fst snd]. now rewrite Nat.eqb_refl. }
    rewrite (lsum_select Z.eqb); [|intros; apply Z.eqb_eq|apply mlist_NoDup|exact Hm].
    unfold row. cbn [fst snd]. rewrite conj_mul, conj_RtoC, !RtoC_mult. ring.
  - apply lsum_zero. intros m _. apply lsum_zero. intros m' _. unfold keq. cbn [fst snd]. now rewrite E.
Qed.

Lemma phase_pair tau u v :
  (phase tau u * Cconj (phase tau v))%C = cis (- (2 * PI * vdot tau (vsub u v))).
Proof.
  unfold phase. rewrite cis_conj, <- cis_plus. f_equal. unfold vdot, vsub. cbn [vx vy vz]. ring.
Qed.

Lemma full_op S_ K g g' : numvkb (s_l S_) <> O ->
  csum (num_full S_) (fun i => csum (num_full S_) (fun j =>
    (vkb_full ylm S_ K i g * RtoC (dij_full S_ i j) * Cconj (vkb_full ylm S_ K j g'))%C))
  = lsum (s_pos S_) (fun tau => csum (numvkb (s_l S_)) (fun i => csum (numvkb (s_l S_)) (fun j =>
     (vkb_iat ylm S_ K tau i g * RtoC (dij_atom S_ i j) * Cconj (vkb_iat ylm S_ K tau j g'))%C))).
Proof.
  intros Hn. unfold num_full. rewrite csum_prod, <- (lsum_nth _ (V 0 0 0)). apply csum_ext. intros a Ha.
  apply csum_ext. intros i Hi. rewrite csum_prod.
  set (n := numvkb (s_l S_)) in *.
  assert (Q : forall a i, (i < n)%nat -> ((a * n + i) / n = a /\ (a * n + i) mod n = i)%nat).
  { intros a' i' H. split; [rewrite Nat.div_add_l by exact Hn; rewrite Nat.div_small by exact H; lia|].
    rewrite Nat.add_comm, Nat.mod_add by exact Hn. now apply Nat.mod_small. }
  rewrite (csum_delta _ a); [|exact Ha|].
  - apply csum_ext. intros j Hj. unfold vkb_full, dij_full. fold n.
    destruct (Q a i Hi) as [-> ->]. destruct (Q a j Hj) as [-> ->]. now rewrite Nat.eqb_refl.
  - intros a' Ha' Hne. apply csum_zero. intros j Hj. unfold dij_full. fold n.
    destruct (Q a i Hi) as [-> ->]. destruct (Q a' j Hj) as [-> ->].
    assert (E : (a =? a')%nat = false) by (apply Nat.eqb_neq; congruence). rewrite E. ring.
Qed.
End Op.
