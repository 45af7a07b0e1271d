(** C106: k-points and q-points given explicitly. *)
From Coq Require Import Reals Lra.
From Verif Require Import Base LatModel LatProofs KPtsModel CrystalModel IbravModel AtomsInpModel AtomsInpSpec PropsAtomsInp GwModel GwProofs KListInpModel KListInpSpec.
Import ListNotations.
Local Open Scope nat_scope.

Definition kbuild (f : kform) : ulattice -> list (pyarg * R) -> res kpoints :=
  match f with KCart => from_cart | KCryst => from_cryst | KTpiba => from_tpiba end.
Definition kgood (f : kform) (n : nat) : Prop := n = 3 \/ (n = 1 /\ f <> KCryst).
Definition kcryst (f : kform) (U : ulattice) (n : nat) (l : list R) : rvec :=
  match f with
  | KCart => cart2cryst (u_lat U) (broadcast3 n l)
  | KTpiba => vscale (u_unit U) (cart2cryst (u_lat U) (broadcast3 n l))
  | KCryst => to_rvec l
  end.
Lemma to_scale s v : to_rvec (map (Rmult s) (of_rvec v)) = vscale s v.
Proof. now destruct v. Qed.
Lemma norm_weights_len w ws : norm_weights w = Ok ws -> length ws = length w.
Proof. unfold norm_weights. destruct (existsb _ w); [discriminate|]. intros H. injection H as <-. apply map_length. Qed.
Lemma norm_weights_err w e : norm_weights w = Err e -> e = ValueError /\ ~ Forall (fun x => 0 <= x)%R w.
Proof.
  unfold norm_weights. destruct (existsb _ w) eqn:E; [|discriminate]. intros H. injection H as <-. split; [reflexivity|].
  intros F. apply existsb_exists in E as (x & Hx & E). pose proof (proj1 (Forall_forall _ _) F x Hx) as G. cbn beta in G.
  destruct (Rlt_dec x 0); [lra|discriminate].
Qed.
Lemma norm_weights_ok w : Forall (fun x => 0 <= x)%R w ->
  norm_weights w = Ok (map (fun x => if Req_EM_T (rsum w) 0 then None else Some (x / rsum w)%R) w).
Proof.
  intros F. unfold norm_weights. destruct (existsb _ w) eqn:E; [|reflexivity].
  apply existsb_exists in E as (x & Hx & E). pose proof (proj1 (Forall_forall _ _) F x Hx) as G. cbn beta in G.
  destruct (Rlt_dec x 0); [lra|discriminate].
Qed.
Lemma kbuild_pts f U l n : l <> [] -> Forall (of_length n) (map fst l) -> kgood f n ->
  kbuild f U l = do w <- norm_weights (map snd l); Ok (combine (map (fun a => kcryst f U n (coords_of a)) (map fst l)) w).
Proof.
  intros N F G. assert (N' : map fst l <> []) by (destruct l; [easy|discriminate]). pose proof (np_pts n _ N' F) as NP.
  assert (KK : f <> KCryst -> (n =? 1) || (n =? 3) = true) by (intros _; destruct G as [-> |(-> & _)]; reflexivity).
  assert (K3 : f = KCryst -> n = 3) by (intros E; destruct G as [-> |(_ & X)]; [reflexivity|congruence]).
  assert (LL : forall w, norm_weights (map snd l) = Ok w -> length w = length l).
  { intros w H. rewrite (norm_weights_len _ _ H). apply map_length. }
  destruct f; cbn [kbuild]; unfold from_cart, from_cryst, from_tpiba; rewrite NP; cbn [bind rows_cart2cryst].
  - rewrite KK by discriminate. cbn [bind]. destruct (norm_weights (map snd l)) as [w|] eqn:E; [|reflexivity]. cbn [bind klist_init].
    rewrite !map_length, (LL w eq_refl), Nat.eqb_refl. cbn [negb Nat.eqb]. rewrite !map_map. apply (f_equal (fun z => Ok (combine z w))), map_ext.
    intros a. cbn [kcryst]. apply to_of.
  - rewrite (K3 eq_refl) in *. destruct (norm_weights (map snd l)) as [w|] eqn:E; [|reflexivity]. cbn [bind klist_init].
    rewrite !map_length, (LL w eq_refl), Nat.eqb_refl. cbn [negb Nat.eqb]. rewrite !map_map. reflexivity.
  - rewrite KK by discriminate. cbn [bind]. destruct (norm_weights (map snd l)) as [w|] eqn:E; [|reflexivity]. cbn [bind klist_init arr_scale].
    rewrite !map_length, (LL w eq_refl), Nat.eqb_refl. cbn [negb Nat.eqb]. rewrite !map_map. apply (f_equal (fun z => Ok (combine z w))), map_ext.
    intros a. cbn [kcryst]. apply to_scale.
Qed.
Lemma np_err args e : np_array_T args = Err e -> e = ValueError.
Proof.
  destruct args as [|[x|v] args]; cbn [np_array_T]; [discriminate| |].
  - destruct (collect _ _); [discriminate|]. intros H. now injection H.
  - destruct (collect _ _); [discriminate|]. intros H. now injection H.
Qed.
Lemma init_inv_k a w k : klist_init a w = Ok k -> exists c, a = A2 3 c.
Proof.
  destruct a as [v|n c]; cbn [klist_init]; [discriminate|]. destruct (negb _); [discriminate|].
  destruct (Nat.eqb_spec n 3) as [-> |]; [|discriminate]. intros _. now exists c.
Qed.
Lemma init_err_k a w e : klist_init a w = Err e -> e = ValueError.
Proof.
  destruct a as [v|n c]; cbn [klist_init]; [intros H; now injection H|]. destruct (negb _); [intros H; now injection H|].
  destruct (n =? 3); [discriminate|intros H; now injection H].
Qed.
Lemma rows_err L a e : rows_cart2cryst L a = Err e -> e = ValueError.
Proof. destruct a as [v|n c]; cbn [rows_cart2cryst]; [intros H; now injection H|]. destruct (_ || _); [discriminate|intros H; now injection H]. Qed.
Lemma kbuild_err f U l e : kbuild f U l = Err e -> e = ValueError.
Proof.
  destruct f; cbn [kbuild]; unfold from_cart, from_cryst, from_tpiba;
  (destruct (np_array_T (map fst l)) as [a|e1] eqn:E1; cbn [bind]; [|intros H; injection H as <-; now apply np_err in E1]).
  1,3: destruct (rows_cart2cryst (u_lat U) a) as [c|e2] eqn:E2; cbn [bind]; [|intros H; injection H as <-; now apply rows_err in E2].
  all: destruct (norm_weights (map snd l)) as [w|e3] eqn:E3; cbn [bind]; [|intros H; injection H as <-; now apply norm_weights_err in E3].
  all: apply init_err_k.
Qed.
Lemma kbuild_shape f U l k : kbuild f U l = Ok k -> l <> [] /\ exists n, Forall (of_length n) (map fst l) /\ kgood f n.
Proof.
  intros H.
  assert (NP : exists a, np_array_T (map fst l) = Ok a).
  { destruct (np_array_T (map fst l)) as [a|x] eqn:E; [now exists a|]. exfalso.
    destruct f; cbn [kbuild] in H; unfold from_cart, from_cryst, from_tpiba in H; rewrite E in H; discriminate. }
  destruct NP as (a & NP). destruct (np_inv _ _ NP) as [(v & ->)|(n & -> & N & F)].
  - exfalso. destruct f; cbn [kbuild] in H; unfold from_cart, from_cryst, from_tpiba in H; rewrite NP in H; cbn [bind rows_cart2cryst] in H; try discriminate.
    destruct (norm_weights _); discriminate.
  - split; [intros ->; now apply N|]. exists n. split; [exact F|].
    destruct f; cbn [kbuild] in H; unfold from_cart, from_cryst, from_tpiba in H; rewrite NP in H; cbn [bind rows_cart2cryst] in H.
    + destruct (Nat.eqb_spec n 1) as [E1|E1]; [right; split; [exact E1|discriminate]|]. destruct (Nat.eqb_spec n 3) as [E3|E3]; [left; exact E3|discriminate].
    + destruct (norm_weights _); [|discriminate]. cbn [bind] in H. apply init_inv_k in H as (c & X). injection X as X _. left. exact X.
    + destruct (Nat.eqb_spec n 1) as [E1|E1]; [right; split; [exact E1|discriminate]|]. destruct (Nat.eqb_spec n 3) as [E3|E3]; [left; exact E3|discriminate].
Qed.
Lemma kbuild_weights f U l k : kbuild f U l = Ok k -> Forall (fun x => 0 <= x)%R (map snd l).
Proof.
  intros H. destruct (kbuild_shape _ _ _ _ H) as (N & n & F & G). rewrite (kbuild_pts f U l n N F G) in H.
  unfold norm_weights in H. destruct (existsb _ (map snd l)) eqn:E; [discriminate|]. apply Forall_forall. intros x Hx.
  apply Rnot_lt_le. intros L. apply not_true_iff_false in E. apply E. apply existsb_exists. exists x. split; [exact Hx|].
  now destruct (Rlt_dec x 0).
Qed.
Lemma total_rsum l : total l = rsum l.
Proof. induction l as [|x l IH]; [reflexivity|]. cbn [total]. rewrite IH. reflexivity. Qed.
Lemma total_div s l : total (map (fun x => x / s)%R l) = (total l / s)%R.
Proof. induction l as [|x l IH]; cbn [map total]; [unfold Rdiv; ring|]. rewrite IH. unfold Rdiv. ring. Qed.
Lemma kpt_len pts : Forall (of_length 3) (map fst (map kpt3 pts)).
Proof. rewrite map_map. apply Forall_forall. intros a Ha. apply in_map_iff in Ha as ([[[x y] z] w] & <- & _). now exists [x; y; z]. Qed.
Lemma snd_kpt3 pts : map snd (map kpt3 pts) = map wt pts.
Proof. rewrite map_map. apply map_ext. now intros [[[x y] z] w]. Qed.
Lemma map_fst_combine A B (a : list A) (b : list B) : length a = length b -> map fst (combine a b) = a.
Proof. revert b; induction a as [|x a IH]; intros [|y b] H; cbn in *; try easy. f_equal. apply IH. congruence. Qed.
Lemma map_snd_combine A B (a : list A) (b : list B) : length a = length b -> map snd (combine a b) = b.
Proof. revert b; induction a as [|x a IH]; intros [|y b] H; cbn in *; try easy. f_equal. apply IH. congruence. Qed.
Lemma cart_combine U (a : list rvec) (w : list flt) : length a = length w -> cart U (combine a w) = map (cryst2cart (u_lat U)) a.
Proof. intros L. unfold cart. rewrite <- (map_map fst (cryst2cart (u_lat U))), map_fst_combine by exact L. reflexivity. Qed.
Lemma tpiba_combine U (a : list rvec) (w : list flt) : length a = length w -> tpiba U (combine a w) = map (cryst2unit U) a.
Proof. intros L. unfold tpiba. rewrite <- (map_map fst (cryst2unit U)), map_fst_combine by exact L. reflexivity. Qed.
Lemma cryst2cart_axes P L c : mk_lattice P = Ok L -> cryst2cart L c = in_axes (c1 P) (c2 P) (c3 P) c.
Proof.
  intros H. apply mk_lattice_ok in H as (_ & HP & _). unfold cryst2cart. rewrite HP. destruct P as [[? ? ?] [? ? ?] [? ? ?]], c as [? ? ?].
  unfold in_axes. vec_unfold. f_equal; ring.
Qed.
Lemma kcryst_place f unit_ P U x y z : mk_ulattice unit_ P = Ok U ->
  cryst2cart (u_lat U) (kcryst f U 3 [x; y; z]) = kplace f unit_ (c1 P) (c2 P) (c3 P) (V x y z).
Proof.
  intros H. pose proof (mk_u _ _ _ H) as (HU & HL). pose proof (cryst_cart_inverse P (u_lat U)) as I.
  destruct f; cbn [kcryst kplace]; unfold broadcast3; cbn [Nat.eqb]; unfold to_rvec; cbn [nth].
  - apply I, HL.
  - now apply cryst2cart_axes.
  - unfold cryst2cart. rewrite mv_vscale. change (mv (primvec (u_lat U)) (cart2cryst (u_lat U) (V x y z))) with (cryst2cart (u_lat U) (cart2cryst (u_lat U) (V x y z))).
    rewrite HU. destruct (I (V x y z) HL) as (_ & ->). reflexivity.
Qed.

(** Cartesian, crystal or tpiba coordinates: the stored list stands for exactly the given points, in order,
    with weights divided by their sum. *)
Theorem C106_points : forall f unit_ P U (pts : list (R * R * R * R)),
  mk_ulattice unit_ P = Ok U -> unit_ <> 0%R -> Forall (fun p => 0 <= wt p)%R pts -> (0 < total (map wt pts))%R ->
  exists k, kbuild f U (map kpt3 pts) = Ok k
  /\ cart U k = map (fun p => kplace f unit_ (c1 P) (c2 P) (c3 P) (xyz p)) pts
  /\ map (vscale unit_) (tpiba U k) = cart U k
  /\ (f = KCryst -> map fst k = map xyz pts)
  /\ map snd k = map (fun p => Some (wt p / total (map wt pts))%R) pts
  /\ total (map (fun p => wt p / total (map wt pts))%R pts) = 1%R.
Proof.
  intros f unit_ P U pts HU Hu F T.
  assert (N : map kpt3 pts <> []) by (destruct pts; [cbn in T; lra|discriminate]).
  assert (FW : Forall (fun x => 0 <= x)%R (map snd (map kpt3 pts))).
  { rewrite snd_kpt3. apply Forall_forall. intros x Hx. apply in_map_iff in Hx as (p & <- & Hp). now apply (proj1 (Forall_forall _ _) F). }
  rewrite (kbuild_pts f U _ 3 N (kpt_len pts) (or_introl eq_refl)), (norm_weights_ok _ FW). cbn [bind].
  match goal with |- context [Ok (combine ?a ?w)] => set (A0 := a); set (W0 := w) end.
  assert (L : length A0 = length W0) by (subst A0 W0; now rewrite !map_length).
  exists (combine A0 W0). split; [reflexivity|].
  assert (CC : cart U (combine A0 W0) = map (cryst2cart (u_lat U)) A0) by (apply cart_combine; exact L).
  assert (CT : tpiba U (combine A0 W0) = map (cryst2unit U) A0) by (apply tpiba_combine; exact L).
  split; [|split; [|split; [|split]]].
  - rewrite CC. subst A0. rewrite !map_map. apply map_ext. intros [[[x y] z] w]. cbn [kpt3 fst xyz coords_of]. now apply kcryst_place.
  - rewrite CC, CT, map_map. apply map_ext. intros p. unfold cryst2unit. rewrite (proj1 (mk_u _ _ _ HU)), vscale_vscale, Rinv_r by exact Hu. apply vscale_1.
  - intros ->. etransitivity; [apply map_fst_combine; exact L|]. subst A0. rewrite !map_map. apply map_ext. now intros [[[x y] z] w].
  - etransitivity; [apply map_snd_combine; exact L|]. subst W0. rewrite snd_kpt3, map_map. apply map_ext. intros p. rewrite <- total_rsum.
    destruct (Req_EM_T (total (map wt pts)) 0) as [Z0|Z0]; [exfalso; rewrite Z0 in T; lra|reflexivity].
  - rewrite <- (map_map wt (fun x => x / total (map wt pts))%R), total_div. apply Rinv_r. lra.
Qed.
Print Assumptions C106_points.

(** Exactly which argument lists are accepted; everything else is a ValueError. *)
Theorem C106_accepted : forall f U l,
  ((exists k, kbuild f U l = Ok k) <->
   l <> [] /\ Forall (fun x => 0 <= x)%R (map snd l) /\
   exists n, Forall (of_length n) (map fst l) /\ (n = 3 \/ n = 1 /\ f <> KCryst))
  /\ (forall e, kbuild f U l = Err e -> e = ValueError).
Proof.
  intros f U l. split; [|apply kbuild_err]. split.
  - intros (k & H). destruct (kbuild_shape _ _ _ _ H) as (N & G). split; [exact N|]. split; [now apply (kbuild_weights f U l k)|exact G].
  - intros (N & W & n & F & G). rewrite (kbuild_pts f U l n N F G), (norm_weights_ok _ W). cbn [bind]. eexists. reflexivity.
Qed.
Print Assumptions C106_accepted.

(** Points given as one number [x] are silently read as (x, x, x). *)
Theorem C106_one_coordinate_refuted : forall f U (l : list (R * R)), f <> KCryst ->
  kbuild f U (map (fun p => (Pt [fst p], snd p)) l) = kbuild f U (map (fun p => (Pt [fst p; fst p; fst p], snd p)) l).
Proof.
  intros f U l Hf. destruct l as [|p0 l0]; [now destruct f|]. set (l := p0 :: l0).
  rewrite (kbuild_pts f U _ 1), (kbuild_pts f U _ 3).
  - rewrite !map_map. cbn [fst snd coords_of]. destruct (norm_weights (map (fun x => snd x) l)); [|reflexivity]. cbn [bind].
    f_equal. f_equal. apply map_ext. intros p. destruct f; [reflexivity|congruence|reflexivity].
  - discriminate.
  - rewrite map_map. apply Forall_forall. intros a Ha. apply in_map_iff in Ha as (p & <- & _). now exists [fst p; fst p; fst p].
  - now left.
  - discriminate.
  - rewrite map_map. apply Forall_forall. intros a Ha. apply in_map_iff in Ha as (p & <- & _). now exists [fst p].
  - right. now split.
Qed.
Print Assumptions C106_one_coordinate_refuted.

(** Weights that are all zero are accepted and become nan. *)
Theorem C106_zero_weights_refuted : forall f U (pts : list (R * R * R * R)), pts <> [] -> Forall (fun p => wt p = 0%R) pts ->
  exists k, kbuild f U (map kpt3 pts) = Ok k /\ length k = length pts /\ Forall (fun p => snd p = None) k.
Proof.
  intros f U pts N F. assert (N' : map kpt3 pts <> []) by (destruct pts; [easy|discriminate]).
  assert (FW : Forall (fun x => 0 <= x)%R (map snd (map kpt3 pts))).
  { rewrite snd_kpt3. apply Forall_forall. intros x Hx. apply in_map_iff in Hx as (p & <- & Hp).
    pose proof (proj1 (Forall_forall _ _) F p Hp) as E. cbn beta in E. rewrite E. lra. }
  rewrite (kbuild_pts f U _ 3 N' (kpt_len pts) (or_introl eq_refl)), (norm_weights_ok _ FW). cbn [bind]. eexists. split; [reflexivity|].
  assert (Z0 : rsum (map snd (map kpt3 pts)) = 0%R).
  { rewrite snd_kpt3, <- total_rsum. clear -F. induction F as [|p pts E _ IH]; [reflexivity|]. cbn [map total]. rewrite E, IH. ring. }
  split; [rewrite combine_length, !map_length; apply Nat.min_id|].
  apply Forall_forall. intros [c w] Hp. apply in_combine_r in Hp. apply in_map_iff in Hp as (x & <- & _). cbn [snd].
  now destruct (Req_EM_T _ 0).
Qed.
Print Assumptions C106_zero_weights_refuted.

(** * Indexing *)
Lemma pick_spec k i : pick k i = match (if (0 <=? i)%Z then nth_error k (Z.to_nat i)
   else if (- Z.of_nat (length k) <=? i)%Z then nth_error k (length k - Z.to_nat (- i)) else None) with Some p => Ok p | None => Err IndexError end.
Proof.
  unfold pick. cbv zeta. destruct (Z.leb_spec 0 i).
  - destruct (Z.ltb_spec i (- Z.of_nat (length k))); [lia|]. cbn [orb]. destruct (Z.ltb_spec i 0); [lia|].
    destruct (Z.leb_spec (Z.of_nat (length k)) i) as [L|L]; [|reflexivity].
    destruct (nth_error k (Z.to_nat i)) eqn:E; [|reflexivity]. assert (nth_error k (Z.to_nat i) <> None) as X by congruence.
    apply nth_error_Some in X. lia.
  - destruct (Z.leb_spec (- Z.of_nat (length k)) i); destruct (Z.ltb_spec i (- Z.of_nat (length k))); try lia; cbn [orb]; [|reflexivity].
    destruct (Z.leb_spec (Z.of_nat (length k)) i); [lia|]. destruct (Z.ltb_spec i 0); [|lia].
    replace (Z.to_nat (i + Z.of_nat (length k))) with (length k - Z.to_nat (- i)) by lia. reflexivity.
Qed.
(** An int counts from the front or, negative, from the back; outside it is an IndexError; np.int64, lists
    and masks are a TypeError. *)
Theorem C106_index : forall k : kpoints,
  (forall i p, nth_error k i = Some p -> getitem k (IInt (Z.of_nat i)) = Ok (Point p)
     /\ getitem k (IInt (Z.of_nat i - Z.of_nat (length k))) = Ok (Point p))
  /\ (forall z, (z < - Z.of_nat (length k) \/ Z.of_nat (length k) <= z)%Z -> getitem k (IInt z) = Err IndexError)
  /\ getitem k IOther = Err TypeError.
Proof.
  intros k. split; [|split; [|reflexivity]].
  - intros i p H. assert (L : i < length k) by (apply nth_error_Some; congruence). cbn [getitem]. rewrite !pick_spec. split.
    + destruct (Z.leb_spec 0 (Z.of_nat i)); [|lia]. rewrite Nat2Z.id, H. reflexivity.
    + destruct (Z.leb_spec 0 (Z.of_nat i - Z.of_nat (length k))); [lia|].
      destruct (Z.leb_spec (- Z.of_nat (length k)) (Z.of_nat i - Z.of_nat (length k))); [|lia].
      replace (length k - Z.to_nat (- (Z.of_nat i - Z.of_nat (length k)))) with i by lia. rewrite H. reflexivity.
  - intros z Hz. cbn [getitem]. rewrite pick_spec. destruct (Z.leb_spec 0 z).
    + destruct (nth_error k (Z.to_nat z)) eqn:E; [|reflexivity]. assert (nth_error k (Z.to_nat z) <> None) as X by congruence.
      apply nth_error_Some in X. lia.
    + destruct (Z.leb_spec (- Z.of_nat (length k)) z); [lia|reflexivity].
Qed.
Print Assumptions C106_index.

Lemma mapm_pick k idx l : mapm (pick k) idx = Ok l -> length l = length idx /\
  forall j, j < length l -> exists p, nth_error l j = Some p /\ In p k /\ pick k (nth j idx 0%Z) = Ok p.
Proof.
  revert l; induction idx as [|i idx IH]; intros l H; cbn [mapm] in H.
  - injection H as <-. split; [reflexivity|]. cbn. lia.
  - destruct (pick k i) as [p|] eqn:E; [|discriminate]. cbn [bind] in H. destruct (mapm (pick k) idx) as [t|]; [|discriminate]. cbn [bind] in H.
    injection H as <-. destruct (IH t eq_refl) as (L & Q). split; [cbn; now rewrite L|].
    intros [|j] Hj; cbn [nth_error nth].
    + exists p. split; [reflexivity|]. split; [|exact E]. unfold pick in E. cbv zeta in E. destruct (_ || _); [discriminate|].
      destruct (nth_error k _) eqn:E2; [|discriminate]. injection E as <-. now apply nth_error_In in E2.
    + apply Q. cbn in Hj. lia.
Qed.
Lemma skipn_nth A (k : list A) a p : nth_error k a = Some p -> skipn a k = p :: skipn (S a) k.
Proof. revert a; induction k as [|x k IH]; intros [|a] H; try discriminate; [now injection H as ->|]. cbn [skipn]. now apply IH. Qed.
Lemma mapm_seq k a len : (Z.of_nat a + Z.of_nat len <= Z.of_nat (length k))%Z ->
  mapm (pick k) (map (fun j => (Z.of_nat a + Z.of_nat j * 1)%Z) (seq 0 len)) = Ok (firstn len (skipn a k)).
Proof.
  revert a; induction len as [|len IH]; intros a H; [reflexivity|]. cbn [seq map mapm].
  rewrite pick_spec. destruct (Z.leb_spec 0 (Z.of_nat a + Z.of_nat 0 * 1)); [|lia]. replace (Z.to_nat (Z.of_nat a + Z.of_nat 0 * 1)) with a by lia.
  destruct (nth_error k a) as [p|] eqn:E; [|apply nth_error_None in E; lia]. cbn [bind].
  rewrite <- seq_shift, map_map.
  rewrite (map_ext _ (fun j => (Z.of_nat (S a) + Z.of_nat j * 1)%Z)) by (intros; lia). rewrite IH by lia. cbn [bind].
  rewrite (skipn_nth _ _ _ _ E). reflexivity.
Qed.
Lemma mapm_rev k : mapm (pick k) (map (fun j => (Z.of_nat (length k) - 1 + Z.of_nat j * -1)%Z) (seq 0 (length k))) = Ok (rev k).
Proof.
  assert (G : forall m, m <= length k ->
    mapm (pick k) (map (fun j => (Z.of_nat m - 1 + Z.of_nat j * -1)%Z) (seq 0 m)) = Ok (rev (firstn m k))).
  { induction m as [|m IH]; intros H; [reflexivity|]. cbn [seq map mapm]. rewrite pick_spec.
    destruct (Z.leb_spec 0 (Z.of_nat (S m) - 1 + Z.of_nat 0 * -1)); [|lia].
    replace (Z.to_nat (Z.of_nat (S m) - 1 + Z.of_nat 0 * -1)) with m by lia.
    destruct (nth_error k m) as [p|] eqn:E; [|apply nth_error_None in E; lia]. cbn [bind].
    rewrite <- seq_shift, map_map. rewrite (map_ext _ (fun j => (Z.of_nat m - 1 + Z.of_nat j * -1)%Z)) by (intros; lia).
    rewrite IH by lia. cbn [bind]. f_equal.
    apply nth_error_split in E as (k1 & k2 & -> & <-).
    rewrite !firstn_app, firstn_all, Nat.sub_diag. rewrite (firstn_all2 k1) by lia. replace (S (length k1) - length k1) with 1 by lia.
    cbn [firstn]. rewrite app_nil_r, rev_app_distr. reflexivity. }
  rewrite (G (length k) (le_n _)), firstn_all. reflexivity.
Qed.
Lemma pick_in k i : (0 <= i < Z.of_nat (length k))%Z -> exists p, pick k i = Ok p.
Proof.
  intros H. rewrite pick_spec. destruct (Z.leb_spec 0 i); [|lia].
  destruct (nth_error k (Z.to_nat i)) eqn:E; [eexists; reflexivity|]. apply nth_error_None in E. lia.
Qed.
Lemma mapm_total k idx : Forall (fun i => 0 <= i < Z.of_nat (length k))%Z idx -> exists l, mapm (pick k) idx = Ok l.
Proof.
  induction 1 as [|i idx Hi _ (l & IH)]; [now exists []|]. cbn [mapm]. destruct (pick_in k i Hi) as (p & ->). cbn [bind]. rewrite IH.
  cbn [bind]. eexists. reflexivity.
Qed.
Lemma slice_in a b s n : (0 <= n)%Z -> s <> 0%Z -> Forall (fun i => 0 <= i < n)%Z (slice_indices a b s n).
Proof.
  intros Hn Hs. apply Forall_forall. intros i Hi. unfold slice_indices in Hi. cbv zeta in Hi.
  apply in_map_iff in Hi as (j & <- & Hj). apply in_seq in Hj as (_ & Hj). cbn [Nat.add] in Hj.
  destruct (Z.ltb_spec s 0) as [Ls|Ls].
  - set (x := slice_bound n s (n - 1) a) in *. set (y := slice_bound n s (-1) b) in *.
    assert (X : (-1 <= x <= n - 1)%Z).
    { unfold x, slice_bound. destruct (Z.ltb_spec s 0); [|lia]. destruct a as [v|]; [destruct (Z.ltb_spec v 0)|]; lia. }
    assert (Y : (-1 <= y)%Z).
    { unfold y, slice_bound. destruct (Z.ltb_spec s 0); [|lia]. destruct b as [v|]; [destruct (Z.ltb_spec v 0)|]; lia. }
    assert (D : (- s * ((x - y - s - 1) / - s) <= x - y - s - 1)%Z) by (apply Z.mul_div_le; lia).
    assert (J : (Z.of_nat j + 1 <= (x - y - s - 1) / - s)%Z) by lia.
    assert (M : (- s * (Z.of_nat j + 1) <= - s * ((x - y - s - 1) / - s))%Z) by (apply Z.mul_le_mono_nonneg_l; lia).
    nia.
  - set (x := slice_bound n s 0 a) in *. set (y := slice_bound n s n b) in *.
    assert (X : (0 <= x <= n)%Z).
    { unfold x, slice_bound. destruct (Z.ltb_spec s 0); [lia|]. destruct a as [v|]; [destruct (Z.ltb_spec v 0)|]; lia. }
    assert (Y : (y <= n)%Z).
    { unfold y, slice_bound. destruct (Z.ltb_spec s 0); [lia|]. destruct b as [v|]; [destruct (Z.ltb_spec v 0)|]; lia. }
    assert (D : (s * ((y - x + s - 1) / s) <= y - x + s - 1)%Z) by (apply Z.mul_div_le; lia).
    assert (J : (Z.of_nat j + 1 <= (y - x + s - 1) / s)%Z) by lia.
    assert (M : (s * (Z.of_nat j + 1) <= s * ((y - x + s - 1) / s))%Z) by (apply Z.mul_le_mono_nonneg_l; lia).
    nia.
Qed.
(** Slices: [a:b] is that stretch of the list, [-m:] the last m points, [::-1] the reversed list (bounds
    beyond the ends are clipped), a zero step a ValueError and any other slice accepted; whatever the slice,
    the result consists of points of the list with their weights unchanged (not renormalised). *)
Theorem C106_slice : forall k : kpoints,
  (forall a b, getitem k (ISlice (Some (Z.of_nat a)) (Some (Z.of_nat b)) None) = Ok (Sub (firstn (b - a) (skipn a k))))
  /\ (forall m, 0 < m -> getitem k (ISlice (Some (- Z.of_nat m)%Z) None None) = Ok (Sub (skipn (length k - m) k)))
  /\ getitem k (ISlice None None (Some (-1)%Z)) = Ok (Sub (rev k))
  /\ (forall a b, getitem k (ISlice a b (Some 0%Z)) = Err ValueError)
  /\ (forall a b s, s <> Some 0%Z -> exists l, getitem k (ISlice a b s) = Ok (Sub l) /\ incl l k).
Proof.
  intros k. split; [|split; [|split; [|split]]].
  - intros a b. cbn [getitem]. cbv zeta. change (1 =? 0)%Z with false. cbv iota. unfold slice_indices. cbv zeta.
    change (1 <? 0)%Z with false. cbv iota. unfold slice_bound. change (1 <? 0)%Z with false. cbv iota zeta.
    destruct (Z.ltb_spec (Z.of_nat a) 0); [lia|]. destruct (Z.ltb_spec (Z.of_nat b) 0); [lia|].
    rewrite <- !Nat2Z.inj_min. set (a' := Nat.min a (length k)). set (b' := Nat.min b (length k)).
    replace (Z.to_nat ((Z.of_nat b' - Z.of_nat a' + 1 - 1) / 1)) with (b' - a') by (rewrite Z.div_1_r; lia).
    destruct (Nat.le_gt_cases a' b') as [L|L].
    + rewrite mapm_seq by (unfold a', b' in *; lia). cbn [bind]. f_equal. f_equal. unfold a', b'.
      destruct (Nat.le_gt_cases a (length k)) as [La|La].
      * rewrite (Nat.min_l a) by lia. destruct (Nat.le_gt_cases b (length k)) as [Lb|Lb].
        -- now rewrite Nat.min_l.
        -- rewrite Nat.min_r by lia. rewrite !firstn_all2; [reflexivity| |]; rewrite skipn_length; lia.
      * rewrite (Nat.min_r a), !skipn_all2, !firstn_nil by lia. reflexivity.
    + replace (b' - a') with 0 by lia. cbn [seq map mapm bind]. f_equal. f_equal.
      unfold a', b' in L. destruct (Nat.le_gt_cases (length k) a) as [La|La].
      * now rewrite skipn_all2, firstn_nil by lia.
      * replace (b - a) with 0 by lia. reflexivity.
  - intros m Hm. cbn [getitem]. cbv zeta. change (1 =? 0)%Z with false. cbv iota. unfold slice_indices. cbv zeta.
    change (1 <? 0)%Z with false. cbv iota. unfold slice_bound. change (1 <? 0)%Z with false. cbv iota zeta.
    destruct (Z.ltb_spec (- Z.of_nat m) 0); [|lia].
    replace (Z.max (- Z.of_nat m + Z.of_nat (length k)) 0) with (Z.of_nat (length k - m)) by lia.
    replace (Z.to_nat ((Z.of_nat (length k) - Z.of_nat (length k - m) + 1 - 1) / 1)) with (length k - (length k - m)) by (rewrite Z.div_1_r; lia).
    rewrite mapm_seq by lia. cbn [bind]. f_equal. f_equal. rewrite firstn_all2; [reflexivity|]. rewrite skipn_length. lia.
  - cbn [getitem]. cbv zeta. change (-1 =? 0)%Z with false. cbv iota. unfold slice_indices. cbv zeta.
    change (-1 <? 0)%Z with true. cbv iota. unfold slice_bound.
    replace (Z.to_nat ((Z.of_nat (length k) - 1 - -1 - -1 - 1) / - -1)) with (length k) by (change (- -1)%Z with 1%Z; rewrite Z.div_1_r; lia).
    rewrite mapm_rev. reflexivity.
  - reflexivity.
  - intros a b s Hs. cbn [getitem]. cbv zeta. set (v := match s with Some x => x | None => 1%Z end).
    assert (Hv : v <> 0%Z) by (unfold v; destruct s as [x|]; [congruence|lia]).
    destruct (Z.eqb_spec v 0); [congruence|].
    destruct (mapm_total k (slice_indices a b v (Z.of_nat (length k)))) as (l & E); [apply slice_in; [lia|exact Hv]|].
    rewrite E. cbn [bind]. exists l. split; [reflexivity|].
    destruct (mapm_pick _ _ _ E) as (_ & Q). intros p Hp. apply In_nth_error in Hp as (j & Hj).
    assert (L : j < length l) by (apply nth_error_Some; congruence). destruct (Q j L) as (p' & E1 & Hin & _). congruence.
Qed.
Print Assumptions C106_slice.

(** A for loop over the list sees every point once, in order, and stops. *)
Theorem C106_iteration : forall (k : kpoints) fuel, length k < fuel -> iterate fuel k 0 = Ok k.
Proof.
  intros k. assert (G : forall fuel m, length k < m + fuel -> m <= length k -> iterate fuel k (Z.of_nat m) = Ok (skipn m k)).
  { induction fuel as [|fuel IH]; intros m H Hm; [lia|]. cbn [iterate getitem]. rewrite pick_spec.
    destruct (Z.leb_spec 0 (Z.of_nat m)); [|lia]. rewrite Nat2Z.id. destruct (nth_error k m) as [p|] eqn:E.
    - cbn [bind]. replace (Z.of_nat m + 1)%Z with (Z.of_nat (S m)) by lia.
      assert (m < length k) by (apply nth_error_Some; congruence). rewrite IH by lia. cbn [bind]. f_equal.
      symmetry. apply skipn_nth, E.
    - cbn [bind]. apply nth_error_None in E. now rewrite skipn_all2 by lia. }
  intros fuel H. apply (G fuel 0); lia.
Qed.
Print Assumptions C106_iteration.

(** * The list used by the SCF code *)
(** kpts.KList keeps the given weights as they are; gamma ignores the weight it is given. *)
Theorem C106_new : forall unit_ P U t (pts : list (R * R * R * R)), mk_ulattice unit_ P = Ok U -> unit_ <> 0%R ->
  let coords := A2 3 (map (fun p => of_rvec (xyz p)) pts) in
  (t <> TBad -> exists k, klist_new U coords (map wt pts) t = Ok k /\ map snd k = map wt pts /\
     k_cart U k = map (fun p => kplace (match t with TCart => KCart | TTpiba => KTpiba | _ => KCryst end) unit_ (c1 P) (c2 P) (c3 P) (xyz p)) pts)
  /\ klist_new U coords (map wt pts) TBad = Err TypeError
  /\ (forall w, t <> TBad -> length w <> length pts -> klist_new U coords w t = Err ValueError)
  /\ (forall n c w, n <> 3 -> klist_new U (A2 n c) w t = Err ValueError)
  /\ (forall v w, klist_new U (A1 v) w t = Err ValueError)
  /\ (forall w, gamma_new w = [(V 0 0 0, 1%R)]).
Proof.
  intros unit_ P U t pts HU Hu coords. pose proof (mk_u _ _ _ HU) as (Eu & HL).
  split; [|split; [reflexivity|split; [|split; [|split]]]].
  - intros Ht. subst coords. unfold klist_new. cbn [Nat.eqb negb]. rewrite !map_map, !map_length, Nat.eqb_refl.
    rewrite (map_ext (fun x => to_rvec (of_rvec (xyz x))) xyz) by (intros; apply to_of).
    unfold k_cart. destruct t; [| | |congruence]; cbn [bind];
      (eexists; split; [reflexivity|]; split; [apply map_snd_combine; now rewrite !map_length|]);
      rewrite <- (map_map fst (cryst2cart (u_lat U))), map_fst_combine by (now rewrite !map_length); rewrite !map_map; apply map_ext; intros p.
    + now apply cryst2cart_axes.
    + rewrite to_of. destruct (cryst_cart_inverse P (u_lat U) (xyz p) HL) as (_ & ->). reflexivity.
    + rewrite to_of. unfold unit2cryst, cryst2cart. rewrite mv_vscale.
      change (mv (primvec (u_lat U)) (cart2cryst (u_lat U) (xyz p))) with (cryst2cart (u_lat U) (cart2cryst (u_lat U) (xyz p))).
      destruct (cryst_cart_inverse P (u_lat U) (xyz p) HL) as (_ & ->). rewrite Eu. reflexivity.
  - intros w Ht Hw. subst coords. unfold klist_new. cbn [Nat.eqb negb].
    assert (X : (length w =? length (map (fun p => of_rvec (xyz p)) pts)) = false) by (rewrite map_length; now apply Nat.eqb_neq).
    rewrite X. destruct t; [reflexivity|reflexivity|reflexivity|congruence].
  - intros n c w Hn. unfold klist_new. destruct (Nat.eqb_spec n 3); [congruence|reflexivity].
  - reflexivity.
  - reflexivity.
Qed.
Print Assumptions C106_new.

(** * q-points *)
(** The rows of epsilon.inp: the first three numbers are the point, every weight is one, q0 is the first
    flagged row, or without flags the first of the shortest vectors. *)
Theorem C106_qpoints : forall unit_ P U flags (rows : list (list R)), mk_ulattice unit_ P = Ok U ->
  Forall (fun l => 3 <= length l) rows -> rows <> [] ->
  (forall k i q0, qpoints U flags rows = Ok (k, i, q0) ->
     k = map (fun l => (V (nth 0 l 0) (nth 1 l 0) (nth 2 l 0), Some 1%R)%R) rows
     /\ i < length rows /\ q0 = fst (nth i k (V 0 0 0, None))
     /\ (forall fl, flags = Some fl -> nth i fl false = true /\ forall j, j < i -> nth j fl false = false)
     /\ (flags = None -> forall j, j < length rows ->
          (len2v (nth i (cart U k) (V 0 0 0)) <= len2v (nth j (cart U k) (V 0 0 0)))%R
          /\ ((j < i)%nat -> len2v (nth i (cart U k) (V 0 0 0)) < len2v (nth j (cart U k) (V 0 0 0)))%R))
  /\ (forall fl, flags = Some fl -> ~ In true fl -> qpoints U flags rows = Err IndexError)
  /\ (flags = None \/ (exists fl j, flags = Some fl /\ j < length rows /\ nth j fl false = true) -> exists r, qpoints U flags rows = Ok r).
Proof.
  intros unit_ P U flags rows HU F N. pose proof (mk_u _ _ _ HU) as (Eu & HL).
  assert (G3 : forallb (fun l => length l =? 3) (map (firstn 3) rows) && negb (length (map (firstn 3) rows) =? 0) = true).
  { apply andb_true_intro. split.
    - apply forallb_forall. intros l Hl. apply in_map_iff in Hl as (r & <- & Hr). apply Nat.eqb_eq. rewrite firstn_length.
      pose proof (proj1 (Forall_forall _ _) F r Hr) as X. cbn beta in X. lia.
    - rewrite map_length. destruct rows; [easy|reflexivity]. }
  assert (TR : forall r, In r rows -> to_rvec (firstn 3 r) = V (nth 0 r 0%R) (nth 1 r 0%R) (nth 2 r 0%R)).
  { intros r Hr. pose proof (proj1 (Forall_forall _ _) F r Hr) as X. cbn beta in X. destruct r as [|a [|b [|c r]]]; cbn in X; try lia. reflexivity. }
  assert (KI : klist_init (A2 3 (map (firstn 3) rows)) (map (fun _ => Some 1%R) (map (firstn 3) rows)) =
     Ok (map (fun l => (V (nth 0 l 0) (nth 1 l 0) (nth 2 l 0), Some 1%R)%R) rows)).
  { unfold klist_init. rewrite !map_length, Nat.eqb_refl. cbn [negb Nat.eqb]. f_equal. rewrite !map_map. clear -TR. induction rows as [|r rows IH]; [reflexivity|].
    cbn [map combine]. rewrite TR by now left. rewrite IH by (intros; apply TR; now right). reflexivity. }
  assert (QN : forall v, qnorm U v = len2v (cryst2cart (u_lat U) v)).
  { intros v. unfold qnorm. rewrite norm2_dot, (dot_cart P) by exact HL. reflexivity. }
  unfold qpoints. cbv zeta. rewrite G3, KI. split; [|split].
  - intros k i q0 H. destruct (index_q0 flags _) as [i'|] eqn:EI; [|discriminate]. cbn [bind] in H.
    destruct (nth_error (map (firstn 3) rows) i') as [v|] eqn:EV; [|discriminate]. injection H as <- <- <-.
    assert (Li : i' < length rows) by (rewrite <- (map_length (firstn 3)); apply nth_error_Some; congruence).
    split; [reflexivity|]. split; [exact Li|]. rewrite nth_error_map in EV. destruct (nth_error rows i') as [r|] eqn:ER; [|discriminate]. assert (EV' : v = firstn 3 r) by (change (Some (firstn 3 r) = Some v) in EV; congruence). subst v. clear EV.
    split; [|split].
    + rewrite TR by (now apply nth_error_In in ER). rewrite (nth_error_nth _ _ _ (map_nth_error (fun l => (V (nth 0 l 0) (nth 1 l 0) (nth 2 l 0), Some 1%R)%R) _ _ ER)). reflexivity.
    + intros fl ->. cbn [index_q0] in EI. apply first_true_spec in EI as (A & B & C1). now split.
    + intros ->. cbn [index_q0] in EI. apply argmin_spec in EI as (A & B & C1).
      assert (CN : forall j, j < length rows -> nth j (map (fun l => qnorm U (to_rvec l)) (map (firstn 3) rows)) 0%R =
         len2v (nth j (cart U (map (fun l => (V (nth 0 l 0) (nth 1 l 0) (nth 2 l 0), Some 1%R)%R) rows)) (V 0 0 0))).
      { intros j Hj. unfold cart. rewrite !map_map. destruct (nth_error rows j) as [s|] eqn:ES; [|apply nth_error_None in ES; lia].
        rewrite (nth_error_nth _ _ _ (map_nth_error (fun x => qnorm U (to_rvec (firstn 3 x))) _ _ ES)).
        rewrite (nth_error_nth _ _ _ (map_nth_error (fun x => cryst2cart (u_lat U) (fst (V (nth 0 x 0) (nth 1 x 0) (nth 2 x 0), Some 1%R))%R) _ _ ES)).
        cbn [fst]. rewrite QN, TR by (now apply nth_error_In in ES). reflexivity. }
      rewrite !map_length in *. intros j Hj. rewrite <- !CN by assumption. split; [now apply B|]. intros Lj. now apply C1.
  - intros fl -> NT. cbn [index_q0]. destruct (first_true fl) as [i|x] eqn:EF.
    + exfalso. apply first_true_spec in EF as (A & B & _). apply NT. rewrite <- B. now apply nth_In.
    + cbn [bind]. f_equal. clear -EF. revert x EF; induction fl as [|b fl IH]; intros x EF; cbn [first_true] in EF; [now injection EF|].
      destruct b; [discriminate|]. destruct (first_true fl); cbn [rmap] in EF; [discriminate|]. injection EF as <-. now apply IH.
  - intros HF.
    assert (EI : exists i, index_q0 flags (map (fun l => qnorm U (to_rvec l)) (map (firstn 3) rows)) = Ok i /\ i < length rows).
    { destruct HF as [-> |(fl & j & -> & Hj & Hfl)]; cbn [index_q0].
      - destruct (argmin _) as [i|x] eqn:E.
        + exists i. split; [reflexivity|]. apply argmin_spec in E as (A & _). now rewrite !map_length in A.
        + exfalso. destruct rows; [easy|]. cbn [map argmin] in E. destruct (argmin _); [destruct (rltb _ _)|]; discriminate.
      - clear -Hj Hfl. assert (G : exists i, first_true fl = Ok i /\ i <= j).
        { revert j Hj Hfl; induction fl as [|b fl IH]; intros j Hj Hfl; [now destruct j|]. cbn [first_true]. destruct b; [exists 0; split; [reflexivity|lia]|].
          destruct j as [|j]; [discriminate|]. destruct (IH j ltac:(lia) Hfl) as (i & -> & Hi). exists (S i). split; [reflexivity|lia]. }
        destruct G as (i & E & Hi). exists i. split; [exact E|lia]. }
    destruct EI as (i & -> & Hi). cbn [bind]. destruct (nth_error (map (firstn 3) rows) i) eqn:E; [eexists; reflexivity|].
    apply nth_error_None in E. rewrite map_length in E. lia.
Qed.
Print Assumptions C106_qpoints.

(** A list of two points with weights 1 and 3. *)
Example C106_instance : exists U, mk_ulattice 2 mid = Ok U /\ (2 <> 0)%R /\
  Forall (fun p => 0 <= wt p)%R [(0, 0, 0, 1); (1, 2, 3, 3)]%R /\ (0 < total (map wt [(0, 0, 0, 1); (1, 2, 3, 3)]%R))%R.
Proof.
  unfold mk_ulattice, mk_lattice. destruct (Req_EM_T (mdet mid) 0) as [E|E].
  - exfalso. unfold mdet, mid, vdot, vcross in E. cbn in E. lra.
  - eexists. split; [reflexivity|]. split; [lra|]. split; [repeat constructor; cbn; lra|cbn; lra].
Qed.
