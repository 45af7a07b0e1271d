(** Proofs for DistHamModel.v. *)
From Verif Require Import Base SortModel SortProofs GIndexModel GIndexProofs LatModel GSphereModel CBase FFTModel FFTSpec FFTProofs FFTProofs2
  DistModel DistSpec DistProofs DistProofs2 DistProofs3 PropsDist KSHamModel KSHamSpec KSHamProofs TddftModel DistHamModel.
Open Scope nat_scope.

Definition total (cnt : list nat) : nat := fold_right Nat.add 0 cnt.

Lemma split_map {A B} (f : A -> B) cnt : forall l, split_counts cnt (map f l) = map (map f) (split_counts cnt l).
Proof. induction cnt as [|n c IH]; intros l; cbn; [reflexivity|]. now rewrite firstn_map, skipn_map, IH. Qed.
Lemma zip_firstn {A B D} (f : A -> B -> D) n : forall a b, firstn n (zip_with f a b) = zip_with f (firstn n a) (firstn n b).
Proof. induction n as [|n IH]; intros [|x a] [|y b]; cbn; try reflexivity. now rewrite IH. Qed.
Lemma zip_nil_r {A B D} (f : A -> B -> D) a : zip_with f a [] = [].
Proof. now destruct a. Qed.
Lemma zip_skipn {A B D} (f : A -> B -> D) n : forall a b, skipn n (zip_with f a b) = zip_with f (skipn n a) (skipn n b).
Proof. induction n as [|n IH]; intros [|x a] [|y b]; cbn; try reflexivity; [now rewrite zip_nil_r|apply IH]. Qed.
Lemma split_zip {A B D} (f : A -> B -> D) cnt : forall a b,
  split_counts cnt (zip_with f a b) = zip_with (zip_with f) (split_counts cnt a) (split_counts cnt b).
Proof. induction cnt as [|n c IH]; intros a b; cbn; [reflexivity|]. now rewrite zip_firstn, zip_skipn, IH. Qed.
Lemma split_length {A} cnt : forall l : list A, length (split_counts cnt l) = length cnt.
Proof. induction cnt as [|n c IH]; intros l; cbn; [reflexivity|]. now rewrite IH. Qed.
Lemma split_repeat {A} (x : A) cnt : map (repeat x) cnt = split_counts cnt (repeat x (total cnt)).
Proof.
  induction cnt as [|n c IH]; [reflexivity|]. cbn [map split_counts total fold_right]. fold (total c). rewrite repeat_app.
  rewrite firstn_app, firstn_all2, repeat_length, Nat.sub_diag by (rewrite repeat_length; lia). cbn [firstn]. rewrite app_nil_r.
  rewrite skipn_app, skipn_all2, repeat_length, Nat.sub_diag by (rewrite repeat_length; lia). cbn [skipn app]. now rewrite IH.
Qed.
Lemma split_lens {A} cnt : forall l : list A, length l = total cnt -> map (@length A) (split_counts cnt l) = cnt.
Proof.
  induction cnt as [|n c IH]; intros l H; [reflexivity|]. cbn [split_counts map]. cbn in H. fold (total c) in H.
  rewrite firstn_length, IH by (rewrite skipn_length; lia). f_equal. lia.
Qed.

(** Sums over ranks of products of pieces. *)
Lemma vdot1_app a1 : forall b1 a2 b2, length a1 = length b1 -> vdot1 (a1 ++ a2) (b1 ++ b2) = (vdot1 a1 b1 + vdot1 a2 b2)%C.
Proof.
  induction a1 as [|x a1 IH]; intros [|y b1] a2 b2 H; cbn in H; try lia.
  - cbn [app]. unfold vdot1 at 2. cbn. now rewrite Cplus_0_l.
  - unfold vdot1 in *. cbn [app zip_with fold_right]. rewrite IH by lia. now rewrite Cplus_assoc.
Qed.
Lemma allsum_vdot cnt : forall a b, length a = total cnt -> length b = total cnt ->
  allsum (zip_with vdot1 (split_counts cnt a) (split_counts cnt b)) = vdot1 a b.
Proof.
  induction cnt as [|n c IH]; intros a b Ha Hb.
  - destruct a; [|cbn in Ha; lia]. reflexivity.
  - cbn in Ha, Hb. fold (total c) in Ha, Hb. cbn [split_counts zip_with]. unfold allsum in *. cbn [fold_right].
    rewrite IH by (rewrite skipn_length; lia). rewrite <- vdot1_app by (rewrite !firstn_length; lia).
    now rewrite !firstn_skipn.
Qed.

Lemma zip_with_map_l {A A' B D} (f : A' -> B -> D) (g : A -> A') a : forall b, zip_with f (map g a) b = zip_with (fun x y => f (g x) y) a b.
Proof. induction a as [|x a IH]; intros [|y b]; cbn; [reflexivity..|]. now rewrite IH. Qed.
Lemma zip_with_map_r {A B B' D} (f : A -> B' -> D) (g : B -> B') a : forall b, zip_with f a (map g b) = zip_with (fun x y => f x (g y)) a b.
Proof. induction a as [|x a IH]; intros [|y b]; cbn; [reflexivity..|]. now rewrite IH. Qed.
Lemma zip_with_same {A D} (f : A -> A -> D) a : zip_with f a a = map (fun x => f x x) a.
Proof. induction a as [|x a IH]; cbn; [reflexivity|]. now rewrite IH. Qed.
Lemma map_zip {A B D E} (g : D -> E) (f : A -> B -> D) a : forall b, map g (zip_with f a b) = zip_with (fun x y => g (f x y)) a b.
Proof. induction a as [|x a IH]; intros [|y b]; cbn; [reflexivity..|]. now rewrite IH. Qed.

(** The nonlocal term column by column. *)
Definition rows_on (fs : list (vec3 -> C)) (gv : list vec3) : list (list C) := map (fun f => map f gv) fs.
Lemma rows_nth fs gv i : i < length fs -> nth i (rows_on fs gv) [] = map (nth i fs (fun _ => RtoC 0)) gv.
Proof. intros H. unfold rows_on. rewrite (nth_indep _ [] (map (fun _ : vec3 => RtoC 0) gv)) by now rewrite map_length. apply (map_nth (fun f => map f gv)). Qed.
Lemma zip_ext {A B D} (f g : A -> B -> D) a : (forall x y, f x y = g x y) -> forall b, zip_with f a b = zip_with g a b.
Proof. intros H. induction a as [|x a IH]; intros [|y b]; cbn; try reflexivity. now rewrite H, IH. Qed.
Lemma columns fs (gv : list vec3) (w : nat -> C) (hp : list C) : length gv = length hp ->
  map (fun g => (csum (length (rows_on fs gv)) (fun i => nth g (nth i (rows_on fs gv) []) (RtoC 0) * w i) + nth g hp (RtoC 0))%C) (seq 0 (length hp))
  = zip_with (fun gk c => (csum (length fs) (fun i => nth i fs (fun _ => RtoC 0) gk * w i) + c)%C) gv hp.
Proof.
  intros H. apply (nth_ext _ _ (RtoC 0) (RtoC 0)).
  - rewrite map_length, seq_length, zip_with_length. lia.
  - rewrite map_length, seq_length. intros g Hg. rewrite nth_map_seq by assumption.
    assert (Hg' : g < length gv) by (rewrite H; exact Hg).
    rewrite (zip_with_nth _ gv hp g (0, 0, 0)%Z (RtoC 0) (RtoC 0) Hg' Hg). f_equal.
    replace (length (rows_on fs gv)) with (length fs) by (unfold rows_on; now rewrite map_length).
    apply csum_ext. intros i Hi. rewrite rows_nth by assumption. f_equal.
    rewrite (nth_indep _ _ (nth i fs (fun _ => RtoC 0) (0, 0, 0)%Z)) by (rewrite map_length; exact Hg'). apply map_nth.
Qed.
Lemma nonlocal_zip fs dij (gv : list vec3) psi (hp : list C) : length gv = length hp ->
  nonlocal_band (rows_on fs gv, dij) psi hp
  = zip_with (fun gk c => (csum (length fs) (fun i => nth i fs (fun _ => RtoC 0) gk
      * csum (length fs) (fun j => dij i j * vdot1 (map (nth j fs (fun _ => RtoC 0)) gv) psi)) + c)%C) gv hp.
Proof.
  intros H. unfold nonlocal_band. rewrite columns by assumption.
  apply zip_ext. intros x y. f_equal. apply csum_ext. intros i _. f_equal.
  replace (length (rows_on fs gv)) with (length fs) by (unfold rows_on; now rewrite map_length). apply csum_ext. intros j Hj. now rewrite rows_nth.
Qed.
Definition dist_apply (proj : nat -> C) (vds : list (list (list C) * (nat -> nat -> C))) (hpsi : list (list C)) : list (list C) :=
  zip_with (fun vd hp =>
    map (fun g => (csum (length (fst vd)) (fun i => nth g (nth i (fst vd) []) (RtoC 0) * csum (length (fst vd)) (fun j => (snd vd i j * proj j)%C)) + nth g hp (RtoC 0))%C)
        (seq 0 (length hp))) vds hpsi.
Lemma dist_apply_eq vds psi hpsi : dist_nonlocal_band vds psi hpsi
  = dist_apply (fun j => allsum (zip_with (fun vd p => vdot1 (nth j (fst vd) []) p) vds psi)) vds hpsi.
Proof. reflexivity. Qed.
Lemma dist_nonlocal_split cnt fs dij (gv : list vec3) psi hp :
  length gv = total cnt -> length psi = total cnt -> length hp = total cnt ->
  dist_nonlocal_band (map (fun g => (rows_on fs g, dij)) (split_counts cnt gv)) (split_counts cnt psi) (split_counts cnt hp)
  = split_counts cnt (nonlocal_band (rows_on fs gv, dij) psi hp).
Proof.
  intros Hg Hp Hh. rewrite nonlocal_zip by lia. rewrite dist_apply_eq. rewrite split_zip.
  match goal with |- dist_apply ?f _ _ = _ => set (PR := f) end.
  assert (PJ : forall j, j < length fs -> PR j = vdot1 (map (nth j fs (fun _ => RtoC 0)) gv) psi).
  { intros j Hj. unfold PR. rewrite zip_with_map_l. cbn [fst]. rewrite <- (allsum_vdot cnt) by (rewrite ?map_length; assumption).
    rewrite split_map, zip_with_map_l. f_equal. apply zip_ext. intros x y. now rewrite rows_nth. }
  clearbody PR.
  unfold dist_apply. rewrite zip_with_map_l. cbn [fst snd].
  assert (LL : map (@length vec3) (split_counts cnt gv) = map (@length C) (split_counts cnt hp)) by now rewrite !split_lens.
  revert LL. generalize (split_counts cnt hp). generalize (split_counts cnt gv).
  induction l as [|g l IH]; intros [|p q] LL; cbn [zip_with]; try reflexivity. cbn [map] in LL. injection LL as L1 L2.
  rewrite IH by assumption. f_equal. rewrite columns by assumption.
  apply zip_ext. intros x y. f_equal. apply csum_ext. intros i _. f_equal.
  replace (length (rows_on fs g)) with (length fs) by (unfold rows_on; now rewrite map_length). apply csum_ext. intros j Hj. now rewrite PJ.
Qed.
Lemma nonlocal_len vd psi hp : length (nonlocal_band vd psi hp) = length hp.
Proof. unfold nonlocal_band. destruct vd. now rewrite map_length, seq_length. Qed.

Section Group.
  Context (nx ny nz : nat) (gs : list vec3) (s : gspace) (P : nat).
  Hypothesis Hs : gspace_base (zshape nx ny nz) gs = Ok s.
  Hypothesis HP : 0 < P.
  Hypothesis HPs : P <= num_sticks ny nz gs.
  Hypothesis HPx : P <= nx.
  Let idx := map Z.to_nat (gs_idxgrid s).
  Let gc := gcnt ny nz idx P.
  Let rc := rcnt nx ny nz P.
  Let ng := length (gs_cryst s).
  Notation inv := (oinv nx ny nz idx false P).

  Lemma U_HPs : P <= length (np_unique (map (iyz_of ny nz) idx)).
  Proof. unfold idx. now rewrite (FG_num nx ny nz gs s Hs). Qed.
  Lemma U_idx : forall i, In i idx -> i < nx * ny * nz.
  Proof. exact (FG_bound nx ny nz gs s Hs). Qed.
  Lemma U_sort : nsorted (map (iyz_of ny nz) idx).
  Proof. exact (FG_sorted nx ny nz gs s Hs). Qed.
  Lemma U_len : length idx = ng.
  Proof. exact (FG_len nx ny nz gs s Hs). Qed.
  Lemma U_call os c : inv os -> well_sized (nx * ny * nz) ng c ->
    exists os', inv os' /\ dist_call os (scattered gc rc c)
      = Ok (os', match c with R2G _ => split_counts gc (full_fun nx ny nz idx false c) | G2R _ => split_counts rc (full_fun nx ny nz idx false c) end).
  Proof.
    intros Ho Hw. rewrite <- U_len in Hw.
    destruct (call_eq nx ny nz idx false P U_idx U_sort HP U_HPs HPx os c Ho Hw) as (os' & out & E & I & _ & O).
    exists os'. split; [exact I|]. fold gc rc in E. rewrite E, O. destruct c; reflexivity.
  Qed.
End Group.

Lemma total_app a b : total (a ++ b) = total a + total b.
Proof. induction a as [|x a IH]; cbn; [reflexivity|]. fold (total a) (total (a ++ b)). rewrite IH. lia. Qed.
Lemma telescope (F : nat -> nat) n : (forall j, j < n -> F j <= F (S j)) -> F 0 <= F n /\ total (map (fun j => F (S j) - F j) (seq 0 n)) = F n - F 0.
Proof.
  induction n as [|n IH]; intros H; [cbn; lia|]. rewrite seq_S, map_app, total_app.
  destruct IH as (A & B); [intros; apply H; lia|]. rewrite B. cbn. specialize (H n ltac:(lia)). lia.
Qed.

Section Group2.
  Context (nx ny nz : nat) (gs : list vec3) (s : gspace) (P : nat).
  Hypothesis Hs : gspace_base (zshape nx ny nz) gs = Ok s.
  Hypothesis HP : 0 < P.
  Hypothesis HPs : P <= num_sticks ny nz gs.
  Hypothesis HPx : P <= nx.
  Let idx := map Z.to_nat (gs_idxgrid s).
  Let gc := gcnt ny nz idx P.
  Let rc := rcnt nx ny nz P.
  Let ng := length (gs_cryst s).
  Notation inv := (oinv nx ny nz idx false P).

  Lemma gc_total : total gc = ng.
  Proof.
    pose proof (U_HPs nx ny nz gs s P Hs HPs) as H1. pose proof (U_idx nx ny nz gs s Hs) as H2. pose proof (U_sort nx ny nz gs s Hs) as H3.
    fold idx in H1, H2, H3. unfold gc, gcnt. destruct (telescope (G ny nz idx P) P) as (_ & E).
    - intros j Hj. now apply (G_mono nx).
    - rewrite E. rewrite (G_0 nx), (G_P nx) by assumption. rewrite Nat.sub_0_r. exact (U_len nx ny nz gs s Hs).
  Qed.
  Lemma rc_total : total rc = nx * ny * nz.
  Proof.
    unfold rc, rcnt. destruct (telescope (fun j => st nx P j * (ny * nz)) P) as (_ & E).
    - intros j Hj. apply Nat.mul_le_mono_r, st_le_S; assumption.
    - rewrite E. rewrite st_0, st_P by assumption. lia.
  Qed.
  Lemma gc_len : length gc = P. Proof. unfold gc, gcnt. now rewrite map_length, seq_length. Qed.
  Lemma rc_len : length rc = P. Proof. unfold rc, rcnt. now rewrite map_length, seq_length. Qed.

  Lemma g2r_pieces os psi : inv os -> length psi = ng ->
    exists os', inv os' /\ dist_g2r os (split_counts gc psi) = Ok (os', split_counts rc (full_fun nx ny nz idx false (G2R psi))).
  Proof. intros Ho Hp. exact (U_call nx ny nz gs s P Hs HP HPs HPx os (G2R psi) Ho Hp). Qed.
  Lemma r2g_pieces os f : inv os -> length f = nx * ny * nz ->
    exists os', inv os' /\ dist_r2g os (split_counts rc f) = Ok (os', split_counts gc (full_fun nx ny nz idx false (R2G f))).
  Proof. intros Ho Hp. exact (U_call nx ny nz gs s P Hs HP HPs HPx os (R2G f) Ho Hp). Qed.
  Lemma fun_len c : length (full_fun nx ny nz idx false c) = match c with R2G _ => ng | G2R _ => nx * ny * nz end.
  Proof. rewrite full_fun_len. destruct c; [|reflexivity]. exact (U_len nx ny nz gs s Hs). Qed.

  Lemma normalize_pieces psi : length psi = ng ->
    dist_normalize1 (split_counts gc psi) = split_counts gc (map (fun c => c / RtoC (sqrt (row_norm2 psi)))%C psi).
  Proof.
    intros Hp. unfold dist_normalize1. rewrite <- (zip_with_same vdot1), allsum_vdot by (rewrite gc_total; exact Hp). now rewrite split_map.
  Qed.
  Lemma density_pieces f p : split_counts rc (map (Cmult (RtoC f)) (get_density p)) = map (fun p => map (Cmult (RtoC f)) (get_density p)) (split_counts rc p).
  Proof.
    rewrite split_map. unfold get_density. rewrite split_zip, split_map, zip_with_map_l, zip_with_same, map_map. reflexivity.
  Qed.
  Lemma rho_sum_pieces rows : forall os occ acc o, inv os -> (forall p, In p rows -> length p = ng) -> full_inv nx ny nz idx false o ->
    exists os', inv os' /\ dist_rho_sum os (map (split_counts gc) rows) occ (split_counts rc acc) = Ok (os', split_counts rc (snd (rho_sum o rows occ acc))).
  Proof.
    induction rows as [|p rows IH]; intros os occ acc o Ho Hp Hf; [now exists os|]. destruct occ as [|f occ]; [now exists os|].
    cbn [map dist_rho_sum rho_sum]. destruct (g2r_pieces os p Ho) as (o1 & I1 & ->); [apply Hp; now left|]. cbn [bind fst snd].
    pose proof (full_call_inv nx ny nz idx false o (G2R p) Hf) as H1. pose proof (full_call_fun nx ny nz idx false o (G2R p) Hf) as E1. cbn [full_call] in H1, E1.
    destruct (full_g2r o p) as [of pr]. cbn [fst snd] in H1, E1. subst pr. rewrite <- density_pieces, <- split_zip.
    apply IH; [assumption|intros; apply Hp; now right|assumption].
  Qed.
  Lemma dist_rho_eq os evc occ vol o : inv os -> evc <> [] -> (forall p, In p evc -> length p = ng) -> full_inv nx ny nz idx false o ->
    exists os' o' evc' rho, inv os' /\ compute_rho (nx * ny * nz) vol o evc occ (Slice 0 (length evc)) = Ok (o', evc', rho)
      /\ dist_compute_rho rc vol os (map (split_counts gc) evc) occ = Ok (os', map (split_counts gc) evc', split_counts rc rho).
  Proof.
    intros Ho Hn Hp Hf. assert (LN : forall p, In p (normalize evc) -> length p = ng).
    { intros p H. unfold normalize in H. apply in_map_iff in H as (q & <- & Hq). rewrite map_length. now apply Hp. }
    assert (OL : (length (normalize evc) =? 0) = false). { unfold normalize. rewrite map_length. destruct evc; [congruence|reflexivity]. }
    assert (ER : map dist_normalize1 (map (split_counts gc) evc) = map (split_counts gc) (normalize evc)).
    { unfold normalize. rewrite !map_map. apply map_ext_in. intros p H. apply normalize_pieces. now apply Hp. }
    unfold compute_rho, dist_compute_rho. rewrite Nat.sub_0_r. cbn [skipn]. rewrite firstn_all, ER, map_length, OL.
    rewrite split_repeat, rc_total.
    assert (XO : exists occ', (firstn (length evc) occ = occ') /\ forall os acc, dist_rho_sum os (map (split_counts gc) (normalize evc)) occ acc = dist_rho_sum os (map (split_counts gc) (normalize evc)) occ' acc).
    { exists (firstn (length evc) occ). split; [reflexivity|]. replace (length evc) with (length (normalize evc)) by (unfold normalize; now rewrite map_length).
      generalize (normalize evc). clear. intros rows. revert occ. induction rows as [|p rows IH]; intros [|f occ] os acc; cbn [map firstn length dist_rho_sum]; try reflexivity.
      destruct (dist_g2r os _) as [r|]; [|reflexivity]. cbn [bind]. apply IH. }
    destruct XO as (occ' & XE & XO). rewrite XE, XO.
    destruct (rho_sum_pieces (normalize evc) os occ' (repeat (RtoC 0) (nx * ny * nz)) o Ho LN Hf) as (os' & I' & ->). cbn [bind fst snd].
    destruct (rho_sum o (normalize evc) occ' (repeat (RtoC 0) (nx * ny * nz))) as (o', rho). cbn [snd].
    exists os', o'. eexists _, _. split; [exact I'|]. split; [reflexivity|]. rewrite split_map. f_equal. f_equal. f_equal.
    unfold set_slice. cbn [firstn app]. rewrite skipn_all2; [now rewrite app_nil_r|]. unfold normalize. rewrite map_length. lia.
  Qed.

  Context (l : lattice) (k : rvec) (nloc : list (list (vec3 -> C) * (nat -> nat -> C))) (vloc : list C) (gss : list gspace).
  Hypothesis Hv : length vloc = nx * ny * nz.
  Hypothesis Hg : map gs_cryst gss = split_counts gc (gs_cryst s).
  Let h := ham_on l k nloc s vloc.
  Let hs := zip_with (ham_on l k nloc) gss (split_counts rc vloc).

  Lemma gss_len : length gss = P.
  Proof. pose proof (f_equal (@length _) Hg) as E. rewrite map_length, split_length, gc_len in E. exact E. Qed.
  Lemma zip_const_l {A B D} (f : A -> D) (a : list A) : forall b : list B, length a = length b -> zip_with (fun x _ => f x) a b = map f a.
  Proof. induction a as [|x a IH]; intros [|y b] H; cbn in *; try lia; [reflexivity|]. now rewrite IH by lia. Qed.
  Lemma zip_const_r {A B D} (f : B -> D) (a : list A) : forall b : list B, length a = length b -> zip_with (fun _ y => f y) a b = map f b.
  Proof. induction a as [|x a IH]; intros [|y b] H; cbn in *; try lia; [reflexivity|]. now rewrite IH by lia. Qed.
  Lemma hs_len2 : length gss = length (split_counts rc vloc).
  Proof. now rewrite gss_len, split_length, rc_len. Qed.
  Lemma hs_vloc : map kh_vloc hs = split_counts rc vloc.
  Proof. unfold hs. rewrite map_zip. cbn. rewrite zip_const_r by exact hs_len2. apply map_id. Qed.
  Lemma hs_ke : map ke_gk hs = split_counts gc (ke_gk h).
  Proof.
    unfold hs. rewrite map_zip. unfold ke_gk at 1. cbn.
    rewrite (zip_const_l (fun x => map _ (gs_cryst x))) by exact hs_len2.
    unfold h, ke_gk. cbn. rewrite split_map, <- Hg, map_map. reflexivity.
  Qed.
  Lemma hs_nloc i d : i < length nloc -> map (fun h' => nth i (kh_nloc h') d) hs
    = map (fun g => (rows_on (fst (nth i nloc ([], fun _ _ => RtoC 0))) g, snd (nth i nloc ([], fun _ _ => RtoC 0)))) (split_counts gc (gs_cryst s)).
  Proof.
    intros Hi. unfold hs. rewrite map_zip. cbn [kh_nloc ham_on].
    rewrite (zip_const_l (fun x => nth i (map _ nloc) d)) by exact hs_len2. rewrite <- Hg, map_map. apply map_ext. intros g.
    rewrite (nth_indep _ d ((fun sp => (map (fun f => map f (gs_cryst g)) (fst sp), snd sp)) ([], fun _ _ => RtoC 0))) by now rewrite map_length.
    rewrite (map_nth (fun sp => (map (fun f => map f (gs_cryst g)) (fst sp), snd sp))). reflexivity.
  Qed.

  Lemma kinetic_pieces psi : zip_with (fun h' p => zip_with Cmult (ke_gk h') p) hs (split_counts gc psi) = split_counts gc (zip_with Cmult (ke_gk h) psi).
  Proof. rewrite split_zip, <- hs_ke, zip_with_map_l. reflexivity. Qed.

  Definition loc_of (psi : list C) : list C :=
    full_fun nx ny nz idx false (R2G (zip_with Cmult (full_fun nx ny nz idx false (G2R psi)) vloc)).
  Lemma local_band_pieces os psi hpsi : inv os -> length psi = ng ->
    exists os', inv os' /\ dist_local_band hs os (split_counts gc psi) (split_counts gc hpsi)
      = Ok (os', split_counts gc (zip_with Cplus hpsi (loc_of psi))).
  Proof.
    intros Ho Hp. unfold dist_local_band. destruct (g2r_pieces os psi Ho Hp) as (o1 & I1 & ->). cbn [bind fst snd].
    rewrite hs_vloc, <- split_zip.
    destruct (r2g_pieces o1 (zip_with Cmult (full_fun nx ny nz idx false (G2R psi)) vloc) I1) as (o2 & I2 & ->).
    { rewrite zip_with_length, fun_len, Hv. apply Nat.min_id. }
    cbn [bind fst snd]. exists o2. split; [exact I2|]. now rewrite <- split_zip.
  Qed.
  Lemma local_bands_pieces l_psi : forall os l_hpsi, inv os -> length l_psi = length l_hpsi -> (forall p, In p l_psi -> length p = ng) ->
    exists os', inv os' /\ dist_local_bands hs os (map (split_counts gc) l_psi) (map (split_counts gc) l_hpsi)
      = Ok (os', map (split_counts gc) (zip_with (fun psi hpsi => zip_with Cplus hpsi (loc_of psi)) l_psi l_hpsi)).
  Proof.
    induction l_psi as [|p ps IH]; intros os [|q qs] Ho HL Hp; cbn in HL; try lia; [now exists os|].
    cbn [map dist_local_bands]. destruct (local_band_pieces os p q Ho) as (o1 & I1 & ->); [apply Hp; now left|]. cbn [bind fst snd].
    destruct (IH o1 qs I1) as (o2 & I2 & ->); [lia|intros; apply Hp; now right|]. cbn [bind fst snd]. exists o2. now split.
  Qed.

  Lemma nonlocal_step i l_psi : i < length nloc -> (forall p, In p l_psi -> length p = ng) -> forall l_hpsi, (forall p, In p l_hpsi -> length p = ng) ->
    zip_with (dist_nonlocal_band (map (fun h' => nth i (kh_nloc h') ([], fun _ _ => RtoC 0)) hs)) (map (split_counts gc) l_psi) (map (split_counts gc) l_hpsi)
    = map (split_counts gc) (zip_with (nonlocal_band (nth i (kh_nloc h) ([], fun _ _ => RtoC 0))) l_psi l_hpsi).
  Proof.
    intros Hi. rewrite hs_nloc by assumption.
    assert (E : nth i (kh_nloc h) ([], fun _ _ => RtoC 0) = (rows_on (fst (nth i nloc ([], fun _ _ => RtoC 0))) (gs_cryst s), snd (nth i nloc ([], fun _ _ => RtoC 0)))).
    { unfold h. cbn [kh_nloc ham_on].
      rewrite (nth_indep _ _ ((fun sp => (map (fun f => map f (gs_cryst s)) (fst sp), snd sp)) ([], fun _ _ => RtoC 0))) by now rewrite map_length.
      rewrite (map_nth (fun sp => (map (fun f => map f (gs_cryst s)) (fst sp), snd sp))). reflexivity. }
    rewrite E. induction l_psi as [|p ps IH]; intros Hp [|q qs] Hq; cbn [map zip_with]; try reflexivity.
    rewrite IH; [|intros z Hz; apply Hp; now right|intros z Hz; apply Hq; now right]. f_equal.
    apply dist_nonlocal_split; rewrite gc_total; [reflexivity|apply Hp; now left|apply Hq; now left].
  Qed.
  Lemma fold_nth_seq {A B} (f : A -> B -> A) (d : B) (bs : list B) : forall a, fold_left f bs a = fold_left (fun x i => f x (nth i bs d)) (seq 0 (length bs)) a.
  Proof.
    induction bs as [|b bs IH] using rev_ind; intros a; [reflexivity|].
    rewrite app_length. cbn [length]. rewrite Nat.add_1_r, seq_S, !fold_left_app. cbn [fold_left]. rewrite IH.
    rewrite app_nth2, Nat.sub_diag by (cbn; lia). cbn [nth]. f_equal.
    assert (G : forall js x, (forall j, In j js -> j < length bs) -> fold_left (fun x i => f x (nth i bs d)) js x = fold_left (fun x i => f x (nth i (bs ++ [b]) d)) js x).
    { induction js as [|j js IHj]; intros x Hj; [reflexivity|]. cbn [fold_left]. rewrite (app_nth1 bs) by (apply Hj; now left). apply IHj. intros. apply Hj. now right. }
    apply G. intros j Hj. apply in_seq in Hj. lia.
  Qed.
  Lemma nonlocal_pieces l_psi l_hpsi : length l_psi = length l_hpsi -> (forall p, In p l_psi -> length p = ng) -> (forall p, In p l_hpsi -> length p = ng) ->
    dist_nonlocal_bands hs (length nloc) (map (split_counts gc) l_psi) (map (split_counts gc) l_hpsi)
    = map (split_counts gc) (nonlocal_bands h l_psi l_hpsi).
  Proof.
    intros HL Hp. unfold dist_nonlocal_bands, nonlocal_bands.
    rewrite (fold_nth_seq _ ([], fun _ _ => RtoC 0) (kh_nloc h)). replace (length (kh_nloc h)) with (length nloc) by (unfold h; cbn; now rewrite map_length).
    assert (Q : forall js, (forall j, In j js -> j < length nloc) -> forall hp, (forall p, In p hp -> length p = ng) ->
      fold_left (fun hp s0 => zip_with (dist_nonlocal_band (map (fun h0 => nth s0 (kh_nloc h0) ([], fun _ _ => RtoC 0)) hs)) (map (split_counts gc) l_psi) hp) js (map (split_counts gc) hp)
      = map (split_counts gc) (fold_left (fun x i => zip_with (nonlocal_band (nth i (kh_nloc h) ([], fun _ _ => RtoC 0))) l_psi x) js hp)).
    { induction js as [|j js IH]; intros Hj hp Hq; [reflexivity|]. cbn [fold_left].
      rewrite nonlocal_step by (try assumption; apply Hj; now left). apply IH; [intros; apply Hj; now right|].
      intros p Hin. apply (In_nth _ _ []) in Hin as (b & Hb & <-). rewrite zip_with_length in Hb.
      rewrite (zip_with_nth _ _ _ _ [] []) by lia. rewrite nonlocal_len. apply Hq, nth_In. lia. }
    apply Q. intros j Hj. apply in_seq in Hj. lia.
  Qed.

  Lemma dist_h_psi_eq os l_psi l_hpsi : inv os -> length l_psi = length l_hpsi -> (forall p, In p l_psi -> length p = ng) ->
    forall o, full_inv nx ny nz idx false o ->
    exists os' o' out, inv os' /\ h_psi h o l_psi l_hpsi = Ok (o', out)
      /\ dist_h_psi hs (length nloc) os (map (split_counts gc) l_psi) (map (split_counts gc) l_hpsi) = Ok (os', map (split_counts gc) out).
  Proof.
    intros Ho HL Hp o Hf.
    set (hp0 := map (zip_with Cmult (ke_gk h)) l_psi).
    set (hp1 := zip_with (fun psi hpsi => zip_with Cplus hpsi (loc_of psi)) l_psi hp0).
    assert (L0 : length hp0 = length l_psi) by (unfold hp0; now rewrite map_length).
    assert (LK : length (ke_gk h) = ng) by (unfold ke_gk; now rewrite map_length).
    destruct (local_bands_pieces l_psi os hp0 Ho) as (os' & I' & E'); [lia|assumption|]. fold hp1 in E'.
    destruct (local_bands_eq nx ny nz h l_psi o hp0 Hf) as (Hf1 & E1); [lia|].
    destruct (local_bands h o l_psi hp0) as (o1, hpx) eqn:EL. cbn [fst snd] in Hf1, E1.
    assert (EX : hpx = hp1) by exact E1.
    assert (L1 : forall p, In p hp1 -> length p = ng).
    { intros p Hin. apply (In_nth _ _ []) in Hin as (b & Hb & <-). unfold hp1 in *. rewrite zip_with_length in Hb.
      rewrite (zip_with_nth _ _ _ _ [] []) by lia. rewrite zip_with_length. unfold loc_of. rewrite fun_len.
      unfold hp0. rewrite (nth_indep _ _ (zip_with Cmult (ke_gk h) [])) by (rewrite map_length; lia). rewrite map_nth, zip_with_length, LK.
      rewrite Hp by (apply nth_In; lia). lia. }
    exists os', o1, (nonlocal_bands h l_psi hp1). split; [assumption|]. split.
    - unfold h_psi, assert_. rewrite HL, Nat.eqb_refl. cbn [bind]. fold hp0. rewrite EL, EX. reflexivity.
    - unfold dist_h_psi, assert_. rewrite !map_length, HL, Nat.eqb_refl. cbn [bind].
      rewrite map_map. rewrite (map_ext _ _ kinetic_pieces). rewrite <- (map_map (zip_with Cmult (ke_gk h)) (split_counts gc)). fold hp0.
      rewrite E'. cbn [bind fst snd]. rewrite nonlocal_pieces; [reflexivity| |assumption|assumption].
      unfold hp1. rewrite zip_with_length. lia.
  Qed.
End Group2.
