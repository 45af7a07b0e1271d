(** C73: the UPF pseudopotential reader. *)
From Coq Require Import Reals Ascii String Lra.
From Verif Require Import Base QeInpModel QeInpSpec QeInpProofs LatModel LatProofs UpfModel PropsQeInp.
Local Open Scope nat_scope.

(** ---- vocabulary ---- *)
(** A text of white-space separated decimal numbers and their values. *)
Definition nums (t : text) (xs : list R) : Prop :=
  exists lead ws rs, row_ok lead ws /\ t = row_text lead ws /\
    Forall2 (fun w r => real_ok r /\ e_exp r /\ fst w = real_text r) ws rs /\ xs = map real_value rs.
(** What an attribute text means for a header field. *)
Definition attr_means (ty : typ) (t : text) (v : value) : Prop :=
  match ty with
  | TStr => v = VStr t
  | TBool => exists b, v = VBool b /\ (b = true <-> t = T "T" \/ t = T "t")
  | TInt => exists w s ds w', spaces w /\ spaces w' /\ int_ok ds /\ t = w ++ int_text s ds ++ w' /\ v = VInt (signed s (denotes ds))
  | TFloat => exists w r w', spaces w /\ spaces w' /\ real_ok r /\ e_exp r /\ t = w ++ real_text r ++ w' /\ v = VFloat (real_value r)
  | TDict => False
  end.
Definition tagged (tag : text) (ss : list sect) : list sect := filter (fun s => teqb (s_tag s) tag) ss.
Definition kids_of (tag ktag : text) (ss : list sect) : list leaf :=
  filter (fun g => teqb (l_tag g) ktag) (flat_map s_kids (tagged tag ss)).

(** ---- lemmas ---- *)
Lemma numbers_ok t xs : nums t xs -> numbers (Some t) = Ok xs.
Proof.
  intros (lead & ws & rs & H1 & -> & H2 & ->). cbn [numbers]. rewrite words_row by exact H1. clear H1. apply sequence_ok.
  induction H2 as [|[w s] r ws rs (A & B & E) _ IH]; [easy|]. cbn [fst] in E. subst w. cbn [map fst]. rewrite py_float_text by assumption. now rewrite IH.
Qed.
Lemma lower_T t : teqb (lower t) (T "t") = true <-> t = T "T" \/ t = T "t".
Proof.
  rewrite teqb_eq. split.
  - destruct t as [|c [|]]; try discriminate. cbn. injection 1. intros E. revert E. clear. revert c. allchars; intros; auto.
  - intros [-> | ->]; reflexivity.
Qed.
Definition updated (ty : typ) (t : text) : res value :=
  match ty with
  | TBool => Ok (VBool (teqb (lower t) (T "t")))
  | TStr => Ok (VStr t) | TInt => rmap VInt (py_int t) | TFloat => rmap VFloat (py_float t) | TDict => Err TypeError
  end.
Lemma updated_means ty t v : attr_means ty t v -> updated ty t = Ok v.
Proof.
  destruct ty; cbn [attr_means updated].
  - intros (w & s & ds & w' & H1 & H2 & H3 & -> & ->). rewrite py_int_ws by assumption. now rewrite py_int_text.
  - intros (w & r & w' & H1 & H2 & H3 & H4 & -> & ->). rewrite py_float_ws by assumption. now rewrite py_float_text.
  - intros (b & -> & H). f_equal. f_equal. destruct b; [now apply lower_T, H|]. destruct (teqb (lower t) (T "t")) eqn:E; [|easy]. apply lower_T in E. now apply H in E.
  - now intros ->.
  - easy.
Qed.
Lemma read_attr_type data k t ty v : assoc k data = Some (HType ty) -> updated ty t = Ok v -> read_attr data (k, t) = Ok (upd k (HVal v) data).
Proof.
  intros E U. unfold read_attr. cbn [fst snd]. rewrite E. destruct ty; cbn [updated] in U; try (injection U as <-; reflexivity); try discriminate.
  - unfold rmap in U. destruct (py_int t); [|discriminate]. injection U as <-. reflexivity.
  - unfold rmap in U. destruct (py_float t); [|discriminate]. injection U as <-. reflexivity.
Qed.
Lemma read_header attrs : NoDup (map fst attrs) -> (forall k, In k (map fst attrs) -> ~ In k reserved) ->
  forall data, (forall k t, In (k, t) attrs -> match assoc k data with Some (HType ty) => exists v, attr_means ty t v | Some (HVal _) => False | None => True end) ->
  exists h, foldm read_attr data attrs = Ok h /\
    forall k, match assoc k data with
              | Some (HType ty) => match assoc k attrs with Some t => exists v, attr_means ty t v /\ assoc k h = Some (HVal v) | None => assoc k h = Some (HType ty) end
              | x => assoc k h = x end.
Proof.
  induction attrs as [|[k t] attrs IH]; intros ND NR data H.
  - exists data. split; [easy|]. intros k. destruct (assoc k data) as [[]|]; easy.
  - cbn [map fst] in ND. apply NoDup_cons_iff in ND as [N ND]. cbn [foldm].
    assert (NRk : existsb (teqb k) reserved = false).
    { destruct (existsb (teqb k) reserved) eqn:E; [|easy]. apply existsb_exists in E as (y & Hy & E). apply teqb_eq in E. subst y. exfalso. apply (NR k); [now left|exact Hy]. }
    pose proof (H k t (or_introl eq_refl)) as Hk.
    assert (AN : assoc k attrs = None). { destruct (assoc k attrs) eqn:E; [|easy]. apply assoc_in in E. apply (in_map fst) in E. now apply N in E. }
    destruct (assoc k data) as [[ty|v]|] eqn:Ek; [|easy|].
    + destruct Hk as (v & Hv). rewrite (read_attr_type data k t ty v Ek (updated_means _ _ _ Hv)). cbn [bind].
      destruct (IH ND (fun k' Hk' => NR k' (or_intror Hk')) (upd k (HVal v) data)) as (h & E & HH).
      { intros k' t' I. rewrite assoc_upd. destruct (teqb k k') eqn:E; [|apply H; now right]. apply teqb_eq in E. subst k'. apply N. apply (in_map fst) in I. exact I. }
      exists h. split; [exact E|]. intros k'. specialize (HH k'). rewrite assoc_upd in HH. cbn [assoc]. destruct (teqb k k') eqn:EK.
      * apply teqb_eq in EK. subst k'. rewrite Ek. exists v. split; [exact Hv|exact HH].
      * exact HH.
    + unfold read_attr. cbn [fst snd]. rewrite Ek, NRk. cbn [bind].
      destruct (IH ND (fun k' Hk' => NR k' (or_intror Hk')) data) as (h & E & HH); [intros k' t' I; apply H; now right|].
      exists h. split; [exact E|]. intros k'. specialize (HH k'). cbn [assoc]. destruct (teqb k k') eqn:EK; [|exact HH]. apply teqb_eq in EK. subst k'. rewrite Ek in *. exact HH.
Qed.
Definition lastarr (l : list (list R)) (d : option (list R)) : option (list R) := fold_left (fun _ a => Some a) l d.
Lemma sequence_app {A} (a b : list (res A)) : sequence (a ++ b) = (do x <- sequence a; do y <- sequence b; Ok (x ++ y)).
Proof.
  induction a as [|x a IH]; cbn [List.app sequence bind]; [now destruct (sequence b)|]. destruct x as [x|]; cbn [bind]; [|easy]. rewrite IH.
  destruct (sequence a); cbn [bind]; [|easy]. destruct (sequence b); reflexivity.
Qed.
Definition leafs (k : text) (l : list leaf) : list leaf := filter (fun g => teqb (l_tag g) k) l.
Definition nums_of (l : list leaf) : res (list (list R)) := sequence (map (fun g => numbers (l_text g)) l).
Definition nums_of_s (l : list sect) : res (list (list R)) := sequence (map (fun g => numbers (s_text g)) l).
Lemma bind_ok {A B} (x : res A) (f : A -> res B) b : bind x f = Ok b -> exists a, x = Ok a /\ f a = Ok b.
Proof. destruct x as [a|]; [|discriminate]. intros H. now exists a. Qed.
Lemma read_meshes kids : forall u lr lb, nums_of (leafs (T "PP_R") kids) = Ok lr -> nums_of (leafs (T "PP_RAB") kids) = Ok lb ->
  foldm read_mesh u kids = Ok (MkU (u_hdr u) (lastarr lr (u_r u)) (lastarr lb (u_rab u)) (u_vloc u) (u_rho u)).
Proof.
  induction kids as [|g kids IH]; intros u lr lb E1 E2.
  - unfold nums_of in *. cbn in E1, E2. injection E1 as <-. injection E2 as <-. now destruct u.
  - unfold nums_of, leafs in *. cbn [filter] in E1, E2. cbn [foldm]. unfold read_mesh at 1. destruct (teqb (l_tag g) (T "PP_R")) eqn:T1.
    + apply teqb_eq in T1. rewrite T1 in E2. change (teqb (T "PP_R") (T "PP_RAB")) with false in E2. cbn [map sequence] in E1.
      apply bind_ok in E1 as (a & EA & E1). apply bind_ok in E1 as (l & EL & E1). injection E1 as <-. rewrite EA. cbn [bind]. rewrite (IH _ l lb EL E2). reflexivity.
    + destruct (teqb (l_tag g) (T "PP_RAB")) eqn:T2.
      * cbn [map sequence] in E2. apply bind_ok in E2 as (a & EA & E2). apply bind_ok in E2 as (l & EL & E2). injection E2 as <-. rewrite EA. cbn [bind]. rewrite (IH _ lr l E1 EL). reflexivity.
      * cbn [bind]. now apply IH.
Qed.
Lemma read_sects ss : forall u h lr lb lv lq,
  foldm read_attr (u_hdr u) (flat_map s_attr (tagged (T "PP_HEADER") ss)) = Ok h ->
  nums_of (kids_of (T "PP_MESH") (T "PP_R") ss) = Ok lr -> nums_of (kids_of (T "PP_MESH") (T "PP_RAB") ss) = Ok lb ->
  nums_of_s (tagged (T "PP_LOCAL") ss) = Ok lv -> nums_of_s (tagged (T "PP_RHOATOM") ss) = Ok lq ->
  foldm read_sect u ss = Ok (MkU h (lastarr lr (u_r u)) (lastarr lb (u_rab u)) (lastarr (map scaled lv) (u_vloc u)) (lastarr lq (u_rho u))).
Proof.
  induction ss as [|s ss IH]; intros u h lr lb lv lq E0 E1 E2 E3 E4.
  - cbn in E0, E1, E2, E3, E4. injection E0 as <-. injection E1 as <-. injection E2 as <-. injection E3 as <-. injection E4 as <-. now destruct u.
  - unfold kids_of, tagged in E0, E1, E2, E3, E4. cbn [filter] in E0, E1, E2, E3, E4. cbn [foldm]. unfold read_sect at 1.
    destruct (teqb (s_tag s) (T "PP_HEADER")) eqn:T0.
    { apply teqb_eq in T0. rewrite T0 in *. change (teqb (T "PP_HEADER") (T "PP_MESH")) with false in *. change (teqb (T "PP_HEADER") (T "PP_LOCAL")) with false in *. change (teqb (T "PP_HEADER") (T "PP_RHOATOM")) with false in *. cbv iota in *.
      cbn [flat_map] in E0. rewrite foldm_app in E0. apply bind_ok in E0 as (h1 & EH & E0). rewrite EH. cbn [bind]. now rewrite (IH (MkU h1 (u_r u) (u_rab u) (u_vloc u) (u_rho u)) h lr lb lv lq E0 E1 E2 E3 E4). }
    destruct (teqb (s_tag s) (T "PP_MESH")) eqn:T1.
    { apply teqb_eq in T1. rewrite T1 in *. change (teqb (T "PP_MESH") (T "PP_LOCAL")) with false in *. change (teqb (T "PP_MESH") (T "PP_RHOATOM")) with false in *. cbv iota in *.
      cbn [flat_map] in E1, E2. rewrite filter_app in E1, E2. unfold nums_of in E1, E2. rewrite map_app, sequence_app in E1, E2.
      apply bind_ok in E1 as (a1 & A1 & E1). apply bind_ok in E1 as (b1 & B1 & E1). injection E1 as <-.
      apply bind_ok in E2 as (a2 & A2 & E2). apply bind_ok in E2 as (b2 & B2 & E2). injection E2 as <-.
      rewrite (read_meshes (s_kids s) u a1 a2 A1 A2). cbn [bind]. rewrite (IH (MkU (u_hdr u) (lastarr a1 (u_r u)) (lastarr a2 (u_rab u)) (u_vloc u) (u_rho u)) h b1 b2 lv lq E0 B1 B2 E3 E4). cbn [u_r u_rab u_hdr u_vloc u_rho]. unfold lastarr. now rewrite !fold_left_app. }
    destruct (teqb (s_tag s) (T "PP_LOCAL")) eqn:T2.
    { apply teqb_eq in T2. rewrite T2 in *. change (teqb (T "PP_LOCAL") (T "PP_RHOATOM")) with false in *. cbv iota in *.
      unfold nums_of_s in E3. cbn [map sequence] in E3. apply bind_ok in E3 as (a & EA & E3). apply bind_ok in E3 as (l & EL & E3). injection E3 as <-. rewrite EA. cbn [bind].
      rewrite (IH (MkU (u_hdr u) (u_r u) (u_rab u) (Some (scaled a)) (u_rho u)) h lr lb l lq E0 E1 E2 EL E4). reflexivity. }
    destruct (teqb (s_tag s) (T "PP_RHOATOM")) eqn:T3.
    { unfold nums_of_s in E4. cbn [map sequence] in E4. apply bind_ok in E4 as (a & EA & E4). apply bind_ok in E4 as (l & EL & E4). injection E4 as <-. rewrite EA. cbn [bind].
      rewrite (IH (MkU (u_hdr u) (u_r u) (u_rab u) (u_vloc u) (Some a)) h lr lb lv l E0 E1 E2 E3 EL). reflexivity. }
    cbn [bind]. now apply IH.
Qed.
(** the nonlocal section *)
Definition begins (p t : text) : bool := teqb (firstn (length p) t) p.
Lemma starts_begins p : forall t, starts_with p t = begins p t.
Proof.
  induction p as [|a p IH]; intros t; [reflexivity|]. destruct t as [|b t]; [reflexivity|].
  unfold begins in *. cbn [starts_with length firstn]. rewrite IH.
  destruct (Ascii.eqb a b) eqn:E.
  - apply Ascii.eqb_eq in E as ->. cbn [andb]. apply Bool.eq_iff_eq_true. rewrite !teqb_eq. split; [now intros ->|now intros [= ->]].
  - cbn [andb]. symmetry. apply Bool.not_true_iff_false. rewrite teqb_eq. intros [= -> _]. now rewrite Ascii.eqb_refl in E.
Qed.
Definition betas (l : list leaf) : list leaf := filter (fun g => negb (teqb (l_tag g) (T "PP_DIJ")) && begins (T "PP_BETA.") (l_tag g)) l.
Lemma read_nonlocals kids : forall st ld lb, nums_of (leafs (T "PP_DIJ") kids) = Ok ld ->
  Forall2 (fun g lx => exists t v, assoc (T "angular_momentum") (l_attr g) = Some t /\ attr_means TInt t (VInt (fst lx)) /\ l_text g = Some v /\ nums v (snd lx)) (betas kids) lb ->
  foldm read_nonlocal st kids = Ok (lastarr (map scaled ld) (fst st), snd st ++ lb).
Proof.
  induction kids as [|g kids IH]; intros st ld lb E1 E2.
  - unfold nums_of in E1. cbn in E1, E2. injection E1 as <-. inversion E2. rewrite app_nil_r. now destruct st.
  - unfold nums_of, leafs, betas in *. cbn [filter] in E1, E2. cbn [foldm]. unfold read_nonlocal at 1. destruct (teqb (l_tag g) (T "PP_DIJ")) eqn:T1.
    + cbn [negb andb] in E2. cbn [map sequence] in E1. apply bind_ok in E1 as (a & EA & E1). apply bind_ok in E1 as (l & EL & E1). injection E1 as <-. rewrite EA. cbn [bind].
      rewrite (IH _ l lb EL E2). reflexivity.
    + cbn [negb andb] in E2. rewrite (starts_begins (T "PP_BETA.")). destruct (begins (T "PP_BETA.") (l_tag g)).
      * inversion E2 as [|? [l b] ? lb' (t & v & A1 & A2 & A3 & A4) E3]; subst. rewrite A1. apply updated_means in A2. cbn [updated] in A2. unfold rmap in A2.
        destruct (py_int t) as [z|]; [|discriminate]. injection A2 as ->. cbn [bind]. rewrite A3, (numbers_ok v _ A4). cbn [bind fst snd].
        rewrite (IH _ ld lb' E1 E3). cbn [fst snd]. now rewrite <- app_assoc.
      * cbn [bind]. now apply IH.
Qed.
Lemma chunks_nth n k : forall l i j, length l = k * n -> i < k -> j < n -> nth j (nth i (chunks n k l) []) 0%R = nth (i * n + j) l 0%R.
Proof.
  induction k as [|k IH]; intros l i j L Hi Hj; [lia|]. cbn [chunks]. destruct i as [|i].
  - cbn [nth]. rewrite Nat.mul_0_l, Nat.add_0_l. rewrite <- (firstn_skipn n l) at 2. rewrite app_nth1; [easy|]. rewrite firstn_length. cbn in L. nia.
  - cbn [nth]. rewrite IH; [|rewrite skipn_length; cbn in L; lia|lia|lia]. rewrite <- (firstn_skipn n l) at 2.
    rewrite app_nth2; rewrite firstn_length; cbn in L; [f_equal; nia|nia].
Qed.
Lemma chunks_shape n k : forall l, length l = k * n -> length (chunks n k l) = k /\ forall row, In row (chunks n k l) -> length row = n.
Proof.
  induction k as [|k IH]; intros l L; [split; [easy|intros ? []]|]. cbn [chunks length]. destruct (IH (skipn n l)) as [A B]; [rewrite skipn_length; cbn in L; lia|].
  split; [now rewrite A|]. intros row [<-|H]; [|now apply B]. rewrite firstn_length. cbn in L. nia.
Qed.

(** A complete file, sections in any order and possibly with sections the reader does not know: every header
    field holds the value its attribute states; meshes, local potential and atomic density hold the numbers in
    the file (the potential and D_ij converted from Rydberg to Hartree by the factor 1/2); the projectors keep
    their file order with their angular momenta; D_ij is the row-major square matrix; the core density is read
    exactly when the core_correction flag is T; the valence is the nearest integer to z_valence. *)
Definition flag (v : value) : Prop := v = VBool true.
Theorem C73_upf_read : forall ss hdr hv tr trab tv tq nl tdij ld lb xr xrab xv xq z fn,
  tagged (T "PP_HEADER") ss = [hdr] -> NoDup (map fst (s_attr hdr)) -> (forall k, In k (map fst (s_attr hdr)) -> ~ In k reserved) ->
  (forall k ty, In (k, ty) header_types -> exists t, assoc k (s_attr hdr) = Some t /\ attr_means ty t (hv k)) ->
  map l_text (kids_of (T "PP_MESH") (T "PP_R") ss) = [Some tr] -> nums tr xr ->
  map l_text (kids_of (T "PP_MESH") (T "PP_RAB") ss) = [Some trab] -> nums trab xrab ->
  map s_text (tagged (T "PP_LOCAL") ss) = [Some tv] -> nums tv xv ->
  map s_text (tagged (T "PP_RHOATOM") ss) = [Some tq] -> nums tq xq ->
  tagged (T "PP_NONLOCAL") ss = [nl] ->
  map l_text (leafs (T "PP_DIJ") (s_kids nl)) = [Some tdij] -> nums tdij ld ->
  Forall2 (fun g lx => exists t v, assoc (T "angular_momentum") (l_attr g) = Some t /\ attr_means TInt t (VInt (fst lx)) /\ l_text g = Some v /\ nums v (snd lx)) (betas (s_kids nl)) lb ->
  length ld = length lb * length lb ->
  hv (T "number_of_proj") <> VInt 0 -> hv (T "z_valence") = VFloat z -> hv (T "functional") = VStr fn ->
  (flag (hv (T "core_correction")) -> exists s t xs, tagged (T "PP_NLCC") ss = [s] /\ s_text s = Some t /\ nums t xs) ->
  exists d, upf_from_file ss = Ok d /\
    (forall k ty, In (k, ty) header_types -> assoc k (f_hdr d) = Some (HVal (hv k))) /\
    f_r d = Some xr /\ f_rab d = Some xrab /\ f_rho d = Some xq /\ f_vloc d = Some (map (fun x => x / 2)%R xv) /\
    f_beta d = lb /\
    length (f_dij d) = length lb /\ (forall row, In row (f_dij d) -> length row = length lb) /\
    (forall i j, i < length lb -> j < length lb -> nth j (nth i (f_dij d) []) 0%R = (nth (i * length lb + j) ld 0 / 2)%R) /\
    (flag (hv (T "core_correction")) -> exists s t xs, tagged (T "PP_NLCC") ss = [s] /\ s_text s = Some t /\ nums t xs /\ f_core d = Some xs) /\
    (~ flag (hv (T "core_correction")) -> f_core d = None) /\
    f_libxc d = (if teqb (lower fn) (T "pbe") then Some (T "gga_x_pbe", T "gga_c_pbe") else None) /\
    f_valence d = rint z.
Proof.
  intros ss hdr hv tr trab tv tq nl tdij ld lb xr xrab xv xq z fn Hh ND NR HV Er Nr Eb Nb Ev Nv Eq Nq Hnl Ed Nd HB HL Hp Hz Hf Hc.
  assert (ND0 : NoDup (map fst header_types)) by (apply nodupb_ok; vm_compute; reflexivity).
  assert (ST : forall k, assoc k (u_hdr ustart) = option_map HType (assoc k header_types)).
  { intros k. unfold ustart. cbn [u_hdr]. rewrite (assoc_map_fst (fun f => HType (snd f))). now destruct (assoc k header_types). }
  destruct (read_header (s_attr hdr) ND NR (u_hdr ustart)) as (h & EH & HH).
  { intros k t I. rewrite ST. destruct (assoc k header_types) as [ty|] eqn:E; [|easy]. cbn [option_map]. apply assoc_in in E. destruct (HV k ty E) as (t' & E1 & E2).
    rewrite (assoc_nodup _ _ _ ND I) in E1. injection E1 as <-. now exists (hv k). }
  assert (HK : forall k ty, In (k, ty) header_types -> assoc k h = Some (HVal (hv k))).
  { intros k ty I. specialize (HH k). rewrite ST, (assoc_nodup _ _ _ ND0 I) in HH. cbn [option_map] in HH. destruct (HV k ty I) as (t & E1 & E2). rewrite E1 in HH.
    destruct HH as (v & A & B). apply updated_means in A, E2. rewrite A in E2. injection E2 as ->. exact B. }
  assert (S1 : forall l t x, map l_text l = [Some t] -> nums t x -> nums_of l = Ok [x]).
  { intros l t x E N. unfold nums_of. rewrite <- (map_map l_text numbers), E. cbn [map sequence]. rewrite (numbers_ok t x N). reflexivity. }
  assert (S2 : forall l t x, map s_text l = [Some t] -> nums t x -> nums_of_s l = Ok [x]).
  { intros l t x E N. unfold nums_of_s. rewrite <- (map_map s_text numbers), E. cbn [map sequence]. rewrite (numbers_ok t x N). reflexivity. }
  assert (EH' : foldm read_attr (u_hdr ustart) (flat_map s_attr (tagged (T "PP_HEADER") ss)) = Ok h) by (rewrite Hh; cbn [flat_map]; rewrite app_nil_r; exact EH).
  pose proof (read_sects ss ustart h [xr] [xrab] [xv] [xq] EH' (S1 _ _ _ Er Nr) (S1 _ _ _ Eb Nb) (S2 _ _ _ Ev Nv) (S2 _ _ _ Eq Nq)) as RS. cbn [lastarr fold_left map u_hdr] in RS.
  set (u := MkU h (Some xr) (Some xrab) (Some (scaled xv)) (Some xq)) in *.
  assert (RN : foldm read_nonlocal (None, []) (s_kids nl) = Ok (Some (scaled ld), lb)) by exact (read_nonlocals (s_kids nl) (None, []) [ld] lb (S1 _ _ _ Ed Nd) HB).
  assert (RSH : reshape (length lb) (scaled ld) = Ok (chunks (length lb) (length lb) (scaled ld))).
  { unfold reshape, scaled. rewrite map_length, HL, Nat.eqb_refl. reflexivity. }
  assert (KIN : forall k ty, assoc k header_types = Some ty -> assoc k h = Some (HVal (hv k))) by (intros k ty E; apply (HK k ty); now apply assoc_in).
  assert (CORE : exists core, match assoc (T "core_correction") (u_hdr u) with
             | Some (HVal (VBool true)) => do s <- first_sect (T "PP_NLCC") ss; rmap Some (numbers (s_text s))
             | _ => Ok None end = Ok core /\
      (flag (hv (T "core_correction")) -> exists s t xs, tagged (T "PP_NLCC") ss = [s] /\ s_text s = Some t /\ nums t xs /\ core = Some xs) /\
      (~ flag (hv (T "core_correction")) -> core = None)).
  { cbn [u_hdr u]. rewrite (KIN (T "core_correction") TBool eq_refl).
    destruct (HV (T "core_correction") TBool) as (t & _ & b & Eb' & _); [apply assoc_in; reflexivity|]. rewrite Eb' in *. unfold flag in *. destruct b.
    - destruct (Hc eq_refl) as (s & t' & xs & A1 & A2 & A3). exists (Some xs). unfold first_sect, tagged in *. rewrite A1. cbn [bind]. rewrite A2, (numbers_ok _ _ A3).
      split; [easy|]. split; [|easy]. intros _. exists s, t', xs. auto.
    - exists None. split; [easy|]. split; easy. }
  destruct CORE as (core & EC & C1 & C2).
  exists (MkUpf h (Some xr) (Some xrab) (Some (scaled xv)) (Some xq) core (chunks (length lb) (length lb) (scaled ld)) lb (libxc_map (lower fn)) (rint z)).
  split.
  { unfold upf_from_file. rewrite RS. cbn [bind]. rewrite EC. cbn [bind u_hdr u].
    rewrite (KIN (T "number_of_proj") TInt eq_refl), (KIN (T "functional") TStr eq_refl), (KIN (T "z_valence") TFloat eq_refl), Hf, Hz.
    assert (X : (do s <- first_sect (T "PP_NONLOCAL") ss;
                  do st <- foldm read_nonlocal (None, []) (s_kids s);
                  match fst st with
                  | None => Err AttributeError
                  | Some d => do m <- reshape (List.length (snd st)) d; Ok (Some (m, snd st))
                  end) = Ok (Some (chunks (length lb) (length lb) (scaled ld), lb))).
    { unfold first_sect. unfold tagged in Hnl. rewrite Hnl. cbn [bind]. rewrite RN. cbn [bind fst snd]. rewrite RSH. reflexivity. }
    destruct (hv (T "number_of_proj")) as [| [| |] | | | |]; try (rewrite X; reflexivity). now exfalso. }
  assert (SC : forall l, scaled l = map (fun x => x / 2)%R l) by (intros l; apply map_ext; intros x; unfold rydberg; lra).
  assert (LS : length (scaled ld) = length lb * length lb) by (unfold scaled; now rewrite map_length).
  destruct (chunks_shape (length lb) (length lb) (scaled ld) LS) as [CS1 CS2].
  cbn [f_hdr f_r f_rab f_rho f_vloc f_beta f_dij f_core f_libxc f_valence].
  split; [exact HK|]. do 3 (split; [reflexivity|]). split; [now rewrite SC|]. split; [reflexivity|]. split; [exact CS1|]. split; [exact CS2|].
  split.
  { intros i j Hi Hj. rewrite chunks_nth by assumption. rewrite SC. change 0%R with ((fun x => x / 2)%R 0%R) at 1 || idtac.
    rewrite (nth_indep _ 0%R ((fun x => x / 2)%R 0%R)) by (rewrite map_length; nia). apply (map_nth (fun x => x / 2)%R). }
  split; [exact C1|]. split; [exact C2|]. split; reflexivity.
Qed.
Print Assumptions C73_upf_read.

(** Whatever is read, D_ij is a square matrix over the projectors. *)
Theorem C73_dij_square : forall ss d, upf_from_file ss = Ok d ->
  length (f_dij d) = length (f_beta d) /\ forall row, In row (f_dij d) -> length row = length (f_beta d).
Proof.
  intros ss d H. unfold upf_from_file in H. apply bind_ok in H as (u & _ & H). apply bind_ok in H as (core & _ & H). apply bind_ok in H as (nl & E & H).
  apply bind_ok in H as (fn & _ & H). apply bind_ok in H as (z & _ & H). destruct nl as [[m b]|]; [|discriminate]. injection H as <-. cbn [f_dij f_beta].
  assert (X : (do s <- first_sect (T "PP_NONLOCAL") ss; do st <- foldm read_nonlocal (None, []) (s_kids s);
                  match fst st with None => Err AttributeError | Some d => do m <- reshape (List.length (snd st)) d; Ok (Some (m, snd st)) end) = Ok (Some (m, b))).
  { destruct (assoc (T "number_of_proj") (u_hdr u)) as [[|[| [| |] | | | |]]|]; try exact E. discriminate. }
  apply bind_ok in X as (s & _ & X). apply bind_ok in X as (st & _ & X). destruct (fst st) as [dd|]; [|discriminate]. apply bind_ok in X as (m' & X & Y).
  injection Y as <- <-. unfold reshape in X. destruct (Nat.eqb_spec (length dd) (length (snd st) * length (snd st))); [|discriminate]. injection X as <-. now apply chunks_shape.
Qed.
Print Assumptions C73_dij_square.

(** A file is only read when the sections it announces are present: the non-local section with its D matrix, and the
    core charge when the header asks for the core correction. *)
Theorem C73_sections_present : forall ss d, upf_from_file ss = Ok d ->
  (exists s g, In s ss /\ s_tag s = T "PP_NONLOCAL" /\ In g (s_kids s) /\ l_tag g = T "PP_DIJ") /\
  (assoc (T "core_correction") (f_hdr d) = Some (HVal (VBool true)) -> exists s xs, In s ss /\ s_tag s = T "PP_NLCC" /\ numbers (s_text s) = Ok xs /\ f_core d = Some xs).
Proof.
  assert (F : forall tag ss s, first_sect tag ss = Ok s -> In s ss /\ s_tag s = tag).
  { intros tag ss s H. unfold first_sect in H. destruct (filter _ ss) as [|x l] eqn:E; [discriminate|]. injection H as ->.
    assert (I : In s (filter (fun s => teqb (s_tag s) tag) ss)) by (rewrite E; now left). apply filter_In in I as [I J]. split; [exact I|]. now apply teqb_eq in J. }
  assert (D : forall kids st st', foldm read_nonlocal st kids = Ok st' -> fst st = None -> fst st' <> None -> exists g, In g kids /\ l_tag g = T "PP_DIJ").
  { induction kids as [|g kids IH]; intros st st' H H0 H1; cbn [foldm] in H; [injection H as ->; contradiction|]. apply bind_ok in H as (st1 & A & H).
    unfold read_nonlocal in A. destruct (teqb (l_tag g) (T "PP_DIJ")) eqn:E; [apply teqb_eq in E; exists g; split; [now left|exact E]|].
    assert (fst st1 = None).
    { destruct (starts_with _ _); [|now injection A as <-]. destruct (assoc _ (l_attr g)); [|discriminate]. apply bind_ok in A as (l & _ & A). apply bind_ok in A as (b & _ & A). now injection A as <-. }
    destruct (IH _ _ H H2 H1) as (g' & I & J). exists g'. split; [now right|exact J]. }
  intros ss d H. unfold upf_from_file in H. apply bind_ok in H as (u & _ & H). apply bind_ok in H as (core & C & H). apply bind_ok in H as (nl & E & H).
  apply bind_ok in H as (fn & _ & H). apply bind_ok in H as (z & _ & H). destruct nl as [[m b]|]; [|discriminate]. injection H as <-. cbn [f_hdr f_core].
  split.
  - assert (X : (do s <- first_sect (T "PP_NONLOCAL") ss; do st <- foldm read_nonlocal (None, []) (s_kids s);
                  match fst st with None => Err AttributeError | Some d => do m <- reshape (List.length (snd st)) d; Ok (Some (m, snd st)) end) = Ok (Some (m, b))).
    { destruct (assoc (T "number_of_proj") (u_hdr u)) as [[|[| [| |] | | | |]]|]; try exact E. discriminate. }
    apply bind_ok in X as (s & A & X). apply bind_ok in X as (st & B & X). apply F in A as [A1 A2].
    destruct (D _ _ _ B eq_refl) as (g & G1 & G2); [destruct (fst st); [discriminate|discriminate X]|]. exists s, g. auto.
  - intros K. rewrite K in C. apply bind_ok in C as (s & A & C). apply F in A as [A1 A2]. destruct (numbers (s_text s)) as [xs|] eqn:N; [|discriminate]. cbn in C. injection C as <-.
    exists s, xs. auto.
Qed.
Print Assumptions C73_sections_present.

(** REFUTED: a purely local pseudopotential (number_of_proj = 0) can be read.  No such file is ever read. *)
Theorem C73_no_projectors_refuted : forall ss d, upf_from_file ss = Ok d -> assoc (T "number_of_proj") (f_hdr d) <> Some (HVal (VInt 0)).
Proof.
  intros ss d H E. unfold upf_from_file in H. apply bind_ok in H as (u & _ & H). apply bind_ok in H as (core & _ & H). apply bind_ok in H as (nl & EN & H).
  apply bind_ok in H as (fn & _ & H). apply bind_ok in H as (z & _ & H). destruct nl as [[m b]|]; [|discriminate]. injection H as <-. cbn [f_hdr] in E. rewrite E in EN. discriminate.
Qed.
Print Assumptions C73_no_projectors_refuted.

(** ---- a concrete file ---- *)
Definition si_attrs (core : string) : list (text * text) :=
  [(T "generated", T "by hand"); (T "author", T "A"); (T "date", T "now"); (T "comment", T ""); (T "element", T "Si"); (T "pseudo_type", T "NC");
   (T "relativistic", T "scalar"); (T "is_ultrasoft", T "F"); (T "is_paw", T "F"); (T "is_coulomb", T "F"); (T "has_so", T "F"); (T "has_wfc", T "F");
   (T "core_correction", T core); (T "functional", T "PBE"); (T "z_valence", T " 4.00"); (T "total_psenergy", T "-1.5E+01"); (T "wfc_cutoff", T "0.0");
   (T "rho_cutoff", T "6.0"); (T "l_max", T "1"); (T "l_local", T "-1"); (T "mesh_size", T "2"); (T "number_of_wfc", T "0"); (T "number_of_proj", T "1");
   (T "paw_as_gipaw", T "F")]%string.
Definition si_sections (attrs : list (text * text)) : list sect :=
  [MkSect (T "PP_INFO") [] (Some (T "text")) [];
   MkSect (T "PP_LOCAL") [] (Some (T " -1.5 2.0")) [];
   MkSect (T "PP_HEADER") attrs None [];
   MkSect (T "PP_MESH") [] None [MkLeaf (T "PP_R") [] (Some (T " 0.0 0.01")); MkLeaf (T "PP_RAB") [] (Some (T "0.01 0.01"))];
   MkSect (T "PP_NLCC") [] (Some (T "1.0 0.5")) [];
   MkSect (T "PP_NONLOCAL") [] None [MkLeaf (T "PP_BETA.1") [(T "angular_momentum", T "1")] (Some (T "0.0 3.0")); MkLeaf (T "PP_DIJ") [] (Some (T " 7.0"))];
   MkSect (T "PP_RHOATOM") [] (Some (T "0.0 1.5")) []].
(** REFUTED: the flag ".true." states a core correction.  It is read as false, without an error, and the core
    density in the file is ignored. *)
Theorem C73_logical_spelling_refuted :
  (exists d xs, upf_from_file (si_sections (si_attrs "T")) = Ok d /\ f_core d = Some xs /\ assoc (T "core_correction") (f_hdr d) = Some (HVal (VBool true))) /\
  (exists d, upf_from_file (si_sections (si_attrs ".true.")) = Ok d /\ f_core d = None /\ assoc (T "core_correction") (f_hdr d) = Some (HVal (VBool false))).
Proof.
  split.
  - eexists _, _. split; [reflexivity|]. split; reflexivity.
  - eexists. split; [reflexivity|]. split; reflexivity.
Qed.
Print Assumptions C73_logical_spelling_refuted.
(** REFUTED: a header that lacks an attribute is refused, or the field gets a value.  The object is returned
    with the Python type itself in the field. *)
Theorem C73_missing_attribute_refuted :
  exists d, upf_from_file (si_sections (filter (fun kv => negb (teqb (fst kv) (T "rho_cutoff"))) (si_attrs "F"))) = Ok d /\
    assoc (T "rho_cutoff") (f_hdr d) = Some (HType TFloat).
Proof. eexists. split; reflexivity. Qed.
Print Assumptions C73_missing_attribute_refuted.
(** REFUTED: the number of projectors is the one in the header. *)
Theorem C73_projector_count_refuted :
  exists d, upf_from_file (si_sections (map (fun kv => if teqb (fst kv) (T "number_of_proj") then (fst kv, T "5") else kv) (si_attrs "F"))) = Ok d /\
    assoc (T "number_of_proj") (f_hdr d) = Some (HVal (VInt 5)) /\ length (f_beta d) = 1.
Proof. eexists. split; [reflexivity|]. split; reflexivity. Qed.
Print Assumptions C73_projector_count_refuted.

(** A case of C73_upf_read. *)
Lemma nums_one lead ws rs : row_ok lead ws -> Forall2 (fun w r => real_ok r /\ e_exp r /\ fst w = real_text r) ws rs -> nums (row_text lead ws) (map real_value rs).
Proof. intros H1 H2. exists lead, ws, rs. auto. Qed.
Lemma digits_okb ds : forallb (fun d => d <? 10) ds = true -> digits_ok ds.
Proof. intros H d Hd. rewrite forallb_forall in H. apply H in Hd. now apply Nat.ltb_lt. Qed.
Lemma spacesb w : forallb is_ws w = true -> spaces w.
Proof. intros H c Hc. rewrite forallb_forall in H. auto. Qed.
Lemma nonwsb w : forallb (fun c => negb (is_ws c)) w = true -> nonws w.
Proof. intros H c Hc. rewrite forallb_forall in H. apply H in Hc. now destruct (is_ws c). Qed.
Definition dec (s : sgn) (i f : list nat) : real_lit := MkReal s i (Some f) None.
Lemma dec_ok s i f : forallb (fun d => d <? 10) (i ++ f) = true -> i ++ f <> [] -> real_ok (dec s i f) /\ e_exp (dec s i f).
Proof. intros H N. rewrite forallb_app in H. apply andb_prop in H as [H1 H2]. split; [|exact I]. repeat split; cbn; try (now apply digits_okb); exact N. Qed.
(** one or two numbers on a line *)
Lemma nums1 lead t s i f : forallb is_ws lead = true -> t = lead ++ real_text (dec s i f) -> forallb (fun d => d <? 10) (i ++ f) = true -> i ++ f <> [] ->
  nums t [real_value (dec s i f)].
Proof.
  intros Hl -> H N. destruct (dec_ok s i f H N) as [A B]. exists lead, [(real_text (dec s i f), [])], [dec s i f]. split; [|split; [|split; [|reflexivity]]].
  - split; [now apply spacesb|]. split; [easy|]. split; [|intros x []]. intros x [<-|[]]. cbn [fst snd]. split; [|split; [now apply real_nonws|easy]].
    intros E. pose proof (py_float_text _ A B) as P. rewrite E in P. discriminate.
  - unfold row_text. cbn [map List.concat fst snd]. now rewrite !app_nil_r.
  - constructor; [|constructor]. auto.
Qed.
Lemma nums2 lead t s i f s' i' f' : forallb is_ws lead = true -> t = lead ++ real_text (dec s i f) ++ " "%char :: real_text (dec s' i' f') ->
  forallb (fun d => d <? 10) (i ++ f) = true -> i ++ f <> [] -> forallb (fun d => d <? 10) (i' ++ f') = true -> i' ++ f' <> [] ->
  nums t [real_value (dec s i f); real_value (dec s' i' f')].
Proof.
  intros Hl -> H N H' N'. destruct (dec_ok s i f H N) as [A B]. destruct (dec_ok s' i' f' H' N') as [A' B'].
  exists lead, [(real_text (dec s i f), T " "); (real_text (dec s' i' f'), [])], [dec s i f; dec s' i' f']. split; [|split; [|split; [|reflexivity]]].
  - split; [now apply spacesb|]. split; [easy|]. split; [|intros x [<-|[]]; easy].
    intros x [<-|[<-|[]]]; cbn [fst snd]; (split; [|split; [now apply real_nonws|now apply spacesb]]).
    + intros E. pose proof (py_float_text _ A B) as P. rewrite E in P. discriminate.
    + intros E. pose proof (py_float_text _ A' B') as P. rewrite E in P. discriminate.
  - unfold row_text. cbn [map List.concat fst snd]. rewrite !app_nil_r, <- !app_assoc. reflexivity.
  - constructor; [auto|]. constructor; [auto|constructor].
Qed.
Definition si_value (k : text) : value :=
  match assoc k [(T "generated", VStr (T "by hand")); (T "author", VStr (T "A")); (T "date", VStr (T "now")); (T "comment", VStr []); (T "element", VStr (T "Si")); (T "pseudo_type", VStr (T "NC"));
   (T "relativistic", VStr (T "scalar")); (T "is_ultrasoft", VBool false); (T "is_paw", VBool false); (T "is_coulomb", VBool false); (T "has_so", VBool false); (T "has_wfc", VBool false);
   (T "core_correction", VBool true); (T "functional", VStr (T "PBE")); (T "z_valence", VFloat (real_value (dec NoSign [4] [0;0])));
   (T "total_psenergy", VFloat (real_value (MkReal Minus [1] (Some [5]) (Some ("E"%char, (Plus, [0;1])))))); (T "wfc_cutoff", VFloat (real_value (dec NoSign [0] [0])));
   (T "rho_cutoff", VFloat (real_value (dec NoSign [6] [0]))); (T "l_max", VInt 1); (T "l_local", VInt (-1)); (T "mesh_size", VInt 2); (T "number_of_wfc", VInt 0); (T "number_of_proj", VInt 1)]
  with Some v => v | None => VNone end.
Example C73_example : exists d, upf_from_file (si_sections (si_attrs "T")) = Ok d /\ f_valence d = rint (real_value (dec NoSign [4] [0;0])) /\
  f_vloc d = Some [(real_value (dec Minus [1]%nat [5]%nat) / 2)%R; (real_value (dec NoSign [2]%nat [0]%nat) / 2)%R] /\ map fst (f_beta d) = [1%Z] /\ f_libxc d = Some (T "gga_x_pbe", T "gga_c_pbe").
Proof.
  assert (INT : forall t s ds z, t = int_text s ds -> int_ok ds -> z = signed s (denotes ds) -> attr_means TInt t (VInt z)).
  { intros t s ds z -> H ->. exists [], s, ds, []. rewrite app_nil_r. split; [easy|]. split; [easy|]. split; [exact H|]. split; reflexivity. }
  assert (FLT : forall t w r, forallb is_ws w = true -> t = w ++ real_text r -> real_ok r -> e_exp r -> attr_means TFloat t (VFloat (real_value r))).
  { intros t w r Hw -> H1 H2. exists w, r, []. rewrite app_nil_r. split; [now apply spacesb|]. split; [easy|]. split; [exact H1|]. split; [exact H2|]. split; reflexivity. }
  assert (OK1 : forall d, d <? 10 = true -> int_ok [d]) by (intros d H; split; [easy|]; apply digits_okb; cbn [forallb]; rewrite H; reflexivity).
  assert (BF : attr_means TBool (T "F") (VBool false)) by (exists false; split; [easy|]; split; [easy|]; intros [E|E]; discriminate).
  assert (BT : attr_means TBool (T "T") (VBool true)) by (exists true; split; [easy|]; split; auto).
  destruct (C73_upf_read (si_sections (si_attrs "T")) (MkSect (T "PP_HEADER") (si_attrs "T") None []) si_value (T " 0.0 0.01") (T "0.01 0.01") (T " -1.5 2.0") (T "0.0 1.5")
    (MkSect (T "PP_NONLOCAL") [] None [MkLeaf (T "PP_BETA.1") [(T "angular_momentum", T "1")] (Some (T "0.0 3.0")); MkLeaf (T "PP_DIJ") [] (Some (T " 7.0"))]) (T " 7.0")
    [real_value (dec NoSign [7] [0])] [(1%Z, [real_value (dec NoSign [0] [0]); real_value (dec NoSign [3] [0])])]
    [real_value (dec NoSign [0] [0]); real_value (dec NoSign [0] [0;1])] [real_value (dec NoSign [0] [0;1]); real_value (dec NoSign [0] [0;1])]
    [real_value (dec Minus [1] [5]); real_value (dec NoSign [2] [0])] [real_value (dec NoSign [0] [0]); real_value (dec NoSign [1] [5])]
    (real_value (dec NoSign [4] [0;0])) (T "PBE")) as (d & E & _ & _ & _ & _ & V & B & _ & _ & _ & _ & _ & L & Z).
  - reflexivity.
  - apply nodupb_ok. reflexivity.
  - intros k Hk Hr. assert (X : existsb (fun k => existsb (teqb k) reserved) (map fst (si_attrs "T")) = true).
    { apply existsb_exists. exists k. split; [exact Hk|]. apply existsb_exists. exists k. split; [exact Hr|apply teqb_refl]. }
    vm_compute in X. discriminate.
  - intros k ty H. unfold header_types in H. cbn [In] in H.
    repeat (destruct H as [H|H]; [injection H as <- <-; eexists; split; [reflexivity|];
      first [reflexivity | exact BF | exact BT
            | apply (INT _ NoSign [1]); [reflexivity|now apply OK1|reflexivity] | apply (INT _ Minus [1]); [reflexivity|now apply OK1|reflexivity]
            | apply (INT _ NoSign [2]); [reflexivity|now apply OK1|reflexivity] | apply (INT _ NoSign [0]); [reflexivity|now apply OK1|reflexivity]
            | apply (FLT _ (T " ") (dec NoSign [4] [0;0])); [reflexivity|reflexivity|now apply dec_ok|easy]
            | apply (FLT _ [] (MkReal Minus [1] (Some [5]) (Some ("E"%char, (Plus, [0;1]))))); [reflexivity|reflexivity|repeat split; cbn; try (now apply digits_okb); auto; easy|now right]
            | apply (FLT _ [] (dec NoSign [0] [0])); [reflexivity|reflexivity|now apply dec_ok|easy]
            | apply (FLT _ [] (dec NoSign [6] [0])); [reflexivity|reflexivity|now apply dec_ok|easy] ]|]). destruct H.
  - reflexivity.
  - now apply (nums2 (T " ")).
  - reflexivity.
  - now apply (nums2 []).
  - reflexivity.
  - now apply (nums2 (T " ")).
  - reflexivity.
  - now apply (nums2 []).
  - reflexivity.
  - reflexivity.
  - now apply (nums1 (T " ")).
  - constructor; [|constructor]. exists (T "1"), (T "0.0 3.0"). cbn [fst snd]. split; [reflexivity|]. split; [apply (INT _ NoSign [1]); [reflexivity|now apply OK1|reflexivity]|]. split; [reflexivity|]. now apply (nums2 []).
  - reflexivity.
  - discriminate.
  - reflexivity.
  - reflexivity.
  - intros _. exists (MkSect (T "PP_NLCC") [] (Some (T "1.0 0.5")) []), (T "1.0 0.5"), [real_value (dec NoSign [1] [0]); real_value (dec NoSign [0] [5])]. split; [reflexivity|]. split; [reflexivity|]. now apply (nums2 []).
  - exists d. split; [exact E|]. split; [exact Z|]. split; [exact V|]. split; [rewrite B; reflexivity|]. rewrite L. reflexivity.
Qed.
