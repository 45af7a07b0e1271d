From Verif Require Import Base FactoryModel FactorySpec.
From Coq Require Import String.
Local Open Scope nat_scope.
Local Notation length := List.length.

(** ---- equality of keys ---- *)
Lemma val_eqb_spec a b : val_eqb a b = true <-> same_value a b.
Proof.
  unfold same_value, val_eqb. split.
  - destruct (number a) eqn:Ea, (number b) eqn:Eb; try discriminate.
    + intros H. apply Z.eqb_eq in H as ->. left. eauto.
    + destruct a as [s| | | | | |], b as [t| | | | | |]; try discriminate; intros H.
      * destruct (space_dec s t) as [->|]; [|discriminate]. right. left. eauto.
      * apply Nat.eqb_eq in H as ->. right. right. eauto.
  - intros [(z & -> & ->)|[(s & -> & ->)|(i & -> & ->)]].
    + apply Z.eqb_refl.
    + cbn. destruct (space_dec s s); [reflexivity|contradiction].
    + cbn. apply Nat.eqb_refl.
Qed.
Lemma val_eqb_sym a b : val_eqb a b = true -> val_eqb b a = true.
Proof. rewrite !val_eqb_spec. intros [(z & A & B)|[(s & A & B)|(i & A & B)]]; [left|right; left|right; right]; eauto. Qed.
Lemma val_eqb_trans a b c : val_eqb a b = true -> val_eqb b c = true -> val_eqb a c = true.
Proof.
  rewrite !val_eqb_spec. intros [(z & A & B)|[(s & A & B)|(i & A & B)]] [(z' & A' & B')|[(s' & A' & B')|(i' & A' & B')]]; subst; cbn in *; try discriminate.
  - left. exists z'. split; [|assumption]. congruence.
  - injection A' as <-. right. left. eauto.
  - injection A' as <-. right. right. eauto.
Qed.
Lemma val_eqb_space s b : val_eqb (VSpace s) b = true <-> b = VSpace s.
Proof.
  unfold val_eqb. cbn. split; [|intros ->; cbn; destruct (space_dec s s); [reflexivity|contradiction]].
  destruct b; cbn; try discriminate. destruct (space_dec s s0); [congruence|discriminate].
Qed.
Lemma vals_eqb_sym l : forall m, vals_eqb l m = true -> vals_eqb m l = true.
Proof. induction l as [|a l IH]; intros [|b m]; cbn; try discriminate; [reflexivity|]. rewrite !andb_true_iff. intros (A & B). split; [now apply val_eqb_sym|now apply IH]. Qed.
Lemma vals_eqb_trans l : forall m p, vals_eqb l m = true -> vals_eqb m p = true -> vals_eqb l p = true.
Proof.
  induction l as [|a l IH]; intros [|b m] [|c p]; cbn; try discriminate; [reflexivity|]. rewrite !andb_true_iff. intros (A & B) (A' & B').
  split; [eapply val_eqb_trans; eassumption|eapply IH; eassumption].
Qed.
Lemma kws_eqb_sym l : forall m, kws_eqb l m = true -> kws_eqb m l = true.
Proof.
  induction l as [|[n a] l IH]; intros [|[k b] m]; cbn; try discriminate; [reflexivity|]. rewrite !andb_true_iff, !String.eqb_eq. intros ((-> & A) & B).
  repeat split; [now apply val_eqb_sym|now apply IH].
Qed.
Lemma kws_eqb_trans l : forall m p, kws_eqb l m = true -> kws_eqb m p = true -> kws_eqb l p = true.
Proof.
  induction l as [|[n a] l IH]; intros [|[k b] m] [|[j c] p]; cbn; try discriminate; [reflexivity|]. rewrite !andb_true_iff, !String.eqb_eq. intros ((-> & A) & B) ((-> & A') & B').
  repeat split; [eapply val_eqb_trans; eassumption|eapply IH; eassumption].
Qed.
Lemma key_eqb_sym q r : key_eqb q r = true -> key_eqb r q = true.
Proof. unfold key_eqb. rewrite !andb_true_iff. intros (A & B). split; [now apply vals_eqb_sym|now apply kws_eqb_sym]. Qed.
Lemma key_eqb_trans q r s : key_eqb q r = true -> key_eqb r s = true -> key_eqb q s = true.
Proof. unfold key_eqb. rewrite !andb_true_iff. intros (A & B) (A' & B'). split; [eapply vals_eqb_trans; eassumption|eapply kws_eqb_trans; eassumption]. Qed.
Lemma key_eqb_swap q r s : key_eqb r q = true -> key_eqb s q = key_eqb s r.
Proof.
  intros E. destruct (key_eqb s r) eqn:A.
  - now apply (key_eqb_trans s r q).
  - destruct (key_eqb s q) eqn:B; [|reflexivity]. rewrite (key_eqb_trans s q r B (key_eqb_sym _ _ E)) in A. discriminate.
Qed.
Lemma lookup_swap c f q r : key_eqb r q = true -> lookup c f q = lookup c f r.
Proof. intros E. induction c as [|[[g s] n] c IH]; [reflexivity|]. cbn. rewrite (key_eqb_swap q r s E), IH. reflexivity. Qed.
Lemma key_alike pos kw pos' kw' : key_eqb (pos, kw) (pos', kw') = true <-> written_alike pos kw pos' kw'.
Proof.
  unfold key_eqb, written_alike. cbn [fst snd]. rewrite andb_true_iff.
  assert (H1 : forall l m, vals_eqb l m = true <-> Forall2 same_value l m).
  { induction l as [|a l IH]; intros [|b m]; cbn; split; intros H; try discriminate; try (now inversion H); try constructor.
    - apply andb_true_iff in H as (H & _). now apply val_eqb_spec.
    - apply andb_true_iff in H as (_ & H). now apply IH.
    - inversion H; subst. apply andb_true_iff. split; [now apply val_eqb_spec|now apply IH]. }
  assert (H2 : forall l m, kws_eqb l m = true <-> Forall2 (fun x y : kwarg => fst x = fst y /\ same_value (snd x) (snd y)) l m).
  { induction l as [|[n a] l IH]; intros [|[k b] m]; cbn; split; intros H; try discriminate; try (now inversion H); try constructor.
    - apply andb_true_iff in H as (H & _). apply andb_true_iff in H as (H & H'). apply String.eqb_eq in H. split; [exact H|now apply val_eqb_spec].
    - apply andb_true_iff in H as (_ & H). now apply IH.
    - inversion H as [|? ? ? ? (A & B) H']; subst. cbn in A, B. rewrite !andb_true_iff. split; [split; [now apply String.eqb_eq|now apply val_eqb_spec]|now apply IH]. }
  now rewrite H1, H2.
Qed.

(** ---- binding ---- *)
Lemma bind_iff f pos kw s ns : bind_args (params f) pos kw = Some (VSpace s :: ns) <-> stands_for f pos kw s ns.
Proof.
  split.
  - intros H.
    assert (X : forall p (l : list kwarg), bind_args [p] [] l = Some (VSpace s :: ns) -> l = [(p, VSpace s)] /\ ns = []).
    { intros p [|[n v] l]; cbn; [discriminate|]. destruct (String.eqb_spec p n) as [E|E].
      - destruct l; cbn; [|discriminate]. intros [= -> <-]. now rewrite E.
      - destruct (kw_get p l); discriminate. }
    assert (Y : forall p p' (l : list kwarg), p <> p' -> bind_args [p; p'] [] l = Some (VSpace s :: ns) ->
        exists v, ns = [v] /\ (l = [(p, VSpace s); (p', v)] \/ l = [(p', v); (p, VSpace s)])).
    { intros p p' l NE. cbn [bind_args]. destruct (kw_get p l) as [v|] eqn:E1; [|discriminate]. destruct (kw_get p' (kw_del p l)) as [v'|] eqn:E2; [|discriminate].
      destruct (kw_del p' (kw_del p l)) eqn:E3; [|discriminate]. cbn [option_map]. intros [= -> <-]. exists v'. split; [reflexivity|].
      destruct l as [|[n a] l]; cbn in E1; [discriminate|]. destruct (String.eqb_spec p n) as [E|E].
      - injection E1 as ->. subst n. cbn in E2, E3. rewrite String.eqb_refl in E2, E3. left. destruct l as [|[n b] l]; [discriminate|]. cbn in E2, E3.
        destruct (String.eqb_spec p' n) as [E|E]; [|discriminate]. injection E2 as ->. subst. reflexivity.
      - cbn in E2, E3. destruct (String.eqb_spec p n) as [|_]; [contradiction|]. cbn in E2, E3. destruct (String.eqb_spec p' n) as [E'|E']; [|discriminate].
        injection E2 as ->. subst n. right. f_equal. destruct l as [|[n b] l]; [discriminate|]. cbn in E1, E3. destruct (String.eqb_spec p n) as [E4|E4]; [|discriminate].
        injection E1 as ->. now subst. }
    assert (PP : params f = if is_wavefun (kind_of f) then [space_name f; "numspin"%string] else [space_name f]) by (destruct f as [k|k]; destruct k; reflexivity).
    rewrite PP in H. destruct (is_wavefun (kind_of f)) eqn:W.
    + assert (NE : space_name f <> "numspin"%string) by (destruct f as [k|k]; destruct k; discriminate).
      destruct pos as [|a pos].
      * apply (Y _ _ _ NE) in H as (v & -> & [-> | ->]); now constructor.
      * cbn [bind_args] in H. destruct (kw_get (space_name f) kw) eqn:K1; [discriminate|]. destruct pos as [|b pos].
        { destruct (kw_get "numspin" kw) as [v|] eqn:K2; [|discriminate]. destruct (kw_del "numspin" kw) eqn:K3; [|discriminate]. cbn [option_map] in H. injection H as -> <-.
          destruct kw as [|[n c] kw]; [discriminate|]. cbn [kw_get kw_del] in K2, K3. destruct (String.eqb_spec "numspin" n) as [E|E]; [|discriminate K3]. injection K2 as ->. subst. now constructor. }
        destruct (kw_get "numspin" kw) eqn:K2; [discriminate|]. destruct pos; [|discriminate]. destruct kw; [|discriminate]. cbn [option_map] in H. injection H as -> <-. now constructor.
    + destruct pos as [|a pos].
      * apply X in H as (-> & ->). now constructor.
      * cbn [bind_args] in H. destruct (kw_get (space_name f) kw) eqn:K1; [discriminate|]. destruct pos; [|discriminate]. destruct kw; [|discriminate]. cbn [option_map] in H. injection H as -> <-. now constructor.
  - intros H. inversion H; subst; destruct f as [k|k]; destruct k; try discriminate; reflexivity.
Qed.
Lemma stands_ns f pos kw s ns : stands_for f pos kw s ns -> length ns = if is_wavefun (kind_of f) then 1 else 0.
Proof. intros H. inversion H as [? E|? E|? ? E|? ? E|? ? E|? ? E]; subst; rewrite E; reflexivity. Qed.
Lemma stands_pos f s ns : length ns = (if is_wavefun (kind_of f) then 1 else 0) -> stands_for f (VSpace s :: ns) [] s ns.
Proof. destruct (is_wavefun (kind_of f)) eqn:E; destruct ns as [|v [|]]; cbn; try discriminate; intros _; now constructor. Qed.
Lemma stands_alike f pos kw pos' kw' s ns : key_eqb (pos, kw) (pos', kw') = true -> stands_for f pos kw s ns ->
  exists ns', stands_for f pos' kw' s ns' /\ vals_eqb ns ns' = true.
Proof.
  unfold key_eqb. cbn [fst snd]. rewrite andb_true_iff. intros (A & B) H.
  assert (V0 : forall l, vals_eqb [] l = true -> l = []) by (intros [|]; [reflexivity|discriminate]).
  assert (K0 : forall l, kws_eqb [] l = true -> l = []) by (intros [|]; [reflexivity|discriminate]).
  assert (V1 : forall a l m, vals_eqb (a :: l) m = true -> exists b l', m = b :: l' /\ val_eqb a b = true /\ vals_eqb l l' = true).
  { intros a l m E. destruct m as [|b l']; [discriminate|]. cbn in E. apply andb_true_iff in E. eauto. }
  assert (K1 : forall n a l m, kws_eqb ((n, a) :: l) m = true -> exists b l', m = (n, b) :: l' /\ val_eqb a b = true /\ kws_eqb l l' = true).
  { intros n a l m E. destruct m as [|[k b] l']; [discriminate|]. cbn in E. apply andb_true_iff in E as (E & E2). apply andb_true_iff in E as (E & E1). apply String.eqb_eq in E as ->. eauto. }
  inversion H; subst.
  - apply V1 in A as (x & l & -> & A1 & A2). apply V0 in A2 as ->. apply K0 in B as ->. apply val_eqb_space in A1 as ->. exists []. split; [now constructor|reflexivity].
  - apply V0 in A as ->. apply K1 in B as (x & l & -> & B1 & B2). apply K0 in B2 as ->. apply val_eqb_space in B1 as ->. exists []. split; [now constructor|reflexivity].
  - apply V1 in A as (x & l & -> & A1 & A2). apply V1 in A2 as (y & l' & -> & A3 & A4). apply V0 in A4 as ->. apply K0 in B as ->. apply val_eqb_space in A1 as ->. exists [y]. split; [now constructor|cbn; now rewrite A3].
  - apply V1 in A as (x & l & -> & A1 & A2). apply V0 in A2 as ->. apply K1 in B as (y & l & -> & B1 & B2). apply K0 in B2 as ->. apply val_eqb_space in A1 as ->. exists [y]. split; [now constructor|cbn; now rewrite B1].
  - apply V0 in A as ->. apply K1 in B as (x & l & -> & B1 & B2). apply K1 in B2 as (y & l' & -> & B3 & B4). apply K0 in B4 as ->. apply val_eqb_space in B1 as ->. exists [y]. split; [now constructor|cbn; now rewrite B3].
  - apply V0 in A as ->. apply K1 in B as (y & l & -> & B1 & B2). apply K1 in B2 as (x & l' & -> & B3 & B4). apply K0 in B4 as ->. apply val_eqb_space in B3 as ->. exists [y]. split; [now constructor|cbn; now rewrite B1].
Qed.

(** ---- the invariant ---- *)
Definition wf_of (k : kind) := if is_wavefun k then 1 else 0.
Fixpoint height (s : space) : nat := match s with Plain _ _ _ _ => 0 | Dist _ _ _ _ g => S (height g) end.
Definition weight_fs (f : factory) (s : space) : nat := match f with Get _ => 2 * height s + 1 | GetDist _ => 2 * height s end.
Definition weight (f : factory) (q : key) : option nat := match q with (VSpace s :: _, []) => Some (weight_fs f s) | _ => None end.
Definition ext (m m' : st) : Prop :=
  (forall n a, nth_error (classes m) n = Some a -> nth_error (classes m') n = Some a) /\
  forall f q n, lookup (cache m) f q = Some n -> lookup (cache m') f q = Some n.
Definition below (w : nat) (m m' : st) : Prop :=
  forall f q, (forall v, weight f q = Some v -> w <= v) -> lookup (cache m') f q = lookup (cache m) f q.
(** The calls that own their class: all but those handed on to [GetDist]. *)
Definition owns (f : factory) (s : space) : bool := match f with Get _ => negb (is_dist s) | GetDist _ => true end.
Definition good (f : factory) (s : space) (ns : list pyval) (n : nat) (m : st) : Prop :=
  exists a, nth_error (classes m) n = Some a /\ c_kind a = kind_of f /\ c_space a = s /\ c_dist a = is_dist s /\
    is_gk s = is_wavefun (kind_of f) /\
    (is_wavefun (kind_of f) = false -> c_numspin a = None /\ c_size a = coefficients (kind_of f) s) /\
    (is_wavefun (kind_of f) = true -> exists v w z, ns = [v] /\ c_numspin a = Some w /\ val_eqb v w = true /\ spin_ok w = Some z /\ c_size a = (z * coefficients (kind_of f) s)%Z) /\
    match s with
    | Plain _ _ _ _ => c_global a = None /\ f = Get (kind_of f)
    | Dist _ _ _ _ g =>
        (exists p, c_global a = Some p /\ lookup (cache m) (Get (kind_of f)) (VSpace g :: ns, []) = Some p) /\
        (f = Get (kind_of f) -> lookup (cache m) (GetDist (kind_of f)) (VSpace s :: ns, []) = Some n)
    end.
Definition inv (m : st) : Prop :=
  (forall f pos kw n, lookup (cache m) f (pos, kw) = Some n -> exists s ns, stands_for f pos kw s ns /\ good f s ns n m) /\
  (forall f q f' q' n s ns s' ns', lookup (cache m) f q = Some n -> lookup (cache m) f' q' = Some n ->
     stands_for f (fst q) (snd q) s ns -> stands_for f' (fst q') (snd q') s' ns' -> owns f s = true -> owns f' s' = true -> f = f' /\ key_eqb q q' = true).
Lemma ext_refl m : ext m m.
Proof. split; auto. Qed.
Lemma ext_trans m m1 m2 : ext m m1 -> ext m1 m2 -> ext m m2.
Proof. intros (A & B) (A' & B'). split; auto. Qed.
Lemma below_trans w m m1 m2 : below w m m1 -> below w m1 m2 -> below w m m2.
Proof. intros A B f q H. now rewrite B, A. Qed.
Lemma below_le w v m m1 : w <= v -> below w m m1 -> below v m m1.
Proof. intros L A f q H. apply A. intros x Hx. specialize (H x Hx). lia. Qed.
Lemma good_ext f s ns n m m' : ext m m' -> good f s ns n m -> good f s ns n m'.
Proof.
  intros (A & B) (a & H1 & H2 & H3 & H4 & H4' & H5 & H6 & H7). exists a. repeat (split; [auto|]). destruct s as [|b i x y g]; [exact H7|].
  destruct H7 as ((p & P1 & P2) & H8). split; [exists p; split; [exact P1|now apply B]|auto].
Qed.
Lemma good_alike f s ns ns' n m : vals_eqb ns ns' = true -> good f s ns n m -> good f s ns' n m.
Proof.
  intros E (a & H1 & H2 & H3 & H4 & H4' & H5 & H6 & H7). exists a. repeat (split; [assumption|]). split; [|].
  - intros W. destruct (H6 W) as (v & w & z & -> & A & B & D & F). destruct ns' as [|v' [|]]; cbn in E; try discriminate; rewrite ?andb_false_r in E; [|discriminate].
    rewrite andb_true_r in E. exists v', w, z. split; [reflexivity|]. split; [exact A|]. split; [|now split]. eapply val_eqb_trans; [|exact B]. now apply val_eqb_sym.
  - assert (K : forall t, key_eqb (VSpace t :: ns, []) (VSpace t :: ns', []) = true).
    { intros t. unfold key_eqb. cbn [fst snd vals_eqb kws_eqb]. rewrite E, (proj2 (val_eqb_space t _) eq_refl). reflexivity. }
    destruct s as [|b i x y g]; [exact H7|]. destruct H7 as ((p & P1 & P2) & H8). split.
    + exists p. split; [exact P1|]. now rewrite (lookup_swap _ _ _ _ (K g)).
    + intros E'. rewrite (lookup_swap _ _ _ _ (K (Dist b i x y g))). auto.
Qed.
(** What one run of a factory body guarantees. *)
Definition post (f : factory) (s : space) (ns : list pyval) (m m1 : st) (r : res nat) : Prop :=
  inv m1 /\ ext m m1 /\ below (weight_fs f s) m m1 /\
  forall n, r = Ok n -> good f s ns n m1 /\ (owns f s = true -> forall f' q', lookup (cache m1) f' q' <> Some n).
Lemma lookup_cons f q n c f' q' : lookup ((f, q, n) :: c) f' q' = if (if factory_dec f' f then true else false) && key_eqb q q' then Some n else lookup c f' q'.
Proof. reflexivity. Qed.
Lemma lookup_kw c f q r n : lookup c f q = Some n -> key_eqb r q = true -> lookup c f r = Some n.
Proof. intros H E. now rewrite <- (lookup_swap c f q r E). Qed.
Lemma key_refl pos kw : existsb unhashable pos = false -> existsb (fun kv : kwarg => unhashable (snd kv)) kw = false -> key_eqb (pos, kw) (pos, kw) = true.
Proof.
  intros A B. unfold key_eqb. cbn [fst snd].
  assert (V : forall a, unhashable a = false -> val_eqb a a = true).
  { intros a Ha. apply val_eqb_spec. destruct a; try discriminate; try (left; eexists; split; reflexivity); [right; left|right; right]; eauto. }
  apply andb_true_iff. split.
  - induction pos as [|a pos IH]; [reflexivity|]. cbn in A |- *. apply orb_false_iff in A as (A1 & A2). now rewrite V, IH.
  - induction kw as [|[n a] kw IH]; [reflexivity|]. cbn in B |- *. apply orb_false_iff in B as (B1 & B2). now rewrite String.eqb_refl, V, IH.
Qed.
Lemma cached_ok f pos kw s ns body m m' r : inv m -> stands_for f pos kw s ns ->
  (forall m1 r1, body m = (m1, r1) -> lookup (cache m) f (pos, kw) = None -> post f s ns m m1 r1) ->
  cached f (pos, kw) body m = (m', r) ->
  inv m' /\ ext m m' /\ (kw = [] -> below (S (weight_fs f s)) m m') /\
  (forall n, r = Ok n -> lookup (cache m') f (pos, kw) = Some n /\ good f s ns n m').
Proof.
  intros I HS HB. unfold cached. destruct (_ || _) eqn:UH; [intros [= <- <-]; split; [exact I|]; split; [apply ext_refl|]; split; [intros ? ? ?; reflexivity|discriminate]|].
  destruct (lookup (cache m) f (pos, kw)) as [n|] eqn:L.
  { intros [= <- <-]. split; [exact I|]. split; [apply ext_refl|]. split; [intros _ ? ? ?; reflexivity|]. intros n' [= <-]. split; [exact L|].
    destruct (proj1 I _ _ _ _ L) as (s' & ns' & HS' & G). apply bind_iff in HS, HS'. rewrite HS in HS'. injection HS' as <- <-. exact G. }
  destruct (body m) as [m1 r1] eqn:EB. destruct (HB m1 r1 eq_refl eq_refl) as (I1 & X1 & B1 & G1).
  destruct r1 as [n|e].
  2: { intros [= <- <-]. split; [exact I1|]. split; [exact X1|]. split; [intros _; apply (below_le (weight_fs f s)); [lia|exact B1]|discriminate]. }
  intros [= <- <-]. destruct (G1 n eq_refl) as (GD & NEW).
  assert (L1 : lookup (cache m1) f (pos, kw) = None).
  { rewrite B1; [exact L|]. intros v. destruct pos as [|[s'| | | | | |] pos]; cbn; try discriminate. destruct kw; [|discriminate]. intros [= <-].
    assert (s' = s) by (inversion HS; subst; reflexivity). subst s'. destruct f; lia. }
  set (m' := MkSt (classes m1) ((f, (pos, kw), n) :: cache m1)).
  assert (X2 : ext m1 m').
  { split; [auto|]. intros f' q' n' H'. unfold m'. cbn [cache]. rewrite lookup_cons. destruct (factory_dec f' f) as [->|]; [|exact H']. cbn [andb].
    destruct (key_eqb (pos, kw) q') eqn:E; [|exact H']. rewrite (lookup_swap _ _ _ _ E), L1 in H'. discriminate. }
  assert (LK : forall f' q' n', lookup (cache m') f' q' = Some n' -> (f' = f /\ key_eqb (pos, kw) q' = true /\ n' = n) \/ lookup (cache m1) f' q' = Some n').
  { intros f' q' n'. unfold m'. cbn [cache]. rewrite lookup_cons. destruct (factory_dec f' f) as [->|]; [|now right]. cbn [andb].
    destruct (key_eqb (pos, kw) q') eqn:E; [|now right]. intros [= <-]. now left. }
  split; [|split; [eapply ext_trans; eassumption|split]].
  - split.
    + intros f' pos' kw' n' H'. apply LK in H' as [(-> & E & ->)|H'].
      * destruct (stands_alike _ _ _ _ _ _ _ E HS) as (ns' & HS' & EN). exists s, ns'. split; [exact HS'|]. apply (good_ext _ _ _ _ m1 m' X2). now apply (good_alike _ _ ns).
      * destruct (proj1 I1 _ _ _ _ H') as (s' & ns' & HS' & G'). exists s', ns'. split; [exact HS'|]. now apply (good_ext _ _ _ _ m1 m' X2).
    + intros f1 q1 f2 q2 p s1 ns1 s2 ns2 H1 H2 S1 S2 O1 O2.
      assert (SS : forall q t nt, key_eqb (pos, kw) q = true -> stands_for f (fst q) (snd q) t nt -> t = s).
      { intros [pq kq] t nt E HT. destruct (stands_alike _ _ _ _ _ _ _ E HS) as (ns' & HS' & _). cbn [fst snd] in HT. apply bind_iff in HT, HS'. rewrite HT in HS'. congruence. }
      apply LK in H1 as [(-> & E1 & ->)|H1]; apply LK in H2 as [(E2f & E2 & E2n)|H2].
      * subst f2. split; [reflexivity|]. eapply key_eqb_trans; [apply key_eqb_sym; exact E1|exact E2].
      * exfalso. rewrite (SS _ _ _ E1 S1) in O1. now apply (NEW O1) in H2.
      * subst f2 p. exfalso. rewrite (SS _ _ _ E2 S2) in O2. now apply (NEW O2) in H1.
      * exact (proj2 I1 _ _ _ _ _ _ _ _ _ H1 H2 S1 S2 O1 O2).
  - intros K f' q' H'. subst kw. unfold m'. cbn [cache]. rewrite lookup_cons. destruct (factory_dec f' f) as [->|].
    + cbn [andb]. destruct (key_eqb (pos, []) q') eqn:E.
      * exfalso. destruct q' as [pos' kw']. assert (kw' = []) as -> by (unfold key_eqb in E; cbn [fst snd] in E; apply andb_true_iff in E as (_ & E); destruct kw'; [reflexivity|discriminate]).
        destruct (stands_alike _ _ _ _ _ _ _ E HS) as (ns' & HS' & _). inversion HS'; subst; cbn [weight] in H'; specialize (H' _ eq_refl); lia.
      * apply B1. intros v Hv. specialize (H' v Hv). lia.
    + cbn [andb]. apply B1. intros v Hv. specialize (H' v Hv). lia.
  - intros n' [= <-]. split.
    + unfold m'. cbn [cache]. rewrite lookup_cons. destruct (factory_dec f f); [|contradiction]. cbn [andb fst snd] in *. apply orb_false_iff in UH as (U1 & U2).
      now rewrite key_refl.
    + apply (good_ext _ _ _ _ m1 m' X2), GD.
Qed.

(** ---- the factory bodies ---- *)
Lemma spin_refl w z : spin_ok w = Some z -> val_eqb w w = true.
Proof. intros H. apply val_eqb_spec. destruct w; try discriminate; left; eexists; split; reflexivity. Qed.
Lemma lookup_old m f pos kw n : inv m -> lookup (cache m) f (pos, kw) = Some n -> n < length (classes m).
Proof. intros I L. destruct (proj1 I _ _ _ _ L) as (s & ns & _ & a & H & _). apply nth_error_Some. congruence. Qed.
Lemma inv_same_cache m m1 : inv m -> ext m m1 -> cache m1 = cache m -> inv m1.
Proof.
  intros I X E. split.
  - intros f pos kw n H. rewrite E in H. destruct (proj1 I _ _ _ _ H) as (s & ns & HS & G). exists s, ns. split; [exact HS|]. now apply (good_ext _ _ _ _ m).
  - rewrite E. exact (proj2 I).
Qed.
Lemma new_class_post f s ns g m m1 r : inv m -> length ns = (if is_wavefun (kind_of f) then 1 else 0) ->
  match s with
  | Plain _ _ _ _ => g = None /\ f = Get (kind_of f)
  | Dist _ _ _ _ t => f = GetDist (kind_of f) /\ exists p, g = Some p /\ lookup (cache m) (Get (kind_of f)) (VSpace t :: ns, []) = Some p
  end ->
  new_class (kind_of f) (is_dist s) s ns g m = (m1, r) -> post f s ns m m1 r.
Proof.
  intros I HL HG. unfold new_class.
  assert (ERR : post f s ns m m (Err TypeError)) by (split; [exact I|]; split; [apply ext_refl|]; split; [intros ? ? ?; reflexivity|discriminate]).
  destruct (Bool.eqb (is_gk s) (is_wavefun (kind_of f))) eqn:GK; cbn [negb]; [|intros [= <- <-]; exact ERR]. apply Bool.eqb_prop in GK.
  assert (OKP : forall v n, (is_wavefun (kind_of f) = false -> v = None /\ n = coefficients (kind_of f) s) ->
     (is_wavefun (kind_of f) = true -> exists v0 w z, ns = [v0] /\ v = Some w /\ val_eqb v0 w = true /\ spin_ok w = Some z /\ n = (z * coefficients (kind_of f) s)%Z) ->
     post f s ns m (MkSt (classes m ++ [MkCls (kind_of f) (is_dist s) s v n g]) (cache m)) (Ok (length (classes m)))).
  { intros v n A B. set (m2 := MkSt _ _).
    assert (X : ext m m2).
    { split; [|auto]. intros i a H. unfold m2. cbn [classes]. rewrite nth_error_app1; [exact H|]. apply nth_error_Some. congruence. }
    split; [apply (inv_same_cache m); [exact I|exact X|reflexivity]|]. split; [exact X|]. split; [intros ? ? ?; reflexivity|].
    intros i [= <-]. split.
    - exists (MkCls (kind_of f) (is_dist s) s v n g). split; [unfold m2; cbn [classes]; rewrite nth_error_app2, Nat.sub_diag by lia; reflexivity|]. cbn.
      repeat (split; [reflexivity || assumption|]). destruct s as [b j x y|b j x y t].
      + destruct HG as (-> & HG). now split.
      + destruct HG as (-> & p & -> & HG). split; [|discriminate]. exists p. split; [reflexivity|exact HG].
    - intros _ f' [pos kw] L. apply (lookup_old m) in L; [lia|exact I]. }
  destruct (is_wavefun (kind_of f)) eqn:W.
  - destruct ns as [|v [|]]; cbn in HL; try discriminate. destruct (spin_ok v) as [z|] eqn:SP; [|intros [= <- <-]; exact ERR]. intros [= <- <-]. apply OKP; [discriminate|].
    intros _. exists v, v, z. repeat split; [now apply (spin_refl v z)|exact SP].
  - intros [= <- <-]. apply OKP; [now split|discriminate].
Qed.
Lemma cached_ext f q b1 b2 m : b1 m = b2 m -> cached f q b1 m = cached f q b2 m.
Proof. intros E. unfold cached. now rewrite E. Qed.
Lemma get_body_dist k s ns m : is_dist s = true -> is_gk s = is_wavefun k ->
  get_body k s ns m = cached (GetDist k) (VSpace s :: ns, []) (dist_body k s ns) m.
Proof.
  intros D G. destruct s as [|b i x y g]; [discriminate|]. cbn [is_gk] in G. cbn [get_body]. rewrite G, Bool.eqb_reflx. apply cached_ext.
  cbn [dist_body]. now rewrite Bool.eqb_reflx.
Qed.
Lemma below_weaken w v m m' : w <= v -> below w m m' -> below v m m'.
Proof. apply below_le. Qed.
Lemma body_post k s : forall ns m, inv m -> length ns = (if is_wavefun k then 1 else 0) ->
  (forall m1 r, get_body k s ns m = (m1, r) -> post (Get k) s ns m m1 r) /\
  (forall m1 r, dist_body k s ns m = (m1, r) -> post (GetDist k) s ns m m1 r).
Proof.
  induction s as [b i x y|b i x y g IH]; intros ns m I HL.
  - split.
    + intros m1 r H. cbn [get_body] in H. apply (new_class_post (Get k) (Plain b i x y) ns None m m1 r I HL); [now split|exact H].
    + intros m1 r H. cbn [dist_body] in H. injection H as <- <-. split; [exact I|]. split; [apply ext_refl|]. split; [intros ? ? ?; reflexivity|discriminate].
  - assert (HDB : forall m, inv m -> forall m1 r, dist_body k (Dist b i x y g) ns m = (m1, r) -> post (GetDist k) (Dist b i x y g) ns m m1 r).
    { clear m I. intros m I m1 r. cbn [dist_body]. destruct (Bool.eqb b (is_wavefun k)) eqn:BK.
      2: { intros [= <- <-]. split; [exact I|]. split; [apply ext_refl|]. split; [intros ? ? ?; reflexivity|discriminate]. }
      destruct (cached (Get k) (VSpace g :: ns, []) (get_body k g ns) m) as [m2 r2] eqn:EC. intros H.
      destruct (cached_ok (Get k) (VSpace g :: ns) [] g ns (get_body k g ns) m m2 r2 I) as (I2 & X2 & B2 & G2); [now apply stands_pos|intros mm rr Hm _; exact (proj1 (IH ns m I HL) mm rr Hm)|exact EC|].
      assert (BW : below (weight_fs (GetDist k) (Dist b i x y g)) m m2) by (apply (below_le (S (weight_fs (Get k) g))); [cbn; lia|now apply B2]).
      destruct r2 as [p|e].
      - destruct (G2 p eq_refl) as (L2 & _).
        destruct (new_class_post (GetDist k) (Dist b i x y g) ns (Some p) m2 m1 r I2 HL) as (I1 & X1 & B1 & G1).
        { split; [reflexivity|]. exists p. split; [reflexivity|exact L2]. }
        { exact H. }
        split; [exact I1|]. split; [eapply ext_trans; eassumption|]. split; [eapply below_trans; eassumption|exact G1].
      - injection H as <- <-. split; [exact I2|]. split; [exact X2|]. split; [exact BW|discriminate]. }
    split; [|exact (HDB m I)].
    intros m1 r. destruct (Bool.eqb b (is_wavefun k)) eqn:BK.
    + apply Bool.eqb_prop in BK. rewrite get_body_dist by (try reflexivity; exact BK). intros H.
      destruct (cached_ok (GetDist k) (VSpace (Dist b i x y g) :: ns) [] (Dist b i x y g) ns (dist_body k (Dist b i x y g) ns) m m1 r I) as (I1 & X1 & B1 & G1);
        [now apply stands_pos|intros mm rr Hm _; exact (HDB m I mm rr Hm)|exact H|].
      split; [exact I1|]. split; [exact X1|]. split; [apply (below_le (S (weight_fs (GetDist k) (Dist b i x y g)))); [cbn; lia|now apply B1]|].
      intros n En. destruct (G1 n En) as (L1 & a & H1 & H2 & H3 & H4 & H4' & H5 & H6 & H7 & _). split; [|discriminate].
      exists a. repeat (split; [assumption|]). intros _. exact L1.
    + cbn [get_body]. rewrite BK. unfold new_class. cbn [is_gk]. rewrite BK. cbn [negb]. intros [= <- <-].
      split; [exact I|]. split; [apply ext_refl|]. split; [intros ? ? ?; reflexivity|discriminate].
Qed.
Lemma call_spec f pos kw m m' r : inv m -> call f pos kw m = (m', r) ->
  inv m' /\ ext m m' /\ forall n, r = Ok n -> exists s ns, stands_for f pos kw s ns /\ lookup (cache m') f (pos, kw) = Some n /\ good f s ns n m'.
Proof.
  intros I H. unfold call in H. destruct (bind_args (params f) pos kw) as [[|[s| | | | | |] ns]|] eqn:EB.
  2: { assert (HS : stands_for f pos kw s ns) by now apply bind_iff.
       destruct (cached_ok f pos kw s ns (fun m => match f with Get k => get_body k s ns m | GetDist k => dist_body k s ns m end) m m' r I HS) as (I' & X & _ & G); [|exact H|].
       - intros m1 r1 Hb _. pose proof (stands_ns _ _ _ _ _ HS) as HL. destruct f as [k|k]; cbn in Hb, HL; [exact (proj1 (body_post k s ns m I HL) m1 r1 Hb)|exact (proj2 (body_post k s ns m I HL) m1 r1 Hb)].
       - split; [exact I'|]. split; [exact X|]. intros n En. destruct (G n En). exists s, ns. now repeat split. }
  all: assert (K : m' = m /\ forall n, r = Ok n -> lookup (cache m) f (pos, kw) = Some n) by
    (unfold cached in H; destruct (_ || _); [injection H as <- <-; split; [reflexivity|discriminate]|];
     destruct (lookup (cache m) f (pos, kw)); injection H as <- <-; (split; [reflexivity|intros ? [= <-]; reflexivity || discriminate || idtac]); try discriminate);
    destruct K as (-> & K); (split; [exact I|]; split; [apply ext_refl|]; intros n En; apply K in En;
     destruct (proj1 I _ _ _ _ En) as (s' & ns' & HS & _); apply bind_iff in HS; rewrite EB in HS; discriminate).
Qed.
Lemma inv0 : inv st0.
Proof. split; [intros f pos kw n H|intros f q f' q' n s ns s' ns' H]; discriminate. Qed.
Lemma later_spec m m' : later m m' -> inv m -> inv m' /\ ext m m'.
Proof.
  induction 1 as [m|m m1 m2 f pos kw r HL IH HC]; intros I; [split; [exact I|apply ext_refl]|]. destruct (IH I) as (I1 & X1).
  destruct (call_spec _ _ _ _ _ _ I1 HC) as (I2 & X2 & _). split; [exact I2|eapply ext_trans; eassumption].
Qed.
Lemma later_trans m m1 m2 : later m m1 -> later m1 m2 -> later m m2.
Proof. intros A B. induction B as [|m1 m2 m3 f pos kw r B IH HC]; [exact A|]. eapply later_call; [apply IH; exact A|exact HC]. Qed.
