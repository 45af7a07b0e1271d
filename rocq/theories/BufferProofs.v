From Verif Require Import Base BufferModel.
Open Scope nat_scope.

Definition no_ell (its : list item) : Prop := existsb is_ell its = false.

Lemma index_nil_full l : exists e, index [] (l ++ [full_slice]) = Err e.
Proof.
  induction l as [|it l IH]; cbn; [eauto|].
  destruct it; cbn; eauto. destruct IH as (e & ->). cbn. eauto.
Qed.

Lemma full_len n : slice_len (slice_start n None) (slice_stop n None) 1 = n.
Proof. unfold slice_len. cbn [slice_start slice_stop]. rewrite Nat.sub_0_r. change (1 - 1) with 0. rewrite Nat.add_0_r. apply Nat.div_1_r. Qed.

(** Indexing that ends with an explicit full slice keeps the last axis and passes the
    last coordinate through. *)
Lemma index_full_last l : forall sh0 n r, index (sh0 ++ [n]) (l ++ [full_slice]) = Ok r ->
  exists r0 g0, fst r = r0 ++ [n] /\ forall js k, length js = length r0 -> snd r (js ++ [k]) = g0 js ++ [k].
Proof.
  induction l as [|it l IH]; intros sh0 n r H.
  - destruct sh0 as [|m sh0].
    + cbn [app index full_slice] in H. rewrite full_len in H. cbn [bind fst snd] in H. injection H as <-. cbn [fst snd].
      exists [], (fun _ => []). split; [reflexivity|]. intros js k E. destruct js; [|discriminate]. cbn. now rewrite Nat.add_0_r.
    + destruct sh0; cbn in H; discriminate.
  - destruct it as [i|a b st| |].
    + destruct sh0 as [|m sh0].
      * cbn [app index] in H. destruct (_ && _)%Z in H; [|discriminate].
        destruct (index_nil_full l) as (e & E). rewrite E in H. discriminate.
      * cbn [app index] in H. destruct (_ && _)%Z in H; [|discriminate].
        destruct (index (sh0 ++ [n]) (l ++ [full_slice])) as [r'|] eqn:E; [|discriminate]. cbn [bind] in H.
        injection H as <-. destruct (IH sh0 n r' E) as (r0 & g0 & E1 & E2). cbn [fst snd].
        exists r0, (fun js => Z.to_nat (if (i <? 0)%Z then i + Z.of_nat m else i) :: g0 js).
        split; [exact E1|]. intros js k L. rewrite (E2 js k L). reflexivity.
    + destruct sh0 as [|m sh0].
      * cbn [app index] in H. destruct (index_nil_full l) as (e & E). rewrite E in H. discriminate.
      * cbn [app index] in H.
        destruct (index (sh0 ++ [n]) (l ++ [full_slice])) as [r'|] eqn:E; [|discriminate]. cbn [bind] in H.
        injection H as <-. destruct (IH sh0 n r' E) as (r0 & g0 & E1 & E2). cbn [fst snd].
        exists (slice_len (slice_start m a) (slice_stop m b) st :: r0),
          (fun js => (slice_start m a + st * hd 0 js) :: g0 (tl js)).
        split; [cbn; now rewrite E1|]. intros js k L. destruct js as [|j js]; [discriminate|]. injection L as L.
        cbn [app hd tl]. rewrite (E2 js k L). reflexivity.
    + cbn [app index] in H.
      assert (H' : (do r0 <- index (sh0 ++ [n]) (l ++ [full_slice]); Ok (1 :: fst r0, fun js => snd r0 (tl js))) = Ok r)
        by (destruct sh0; exact H). clear H.
      destruct (index (sh0 ++ [n]) (l ++ [full_slice])) as [r'|] eqn:E; [|discriminate]. cbn [bind] in H'.
      injection H' as <-. destruct (IH sh0 n r' E) as (r0 & g0 & E1 & E2). cbn [fst snd].
      exists (1 :: r0), (fun js => g0 (tl js)). split; [cbn; now rewrite E1|].
      intros js k L. destruct js as [|j js]; [discriminate|]. injection L as L. cbn [app tl]. apply (E2 js k L).
    + exfalso. cbn [app index] in H. destruct sh0; cbn in H; discriminate.
Qed.

Lemma flat_map_no_ell its m : no_ell its ->
  flat_map (fun it => if is_ell it then repeat full_slice m else [it]) its = its.
Proof.
  unfold no_ell. induction its as [|it its IH]; intros H; [reflexivity|]. cbn in H. apply Bool.orb_false_iff in H as (H1 & H2).
  cbn. rewrite H1, (IH H2). reflexivity.
Qed.

Lemma filter_no_ell its : no_ell its -> filter is_ell its = [].
Proof.
  unfold no_ell. induction its as [|it its IH]; intros H; [reflexivity|]. cbn in H. apply Bool.orb_false_iff in H as (H1 & H2).
  cbn. rewrite H1. now apply IH.
Qed.

Lemma filter_ell its : existsb is_ell its = true -> 1 <= length (filter is_ell its).
Proof.
  induction its as [|it its IH]; cbn; [discriminate|]. destruct (is_ell it); cbn; [lia|]. exact IH.
Qed.

Lemma consumed_app a b : consumed (a ++ b) = consumed a + consumed b.
Proof. unfold consumed. now rewrite map_app, list_sum_app. Qed.

Lemma repeat_snoc {A} (x : A) n : repeat x (S n) = repeat x n ++ [x].
Proof. induction n as [|n IH]; [reflexivity|]. cbn in *. now rewrite <- IH. Qed.

(** Expansion of [its ++ [IEll; full]]. *)
Lemma expand_get ndim its e : expand ndim (its ++ [IEll; full_slice]) = Ok e ->
  no_ell its /\ consumed its + 1 <= ndim
  /\ e = (its ++ repeat full_slice (ndim - (consumed its + 1))) ++ [full_slice].
Proof.
  unfold expand. replace (existsb is_ell (its ++ [IEll; full_slice])) with true.
  2:{ symmetry. rewrite existsb_app. cbn. apply Bool.orb_true_r. }
  rewrite filter_app, app_length. cbn [filter is_ell full_slice length].
  destruct (existsb is_ell its) eqn:E.
  - pose proof (filter_ell its E).
    destruct (Nat.ltb_spec 1 (length (filter is_ell its) + 1)); [discriminate|lia].
  - rewrite (filter_no_ell its E). cbn [length]. change (1 <? 0 + 1) with false. cbv iota.
    rewrite consumed_app. change (consumed [IEll; full_slice]) with 1.
    destruct (Nat.ltb_spec ndim (consumed its + 1)); [discriminate|]. intros K. injection K as <-.
    split; [exact E|]. split; [lia|]. rewrite flat_map_app, flat_map_no_ell by exact E.
    cbn [flat_map is_ell full_slice app]. now rewrite <- app_assoc.
Qed.

(** Expansion of a key without Ellipsis that addresses fewer axes than there are. *)
Lemma expand_set ndim its e : no_ell its -> consumed its < ndim -> expand ndim its = Ok e ->
  exists l, e = l ++ [full_slice].
Proof.
  intros E Hc. unfold expand. rewrite E. rewrite filter_app, app_length, (filter_no_ell its E).
  cbn [filter is_ell length]. change (1 <? 0 + 1) with false. cbv iota. rewrite consumed_app. change (consumed [IEll]) with 0. rewrite Nat.add_0_r.
  destruct (Nat.ltb_spec ndim (consumed its)); [lia|]. intros K. injection K as <-.
  rewrite flat_map_app, flat_map_no_ell by exact E. cbn [flat_map is_ell app]. rewrite app_nil_r.
  replace (ndim - consumed its) with (S (ndim - consumed its - 1)) by lia. rewrite repeat_snoc, app_assoc. eauto.
Qed.

Lemma unwrap_all_none {T} t (l : list (arg T)) : (exists x, In x l /\ unwrap t x = None) -> unwrap_all t l = None.
Proof.
  induction l as [|y l IH]; intros (x & Hx & E); [destruct Hx|]. cbn. destruct Hx as [->|Hx].
  - now rewrite E.
  - rewrite IH by eauto. now destruct (unwrap t y).
Qed.

Lemma unwrap_all_some {T} t (l : list (arg T)) xs : unwrap_all t l = Some xs -> forall b, In (ABuf b) l -> typ b = t.
Proof.
  intros H b Hb. destruct (Nat.eq_dec (typ b) t) as [E|E]; [exact E|]. exfalso.
  rewrite unwrap_all_none in H; [discriminate|]. exists (ABuf b). split; [exact Hb|]. cbn.
  destruct (Nat.eqb_spec (typ b) t); [contradiction|reflexivity].
Qed.

Lemma containers_in {T} (l : list (arg T)) b : In b (containers l) <-> In (ABuf b) l.
Proof.
  unfold containers. rewrite in_flat_map. split.
  - intros (x & Hx & Hb). destruct x; cbn in Hb; try contradiction. destruct Hb as [->|[]]. exact Hx.
  - intros H. exists (ABuf b). split; [exact H|now left].
Qed.

Lemma ask_all_none {T} bs cs m raw (inputs : list (arg T)) : m <> MOtherMethod ->
  (forall c, In c cs -> unwrap_all (typ c) inputs = None) -> ask bs cs true m raw inputs = Err TypeError.
Proof.
  intros Hm. induction cs as [|c cs IH]; intros H; [reflexivity|]. cbn [ask]. unfold array_ufunc.
  rewrite (H c (or_introl eq_refl)). cbn [negb]. destruct m; try congruence; apply IH; intros; apply H; now right.
Qed.
