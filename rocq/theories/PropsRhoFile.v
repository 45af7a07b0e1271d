(** C105: reading the charge density written by pw2bgw. *)
From Coq Require Import Reals.
From Verif Require Import Base RhoFileModel RhoFileSpec.
Import ListNotations.
Local Open Scope Z_scope.

(** * Bytes *)
Lemma le_bytes_length : forall k z, length (le_bytes k z) = k.
Proof. induction k; intros; cbn; auto. Qed.
Lemma le_dec_bytes : forall k z, 0 <= z < 256 ^ Z.of_nat k -> le_dec (le_bytes k z) = z.
Proof.
  induction k; intros z H.
  - cbn in *. lia.
  - cbn [le_bytes le_dec]. rewrite IHk.
    + pose proof (Z.div_mod z 256). lia.
    + rewrite Nat2Z.inj_succ, Z.pow_succ_r in H by lia. split.
      * apply Z.div_pos; lia.
      * apply Z.div_lt_upper_bound; lia.
Qed.
Lemma int4_length : forall z, length (int4 z) = 4%nat.
Proof. intros; apply le_bytes_length. Qed.
Lemma i4_dec_int4 : forall z, in_int4 z -> i4_dec (int4 z) = z.
Proof.
  intros z H. unfold i4_dec, int4, in_int4 in *. cbv zeta.
  rewrite le_dec_bytes by (change (256 ^ Z.of_nat 4) with (2 ^ 32); apply Z.mod_pos_bound; lia).
  change (2 ^ 31) with 2147483648 in *. change (2 ^ 32) with 4294967296 in *.
  destruct (Z_lt_le_dec z 0).
  - replace (z mod 4294967296) with (z + 4294967296) by (apply Z.mod_unique with (q := -1); lia).
    destruct (Z.ltb_spec (z + 4294967296) 2147483648); lia.
  - rewrite Z.mod_small by lia. destruct (Z.ltb_spec z 2147483648); lia.
Qed.
Lemma concat_len_const : forall (l : list (list Z)) k, Forall (fun x => length x = k) l -> length (concat l) = (k * length l)%nat.
Proof.
  induction l; intros k H; cbn [concat length]; [lia|].
  apply Forall_cons_iff in H. destruct H as [H1 H2]. rewrite app_length, (IHl k H2). lia.
Qed.
Lemma chunks_concat : forall k l, (0 < k)%nat -> Forall (fun x => length x = k) l -> chunks k (concat l) = l.
Proof.
  intros k l Hk. unfold chunks.
  assert (G : forall n l, Forall (fun x => length x = k) l -> (length (concat l) <= n)%nat -> chunks_fuel n k (concat l) = l).
  { induction n; intros m H Hn.
    - destruct m as [|x m]; [reflexivity|]. apply Forall_cons_iff in H. destruct H as [H1 _].
      cbn [concat] in Hn. rewrite app_length in Hn. lia.
    - destruct m as [|x m]; [reflexivity|]. apply Forall_cons_iff in H. destruct H as [H1 H2].
      cbn [concat chunks_fuel] in *. rewrite app_length in Hn.
      destruct (x ++ concat m) as [|z t] eqn:E.
      + apply (f_equal (@length Z)) in E. rewrite app_length in E. cbn in E. lia.
      + rewrite <- E. rewrite firstn_app, skipn_app, H1, Nat.sub_diag. cbn [firstn skipn].
        rewrite <- H1 at 1. rewrite firstn_all, app_nil_r. rewrite <- H1 at 2. rewrite skipn_all. cbn [app].
        rewrite IHn; [reflexivity|assumption|lia]. }
  intros H. apply G; [assumption|lia].
Qed.
Lemma ints_length : forall l, length (ints l) = (4 * length l)%nat.
Proof.
  intros. unfold ints. rewrite (concat_len_const _ 4), map_length; [lia|].
  apply Forall_forall. intros x Hx. apply in_map_iff in Hx. destruct Hx as (z & <- & _). apply int4_length.
Qed.
Lemma ints_dec : forall l, Forall in_int4 l -> map i4_dec (chunks 4 (ints l)) = l.
Proof.
  intros l H. unfold ints. rewrite chunks_concat; [|lia|].
  - rewrite map_map. rewrite <- (map_id l) at 2. apply map_ext_in. intros z Hz.
    apply i4_dec_int4. now apply (proj1 (Forall_forall _ _) H).
  - apply Forall_forall. intros x Hx. apply in_map_iff in Hx. destruct Hx as (z & <- & _). apply int4_length.
Qed.
Lemma triples_g : forall g, triples (concat (map gvec_ints g)) = Some g.
Proof. induction g as [|[[a b] c] g IH]; [reflexivity|]. cbn [map concat gvec_ints app triples]. now rewrite IH. Qed.
Lemma pairs_c : forall v, pairs (complex_vals v) = Some v.
Proof. unfold complex_vals. induction v as [|[a b] v IH]; [reflexivity|]. cbn [map concat app pairs fst snd]. now rewrite IH. Qed.
Lemma pairs_length : forall A n (l : list A), (length l <= n)%nat ->
  match pairs l with Some r => length l = (2 * length r)%nat | None => Nat.odd (length l) = true end.
Proof.
  induction n; intros l H.
  - destruct l; [reflexivity|cbn in H; lia].
  - destruct l as [|a [|b t]]; [reflexivity|reflexivity|]. cbn [pairs].
    specialize (IHn t ltac:(cbn in H; lia)). destruct (pairs t).
    + cbn [length]. lia.
    + cbn [length]. exact IHn.
Qed.

(** * One record *)
Lemma firstn_exact : forall (a b : list Z), firstn (length a) (a ++ b) = a.
Proof. intros. rewrite firstn_app, Nat.sub_diag, firstn_all. cbn. apply app_nil_r. Qed.
Lemma skipn_exact : forall (a b : list Z), skipn (length a) (a ++ b) = b.
Proof. intros. rewrite skipn_app, Nat.sub_diag, skipn_all. reflexivity. Qed.
Lemma read_size_ok : forall e n r, 0 <= n < 2 ^ 32 -> read_size e (le_bytes 4 n ++ r) = Got (n, r).
Proof.
  intros e n r H. unfold read_size. cbv zeta.
  assert (E1 : firstn 4 (le_bytes 4 n ++ r) = le_bytes 4 n) by apply (firstn_exact (le_bytes 4 n) r).
  assert (E2 : skipn 4 (le_bytes 4 n ++ r) = r) by apply (skipn_exact (le_bytes 4 n) r).
  rewrite E1, E2, le_bytes_length, le_dec_bytes; [reflexivity|]. exact H.
Qed.
Definition size_ok (sizes : list Z) (p : list Z) : bool :=
  let n := Z.of_nat (length p) in let b := fold_right Z.add 0 sizes in
  (n mod b =? 0) && ((length sizes =? 1)%nat || (n =? b)).
Lemma read_record_frame : forall sizes p r, Z.of_nat (length p) < 2 ^ 32 ->
  read_record sizes (frame p ++ r) = if size_ok sizes p then Got (p, r) else Raise FValue.
Proof.
  intros sizes p r H. unfold read_record, frame, size_ok, rbind. cbv zeta. rewrite <- !app_assoc.
  rewrite read_size_ok by lia.
  destruct (Z.of_nat (length p) mod fold_right Z.add 0 sizes =? 0); cbn [negb andb]; [|reflexivity].
  destruct (length sizes =? 1)%nat; cbn [negb andb orb].
  2: destruct (Z.of_nat (length p) =? fold_right Z.add 0 sizes); cbn [negb andb]; [|reflexivity].
  all: unfold take; rewrite !app_length;
    (destruct (Z.ltb_spec (Z.of_nat (length p + (length (le_bytes 4 (Z.of_nat (length p))) + length r))) (Z.of_nat (length p))); [lia|]);
    rewrite Nat2Z.id, firstn_exact, skipn_exact, read_size_ok by lia; rewrite Z.eqb_refl; reflexivity.
Qed.
Lemma size_ok_one : forall k z p n, z = Z.of_nat k -> (0 < k)%nat -> length p = (k * n)%nat -> size_ok [z] p = true.
Proof.
  intros k z p n -> Hk H. unfold size_ok. cbn [fold_right length Nat.eqb orb]. cbv zeta. rewrite Z.add_0_r, andb_true_r, H, Nat2Z.inj_mul.
  apply Z.eqb_eq. rewrite Z.mul_comm. apply Z.mod_mul. lia.
Qed.
Lemma read_int32_ok : forall l r, Z.of_nat (length (ints l)) < 2 ^ 32 ->
  read_int32 (frame (ints l) ++ r) = Got (map i4_dec (chunks 4 (ints l)), r).
Proof.
  intros l r H. unfold read_int32, rbind. rewrite read_record_frame by assumption.
  rewrite (size_ok_one 4 4 (ints l) (length l)) by (try lia; try reflexivity; apply ints_length). reflexivity.
Qed.
Lemma read_double_ok : forall l r, Forall is_double l -> Z.of_nat (length (concat l)) < 2 ^ 32 ->
  read_double (frame (concat l) ++ r) = Got (l, r).
Proof.
  intros l r Hd H. unfold read_double, rbind. rewrite read_record_frame by assumption.
  rewrite (size_ok_one 8 8 (concat l) (length l)) by (try lia; try reflexivity; now apply concat_len_const).
  unfold rret. rewrite chunks_concat; [reflexivity|lia|exact Hd].
Qed.
Lemma int4_ints : forall z, int4 z = ints [z].
Proof. intros. unfold ints. cbn [map concat]. now rewrite app_nil_r. Qed.
Lemma dims_length : forall d, length (dims_bytes d) = 20%nat.
Proof. intros [[[[a b] c] e] f]. unfold dims_bytes. now rewrite ints_length. Qed.
Lemma atoms_length : forall d, rho_wf d -> length (concat (map atom_bytes (rd_atoms d))) = (28 * length (rd_atoms d))%nat.
Proof.
  intros d W. rewrite (concat_len_const _ 28), map_length; [reflexivity|].
  apply Forall_forall. intros x Hx. apply in_map_iff in Hx. destruct Hx as ([[[a b] c] n] & <- & Hin).
  pose proof (proj1 (Forall_forall _ _) (wf_atoms d W) _ Hin) as (H1 & H2 & H3). unfold is_double in *.
  unfold atom_bytes. rewrite !app_length, int4_length. lia.
Qed.
Lemma header_ascii : forall t, Forall (fun b => 0 <= b < 128) t -> header_ok t = true.
Proof.
  intros t H. apply forallb_forall. intros b Hb. pose proof (proj1 (Forall_forall _ _) H b Hb) as B. cbn beta in B.
  unfold i1_dec. destruct (Z.ltb_spec b 128); lia.
Qed.
Ltac sizes W d := let S := fresh "S" in pose proof (wf_size d W) as S; unfold records in S;
  repeat match type of S with Forall _ (_ :: _) => let h := fresh "L" in apply Forall_cons_iff in S; destruct S as [h S] end; clear S.
Lemma gvecs_range : forall d, rho_wf d -> Forall in_int4 (concat (map gvec_ints (rd_g d))).
Proof.
  intros d W. apply Forall_forall. intros z Hz. apply in_concat in Hz. destruct Hz as (l & Hl & Hz).
  apply in_map_iff in Hl. destruct Hl as ([[a b] c] & <- & Hin).
  pose proof (proj1 (Forall_forall _ _) (wf_g d W) _ Hin) as (H1 & H2 & H3).
  unfold gvec_ints in Hz. cbn [In] in Hz. destruct Hz as [<-|[<-|[<-|[]]]]; assumption.
Qed.
(** Everything before the atoms is read for every file. *)
Definition after_atoms (val : list Z -> R) : reader (list (R * R) * list (Z * Z * Z)) :=
  rbind read_int32 (fun _ => rbind read_int32 (fun _ =>
  rbind read_int32 (fun g => rbind (of_opt (triples g)) (fun gvecs =>
  rbind read_int32 (fun _ => rbind read_int32 (fun _ =>
  rbind read_double (fun v => rbind (of_opt (pairs v)) (fun vs =>
  rret (map (fun p => (val (fst p), val (snd p))) vs, gvecs))))))))).
Definition tail_records (d : rho_data) : list (list Z) :=
  [int4 (rd_nrec d); int4 (rd_ng d); ints (concat (map gvec_ints (rd_g d))); int4 (rd_nrec d); int4 (rd_ng d); concat (rd_vals d)].
Lemma read_to_atoms : forall val d r, rho_wf d ->
  read_rho_r val (rho_file d ++ r) =
  if (length (rd_atoms d) =? 2)%nat then after_atoms val (concat (map frame (tail_records d)) ++ r) else Raise FValue.
Proof.
  intros val d r W. pose proof W as W'. sizes W d.
  unfold read_rho_r, rho_file, records. cbn [map concat]. rewrite <- !app_assoc. unfold rbind at 1.
  rewrite read_record_frame by assumption. rewrite (size_ok_one 1 1 _ (length (rd_title d))) by lia.
  rewrite header_ascii by apply (wf_title d W). cbn [negb].
  unfold rbind at 1. rewrite read_record_frame by assumption.
  replace (size_ok [24; 4] (dims_bytes (rd_dims d) ++ rd_ecut d)) with true
    by (unfold size_ok; rewrite app_length, dims_length, (wf_ecut d W); reflexivity).
  unfold rbind at 1. rewrite read_int32_ok by assumption.
  unfold rbind at 1. rewrite read_double_ok by (try assumption; apply W).
  unfold rbind at 1. rewrite read_double_ok by (try assumption; apply W).
  unfold rbind at 1. rewrite read_int32_ok by assumption.
  unfold rbind at 1. rewrite read_double_ok by (try assumption; apply W).
  unfold rbind at 1. rewrite read_record_frame by assumption.
  replace (size_ok [24; 4; 24; 4] (concat (map atom_bytes (rd_atoms d)))) with (length (rd_atoms d) =? 2)%nat.
  - destruct (length (rd_atoms d) =? 2)%nat; [|reflexivity].
    unfold after_atoms, tail_records. cbn [map concat]. rewrite <- !app_assoc. reflexivity.
  - unfold size_ok. rewrite atoms_length by assumption. cbn [fold_right length Nat.eqb orb]. cbv zeta.
    destruct (Nat.eqb_spec (length (rd_atoms d)) 2) as [E|E].
    + rewrite E. reflexivity.
    + destruct (Z.eqb_spec (Z.of_nat (28 * length (rd_atoms d))) (24 + (4 + (24 + (4 + 0))))); [lia|].
      now rewrite andb_false_r.
Qed.
Lemma read_tail : forall val d r, rho_wf d ->
  after_atoms val (concat (map frame (tail_records d)) ++ r) =
  match pairs (rd_vals d) with
  | Some vs => Got ((map (fun p => (val (fst p), val (snd p))) vs, rd_g d), r)
  | None => Raise FValue
  end.
Proof.
  intros val d r W. pose proof W as W'. sizes W d.
  unfold after_atoms, tail_records. cbn [map concat]. rewrite <- !app_assoc. rewrite !(int4_ints _) in *.
  unfold rbind at 1. rewrite read_int32_ok by assumption.
  unfold rbind at 1. rewrite read_int32_ok by assumption.
  unfold rbind at 1. rewrite read_int32_ok by assumption. rewrite ints_dec by now apply gvecs_range.
  rewrite triples_g. unfold of_opt at 1. unfold rbind at 1. unfold rret at 1.
  unfold rbind at 1. rewrite read_int32_ok by assumption.
  unfold rbind at 1. rewrite read_int32_ok by assumption.
  unfold rbind at 1. cbn [app]. rewrite read_double_ok by (try assumption; apply W).
  destruct (pairs (rd_vals d)); reflexivity.
Qed.
Lemma read_file : forall val d r, rho_wf d ->
  read_rho_r val (rho_file d ++ r) =
  if (length (rd_atoms d) =? 2)%nat then
    match pairs (rd_vals d) with
    | Some vs => Got ((map (fun p => (val (fst p), val (snd p))) vs, rd_g d), r)
    | None => Raise FValue
    end
  else Raise FValue.
Proof. intros. rewrite read_to_atoms by assumption. destruct (length (rd_atoms d) =? 2)%nat; [apply read_tail; assumption|reflexivity]. Qed.

(** * Truncated files *)
(** A reader only looks at the bytes it consumes, and misses every one of them. *)
Definition local {A} (p : reader A) : Prop := forall s a r, p s = Got (a, r) ->
  exists u, s = u ++ r /\ (forall r', p (u ++ r') = Got (a, r')) /\ (forall k, (k < length u)%nat -> exists x, p (firstn k u) = Raise x).
Lemma local_ret : forall A (a : A), local (rret a).
Proof. intros A a s b r H. injection H as <- <-. exists []. repeat split. cbn. lia. Qed.
Lemma local_raise : forall A x, @local A (rraise x).
Proof. intros A x s a r H. discriminate. Qed.
Lemma local_bind : forall A B (p : reader A) (f : A -> reader B), local p -> (forall a, local (f a)) -> local (rbind p f).
Proof.
  intros A B p f Hp Hf s b r H. unfold rbind in H. destruct (p s) as [[a s1]|x] eqn:E; [|discriminate].
  destruct (Hp _ _ _ E) as (u1 & -> & P1 & P2). destruct (Hf a _ _ _ H) as (u2 & -> & Q1 & Q2).
  exists (u1 ++ u2). split; [now rewrite app_assoc|]. split.
  - intros r'. unfold rbind. rewrite <- app_assoc, P1. apply Q1.
  - intros k Hk. rewrite app_length in Hk. unfold rbind. destruct (Nat.lt_ge_cases k (length u1)) as [L|L].
    + rewrite firstn_app. replace (k - length u1)%nat with 0%nat by lia. rewrite firstn_O, app_nil_r.
      destruct (P2 k L) as (x & ->). now exists x.
    + rewrite firstn_app, firstn_all2 by lia. rewrite P1. apply Q2. lia.
Qed.
Lemma local_size : forall e, local (read_size e).
Proof.
  intros e s a r H. unfold read_size in H. cbv zeta in H.
  destruct ((length (firstn 4 s) =? 0)%nat && e); [discriminate|].
  destruct (Nat.ltb_spec (length (firstn 4 s)) 4) as [L|L]; [discriminate|]. injection H as <- <-.
  pose proof (firstn_le_length 4 s) as L2.
  exists (firstn 4 s). split; [symmetry; apply firstn_skipn|]. set (u := firstn 4 s) in *. assert (Lu : length u = 4%nat) by lia.
  split.
  - intros r'. unfold read_size. cbv zeta. 
    assert (E1 : firstn 4 (u ++ r') = u) by (rewrite <- Lu; apply firstn_exact).
    assert (E2 : skipn 4 (u ++ r') = r') by (rewrite <- Lu; apply skipn_exact).
    rewrite E1, E2, Lu. reflexivity.
  - intros k Hk. unfold read_size. cbv zeta.
    destruct ((length (firstn 4 (firstn k u)) =? 0)%nat && e); [eauto|].
    destruct (Nat.ltb_spec (length (firstn 4 (firstn k u))) 4) as [L3|L3]; [eauto|].
    rewrite firstn_firstn, firstn_length in L3. lia.
Qed.
Lemma local_take : forall n, local (take n).
Proof.
  intros n s a r H. unfold take in H. destruct (Z.ltb_spec (Z.of_nat (length s)) n) as [L|L]; [discriminate|]. injection H as <- <-.
  exists (firstn (Z.to_nat n) s). split; [symmetry; apply firstn_skipn|]. set (u := firstn (Z.to_nat n) s).
  assert (Lu : length u = Z.to_nat n) by (unfold u; rewrite firstn_length; lia). split.
  - intros r'. unfold take. destruct (Z.ltb_spec (Z.of_nat (length (u ++ r'))) n) as [L2|L2]; [rewrite app_length in L2; lia|].
    rewrite <- Lu, firstn_exact, skipn_exact. reflexivity.
  - intros k Hk. unfold take. destruct (Z.ltb_spec (Z.of_nat (length (firstn k u))) n) as [L2|L2]; [eauto|].
    rewrite firstn_length in L2. lia.
Qed.
Ltac loc := repeat first [apply local_ret | apply local_raise | apply local_size | apply local_take
  | apply local_bind; [|intros ?] | match goal with |- local (if ?b then _ else _) => destruct b end ].
Lemma local_record : forall l, local (read_record l).
Proof. intros. unfold read_record. cbv zeta. loc. Qed.
Lemma local_int32 : local read_int32.
Proof. unfold read_int32. apply local_bind; [apply local_record|intros; apply local_ret]. Qed.
Lemma local_double : local read_double.
Proof. unfold read_double. apply local_bind; [apply local_record|intros; apply local_ret]. Qed.
Lemma local_opt : forall A (o : option A), local (of_opt o).
Proof. intros A [a|]; [apply local_ret|apply local_raise]. Qed.
Lemma local_rho : forall val, local (read_rho_r val).
Proof.
  intros. unfold read_rho_r.
  repeat first [apply local_ret | apply local_raise | apply local_opt | apply local_record | apply local_int32 | apply local_double
  | apply local_bind; [|intros ?] | match goal with |- local (if ?b then _ else _) => destruct b end ].
Qed.

(** * C105 *)
Theorem C105_exact : forall val d v, rho_wf d -> length (rd_atoms d) = 2%nat -> rd_vals d = complex_vals v ->
  read_rho val (rho_file d) = Got (map (fun p => (val (fst p), val (snd p))) v, rd_g d).
Proof.
  intros val d v W A V. unfold read_rho. rewrite <- (app_nil_r (rho_file d)), read_file by assumption.
  rewrite A, V, pairs_c. reflexivity.
Qed.
Print Assumptions C105_exact.

(** The value of spin [s] and vector [i] is entry [s * ng + i]: the two spin channels come back in one list
    twice as long as the list of vectors. *)
Theorem C105_spins : forall val d v ns, rho_wf d -> length (rd_atoms d) = 2%nat -> rd_vals d = complex_vals v ->
  length v = (ns * length (rd_g d))%nat ->
  exists rho g, read_rho val (rho_file d) = Got (rho, g) /\ length rho = (ns * length g)%nat /\
  forall s i x y, (s < ns)%nat -> (i < length g)%nat -> nth_error v (s * length g + i) = Some (x, y) ->
    nth_error rho (s * length g + i) = Some (val x, val y) /\ nth_error g i = nth_error (rd_g d) i.
Proof.
  intros val d v ns W A V L. exists (map (fun p => (val (fst p), val (snd p))) v), (rd_g d).
  split; [now apply C105_exact|]. split; [now rewrite map_length|].
  intros s i x y Hs Hi E. split; [|reflexivity]. rewrite nth_error_map, E. reflexivity.
Qed.
Print Assumptions C105_spins.

(** Any other number of atoms in the cell, with any contents of the file: ValueError. *)
Theorem C105_atoms_refuted : forall val d, rho_wf d -> length (rd_atoms d) <> 2%nat -> read_rho val (rho_file d) = Raise FValue.
Proof.
  intros val d W A. unfold read_rho. rewrite <- (app_nil_r (rho_file d)), read_file by assumption.
  now destruct (Nat.eqb_spec (length (rd_atoms d)) 2).
Qed.
Print Assumptions C105_atoms_refuted.

(** The real flavour: an even number of values is returned as half as many complex numbers, made of
    neighbouring values; an odd number is a ValueError. *)
Theorem C105_real_refuted : forall val d, rho_wf d -> length (rd_atoms d) = 2%nat ->
  (forall m, length (rd_vals d) = (2 * m)%nat ->
     exists rho, read_rho val (rho_file d) = Got (rho, rd_g d) /\ length rho = m /\
     forall i, (i < m)%nat -> nth_error rho i = Some (val (nth (2 * i) (rd_vals d) []), val (nth (2 * i + 1) (rd_vals d) []))) /\
  (Nat.odd (length (rd_vals d)) = true -> read_rho val (rho_file d) = Raise FValue).
Proof.
  intros val d W A. unfold read_rho. rewrite <- (app_nil_r (rho_file d)), read_file by assumption. rewrite A, Nat.eqb_refl.
  pose proof (pairs_length (list Z) (length (rd_vals d)) (rd_vals d) (le_n _)) as P.
  assert (N : forall A (d0 : A) n (l : list A) r, (length l <= n)%nat -> pairs l = Some r -> forall i, (i < length r)%nat ->
     nth_error r i = Some (nth (2 * i) l d0, nth (2 * i + 1) l d0)).
  { clear. induction n; intros l r Hl E i Hi.
    - destruct l; [|cbn in Hl; lia]. injection E as <-. cbn in Hi. lia.
    - destruct l as [|a [|b t]]; [injection E as <-; cbn in Hi; lia|discriminate|]. cbn [pairs] in E.
      destruct (pairs t) as [q|] eqn:Q; [|discriminate]. injection E as <-.
      destruct i; [reflexivity|]. replace (2 * S i)%nat with (S (S (2 * i))) by lia. replace (S (S (2 * i)) + 1)%nat with (S (S (2 * i + 1))) by lia.
      cbn [nth nth_error]. apply (IHn t q); [cbn in Hl; lia|assumption|cbn in Hi; lia]. }
  split.
  - intros m Hm. destruct (pairs (rd_vals d)) as [vs|] eqn:E.
    + exists (map (fun p => (val (fst p), val (snd p))) vs). split; [reflexivity|]. rewrite map_length. split; [lia|].
      intros i Hi. rewrite nth_error_map, (N _ [] (length (rd_vals d)) (rd_vals d) vs (le_n _) E i) by lia. reflexivity.
    + rewrite Hm, Nat.odd_mul in P. discriminate.
  - intros O. destruct (pairs (rd_vals d)) as [vs|]; [|reflexivity]. rewrite P, Nat.odd_mul in O. discriminate.
Qed.
Print Assumptions C105_real_refuted.

(** A title with a byte above 127 (an accented letter) is refused. *)
Theorem C105_title : forall val d b, In b (rd_title d) -> 128 <= b <= 255 -> Z.of_nat (length (rd_title d)) < 2 ^ 32 ->
  read_rho val (rho_file d) = Raise FValue.
Proof.
  intros val d b Hin Hb L. unfold read_rho, read_rho_r, rho_file, records. cbn [map concat]. unfold rbind at 1.
  rewrite read_record_frame by assumption. rewrite (size_ok_one 1 1 _ (length (rd_title d))) by lia.
  replace (header_ok (rd_title d)) with false; [reflexivity|]. symmetry. apply not_true_iff_false. intros H.
  pose proof (proj1 (forallb_forall _ _) H b Hin) as C. unfold i1_dec in C. destruct (Z.ltb_spec b 128); lia.
Qed.
Print Assumptions C105_title.

(** A file cut short anywhere is refused, whatever bytes follow it are not looked at. *)
Theorem C105_truncated : forall val d v, rho_wf d -> length (rd_atoms d) = 2%nat -> rd_vals d = complex_vals v ->
  (forall k, (k < length (rho_file d))%nat -> exists x, read_rho val (firstn k (rho_file d)) = Raise x) /\
  (forall more, read_rho val (rho_file d ++ more) = read_rho val (rho_file d)).
Proof.
  intros val d v W A V.
  assert (E : forall more, read_rho_r val (rho_file d ++ more) = Got ((map (fun p => (val (fst p), val (snd p))) v, rd_g d), more)).
  { intros. rewrite read_file by assumption. now rewrite A, V, pairs_c. }
  split.
  - intros k Hk. pose proof (E []) as E0. rewrite app_nil_r in E0. destruct (local_rho val _ _ _ E0) as (u & Hu & _ & P).
    rewrite app_nil_r in Hu. subst u. destruct (P k Hk) as (x & Hx). exists x. unfold read_rho. now rewrite Hx.
  - intros more. unfold read_rho. rewrite E. rewrite <- (app_nil_r (rho_file d)), E. reflexivity.
Qed.
Print Assumptions C105_truncated.

(** Nothing is invented: for any file of any origin, if it is accepted then it has an accepted shortest
    prefix, every shorter prefix is refused and every longer one gives the same answer. *)
Theorem C105_prefix : forall val file x, read_rho val file = Got x ->
  exists n, (n <= length file)%nat /\ forall k,
    if (k <? n)%nat then exists e, read_rho val (firstn k file) = Raise e else read_rho val (firstn k file) = Got x.
Proof.
  intros val file x H. unfold read_rho in H. destruct (read_rho_r val file) as [[a r]|e] eqn:E; [|discriminate]. injection H as <-.
  destruct (local_rho val _ _ _ E) as (u & -> & P1 & P2). exists (length u). split; [rewrite app_length; lia|].
  intros k. destruct (Nat.ltb_spec k (length u)) as [L|L].
  - rewrite firstn_app. replace (k - length u)%nat with 0%nat by lia. rewrite firstn_O, app_nil_r.
    destruct (P2 k L) as (e & He). exists e. unfold read_rho. now rewrite He.
  - rewrite firstn_app, firstn_all2 by lia. unfold read_rho. now rewrite P1.
Qed.
Print Assumptions C105_prefix.

(** A small file: two atoms, two vectors, two values. *)
Definition ex_d (x : Z) : list Z := [0; 0; 0; 0; 0; 0; x; 63].
Definition ex_rho : rho_data :=
  MkRho [82; 72; 79] (1, 2, 1, 0, 2) (ex_d 1) [4; 4; 4] [ex_d 2] [ex_d 3] [1; 0; 0] [ex_d 4]
    [(ex_d 1, ex_d 2, ex_d 3, 14); (ex_d 1, ex_d 2, ex_d 3, 6)] 1 2 [(0, 0, 0); (-1, 0, 2)]
    (complex_vals [(ex_d 7, ex_d 8); (ex_d 9, ex_d 10)]).
Example ex_rho_wf : rho_wf ex_rho /\ length (rd_atoms ex_rho) = 2%nat.
Proof. split; [|reflexivity]. constructor; repeat constructor; cbn; lia. Qed.
Example ex_rho_read : read_rho (fun l => IZR (nth 6 l 0)) (rho_file ex_rho) = Got ([(IZR 7, IZR 8); (IZR 9, IZR 10)], [(0, 0, 0); (-1, 0, 2)]).
Proof. reflexivity. Qed.
