From Verif Require Import Base SortModel SortProofs CommModel.

Lemma zrange_ss a b : StronglySorted Z.lt (zrange a b).
Proof.
  destruct (Z_le_gt_dec b a) as [H|H]; [rewrite zrange_nil by lia; constructor|].
  remember (Z.to_nat (b - a)) as n eqn:E. revert a H E.
  induction n as [|n IH]; intros a H E; [lia|].
  rewrite zrange_cons by lia. constructor.
  - destruct (Z_le_gt_dec b (a + 1)); [rewrite zrange_nil by lia; constructor|]. apply IH; lia.
  - apply Forall_forall. intros x Hx. apply in_zrange in Hx. lia.
Qed.

Lemma filter_ss {A} (R : A -> A -> Prop) f l : StronglySorted R l -> StronglySorted R (filter f l).
Proof.
  induction l as [|x l IH]; intros H; [constructor|].
  apply StronglySorted_inv in H as [H1 H2]. cbn. destruct (f x); [|now apply IH].
  constructor; [now apply IH|]. rewrite Forall_forall in *. intros y Hy.
  apply filter_In in Hy as [Hy _]. now apply H2.
Qed.

Lemma map_ss (f : Z -> Z) l : (forall x y, x < y -> f x < f y) ->
  StronglySorted Z.lt l -> StronglySorted Z.lt (map f l).
Proof.
  intros Hf H. apply StronglySorted_map. eapply StronglySorted_impl; [|exact H]. cbn. auto.
Qed.

Lemma ss_NoDup l : StronglySorted Z.lt l -> NoDup l.
Proof.
  induction 1 as [|x l H IH HF]; constructor; [|exact IH].
  intros Hin. rewrite Forall_forall in HF. specialize (HF _ Hin). lia.
Qed.

Lemma ss_ext l1 l2 : StronglySorted Z.lt l1 -> StronglySorted Z.lt l2 ->
  (forall x, In x l1 <-> In x l2) -> l1 = l2.
Proof.
  intros H1 H2 H. apply (sorted_unique Z.lt).
  - intros x y ? ?. lia.
  - exact H1.
  - exact H2.
  - apply NoDup_Permutation; auto using ss_NoDup.
Qed.

Lemma filter_div n s c : 0 < s -> 0 <= c < n ->
  filter (fun m => m / s =? c) (zrange 0 (n * s)) = zrange (c * s) ((c + 1) * s).
Proof.
  intros Hs Hc. apply ss_ext; [apply filter_ss, zrange_ss|apply zrange_ss|].
  intros x. rewrite filter_In, !in_zrange, Z.eqb_eq. split.
  - intros [Hx <-]. pose proof (Z.mod_pos_bound x s Hs). pose proof (Z_div_mod_eq_full x s). nia.
  - intros Hx. assert (E : x / s = c).
    { symmetry. apply Z.div_unique with (r := x - c * s); lia. }
    split; [nia|exact E].
Qed.

Lemma filter_mod n s k : 0 < s -> 0 <= n -> 0 <= k < s ->
  filter (fun m => m mod s =? k) (zrange 0 (n * s)) = map (fun j => j * s + k) (zrange 0 n).
Proof.
  intros Hs Hn Hk. apply ss_ext; [apply filter_ss, zrange_ss|apply map_ss; [nia|apply zrange_ss]|].
  intros x. rewrite filter_In, in_map_iff, in_zrange, Z.eqb_eq. split.
  - intros [Hx <-]. exists (x / s). pose proof (Z_div_mod_eq_full x s).
    split; [nia|]. apply in_zrange. split; [apply Z.div_pos; lia|].
    apply Z.div_lt_upper_bound; lia.
  - intros (j & <- & Hj). apply in_zrange in Hj. split; [nia|].
    rewrite Z.add_comm, Z_mod_plus_full. apply Z.mod_small. lia.
Qed.

Lemma isort_key_id (key : Z -> Z) l :
  StronglySorted (fun a b => key a <= key b) l -> isort (fun a b => key a <=? key b) l = l.
Proof.
  intros H. apply isort_id.
  eapply StronglySorted_impl; [|exact H]. cbn. intros x y ?. lia.
Qed.

Lemma ss_key_impl (key : Z -> Z) l :
  (forall a b, In a l -> In b l -> a < b -> key a <= key b) ->
  StronglySorted Z.lt l -> StronglySorted (fun a b => key a <= key b) l.
Proof.
  intros Hk H. induction H as [|x l H IH HF]; constructor.
  - apply IH. intros a b Ha Hb. apply Hk; now right.
  - rewrite Forall_forall in *. intros y Hy. apply Hk; [now left|now right|auto].
Qed.

Lemma div_range s c x : 0 < s -> c * s <= x < (c + 1) * s -> x / s = c.
Proof. intros Hs H. symmetry. apply Z.div_unique with (r := x - c * s); lia. Qed.

Lemma split_block size s n r : 0 < s -> size = n * s -> 0 <= r < size ->
  mpi_split (zrange 0 size) (fun m => m / s) (fun m => m mod s) r
  = Ok (zrange (r / s * s) ((r / s + 1) * s)).
Proof.
  intros Hs -> Hr. unfold mpi_split.
  assert (Hd : 0 <= r / s < n) by (split; [apply Z.div_pos; lia|apply Z.div_lt_upper_bound; lia]).
  destruct (Z.ltb_spec (r / s) 0); [lia|].
  rewrite filter_div by lia. f_equal. apply isort_key_id, ss_key_impl; [|apply zrange_ss].
  intros a b Ha Hb Hab. apply in_zrange in Ha, Hb.
  pose proof (div_range s _ a Hs Ha). pose proof (div_range s _ b Hs Hb).
  pose proof (Z_div_mod_eq_full a s). pose proof (Z_div_mod_eq_full b s). nia.
Qed.

Definition strided (pw k n : Z) : list Z := map (fun j => j * pw + k) (zrange 0 n).

Lemma strided_ss pw k n : 0 < pw -> StronglySorted Z.lt (strided pw k n).
Proof. intros H. apply map_ss; [nia|apply zrange_ss]. Qed.

Lemma split_stride size s n r : 0 < s -> size = n * s -> 0 <= r < size ->
  mpi_split (zrange 0 size) (fun m => m mod s) (fun m => m / s) r = Ok (strided s (r mod s) n).
Proof.
  intros Hs -> Hr. unfold mpi_split.
  pose proof (Z.mod_pos_bound r s Hs).
  destruct (Z.ltb_spec (r mod s) 0); [lia|].
  rewrite filter_mod by nia. f_equal. apply isort_key_id, ss_key_impl; [|now apply strided_ss].
  intros a b Ha Hb Hab. apply Z.div_le_mono; lia.
Qed.

Lemma split_comm_pwgrp_ok size pw n r : 0 < pw -> size = n * pw -> 0 <= r < size ->
  split_comm_pwgrp size pw r =
  Ok (if pw =? 1 then None else Some (zrange (r / pw * pw) ((r / pw + 1) * pw)),
      strided pw (r mod pw) n).
Proof.
  intros Hp E Hr. unfold split_comm_pwgrp.
  destruct (Z.leb_spec pw 0); [lia|].
  replace (size mod pw) with 0 by (subst size; now rewrite Z_mod_mult). cbn [negb Z.eqb].
  rewrite (split_block size pw n), (split_stride size pw n) by assumption.
  destruct (pw =? 1); reflexivity.
Qed.

Lemma rank_in_strided pw k r n : 0 < pw -> 0 <= k < pw -> 0 <= r < n ->
  rank_in (strided pw k n) (r * pw + k) = r.
Proof.
  intros Hp Hk Hr. unfold strided.
  assert (G : forall m a, 0 <= m -> a <= r < a + m ->
     rank_in (map (fun j => j * pw + k) (zrange a (a + m))) (r * pw + k) = r - a).
  { intros m a Hm. revert a. pattern m. apply natlike_ind; [lia| |exact Hm].
    clear m Hm. intros m Hm IH a Ha. rewrite zrange_cons by lia. cbn [map rank_in].
    destruct (Z.eqb_spec (a * pw + k) (r * pw + k)) as [E|E]; [nia|].
    assert (a <> r) by (intros ->; lia).
    replace (a + Z.succ m) with (a + 1 + m) by lia. rewrite IH; lia. }
  specialize (G n 0). rewrite Z.add_0_l in G. rewrite G; lia.
Qed.

Lemma inter_of_ok size pw n m : 0 < pw -> size = n * pw -> 0 <= m < size ->
  inter_of size pw m = strided pw (m mod pw) n.
Proof. intros. unfold inter_of. now rewrite (split_comm_pwgrp_ok size pw n). Qed.

Lemma nodup_length_ss l : StronglySorted Z.lt l ->
  length (nodup Z.eq_dec l) = length l.
Proof. intros H. rewrite nodup_fixed_point; [reflexivity|now apply ss_NoDup]. Qed.

Lemma comm_incl_ok comm ranks :
  comm <> [] -> StronglySorted Z.lt ranks -> hd_error ranks = Some 0 ->
  (forall i, In i ranks -> 0 <= i < Z.of_nat (length comm)) ->
  comm_incl comm ranks = Ok (map (fun i => nth (Z.to_nat i) comm 0) ranks).
Proof.
  intros Hc Hs Hh Hb. unfold comm_incl.
  destruct comm as [|x [|y c]]; [congruence| |].
  - destruct ranks as [|z [|w t]]; [discriminate| |]; injection Hh as ->; [reflexivity|].
    exfalso. apply StronglySorted_inv in Hs as [_ HF]. inversion HF; subst.
    specialize (Hb w). cbn in Hb. specialize (Hb (or_intror (or_introl eq_refl))). lia.
  - rewrite nodup_length_ss, Nat.eqb_refl, andb_true_r by assumption.
    replace (forallb _ _) with true; [reflexivity|]. symmetry. apply forallb_forall.
    intros i Hi. specialize (Hb i Hi). lia.
Qed.

Lemma nth_strided pw k n i : 0 <= i < n -> nth (Z.to_nat i) (strided pw k n) 0 = i * pw + k.
Proof.
  intros H. unfold strided. rewrite (nth_indep _ 0 (0 * pw + k)) by (rewrite map_length, zrange_length; lia).
  rewrite (map_nth (fun j => j * pw + k)), zrange_nth by lia. lia.
Qed.

Lemma strided_length pw k n : length (strided pw k n) = Z.to_nat n.
Proof. unfold strided. rewrite map_length, zrange_length. f_equal. lia. Qed.

(** What every process ends up with, in closed form. *)
Lemma dft_comm_mod_ok size arg pw nk nb r :
  0 < pw -> 0 < nk -> 0 < nb -> size = nk * nb * pw ->
  (arg = Some nk \/ (arg = None /\ nb = 1)) -> 0 <= r < size ->
  dft_comm_mod size arg pw r = Ok
   {| n_pwgrp := nk * nb;
      pwgrp_intra := if pw =? 1 then None else Some (zrange (r / pw * pw) ((r / pw + 1) * pw));
      pwgrp_inter_image := strided pw (r mod pw) (nk * nb);
      n_kgrp := nk; n_bgrp := nb; i_kgrp := r / (nb * pw);
      kgrp_intra := zrange (r / (nb * pw) * (nb * pw)) ((r / (nb * pw) + 1) * (nb * pw));
      kroot_intra := held_by r (map (fun i => i * (nb * pw)) (zrange 0 nk));
      i_bgrp := r / pw mod nb;
      pwgrp_inter_kgrp := map (fun j => (r / (nb * pw) * nb + j) * pw + r mod pw) (zrange 0 nb);
      pwgrp_inter_kroot := held_by r (map (fun i => i * nb * pw + r mod pw) (zrange 0 nk)) |}.
Proof.
  intros Hp Hk Hb E Harg Hr. unfold dft_comm_mod.
  rewrite (split_comm_pwgrp_ok size pw (nk * nb)) by (assumption || lia).
  cbn [bind]. rewrite strided_length, Z2Nat.id by nia.
  assert (Enk : match arg with
                | Some k => if k =? 0 then Err ZeroDivisionError
                            else if negb ((nk * nb) mod k =? 0) then Err ValueError else Ok k
                | None => Ok (nk * nb) end = Ok nk).
  { destruct Harg as [-> | [-> ->]].
    - destruct (Z.eqb_spec nk 0); [lia|]. rewrite Z.mul_comm, Z_mod_mult. reflexivity.
    - f_equal. lia. }
  rewrite Enk. cbn [bind]. clear Enk.
  destruct (Z.eqb_spec nk 0); [lia|].
  replace (nk * nb / nk) with nb by (rewrite Z.mul_comm, Z.div_mul; lia).
  destruct (Z.eqb_spec (nb * pw) 0); [nia|].
  rewrite (split_block size (nb * pw) nk) by (nia || lia). cbn [bind].
  assert (Hpm := Z.mod_pos_bound r pw Hp).
  assert (Hdm := Z_div_mod_eq_full r pw).
  assert (Hrp : 0 <= r / pw < nk * nb) by (split; [apply Z.div_pos; lia|apply Z.div_lt_upper_bound; nia]).
  assert (Hik : r / (nb * pw) = r / pw / nb).
  { rewrite (Z.mul_comm nb pw). rewrite Z.div_div by lia. reflexivity. }
  assert (Hikr : 0 <= r / (nb * pw) < nk).
  { rewrite Hik. split; [apply Z.div_pos; lia|apply Z.div_lt_upper_bound; nia]. }
  (* roots *)
  rewrite comm_incl_ok.
  2:{ rewrite zrange_cons by nia. discriminate. }
  2:{ apply map_ss; [nia|apply zrange_ss]. }
  2:{ rewrite (zrange_cons 0 nk) by lia. reflexivity. }
  2:{ intros i Hi. apply in_map_iff in Hi as (j & <- & Hj). apply in_zrange in Hj.
      rewrite zrange_length. nia. }
  cbn [bind].
  rewrite map_map.
  (* inter k-group split *)
  assert (HS : mpi_split (strided pw (r mod pw) (nk * nb)) (fun m => m / (nb * pw))
      (fun m => rank_in (inter_of size pw m) m mod nb) r
      = Ok (map (fun j => (r / (nb * pw) * nb + j) * pw + r mod pw) (zrange 0 nb))).
  { unfold mpi_split. destruct (Z.ltb_spec (r / (nb * pw)) 0); [lia|]. f_equal.
    assert (HF : filter (fun m => m / (nb * pw) =? r / (nb * pw)) (strided pw (r mod pw) (nk * nb))
                 = map (fun j => (r / (nb * pw) * nb + j) * pw + r mod pw) (zrange 0 nb)).
    { apply ss_ext.
      - apply filter_ss, strided_ss; lia.
      - apply map_ss; [nia|apply zrange_ss].
      - intros x. rewrite filter_In, Z.eqb_eq. unfold strided. rewrite !in_map_iff. split.
        + intros [(j & <- & Hj) Hx]. apply in_zrange in Hj.
          exists (j - r / (nb * pw) * nb). split; [lia|]. apply in_zrange.
          rewrite <- Hx.
          replace ((j * pw + r mod pw) / (nb * pw)) with (j / nb).
          * pose proof (Z.mod_pos_bound j nb Hb). pose proof (Z_div_mod_eq_full j nb). nia.
          * rewrite (Z.mul_comm nb pw), <- Z.div_div by lia. f_equal.
            apply Z.div_unique with (r := r mod pw); lia.
        + intros (j & <- & Hj). apply in_zrange in Hj. split.
          * exists (r / (nb * pw) * nb + j). split; [reflexivity|]. apply in_zrange. nia.
          * apply div_range; [nia|]. nia. }
    rewrite HF. apply isort_key_id, ss_key_impl; [|apply map_ss; [nia|apply zrange_ss]].
    intros a b Ha Hb' Hab. apply in_map_iff in Ha as (ja & <- & Ha), Hb' as (jb & <- & Hjb).
    apply in_zrange in Ha, Hjb.
    assert (K : forall j, 0 <= j < nb ->
       rank_in (inter_of size pw ((r / (nb * pw) * nb + j) * pw + r mod pw))
         ((r / (nb * pw) * nb + j) * pw + r mod pw) mod nb = j).
    { intros j Hj.
      rewrite (inter_of_ok size pw (nk * nb)) by nia.
      replace (((r / (nb * pw) * nb + j) * pw + r mod pw) mod pw) with (r mod pw)
        by (rewrite Z.add_comm, Z_mod_plus_full, Z.mod_mod; lia).
      rewrite rank_in_strided by nia.
      rewrite Z.add_comm, Z_mod_plus_full. apply Z.mod_small; lia. }
    rewrite !K by lia. nia. }
  rewrite HS. cbn [bind].
  rewrite comm_incl_ok.
  2:{ unfold strided. rewrite zrange_cons by nia. discriminate. }
  2:{ apply map_ss; [nia|apply zrange_ss]. }
  2:{ rewrite (zrange_cons 0 nk) by lia. reflexivity. }
  2:{ intros i Hi. apply in_map_iff in Hi as (j & <- & Hj). apply in_zrange in Hj.
      rewrite strided_length. nia. }
  cbn [bind]. rewrite map_map. f_equal. f_equal.
  - f_equal. apply map_ext_in. intros i Hi. apply in_zrange in Hi.
    rewrite zrange_nth; nia.
  - rewrite (inter_of_ok size pw (nk * nb)) by (assumption || lia).
    rewrite Hdm at 2. rewrite (Z.mul_comm pw), rank_in_strided by lia. reflexivity.
  - f_equal. apply map_ext_in. intros i Hi. apply in_zrange in Hi.
    rewrite nth_strided by nia. reflexivity.
Qed.

Lemma split_pw_rejects size pw r :
  (pw <= 0 \/ size mod pw <> 0) -> split_comm_pwgrp size pw r = Err ValueError.
Proof.
  intros H. unfold split_comm_pwgrp. destruct (Z.leb_spec pw 0); [reflexivity|].
  destruct (Z.eqb_spec (size mod pw) 0); [lia|reflexivity].
Qed.

Lemma dft_rejects_pw size arg pw r :
  (pw <= 0 \/ size mod pw <> 0) -> dft_comm_mod size arg pw r = Err ValueError.
Proof. intros H. unfold dft_comm_mod. now rewrite split_pw_rejects. Qed.

Lemma dft_rejects_k size k pw r :
  0 < pw -> size mod pw = 0 -> 0 <= r < size ->
  (k = 0 -> dft_comm_mod size (Some k) pw r = Err ZeroDivisionError) /\
  (k <> 0 -> (size / pw) mod k <> 0 -> dft_comm_mod size (Some k) pw r = Err ValueError).
Proof.
  intros Hp Hm Hr. unfold dft_comm_mod.
  assert (E : size = size / pw * pw) by (pose proof (Z_div_mod_eq_full size pw); lia).
  rewrite (split_comm_pwgrp_ok size pw (size / pw)) by assumption. cbn [bind].
  rewrite strided_length, Z2Nat.id by (apply Z.div_pos; lia).
  split.
  - intros ->. reflexivity.
  - intros Hk Hd. destruct (Z.eqb_spec k 0); [lia|].
    destruct (Z.eqb_spec ((size / pw) mod k) 0); [lia|]. reflexivity.
Qed.

(** Blocks and stride classes partition the world. *)
Definition same_or_disjoint (l1 l2 : list Z) : Prop :=
  l1 = l2 \/ (forall x, In x l1 -> In x l2 -> False).

Lemma block_in s n r : 0 < s -> 0 <= r < n * s -> In r (zrange (r / s * s) ((r / s + 1) * s)).
Proof.
  intros Hs Hr. apply in_zrange. pose proof (Z.mod_pos_bound r s Hs).
  pose proof (Z_div_mod_eq_full r s). nia.
Qed.

Lemma block_same_or_disjoint s r r' : 0 < s ->
  same_or_disjoint (zrange (r / s * s) ((r / s + 1) * s)) (zrange (r' / s * s) ((r' / s + 1) * s)).
Proof.
  intros Hs. destruct (Z.eq_dec (r / s) (r' / s)) as [->|N]; [now left|right].
  intros x H1 H2. apply in_zrange in H1, H2.
  apply (div_range _ _ _ Hs) in H1, H2. congruence.
Qed.

Lemma map_bij_in (f g : Z -> Z) l x : (forall y, g (f y) = y) -> In x (map f l) -> In (g x) l.
Proof. intros H Hin. apply in_map_iff in Hin as (y & <- & Hy). now rewrite H. Qed.

Record comm_spec (size pw nk nb r : Z) (c : dftcomm) : Prop := {
  cs_counts : n_kgrp c = nk /\ n_bgrp c = nb /\ n_pwgrp c = nk * nb;
  (* position of the process: k-group, band-group, plane-wave rank *)
  cs_pos : r = (i_kgrp c * nb + i_bgrp c) * pw + r mod pw;
  cs_ik : 0 <= i_kgrp c < nk;
  cs_ib : 0 <= i_bgrp c < nb;
  (* k-group: exactly the processes with the same k-index, in rank order *)
  cs_kgrp : forall m, In m (kgrp_intra c) <-> (0 <= m < size /\ m / (nb * pw) = i_kgrp c);
  cs_kgrp_sorted : StronglySorted Z.lt (kgrp_intra c);
  (* plane-wave group: absent iff it would be trivial *)
  cs_pwgrp : match pwgrp_intra c with
             | None => pw = 1
             | Some l => pw <> 1 /\ StronglySorted Z.lt l /\
                         forall m, In m l <-> (0 <= m < size /\ m / pw = r / pw)
             end;
  (* inter communicator: same plane-wave rank, one per plane-wave group *)
  cs_inter : forall m, In m (pwgrp_inter_image c) <-> (0 <= m < size /\ m mod pw = r mod pw);
  cs_inter_sorted : StronglySorted Z.lt (pwgrp_inter_image c);
  (* band-parallel communicator of a k-group *)
  cs_interk : forall m, In m (pwgrp_inter_kgrp c) <->
                (In m (kgrp_intra c) /\ m mod pw = r mod pw);
  cs_interk_sorted : StronglySorted Z.lt (pwgrp_inter_kgrp c);
  (* roots *)
  cs_kroot : kroot_intra c = held_by r (map (fun i => i * (nb * pw)) (zrange 0 nk));
  cs_interroot : pwgrp_inter_kroot c = held_by r (map (fun i => i * nb * pw + r mod pw) (zrange 0 nk))
}.

Lemma dft_comm_mod_spec size arg pw nk nb r :
  0 < pw -> 0 < nk -> 0 < nb -> size = nk * nb * pw ->
  (arg = Some nk \/ (arg = None /\ nb = 1)) -> 0 <= r < size ->
  exists c, dft_comm_mod size arg pw r = Ok c /\ comm_spec size pw nk nb r c.
Proof.
  intros Hp Hk Hb E Harg Hr. eexists. split; [now apply (dft_comm_mod_ok size arg pw nk nb)|].
  assert (Hpm := Z.mod_pos_bound r pw Hp).
  assert (Hdm := Z_div_mod_eq_full r pw).
  assert (Hrp : 0 <= r / pw < nk * nb) by (split; [apply Z.div_pos; lia|apply Z.div_lt_upper_bound; nia]).
  assert (Hik : r / (nb * pw) = r / pw / nb).
  { rewrite (Z.mul_comm nb pw). rewrite Z.div_div by lia. reflexivity. }
  assert (Hikr : 0 <= r / (nb * pw) < nk).
  { rewrite Hik. split; [apply Z.div_pos; lia|apply Z.div_lt_upper_bound; nia]. }
  assert (Hks : 0 < nb * pw) by nia.
  constructor; cbn [n_kgrp n_bgrp n_pwgrp i_kgrp i_bgrp kgrp_intra pwgrp_intra pwgrp_inter_image
    pwgrp_inter_kgrp kroot_intra pwgrp_inter_kroot]; try reflexivity; try assumption.
  - auto.
  - rewrite Hik. pose proof (Z_div_mod_eq_full (r / pw) nb). nia.
  - apply Z.mod_pos_bound; lia.
  - intros m. rewrite in_zrange. split.
    + intros H. split; [nia|]. now apply div_range.
    + intros [H <-]. pose proof (Z.mod_pos_bound m _ Hks). pose proof (Z_div_mod_eq_full m (nb * pw)). nia.
  - apply zrange_ss.
  - destruct (Z.eqb_spec pw 1) as [->|N]; [reflexivity|]. split; [exact N|]. split; [apply zrange_ss|].
    intros m. rewrite in_zrange. split.
    + intros H. split; [nia|]. now apply div_range.
    + intros [H <-]. pose proof (Z.mod_pos_bound m _ Hp). pose proof (Z_div_mod_eq_full m pw). nia.
  - intros m. unfold strided. rewrite in_map_iff. split.
    + intros (j & <- & Hj). apply in_zrange in Hj. split; [nia|].
      rewrite Z.add_comm, Z_mod_plus_full, Z.mod_mod; lia.
    + intros [Hm <-]. exists (m / pw). pose proof (Z_div_mod_eq_full m pw). split; [lia|].
      apply in_zrange. split; [apply Z.div_pos; lia|apply Z.div_lt_upper_bound; nia].
  - apply strided_ss; lia.
  - intros m. rewrite in_map_iff, in_zrange. split.
    + intros (j & <- & Hj). apply in_zrange in Hj. split; [nia|].
      rewrite Z.add_comm, Z_mod_plus_full, Z.mod_mod; lia.
    + intros [Hm Hmm]. pose proof (Z_div_mod_eq_full m pw).
      exists (m / pw - r / (nb * pw) * nb). split; [rewrite <- Hmm; nia|].
      apply in_zrange. pose proof (Z.mod_pos_bound m _ Hp). nia.
  - apply map_ss; [nia|apply zrange_ss].
Qed.

(** Exactly one root per k-group, and it is the lowest rank of the group. *)
Lemma kroot_unique size pw nk nb r c :
  0 < pw -> 0 < nk -> 0 < nb -> size = nk * nb * pw -> 0 <= r < size ->
  comm_spec size pw nk nb r c ->
  (exists! m, In m (kgrp_intra c) /\ In m (map (fun i => i * (nb * pw)) (zrange 0 nk)))
  /\ (forall m, In m (kgrp_intra c) -> In m (map (fun i => i * (nb * pw)) (zrange 0 nk)) ->
        hd_error (kgrp_intra c) = Some m).
Proof.
  intros Hp Hk Hb E Hr C. destruct C as [_ _ Hik _ HK HKs _ _ _ _ _ _ _].
  assert (Hks : 0 < nb * pw) by nia.
  assert (Hroot : In (i_kgrp c * (nb * pw)) (kgrp_intra c)).
  { apply HK. split; [nia|]. now apply Z.div_mul; lia. }
  assert (U : forall m, In m (kgrp_intra c) -> In m (map (fun i => i * (nb * pw)) (zrange 0 nk)) ->
     m = i_kgrp c * (nb * pw)).
  { intros m Hm Hr'. apply in_map_iff in Hr' as (j & <- & Hj). apply HK in Hm as [_ Hm].
    rewrite Z.div_mul in Hm by lia. now subst. }
  split.
  - exists (i_kgrp c * (nb * pw)). split.
    + split; [exact Hroot|]. apply in_map_iff. exists (i_kgrp c). split; [reflexivity|].
      apply in_zrange; lia.
    + intros m [Hm1 Hm2]. symmetry. now apply U.
  - intros m Hm1 Hm2. rewrite (U m Hm1 Hm2). clear m Hm1 Hm2 U.
    destruct (kgrp_intra c) as [|x l] eqn:EL; [contradiction|]. cbn.
    apply StronglySorted_inv in HKs as [_ HF]. destruct Hroot as [->|Hin]; [reflexivity|].
    rewrite Forall_forall in HF. specialize (HF _ Hin).
    assert (Hx : In x (x :: l)) by now left. apply HK in Hx as [_ Hx].
    rewrite <- Hx in HF. pose proof (Z.mod_pos_bound x _ Hks). pose proof (Z_div_mod_eq_full x (nb * pw)). nia.
Qed.
