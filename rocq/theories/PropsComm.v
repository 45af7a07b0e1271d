(** C05: process groups.  [comm_spec] (CommProofs.v) is the small specification:
    it says, for the communicators process [r] holds, exactly which world ranks
    are in each, by arithmetic on ranks only. *)
From Verif Require Import Base SortModel CommModel CommProofs.

(** For every world of nk*nb*pw processes and every rank, construction succeeds
    and every communicator is exactly the intended set of ranks, in order.
    [nb = 1] when the number of k-groups is left to the default. *)
Theorem C05_dft_comm_groups : forall size arg pw nk nb r,
  0 < pw -> 0 < nk -> 0 < nb -> size = nk * nb * pw ->
  (arg = Some nk \/ (arg = None /\ nb = 1)) -> 0 <= r < size ->
  exists c, dft_comm_mod size arg pw r = Ok c /\ comm_spec size pw nk nb r c.
Proof. exact dft_comm_mod_spec. Qed.
Print Assumptions C05_dft_comm_groups.

(** One root per k-group in the inter-k-group reduction list: its rank 0. *)
Theorem C05_one_root_per_kgroup : forall size pw nk nb r c,
  0 < pw -> 0 < nk -> 0 < nb -> size = nk * nb * pw -> 0 <= r < size ->
  comm_spec size pw nk nb r c ->
  (exists! m, In m (kgrp_intra c) /\ In m (map (fun i => i * (nb * pw)) (zrange 0 nk)))
  /\ (forall m, In m (kgrp_intra c) -> In m (map (fun i => i * (nb * pw)) (zrange 0 nk)) ->
        hd_error (kgrp_intra c) = Some m).
Proof. exact kroot_unique. Qed.
Print Assumptions C05_one_root_per_kgroup.

(** Sizes that do not divide are refused, identically on all ranks. *)
Theorem C05_rejects_bad_pwgrp_size : forall size arg pw r,
  (pw <= 0 \/ size mod pw <> 0) ->
  dft_comm_mod size arg pw r = Err ValueError /\ split_comm_pwgrp size pw r = Err ValueError.
Proof. exact (fun size arg pw r H => conj (dft_rejects_pw size arg pw r H) (split_pw_rejects size pw r H)). Qed.
Print Assumptions C05_rejects_bad_pwgrp_size.

Theorem C05_rejects_bad_kgroup_count : forall size k pw r,
  0 < pw -> size mod pw = 0 -> 0 <= r < size ->
  (k = 0 -> dft_comm_mod size (Some k) pw r = Err ZeroDivisionError) /\
  (k <> 0 -> (size / pw) mod k <> 0 -> dft_comm_mod size (Some k) pw r = Err ValueError).
Proof. exact dft_rejects_k. Qed.
Print Assumptions C05_rejects_bad_kgroup_count.

(** Incl: the members of the new communicator are the listed ranks, in the order listed;
    a list that is not a list of distinct ranks of the communicator is refused.  (With one
    process the only list accepted is [0].) *)
Theorem C05_incl : forall comm ranks, comm <> [] -> NoDup comm -> (length comm = 1%nat -> ranks <> []) ->
  (NoDup ranks /\ (forall i, In i ranks -> 0 <= i < Z.of_nat (length comm)) ->
     exists c, comm_incl comm ranks = Ok c /\ Forall2 (fun i m => nth_error comm (Z.to_nat i) = Some m) ranks c /\ NoDup c)
  /\ (~ (NoDup ranks /\ (forall i, In i ranks -> 0 <= i < Z.of_nat (length comm))) ->
     exists e, comm_incl comm ranks = Err e).
Proof.
  intros comm ranks Hc HN H1.
  assert (G : NoDup ranks /\ (forall i, In i ranks -> 0 <= i < Z.of_nat (length comm)) ->
     Forall2 (fun i m => nth_error comm (Z.to_nat i) = Some m) ranks (map (fun i => nth (Z.to_nat i) comm 0) ranks)
     /\ NoDup (map (fun i => nth (Z.to_nat i) comm 0) ranks)).
  { clear H1. intros [N B]. split.
    - clear N. induction ranks as [|i l IH]; cbn [map]; constructor.
      + apply nth_error_nth'. specialize (B i (or_introl eq_refl)). lia.
      + apply IH. intros; apply B; now right.
    - induction N as [|i l Hi N IH]; cbn [map]; constructor.
      + intros X. apply in_map_iff in X as (j & E & Hj).
        pose proof (B i (or_introl eq_refl)) as Bi. pose proof (B j (or_intror Hj)) as Bj.
        apply (proj1 (NoDup_nth comm 0) HN) in E; [|lia|lia].
        apply Hi. replace i with j by lia. exact Hj.
      + apply IH. intros; apply B; now right. }
  destruct comm as [|x [|y c]]; [congruence| |].
  - assert (D : ranks = [0] \/ ranks <> [0]) by (destruct (list_eq_dec Z.eq_dec ranks [0]); tauto).
    destruct D as [->|D].
    + split; [intros P; exists [x]; split; [reflexivity|apply (G P)]|].
      intros P. exfalso. apply P. split; [repeat constructor; intros []|intros i [<-|[]]; cbn; lia].
    + assert (E : comm_incl [x] ranks = Err ValueError).
      { unfold comm_incl. destruct ranks as [|[| |] [|? ?]]; congruence || reflexivity. }
      split; [|intros _; now exists ValueError].
      intros [N B]. exfalso. cbn [length] in B. destruct ranks as [|a [|b l]]; [now apply H1| |].
      * apply D. f_equal. specialize (B a (or_introl eq_refl)). lia.
      * apply NoDup_cons_iff in N as [N _]. apply N. left.
        pose proof (B a (or_introl eq_refl)). pose proof (B b (or_intror (or_introl eq_refl))). lia.
  - unfold comm_incl. destruct (forallb _ ranks && _)%bool eqn:E.
    + apply andb_prop in E as [E1 E2]. assert (P : NoDup ranks /\ (forall i, In i ranks -> 0 <= i < Z.of_nat (length (x :: y :: c)))).
      { split.
        - apply Nat.eqb_eq in E2. clear - E2. induction ranks as [|a l IH]; [constructor|].
          cbn [nodup] in E2. pose proof (NoDup_incl_length (NoDup_nodup Z.eq_dec l) (fun z Hz => proj1 (nodup_In Z.eq_dec l z) Hz)) as L.
          destruct (in_dec Z.eq_dec a l); [cbn [length] in E2; lia|]. constructor; [assumption|]. apply IH. cbn [length] in E2. lia.
        - intros i Hi. eapply forallb_forall in E1; [|exact Hi]. lia. }
      split; [intros _; eexists; split; [reflexivity|apply (G P)]|intros NP; contradiction].
    + split; [|intros _; now exists RuntimeError].
      intros [N B]. exfalso. apply Bool.andb_false_iff in E as [E|E].
      * apply Bool.not_true_iff_false in E. apply E, forallb_forall. intros i Hi. specialize (B i Hi). lia.
      * rewrite nodup_fixed_point, Nat.eqb_refl in E by exact N. discriminate.
Qed.
Print Assumptions C05_incl.
Example C05_incl_witness : comm_incl [3; 5; 9] [2; 0] = Ok [9; 3] /\ comm_incl [3; 5; 9] [2; 2] = Err RuntimeError
  /\ comm_incl [3] [0; 1] = Err ValueError.
Proof. vm_compute. repeat split; reflexivity. Qed.

Example C05_witness :
  dft_comm_mod 12 (Some 2) 2 7 = Ok
   (MkDftComm 6 (Some [6; 7]) [1; 3; 5; 7; 9; 11] 2 3 1 [6; 7; 8; 9; 10; 11] None 0 [7; 9; 11] (Some [1; 7])).
Proof. vm_compute. reflexivity. Qed.
Example C05_reject_witness : dft_comm_mod 12 (Some 4) 2 7 = Err ValueError.
Proof. vm_compute. reflexivity. Qed.

(** Finding: a negative k-group count that divides passes the check; ranks then
    disagree (rank 0 goes on, the others fail inside MPI_Comm_split). *)
Example C05_finding_negative_kgroups :
  is_ok (dft_comm_mod 4 (Some (-2)) 1 0) = true
  /\ dft_comm_mod 4 (Some (-2)) 1 1 = Err RuntimeError.
Proof. vm_compute. split; reflexivity. Qed.
