(** Lemmas for the self-energy properties. *)
From Coq Require Import Reals Lra.
From Verif Require PropsParseInp.
From Verif Require Import Base SortModel LatModel GIndexModel FFTModel GwModel GwSpec GwProofs PropsUpf PropsGw PropsVcoul SigmaModel CBase.
Open Scope R_scope.

Definition tot (l : list cmat) (i j : nat) : C := fold_right (fun (t : cmat) s => (t i j + s)%C) (RtoC 0) l.
Lemma tot_app a b i j : tot (a ++ b) i j = (tot a i j + tot b i j)%C.
Proof.
  induction a as [|t a IH]; [change (tot b i j = RtoC 0 + tot b i j)%C; now rewrite Cplus_0_l|].
  change (t i j + tot (a ++ b) i j = t i j + tot a i j + tot b i j)%C. rewrite IH. ring.
Qed.
Lemma tot_csum l i j : csum (length l) (fun b => nth b l (fun _ _ => RtoC 0) i j) = tot l i j.
Proof.
  induction l as [|t l IH]; [reflexivity|]. cbn [length]. rewrite (csum_app 1 (length l)). change (tot (t :: l) i j) with (t i j + tot l i j)%C. rewrite <- IH. cbn [csum]. rewrite Cplus_0_l. reflexivity.
Qed.
Lemma accumulate_tot y sign acc l i j : accumulate y sign acc l i j = (acc i j + sign * tot l i j)%C.
Proof.
  unfold accumulate. destruct y.
  - revert acc. induction l as [|t l IH]; intros acc; [change (tot [] i j) with (RtoC 0); cbn [fold_left]; ring|]. change (tot (t :: l) i j) with (t i j + tot l i j)%C. cbn [fold_left]. rewrite IH. ring.
  - now rewrite tot_csum.
Qed.
(** Two outcomes that cannot be told apart. *)
Definition agree (a b : res cmat) : Prop :=
  match a, b with Ok m, Ok m' => forall i j, m i j = m' i j | Err e, Err e' => e = e' | _, _ => False end.
Definition summed (sign : C) (r : res (list (list cmat))) : res cmat :=
  rmap (fun ts => fun i j => (sign * tot (concat ts) i j)%C) r.
Lemma fold_q y sign (f : nat -> res (list cmat)) (qs : list nat) : forall acc,
  match fold_res (fun acc i => do t <- f i; Ok (accumulate y sign acc t)) acc qs, sequence (map f qs) with
  | Ok m, Ok ts => forall i j, m i j = (acc i j + sign * tot (concat ts) i j)%C
  | Err e, Err e' => e = e'
  | _, _ => False
  end.
Proof.
  induction qs as [|q qs IH]; intros acc; cbn [fold_res map sequence].
  - intros i j. change (tot (concat []) i j) with (RtoC 0). ring.
  - destruct (f q) as [t|e]; cbn [bind]; [|reflexivity]. specialize (IH (accumulate y sign acc t)).
    destruct (fold_res _ _ qs), (sequence (map f qs)); cbn [bind]; try easy. intros i j. rewrite IH, accumulate_tot. cbn [concat]. rewrite tot_app. ring.
Qed.
Lemma over_q_sum y sign f qs : agree (over_q y sign f qs) (summed sign (sequence (map f qs))).
Proof.
  unfold over_q, summed. assert (H := fold_q y sign f qs (fun _ _ => RtoC 0)). unfold agree.
  destruct (fold_res _ _ qs), (sequence (map f qs)); cbn [rmap]; try easy. intros i j. rewrite H. cbn. ring.
Qed.
Lemma add_mats_sum l i j : add_mats l i j = tot l i j.
Proof.
  unfold add_mats. enough (H : forall acc, fold_left (fun acc (m : cmat) => (acc + m i j)%C) l acc = (acc + tot l i j)%C) by (rewrite H; ring).
  induction l as [|t l IH]; intros acc; [change (tot [] i j) with (RtoC 0); cbn [fold_left]; ring|]. change (tot (t :: l) i j) with (t i j + tot l i j)%C. cbn [fold_left]. rewrite IH. ring.
Qed.
Lemma parts_sum y sign f parts :
  match sequence (map (over_q y sign f) parts), sequence (map f (concat parts)) with
  | Ok ms, Ok ts => forall i j, tot ms i j = (sign * tot (concat ts) i j)%C
  | Err e, Err e' => e = e'
  | _, _ => False
  end.
Proof.
  induction parts as [|p parts IH]; cbn [map sequence concat].
  - intros i j. change (tot (concat []) i j) with (RtoC 0). change (tot [] i j) with (RtoC 0). ring.
  - rewrite map_app, sequence_app. assert (H := over_q_sum y sign f p). unfold agree, summed in H.
    destruct (over_q y sign f p) as [m|e], (sequence (map f p)) as [ts|e']; cbn [rmap bind] in *; try easy.
    destruct (sequence (map (over_q y sign f) parts)), (sequence (map f (concat parts))); cbn [bind]; try easy.
    intros i j. cbn [tot fold_right]. fold (tot a i j). rewrite H, IH. rewrite concat_app, tot_app. ring.
Qed.
Definition procs_ok (p : option nat) : Prop := match p with None => True | Some n => (0 < n)%nat end.
Lemma run_sum p y sign f nq : procs_ok p -> agree (run p y sign f nq) (summed sign (sequence (map f (seq 0 nq)))).
Proof.
  destruct p as [n|]; intros Hp; cbn [run]; [|apply over_q_sum]. unfold over_q_parallel.
  assert (E : concat (array_split (seq 0 nq) n) = seq 0 nq).
  { unfold array_split. apply split_concat. rewrite seq_length. symmetry. now apply split_sum. }
  assert (H := parts_sum y sign f (array_split (seq 0 nq) n)). rewrite E in H. unfold agree, summed.
  destruct (sequence (map (over_q y sign f) (array_split (seq 0 nq) n))), (sequence (map f (seq 0 nq))); cbn [bind rmap]; try easy.
  intros i j. rewrite add_mats_sum. apply H.
Qed.
Lemma agree_trans a b c : agree a b -> agree b c -> agree a c.
Proof. destruct a, b, c; cbn; try easy; intros; subst; auto. now rewrite H. Qed.
Lemma agree_sym a b : agree a b -> agree b a.
Proof. destruct a, b; cbn; try easy; intros; auto. Qed.
Lemma agree_scaled c a b : agree a b -> agree (do m <- a; Ok (scaled c m)) (do m <- b; Ok (scaled c m)).
Proof. destruct a, b; cbn; try easy. intros H i j. unfold scaled. now rewrite H. Qed.

(** Sums over q-points and bands. *)
Definition qsum {A} (l : list A) (f : A -> C) : C := fold_right (fun a s => (f a + s)%C) (RtoC 0) l.
Lemma tot_concat ts i j : tot (concat ts) i j = qsum ts (fun t => tot t i j).
Proof. induction ts as [|t ts IH]; [reflexivity|]. cbn [concat qsum fold_right]. rewrite tot_app, IH. reflexivity. Qed.
Lemma run_ok p y sign f nq m : procs_ok p -> run p y sign f nq = Ok m -> exists ts, Forall2 (fun i t => f i = Ok t) (seq 0 nq) ts /\
  forall i j, m i j = (sign * qsum ts (fun t => tot t i j))%C.
Proof.
  intros Hp H. assert (K := run_sum p y sign f nq Hp). rewrite H in K. unfold agree, summed in K. destruct (sequence (map f (seq 0 nq))) as [ts|] eqn:E; [|easy]. cbn [rmap] in K.
  exists ts. split; [now apply PropsParseInp.sequence_forall2|]. intros i j. now rewrite K, tot_concat.
Qed.
