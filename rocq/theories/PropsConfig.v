(** Property C34: configuration setters validate and store. *)
From Coq Require Import String.
From Verif Require Import Base ConfigModel.
Local Open Scope string_scope.
Local Open Scope Z_scope.

(** The documented ranges of the properties, written without the model's setters. *)
Definition allowed (e : env) (p : prop) (v : value) : Prop :=
  match p with
  | Plogging => exists b, v = VBool b
  | Pfft_backend => v = VStr "numpy" \/ v = VStr "scipy" \/ (v = VStr "pyfftw" /\ pyfftw e = true)
                    \/ (v = VStr "mkl_fft" /\ mkl_fft e = true) \/ (v = VStr "cupy" /\ cupy e = true)
  | Pfft_threads | Pdav_maxiter | Pdav_numwork => (exists z, v = VInt z /\ 0 < z) \/ v = VBool true
  | Pplanner => v = VStr "FFTW_ESTIMATE" \/ v = VStr "FFTW_MEASURE" \/ v = VStr "FFTW_PATIENT" \/ v = VStr "FFTW_EXHAUSTIVE"
  | Peigsolve => v = VStr "davidson" \/ v = VStr "scipy" \/ (v = VStr "primme" /\ primme e = true)
  | Pmixing => v = VStr "modbroyden" \/ v = VStr "genbroyden"
  | Pseed | Pplain _ => True
  | Pavailable => False
  end.

(** The properties whose setter stores; the other two are the subject of the refutation. *)
Definition stores (p : prop) : Prop := p <> Pdav_numwork /\ p <> Pmixing.

Definition initial : world := fun _ _ => None.
Definition reads (e : env) pd (w : world) i p : value := fst (get e pd p (w i)).

Lemma in_strs_spec v l : in_strs v l = true <-> exists x, v = VStr x /\ In x l.
Proof.
  unfold in_strs. destruct v; try (split; [discriminate|intros (x & E & _); discriminate]).
  rewrite existsb_exists. split.
  - intros (x & H & E). apply String.eqb_eq in E. subst. eauto.
  - intros (x & E & H). injection E as ->. exists x. split; [exact H|apply String.eqb_refl].
Qed.
Lemma beq_spec p q : prop_beq p q = true <-> p = q.
Proof. split; [apply internal_prop_dec_bl|apply internal_prop_dec_lb]. Qed.
Lemma store_same s p v : store s p v p = Some v.
Proof. unfold store. now rewrite (proj2 (beq_spec p p) eq_refl). Qed.
Lemma store_other s p v q : q <> p -> store s p v q = s q.
Proof. intros H. unfold store. destruct (prop_beq q p) eqn:E; [apply beq_spec in E; contradiction|reflexivity]. Qed.

Lemma avail_spec e v : (exists x, v = VStr x /\ In x (fft_available_backends e)) <-> allowed e Pfft_backend v.
Proof.
  unfold fft_available_backends, allowed. split.
  - intros (x & -> & H). destruct (pyfftw e), (mkl_fft e), (cupy e); cbn in H;
      repeat destruct H as [<-|H]; try contradiction; auto 10.
  - intros H. destruct H as [->|[->|[[-> E]|[[-> E]|[-> E]]]]]; eexists; (split; [reflexivity|]); try rewrite E;
      destruct (pyfftw e), (mkl_fft e), (cupy e); cbn; auto 10; discriminate.
Qed.

(** The value that ends up stored. *)
Definition effective (e : env) (p : prop) (root_val v : value) : value :=
  match p with Pseed => if mpi4py e then root_val else v | _ => v end.

Lemma as_int_allowed v z : as_int v = Some z -> (0 < z <-> ((exists z, v = VInt z /\ 0 < z) \/ v = VBool true)).
Proof.
  destruct v; cbn; intros E; try discriminate; injection E as <-.
  - split; [eauto|]. intros [(y & E & H)|E]; [injection E as ->; exact H|discriminate].
  - destruct b; cbn; split; intros H; auto; [lia|lia|]. destruct H as [(y & E & _)|E]; discriminate.
Qed.
Lemma as_int_none v : as_int v = None -> ~ ((exists z, v = VInt z /\ 0 < z) \/ v = VBool true).
Proof. destruct v; try discriminate; intros _ [(y & E & _)|E]; discriminate. Qed.

(** The setters, against the documented ranges. *)
Lemma set_spec e r p v s :
  (allowed e p v -> stores p -> set e r p v s = Ok (store s p (effective e p r v)))
  /\ (allowed e p v -> ~ stores p -> set e r p v s = Ok s)
  /\ (~ allowed e p v -> exists x, set e r p v s = Err x).
Proof.
  assert (ST : forall q, q <> Pdav_numwork -> q <> Pmixing -> stores q) by (intros; split; assumption).
  destruct p; cbn [set effective].
  - (* logging *) split; [intros [b ->] _; reflexivity|]. split; [intros _ H; exfalso; apply H, ST; discriminate|].
    intros H. destruct v; eauto. exfalso. apply H. now exists b.
  - (* backend *)
    pose proof (avail_spec e v) as A. pose proof (in_strs_spec v (fft_available_backends e)) as I.
    destruct (in_strs v (fft_available_backends e)); split; try (intros; reflexivity).
    + split; [intros _ H; exfalso; apply H, ST; discriminate|]. intros H. exfalso. apply H, A, I, eq_refl.
    + intros H _. exfalso. apply A, I in H. discriminate.
    + split; eauto. intros _ H; exfalso; apply H, ST; discriminate.
  - (* threads *)
    destruct (as_int v) as [z|] eqn:E.
    + pose proof (as_int_allowed v z E) as A. cbn [allowed]. destruct (Z.ltb_spec z 1).
      * split; [intros H'; exfalso; apply A in H'; lia|]. split; [intros H'; exfalso; apply A in H'; lia|eauto].
      * split; [reflexivity|]. split; [intros _ H'; exfalso; apply H', ST; discriminate|].
        intros H'. exfalso. apply H', A. lia.
    + pose proof (as_int_none v E). cbn [allowed]. split; [intros; contradiction|]. split; [intros; contradiction|eauto].
  - (* planner *)
    match goal with |- context[in_strs v ?l] => pose proof (in_strs_spec v l) as I; destruct (in_strs v l) end.
    + split; [reflexivity|]. split; [intros _ H; exfalso; apply H, ST; discriminate|].
      intros H. exfalso. apply H. destruct (proj1 I eq_refl) as (x & -> & Hx). cbn in Hx |- *. intuition (subst; auto).
    + assert (N : ~ allowed e Pplanner v).
      { intros H. apply Bool.diff_false_true. apply I. cbn in H. destruct H as [->|[->|[->| ->]]]; eexists; (split; [reflexivity|]); cbn; auto. }
      split; [intros; contradiction|]. split; [intros; contradiction|eauto].
  - (* seed *) split; [reflexivity|]. split; [intros _ H; exfalso; apply H, ST; discriminate|]. intros H. exfalso. apply H. exact I.
  - (* available *) split; [intros []|]. split; [intros []|eauto].
  - (* eigsolve *)
    assert (NS : ~ stores Peigsolve -> False) by (intros H; apply H, ST; discriminate).
    destruct (primme e) eqn:P.
    + match goal with |- context[in_strs v ?l] => pose proof (in_strs_spec v l) as I; destruct (in_strs v l) end.
      * split; [reflexivity|]. split; [intros _ H; now apply NS in H|].
        intros H. exfalso. apply H. destruct (proj1 I eq_refl) as (x & -> & Hx). cbn in Hx |- *. intuition (subst; auto).
      * assert (N : ~ allowed e Peigsolve v).
        { intros H. apply Bool.diff_false_true. apply I. cbn in H. destruct H as [->|[->|[-> _]]]; eexists; (split; [reflexivity|]); cbn; auto. }
        split; [intros; contradiction|]. split; [intros; contradiction|eauto].
    + pose proof (in_strs_spec v ["primme"]) as I1. destruct (in_strs v ["primme"]).
      * destruct (proj1 I1 eq_refl) as (x & -> & [<-|[]]).
        assert (N : ~ allowed e Peigsolve (VStr "primme")).
        { cbn. rewrite P. intros [H|[H|[_ H]]]; discriminate. }
        split; [intros; contradiction|]. split; [intros; contradiction|eauto].
      * match goal with |- context[in_strs v ?l] => pose proof (in_strs_spec v l) as I; destruct (in_strs v l) end.
        -- split; [reflexivity|]. split; [intros _ H; now apply NS in H|].
           intros H. exfalso. apply H. destruct (proj1 I eq_refl) as (x & -> & Hx). cbn in Hx |- *. intuition (subst; auto).
        -- assert (N : ~ allowed e Peigsolve v).
           { intros H. apply Bool.diff_false_true. apply I. cbn in H. rewrite P in H.
             destruct H as [->|[->|[-> H]]]; [..|discriminate]; eexists; (split; [reflexivity|]); cbn; auto. }
           split; [intros; contradiction|]. split; [intros; contradiction|eauto].
  - (* maxiter *)
    destruct (as_int v) as [z|] eqn:E.
    + pose proof (as_int_allowed v z E) as A. cbn [allowed]. destruct (Z.leb_spec z 0).
      * split; [intros H'; exfalso; apply A in H'; lia|]. split; [intros H'; exfalso; apply A in H'; lia|eauto].
      * split; [reflexivity|]. split; [intros _ H'; exfalso; apply H', ST; discriminate|].
        intros H'. exfalso. apply H', A. lia.
    + pose proof (as_int_none v E). cbn [allowed]. split; [intros; contradiction|]. split; [intros; contradiction|eauto].
  - (* numwork *)
    split; [intros _ [H _]; contradiction|].
    destruct (as_int v) as [z|] eqn:E.
    + pose proof (as_int_allowed v z E) as A. cbn [allowed]. destruct (Z.leb_spec z 0).
      * split; [intros H'; exfalso; apply A in H'; lia|eauto].
      * split; [reflexivity|]. intros H'. exfalso. apply H', A. lia.
    + pose proof (as_int_none v E). cbn [allowed]. split; [intros; contradiction|eauto].
  - (* mixing *)
    split; [intros _ [_ H]; contradiction|].
    match goal with |- context[in_strs v ?l] => pose proof (in_strs_spec v l) as I; destruct (in_strs v l) end.
    + split; [reflexivity|]. intros H. exfalso. apply H. destruct (proj1 I eq_refl) as (x & -> & Hx). cbn in Hx |- *. intuition (subst; auto).
    + assert (N : ~ allowed e Pmixing v).
      { intros H. apply Bool.diff_false_true. apply I. cbn in H. destruct H as [->| ->]; eexists; (split; [reflexivity|]); cbn; auto. }
      split; [intros; contradiction|eauto].
  - (* plain *) split; [reflexivity|]. split; [intros _ H; exfalso; apply H, ST; discriminate|]. intros H. exfalso. apply H. exact I.
Qed.

Lemma get_inv e pd s p q : fst (get e pd p (snd (get e pd q s))) = fst (get e pd p s).
Proof.
  unfold get at 2. destruct (s q) eqn:E; [reflexivity|]. cbn [snd].
  assert (G : forall q v, s q = None -> v = default e pd q -> fst (get e pd p (store s q v)) = fst (get e pd p s)).
  { intros q0 v E0 ->. unfold get. destruct (prop_beq p q0) eqn:B.
    - apply beq_spec in B. rewrite B, store_same, E0. reflexivity.
    - rewrite store_other; [destruct (s p); reflexivity|intros ->; rewrite (proj2 (beq_spec q0 q0) eq_refl) in B; discriminate]. }
  destruct q; try reflexivity; apply G; auto.
Qed.
Lemma get_store e pd s p v q : fst (get e pd q (store s p v)) = if prop_beq q p then v else fst (get e pd q s).
Proof.
  unfold get. destruct (prop_beq q p) eqn:B.
  - apply beq_spec in B. subst. now rewrite store_same.
  - rewrite store_other; [destruct (s q); reflexivity|intros ->; rewrite (proj2 (beq_spec p p) eq_refl) in B; discriminate].
Qed.

(** C34.  One assignment.  A disallowed value raises and leaves every property of every
    configuration object as it was; an allowed value assigned to a storing property is what
    that property reads afterwards (the value of rank 0 for the seed under MPI), and nothing
    else changes. *)
Theorem C34_assign : forall e pd w i p r v,
  (~ allowed e p v -> exists x, snd (step e pd w (OAssign i p r v)) = Err x
      /\ forall j q, reads e pd (fst (step e pd w (OAssign i p r v))) j q = reads e pd w j q)
  /\ (allowed e p v -> stores p -> snd (step e pd w (OAssign i p r v)) = Ok None
      /\ reads e pd (fst (step e pd w (OAssign i p r v))) i p
         = match p with Pseed => if mpi4py e then r else v | _ => v end
      /\ forall j q, j <> i \/ q <> p -> reads e pd (fst (step e pd w (OAssign i p r v))) j q = reads e pd w j q).
Proof.
  intros e pd w i p r v. destruct (set_spec e r p v (w i)) as (S1 & _ & S3). cbn [step]. split.
  - intros H. destruct (S3 H) as [x E]. rewrite E. cbn. eauto.
  - intros H Hs. rewrite (S1 H Hs). cbn [fst snd]. split; [reflexivity|]. unfold reads, upd. split.
    + rewrite Nat.eqb_refl, get_store, (proj2 (beq_spec p p) eq_refl). reflexivity.
    + intros j q Hjq. destruct (Nat.eqb_spec j i) as [->|Hj]; [|reflexivity].
      rewrite get_store. destruct (prop_beq q p) eqn:B; [|reflexivity].
      apply beq_spec in B. destruct Hjq; contradiction.
Qed.
Print Assumptions C34_assign.
(** Which exception a refused assignment raises: the FFT options ValueError, the read-only list of backends AttributeError, PRIMME without
    the package ImportError, everything else TypeError. *)
Theorem C34_refusal_kind : forall e pd w i p r v, ~ allowed e p v ->
  snd (step e pd w (OAssign i p r v)) = Err (match p with
    | Pfft_backend | Pfft_threads | Pplanner => ValueError
    | Pavailable => AttributeError
    | Peigsolve => if negb (primme e) && in_strs v ["primme"] then ImportError else TypeError
    | _ => TypeError end).
Proof.
  intros e pd w i p r v N. pose proof (set_spec e r p v (w i)) as (_ & _ & S3). destruct (S3 N) as [x E]. cbn [step]. rewrite E. cbn [snd]. f_equal. clear S3 N.
  destruct p; cbn [set] in E; unfold value_not_in_list_error in E.
  all: destruct v; cbn [as_int in_strs] in E |- *; destruct (primme e); cbn [negb andb].
  all: repeat match type of E with context [if ?c then _ else _] => destruct c end; congruence.
Qed.
Print Assumptions C34_refusal_kind.

(** The last value an assignment history leaves in property [p] of object [i]. *)
Inductive last_set (e : env) (i : nat) (p : prop) : list op -> value -> Prop :=
| LS_here ops r v : allowed e p v -> last_set e i p (ops ++ [OAssign i p r v]) (match p with Pseed => if mpi4py e then r else v | _ => v end)
| LS_skip ops o v : last_set e i p ops v ->
    (match o with
     | OAssign j q _ x => j <> i \/ q <> p \/ ~ allowed e q x
     | ORead _ _ => True
     | OGpu j _ => j <> i \/ p <> Pfft_backend end) -> last_set e i p (ops ++ [o]) v
| LS_gpu ops b : p = Pfft_backend ->
    last_set e i p (ops ++ [OGpu i b]) (VStr (if b && cupy e then "cupy"
       else if mkl_fft e then "mkl_fft" else if pyfftw e then "pyfftw" else "scipy")).

Lemma run_app e pd a o w : run e pd (a ++ [o]) w = fst (step e pd (run e pd a w) o).
Proof. unfold run. now rewrite fold_left_app. Qed.
Lemma hd_avail e : hd "scipy" (fft_available_backends e) = if mkl_fft e then "mkl_fft" else if pyfftw e then "pyfftw" else "scipy".
Proof. unfold fft_available_backends. destruct (mkl_fft e), (pyfftw e), (cupy e); reflexivity. Qed.
Lemma gpu_spec e b s : set_gpu e b s = Ok (store s Pfft_backend (VStr (if b && cupy e then "cupy"
       else if mkl_fft e then "mkl_fft" else if pyfftw e then "pyfftw" else "scipy"))).
Proof.
  unfold set_gpu. destruct (b && cupy e) eqn:B.
  - apply andb_prop in B. destruct B as [-> C]. apply (proj1 (set_spec e VNone Pfft_backend (VStr "cupy") s)).
    + cbn. auto 10.
    + split; discriminate.
  - rewrite hd_avail. apply (proj1 (set_spec e VNone Pfft_backend _ s)); [|split; discriminate].
    cbn. destruct (mkl_fft e); [auto 10|]. destruct (pyfftw e); auto 10.
Qed.

(** Whether a value is allowed is decidable. *)
Lemma allowed_dec e p v : allowed e p v \/ ~ allowed e p v.
Proof.
  assert (D : forall q, stores q -> allowed e q v \/ ~ allowed e q v).
  { intros q _. destruct q; cbn [allowed].
    - destruct v; try (right; intros [b' E]; discriminate). left. eauto.
    - pose proof (avail_spec e v) as A. pose proof (in_strs_spec v (fft_available_backends e)) as I0. destruct (in_strs v (fft_available_backends e)); [left; apply A, I0, eq_refl|right; intros H; apply A, I0 in H; discriminate].
    - destruct (as_int v) as [z|] eqn:E; [|right; now apply as_int_none].
      pose proof (as_int_allowed v z E) as A. destruct (Z_lt_dec 0 z); [left; now apply A|right; intros H; apply A in H; lia].
    - pose proof (in_strs_spec v ["FFTW_ESTIMATE"; "FFTW_MEASURE"; "FFTW_PATIENT"; "FFTW_EXHAUSTIVE"]) as H.
      destruct (in_strs v _); [left|right].
      + destruct (proj1 H eq_refl) as (x & -> & Hx). cbn in Hx. intuition (subst; auto).
      + intros A. apply Bool.diff_false_true, H. destruct A as [->|[->|[->| ->]]]; eexists; (split; [reflexivity|]); cbn; auto.
    - auto.
    - auto.
    - pose proof (in_strs_spec v ["davidson"; "scipy"]) as H. destruct (in_strs v ["davidson"; "scipy"]).
      { left. destruct (proj1 H eq_refl) as (x & -> & Hx). cbn in Hx. intuition (subst; auto). }
      pose proof (in_strs_spec v ["primme"]) as H1. destruct (in_strs v ["primme"]).
      { destruct (proj1 H1 eq_refl) as (x & -> & [<-|[]]). destruct (primme e); [left; auto|right].
        intros [A|[A|[_ A]]]; discriminate. }
      right. intros [->|[->|[-> _]]];
        [apply Bool.diff_false_true, H|apply Bool.diff_false_true, H|apply Bool.diff_false_true, H1];
        eexists; (split; [reflexivity|]); cbn; auto.
    - destruct (as_int v) as [z|] eqn:E; [|right; now apply as_int_none].
      pose proof (as_int_allowed v z E) as A. destruct (Z_lt_dec 0 z); [left; now apply A|right; intros H; apply A in H; lia].
    - destruct (as_int v) as [z|] eqn:E; [|right; now apply as_int_none].
      pose proof (as_int_allowed v z E) as A. destruct (Z_lt_dec 0 z); [left; now apply A|right; intros H; apply A in H; lia].
    - pose proof (in_strs_spec v ["modbroyden"; "genbroyden"]) as H.
      destruct (in_strs v _); [left|right].
      + destruct (proj1 H eq_refl) as (x & -> & Hx). cbn in Hx. intuition (subst; auto).
      + intros A. apply Bool.diff_false_true, H. destruct A as [->| ->]; eexists; (split; [reflexivity|]); cbn; auto.
    - auto. }
  destruct p; try (apply D; split; discriminate); [exact (D Pdav_maxiter ltac:(split; discriminate))|].
  pose proof (in_strs_spec v ["modbroyden"; "genbroyden"]) as H. cbn [allowed].
  destruct (in_strs v _); [left|right].
  + destruct (proj1 H eq_refl) as (x & -> & Hx). cbn in Hx. intuition (subst; auto).
  + intros A. apply Bool.diff_false_true, H. destruct A as [->| ->]; eexists; (split; [reflexivity|]); cbn; auto.
Qed.

Lemma step_skip e pd w i p o :
  (match o with
     | OAssign j q _ x => j <> i \/ q <> p \/ ~ allowed e q x \/ ~ stores q
     | ORead _ _ => True
     | OGpu j _ => j <> i \/ p <> Pfft_backend end) ->
  reads e pd (fst (step e pd w o)) i p = reads e pd w i p.
Proof.
  assert (US : forall j s, (j <> i \/ fst (get e pd p s) = fst (get e pd p (w j))) -> reads e pd (upd w j s) i p = reads e pd w i p).
  { intros j s H. unfold reads, upd. destruct (Nat.eqb_spec i j) as [->|N]; [|reflexivity]. destruct H; [contradiction|exact H]. }
  intros H. destruct o as [j q r x|j q|j b]; cbn [step].
  - destruct (set_spec e r q x (w j)) as (S1 & S2 & S3).
    destruct (allowed_dec e q x) as [A|A]; [|destruct (S3 A) as [? ->]; reflexivity].
    assert (SD : stores q \/ ~ stores q) by (destruct q; try (left; split; discriminate); right; intros [? ?]; congruence).
    destruct SD as [Hq|Hq].
    + rewrite (S1 A Hq). cbn [fst]. apply US. destruct H as [H|[H|[H|H]]]; try contradiction; auto. right.
      rewrite get_store. destruct (prop_beq p q) eqn:B; [apply beq_spec in B; congruence|reflexivity].
    + rewrite (S2 A Hq). cbn [fst]. apply US. auto.
  - pose proof (get_inv e pd (w j) p q) as G. destruct (get e pd q (w j)) as [v s]. cbn [fst snd] in *. apply US. auto.
  - rewrite gpu_spec. cbn [fst]. apply US. destruct H as [H|H]; [auto|right].
    rewrite get_store. destruct (prop_beq p Pfft_backend) eqn:B; [apply beq_spec in B; congruence|reflexivity].
Qed.

(** C34.  Any history: after any sequence of assignments (accepted or refused), reads and
    GPU switches on any number of configuration objects, a storing property reads the last
    value accepted for it on that object, and its default if there was none. *)
Theorem C34_history : forall e pd ops i p, stores p ->
  (forall v, last_set e i p ops v -> reads e pd (run e pd ops initial) i p = v)
  /\ ((forall v, ~ last_set e i p ops v) -> reads e pd (run e pd ops initial) i p = default e pd p).
Proof.
  intros e pd ops i p Hs. split.
  - intros v H. induction H as [ops r v A|ops o v H IH N|ops b E].
    + rewrite run_app. apply (proj2 (C34_assign e pd _ i p r v)); assumption.
    + rewrite run_app, step_skip; [exact IH|].
      destruct o; auto. destruct N as [N|[N|N]]; auto.
    + rewrite run_app. cbn [step]. rewrite gpu_spec. cbn [fst]. unfold reads, upd.
      rewrite Nat.eqb_refl, get_store, E. reflexivity.
  - induction ops as [|o ops IH] using rev_ind.
    + intros _. reflexivity.
    + intros N. rewrite run_app, step_skip.
      * destruct o as [j q r x|j q|j b].
        -- apply IH. intros v Hv. destruct (Nat.eq_dec j i) as [->|Hj]; [|apply (N v); constructor; auto].
           destruct (prop_beq q p) eqn:B; [apply beq_spec in B; subst q|].
           ++ destruct (allowed_dec e p x) as [A|A]; [eapply N; now constructor|apply (N v); constructor; auto].
           ++ apply (N v). constructor; auto. right. left. intros ->. rewrite (proj2 (beq_spec p p) eq_refl) in B. discriminate.
        -- apply IH. intros v Hv. apply (N v). constructor; auto.
        -- apply IH. intros v Hv. destruct (Nat.eq_dec j i) as [->|Hj]; [|apply (N v); constructor; auto].
           destruct (prop_beq p Pfft_backend) eqn:B; [apply beq_spec in B; eapply N; constructor; exact B|].
           apply (N v). constructor; auto. right. intros ->. discriminate.
      * destruct o as [j q r x|j q|j b]; [|exact I|].
        -- destruct (Nat.eq_dec j i) as [->|Hj]; [|auto]. right.
           destruct (prop_beq q p) eqn:B; [apply beq_spec in B; subst q|].
           ++ destruct (allowed_dec e p x) as [A|A]; [exfalso; eapply N; now constructor|auto].
           ++ left. intros ->. rewrite (proj2 (beq_spec p p) eq_refl) in B. discriminate.
        -- destruct (Nat.eq_dec j i) as [->|Hj]; [|auto]. right. intros E. eapply N. now constructor.
Qed.
Print Assumptions C34_history.

(** C34, refuted half.  davidson_numwork and mixing_method accept every documented value
    silently and never change: whatever the program assigned before, they read their
    defaults, so the statement "assigning an allowed value makes later reads return it" is
    false, e.g. for numwork = 4 and for genbroyden. *)
Theorem C34_numwork_mixing_refuted :
  (forall e pd ops i, reads e pd (run e pd ops initial) i Pdav_numwork = VInt 2
                   /\ reads e pd (run e pd ops initial) i Pmixing = VStr "modbroyden")
  /\ (forall e pd w i r, allowed e Pdav_numwork (VInt 4) /\ snd (step e pd w (OAssign i Pdav_numwork r (VInt 4))) = Ok None)
  /\ (forall e pd w i r, allowed e Pmixing (VStr "genbroyden") /\ snd (step e pd w (OAssign i Pmixing r (VStr "genbroyden"))) = Ok None).
Proof.
  split; [|split].
  - intros e pd ops i. induction ops as [|o ops [IH1 IH2]] using rev_ind; [split; reflexivity|].
    rewrite run_app. split; (rewrite step_skip; [assumption|]);
    destruct o as [j q r x|j q|j b]; try exact I; try (right; discriminate);
    match goal with |- context[?q <> ?p] => destruct (prop_beq q p) eqn:B; [apply beq_spec in B; subst|right; left; intros ->; discriminate] end;
    right; right; right; intros [? ?]; congruence.
  - intros. split; [left; exists 4; split; [reflexivity|lia]|reflexivity].
  - intros. split; [right; reflexivity|reflexivity].
Qed.
Print Assumptions C34_numwork_mixing_refuted.

(** C34.  The seed under MPI: in a collective assignment, rank k passing [vs k], every rank
    ends with rank 0's value, whatever each rank passed. *)
Theorem C34_seed_shared : forall e pd (ws : nat -> world) (vs : nat -> value) i k,
  mpi4py e = true ->
  reads e pd (fst (step e pd (ws k) (OAssign i Pseed (vs 0%nat) (vs k)))) i Pseed = vs 0%nat.
Proof.
  intros e pd ws vs i k H.
  destruct (C34_assign e pd (ws k) i Pseed (vs 0%nat) (vs k)) as [_ [_ [E _]]]; [exact I|split; discriminate|].
  rewrite E, H. reflexivity.
Qed.
Print Assumptions C34_seed_shared.

(** Non-vacuity: a concrete history with an accepted and a refused assignment. *)
Definition example_env := MkEnv true false true false false.
Example C34_nonvacuous :
  let ops := [OAssign 0 Peigsolve VNone (VStr "scipy"); OAssign 0 Peigsolve VNone (VStr "primme"); ORead 0 Pplanner] in
  stores Peigsolve /\ last_set example_env 0 Peigsolve ops (VStr "scipy")
  /\ snd (step example_env (fun _ => VNone) initial (OAssign 0 Peigsolve VNone (VStr "primme"))) = Err ImportError.
Proof.
  cbv zeta. split; [split; discriminate|]. split; [|reflexivity].
  apply (LS_skip example_env 0 Peigsolve [OAssign 0 Peigsolve VNone (VStr "scipy"); OAssign 0 Peigsolve VNone (VStr "primme")] (ORead 0 Pplanner)); [|exact I].
  apply (LS_skip example_env 0 Peigsolve [OAssign 0 Peigsolve VNone (VStr "scipy")] (OAssign 0 Peigsolve VNone (VStr "primme"))).
  - apply (LS_here example_env 0 Peigsolve [] VNone (VStr "scipy")). cbn. auto.
  - right. right. cbn. intros [H|[H|[_ H]]]; discriminate.
Qed.

(** C34: what a configuration object reads before any assignment. *)
Theorem C34_initial_values : forall e pd i,
  reads e pd initial i Plogging = VBool false /\ reads e pd initial i Pfft_threads = VInt 1
  /\ reads e pd initial i Pplanner = VStr "FFTW_MEASURE" /\ reads e pd initial i Pseed = VInt 489
  /\ reads e pd initial i Peigsolve = VStr "davidson" /\ reads e pd initial i Pdav_maxiter = VInt 20
  /\ reads e pd initial i Pdav_numwork = VInt 2 /\ reads e pd initial i Pmixing = VStr "modbroyden"
  /\ (forall b r, fft_available_backends e = b :: r -> reads e pd initial i Pfft_backend = VStr b).
Proof. intros e pd i. repeat (split; [reflexivity|]). intros b r H. unfold reads, get, initial. cbn. now rewrite H. Qed.
Print Assumptions C34_initial_values.
