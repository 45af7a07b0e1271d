(** Property C99: transforms of batches of fields and wavefunctions. *)
From Verif Require Import Base GIndexModel CBase BufferModel DistBufSpec DistBufProofs FFTModel FFTSpec FFTProofs FFTProofs2 BatchModel BatchSpec BatchProofs.
From Coq Require Import Lia.
Open Scope nat_scope.

Lemma even_spaced v lead n : even_rows lead v <-> spaced v lead 1 n.
Proof.
  split.
  - intros (t & H). exists t. intros idx b Hi Hb. assert (b = 0) by lia. subst b. cbn [Nat.mul]. rewrite H by assumption.
    now rewrite Nat.mul_1_r, Nat.add_0_r.
  - intros (t & H). exists t. intros idx Hi. pose proof (H idx 0 Hi ltac:(lia)) as A. cbn [Nat.mul] in A.
    now rewrite Nat.mul_1_r, Nat.add_0_r in A.
Qed.

Lemma nonempty nx ny nz gs s : gspace_base (zshape nx ny nz) gs = Ok s -> 0 < length (gs_cryst s) /\ 0 < nx * ny * nz.
Proof.
  intros Hs. destruct (gspace_idx nx ny nz gs s Hs) as (_ & _ & _ & P1 & P2 & P3 & _). split; [|nia].
  unfold gspace_base in Hs. destruct (check_g_cryst _ _); [|discriminate]. cbn [bind] in Hs.
  destruct (cryst2idxgrid _ _); [|discriminate]. cbn [bind] in Hs.
  match type of Hs with match ?t with _ => _ end = _ => destruct t as [|[[? ?] ?] ?]; [discriminate|] end.
  destruct (check_g_idxgrid _ _); [|discriminate]. cbn [bind] in Hs. injection Hs as <-. cbn. lia.
Qed.

Lemma c_cell sh : forall off idx, inside sh idx -> (off + shift (c_strides sh) idx = off + Z.of_nat (ravel sh idx))%Z.
Proof.
  intros off idx H. f_equal. induction H as [|i d js sh Hi Hj IH]; [reflexivity|]. cbn [c_strides shift ravel]. rewrite IH. lia.
Qed.
Lemma ravel_inj sh i j : inside sh i -> inside sh j -> ravel sh i = ravel sh j -> i = j.
Proof. intros Hi Hj E. rewrite <- (unravel_ravel sh i Hi), <- (unravel_ravel sh j Hj). now rewrite E. Qed.
Lemma c_length sh : length (c_strides sh) = length sh.
Proof. induction sh as [|d sh IH]; cbn; [reflexivity|]. now rewrite IH. Qed.

Lemma fresh_facts off lead m n : let v := MkView true (lead ++ [m * n]) off (c_strides (lead ++ [m * n])) in
  distinct v /\ spaced v lead m n /\ (forall a, holds v a -> (off <= a < off + Z.of_nat (prodl (lead ++ [m * n]%nat)))%Z) /\
  (forall idx, inside (lead ++ [m * n]) idx -> cell v idx = (off + Z.of_nat (ravel (lead ++ [m * n]%nat) idx))%Z).
Proof.
  cbn zeta. set (v := MkView _ _ _ _).
  assert (CC : forall idx, inside (lead ++ [m * n]) idx -> cell v idx = (off + Z.of_nat (ravel (lead ++ [m * n]%nat) idx))%Z).
  { intros idx H. unfold cell, v. cbn [v_off v_str]. now apply c_cell. }
  split; [|split; [|split; [|exact CC]]].
  - intros i j Hi Hj E. rewrite !CC in E by assumption. apply (ravel_inj (lead ++ [m * n])); [exact Hi|exact Hj|lia].
  - exists (Z.of_nat n). intros idx b Hi Hb.
    destruct (Nat.eq_dec n 0) as [->|Hn].
    + unfold cell, v. cbn [v_off v_str]. rewrite !Nat.mul_0_r.
      assert (E : forall js, inside lead js -> shift (c_strides (lead ++ [0])) (js ++ [0]) = 0%Z).
      { clear. intros js H. induction H as [|i d js sh Hi Hj IH]; [reflexivity|]. cbn [app c_strides shift]. rewrite IH.
        replace (fold_right Nat.mul 1 (sh ++ [0])) with 0; [lia|]. clear. induction sh as [|d sh IH]; cbn; [reflexivity|]. rewrite <- IH. lia. }
      rewrite E by assumption. lia.
    + rewrite CC by (apply inside_snoc; [exact Hi|nia]). rewrite ravel_app by assumption. cbn [prodl fold_right ravel].
      f_equal. rewrite <- Nat2Z.inj_mul. f_equal. lia.
  - intros a (idx & Hi & ->). cbn [v_shape v] in Hi. rewrite CC by exact Hi. pose proof (ravel_lt _ _ Hi). lia.
Qed.

Lemma check_ok n v : check_array n v = Ok tt <-> fits n v.
Proof.
  unfold check_array, fits. destruct (v_nd v); cbn [negb]; [|split; [discriminate|intros [E _]; discriminate]].
  destruct (Nat.eqb_spec (length (v_shape v)) 0) as [E0|N0].
  - split; [discriminate|]. intros (_ & lead & E). rewrite E, app_length in E0. cbn in E0. lia.
  - destruct (exists_last (l := v_shape v)) as (lead & k & E); [intros E; rewrite E in N0; cbn in N0; lia|].
    rewrite E, app_length. cbn [length]. replace (pred (length lead + 1)) with (length lead) by lia.
    rewrite app_nth2, Nat.sub_diag by lia. cbn [nth].
    destruct (Nat.eqb_spec k n) as [->|Nk]; cbn [negb].
    + split; [intros _; split; [reflexivity|now exists lead]|reflexivity].
    + split; [discriminate|]. intros (_ & l' & E'). apply app_inj_tail in E'. destruct E'. congruence.
Qed.
Lemma check_err n v : check_array n v <> Ok tt -> check_array n v = Err (if v_nd v then ValueError else TypeError).
Proof.
  unfold check_array. destruct (v_nd v); cbn [negb]; [|reflexivity].
  destruct (_ =? 0); [reflexivity|]. destruct (_ =? n); cbn [negb]; [|reflexivity]. intros H. now destruct H.
Qed.

(** ** one call in either direction *)
Section Call.
  Variables (nx ny nz : nat) (gs : list vec3) (s : gspace) (norm : bool) (sp : space) (h : heap).
  Hypothesis (Hs : gspace_base (zshape nx ny nz) gs = Ok s) (Hsp : serves nx ny nz s norm sp).

  Lemma g2r_raw vi vo li lo mi mo :
    v_shape vi = li ++ [mi * sp_g sp] -> v_shape vo = lo ++ [mo * sp_r sp] ->
    length (v_str vi) = length (v_shape vi) -> length (v_str vo) = length (v_shape vo) ->
    exists sp' m', raw_g2r sp h vi vo = Ok (sp', MkHeap m' (h_brk h)) /\ serves nx ny nz s norm sp' /\
    (spaced vo lo mo (sp_r sp) -> distinct vo -> apart vi vo ->
       (forall p, ~ holds vo p -> m' p = h_mem h p) /\
       (forall ii ir bi br, inside li ii -> inside lo ir -> bi < mi -> br < mo -> ravel li ii * mi + bi = ravel lo ir * mo + br ->
          forall x y z, x < nx -> y < ny -> z < nz ->
          m' (cell vo (ir ++ [br * sp_r sp + ((x * ny + y) * nz + z)]))
          = fourier nx ny nz s norm (fun k => h_mem h (cell vi (ii ++ [bi * sp_g sp + k]))) x y z) /\
       (forall ir br p, inside lo ir -> br < mo -> p < sp_r sp -> prodl li * mi <= ravel lo ir * mo + br ->
          m' (cell vo (ir ++ [br * sp_r sp + p])) = h_mem h (cell vo (ir ++ [br * sp_r sp + p])))) /\
    (0 < prodl lo * mo -> ~ spaced vo lo mo (sp_r sp) -> m' = h_mem h).
  Proof.
    intros Ei Eo Si So. destruct Hsp as (Er & Eg & Hf). destruct (nonempty _ _ _ _ _ Hs) as [G0 N0].
    destruct (fun_length nx ny nz gs s norm Hs) as [FL _].
    destruct (batch G2R (fun d => full_fun nx ny nz (map Z.to_nat (gs_idxgrid s)) norm (G2R d)) (fft_ok nx ny nz s norm)
      (fun f d H => fft_value nx ny nz gs s norm f (G2R d) Hs H) (fun f d H => fft_keeps nx ny nz s norm f (G2R d) H)
      li lo mi (sp_g sp) mo (sp_r sp) vi vo (sp_fft sp) (h_mem h)) as (ins & outs & E1 & E2 & K & A & B).
    1-8: first [exact Hf | lia | rewrite Er; exact FL | assumption].
    unfold raw_g2r. rewrite E1. cbn [bind]. rewrite E2. cbn [bind].
    destruct (loop G2R (sp_fft sp) (h_mem h) ins outs) as [f' m']. cbn [fst snd] in *.
    eexists. exists m'. split; [reflexivity|]. split; [split; [exact Er|split; [exact Eg|exact K]]|]. split.
    - intros Sp D Ap. destruct (A Sp D Ap) as [A1 A2]. split; [exact A1|]. split.
      + intros ii ir bi br Hi Ho Hbi Hbr ER x y z Hx Hy Hz.
        assert (Fl : (x * ny + y) * nz + z < sp_r sp) by (rewrite Er; assert (x * ny + y < nx * ny) by nia; nia).
        assert (Rr : ravel lo ir * mo + br < prodl lo * mo) by (pose proof (ravel_lt _ _ Ho); nia).
        assert (Ri : ravel li ii * mi + bi < prodl li * mi) by (pose proof (ravel_lt _ _ Hi); nia).
        rewrite <- ER in Rr. destruct (A2 _ _ Rr Fl) as [V _]. specialize (V Ri).
        rewrite ER in V at 1. rewrite addr_cell in V by assumption. rewrite V.
        rewrite <- (g2r_value nx ny nz gs s norm) by assumption. f_equal. f_equal. f_equal. rewrite Eg. apply map_ext. intros k.
        rewrite <- Eg. rewrite addr_cell by assumption. reflexivity.
      + intros ir br p Ho Hbr Hp HR.
        assert (Rr : ravel lo ir * mo + br < prodl lo * mo) by (pose proof (ravel_lt _ _ Ho); nia).
        destruct (A2 _ _ Rr Hp) as [_ V]. specialize (V HR). rewrite addr_cell in V by assumption. exact V.
    - exact B.
  Qed.

  Lemma r2g_raw vi vo li lo mi mo :
    v_shape vi = li ++ [mi * sp_r sp] -> v_shape vo = lo ++ [mo * sp_g sp] ->
    length (v_str vi) = length (v_shape vi) -> length (v_str vo) = length (v_shape vo) ->
    exists sp' m', raw_r2g sp h vi vo = Ok (sp', MkHeap m' (h_brk h)) /\ serves nx ny nz s norm sp' /\
    (spaced vo lo mo (sp_g sp) -> distinct vo -> apart vi vo ->
       (forall p, ~ holds vo p -> m' p = h_mem h p) /\
       (forall ii ir bi br, inside li ii -> inside lo ir -> bi < mi -> br < mo -> ravel li ii * mi + bi = ravel lo ir * mo + br ->
          forall k, k < sp_g sp ->
          m' (cell vo (ir ++ [br * sp_g sp + k]))
          = projection nx ny nz s (fun p => h_mem h (cell vi (ii ++ [bi * sp_r sp + p]))) k) /\
       (forall ir br p, inside lo ir -> br < mo -> p < sp_g sp -> prodl li * mi <= ravel lo ir * mo + br ->
          m' (cell vo (ir ++ [br * sp_g sp + p])) = h_mem h (cell vo (ir ++ [br * sp_g sp + p])))) /\
    (0 < prodl lo * mo -> ~ spaced vo lo mo (sp_g sp) -> m' = h_mem h).
  Proof.
    intros Ei Eo Si So. destruct Hsp as (Er & Eg & Hf). destruct (nonempty _ _ _ _ _ Hs) as [G0 N0].
    destruct (fun_length nx ny nz gs s norm Hs) as [_ FL].
    destruct (batch R2G (fun d => full_fun nx ny nz (map Z.to_nat (gs_idxgrid s)) norm (R2G d)) (fft_ok nx ny nz s norm)
      (fun f d H => fft_value nx ny nz gs s norm f (R2G d) Hs H) (fun f d H => fft_keeps nx ny nz s norm f (R2G d) H)
      li lo mi (sp_r sp) mo (sp_g sp) vi vo (sp_fft sp) (h_mem h)) as (ins & outs & E1 & E2 & K & A & B).
    1-8: first [exact Hf | lia | rewrite Eg; exact FL | assumption].
    unfold raw_r2g. rewrite E1. cbn [bind]. rewrite E2. cbn [bind].
    destruct (loop R2G (sp_fft sp) (h_mem h) ins outs) as [f' m']. cbn [fst snd] in *.
    eexists. exists m'. split; [reflexivity|]. split; [split; [exact Er|split; [exact Eg|exact K]]|]. split.
    - intros Sp D Ap. destruct (A Sp D Ap) as [A1 A2]. split; [exact A1|]. split.
      + intros ii ir bi br Hi Ho Hbi Hbr ER k Hk.
        assert (Rr : ravel lo ir * mo + br < prodl lo * mo) by (pose proof (ravel_lt _ _ Ho); nia).
        assert (Ri : ravel li ii * mi + bi < prodl li * mi) by (pose proof (ravel_lt _ _ Hi); nia).
        rewrite <- ER in Rr. destruct (A2 _ _ Rr Hk) as [V _]. specialize (V Ri).
        rewrite ER in V at 1. rewrite addr_cell in V by assumption. rewrite V.
        rewrite <- (r2g_value nx ny nz gs s norm) by (try assumption; lia). f_equal. f_equal. f_equal. rewrite Er. apply map_ext. intros p.
        rewrite <- Er. rewrite addr_cell by assumption. reflexivity.
      + intros ir br p Ho Hbr Hp HR.
        assert (Rr : ravel lo ir * mo + br < prodl lo * mo) by (pose proof (ravel_lt _ _ Ho); nia).
        destruct (A2 _ _ Rr Hp) as [_ V]. specialize (V HR). rewrite addr_cell in V by assumption. exact V.
    - exact B.
  Qed.
End Call.

Lemma removelast_snoc {A} (l : list A) x : removelast (l ++ [x]) = l.
Proof. rewrite removelast_app by discriminate. cbn. apply app_nil_r. Qed.
Lemma array_good lead n v : array_of lead n v -> check_array n v = Ok tt.
Proof. intros (A & B & _). apply check_ok. split; [exact A|now exists lead]. Qed.

(** C99.  g2r into an array supplied by the caller.  The rows of both arrays are paired in
    C order: a row of the output receives the Fourier sum of the input row with the
    same number, rows for which the input has no partner keep their contents, and
    no other memory changes; the array itself is what is returned. *)
Theorem C99_g2r_given : forall nx ny nz gs s norm sp h arr_g arr_r lg lr,
  gspace_base (zshape nx ny nz) gs = Ok s -> serves nx ny nz s norm sp ->
  array_of lg (sp_g sp) arr_g -> array_of lr (sp_r sp) arr_r ->
  even_rows lr arr_r -> distinct arr_r -> apart arr_g arr_r ->
  exists sp' m', g2r sp h arr_g (Some arr_r) = Ok (sp', MkHeap m' (h_brk h), arr_r) /\ serves nx ny nz s norm sp' /\
    (forall p, ~ holds arr_r p -> m' p = h_mem h p) /\
    (forall ig ir x y z, inside lg ig -> inside lr ir -> ravel lg ig = ravel lr ir -> x < nx -> y < ny -> z < nz ->
       m' (cell arr_r (ir ++ [(x * ny + y) * nz + z]))
       = fourier nx ny nz s norm (fun k => h_mem h (cell arr_g (ig ++ [k]))) x y z) /\
    (forall ir p, inside lr ir -> p < nx * ny * nz -> row_count lg <= ravel lr ir ->
       m' (cell arr_r (ir ++ [p])) = h_mem h (cell arr_r (ir ++ [p]))).
Proof.
  intros nx ny nz gs s norm sp h arr_g arr_r lg lr Hs Hsp Hg Hr Ev D Ap.
  unfold g2r. rewrite (array_good _ _ _ Hg). cbn [bind]. rewrite (array_good _ _ _ Hr). cbn [bind].
  destruct Hg as (_ & Eg & Sg). destruct Hr as (_ & Er & Sr).
  destruct (g2r_raw nx ny nz gs s norm sp h Hs Hsp arr_g arr_r lg lr 1 1) as (sp' & m' & E & Hsp' & A & _).
  1,2: now rewrite Nat.mul_1_l. 1,2: assumption.
  rewrite E. cbn [bind]. exists sp', m'. split; [reflexivity|]. split; [exact Hsp'|].
  destruct (A (proj1 (even_spaced _ _ _) Ev) D Ap) as (A1 & A2 & A3). split; [exact A1|]. split.
  - intros ig ir x y z Hig Hir ER Hx Hy Hz.
    exact (A2 ig ir 0 0 Hig Hir ltac:(lia) ltac:(lia) ltac:(lia) x y z Hx Hy Hz).
  - intros ir p Hir Hp HR. rewrite <- (proj1 Hsp) in Hp.
    refine (A3 ir 0 p Hir ltac:(lia) Hp _). change (row_count lg) with (prodl lg) in HR. lia.
Qed.
Print Assumptions C99_g2r_given.

(** C99.  r2g into an array supplied by the caller, in the same terms. *)
Theorem C99_r2g_given : forall nx ny nz gs s norm sp h arr_r arr_g lr lg,
  gspace_base (zshape nx ny nz) gs = Ok s -> serves nx ny nz s norm sp ->
  array_of lr (sp_r sp) arr_r -> array_of lg (sp_g sp) arr_g ->
  even_rows lg arr_g -> distinct arr_g -> apart arr_r arr_g ->
  exists sp' m', r2g sp h arr_r (Some arr_g) = Ok (sp', MkHeap m' (h_brk h), arr_g) /\ serves nx ny nz s norm sp' /\
    (forall p, ~ holds arr_g p -> m' p = h_mem h p) /\
    (forall ir ig k, inside lr ir -> inside lg ig -> ravel lr ir = ravel lg ig -> k < length (gs_cryst s) ->
       m' (cell arr_g (ig ++ [k])) = projection nx ny nz s (fun p => h_mem h (cell arr_r (ir ++ [p]))) k) /\
    (forall ig k, inside lg ig -> k < length (gs_cryst s) -> row_count lr <= ravel lg ig ->
       m' (cell arr_g (ig ++ [k])) = h_mem h (cell arr_g (ig ++ [k]))).
Proof.
  intros nx ny nz gs s norm sp h arr_r arr_g lr lg Hs Hsp Hr Hg Ev D Ap.
  unfold r2g. rewrite (array_good _ _ _ Hr). cbn [bind]. rewrite (array_good _ _ _ Hg). cbn [bind].
  destruct Hg as (_ & Eg & Sg). destruct Hr as (_ & Er & Sr).
  destruct (r2g_raw nx ny nz gs s norm sp h Hs Hsp arr_r arr_g lr lg 1 1) as (sp' & m' & E & Hsp' & A & _).
  1,2: now rewrite Nat.mul_1_l. 1,2: assumption.
  rewrite E. cbn [bind]. exists sp', m'. split; [reflexivity|]. split; [exact Hsp'|].
  destruct (A (proj1 (even_spaced _ _ _) Ev) D Ap) as (A1 & A2 & A3). split; [exact A1|].
  destruct Hsp as (E1 & E2 & _). split.
  - intros ir ig k Hir Hig ER Hk. rewrite <- E2 in Hk.
    exact (A2 ir ig 0 0 Hir Hig ltac:(lia) ltac:(lia) ltac:(lia) k Hk).
  - intros ig k Hig Hk HR. rewrite <- E2 in Hk.
    refine (A3 ig 0 k Hig ltac:(lia) Hk _). change (row_count lr) with (prodl lr) in HR. lia.
Qed.
Print Assumptions C99_r2g_given.

(** C99.  Without an output array the result is a new C-contiguous array with the leading
    shape of the input, and existing memory is untouched. *)
Theorem C99_g2r_new : forall nx ny nz gs s norm sp h arr_g lead,
  gspace_base (zshape nx ny nz) gs = Ok s -> serves nx ny nz s norm sp ->
  array_of lead (sp_g sp) arr_g -> allocated h arr_g ->
  exists sp' h' out, g2r sp h arr_g None = Ok (sp', h', out) /\ serves nx ny nz s norm sp' /\
    array_of lead (nx * ny * nz) out /\
    (forall idx, inside (v_shape out) idx -> cell out idx = (h_brk h + Z.of_nat (ravel (v_shape out) idx))%Z) /\
    h_brk h' = (h_brk h + Z.of_nat (row_count lead * (nx * ny * nz)))%Z /\
    (forall p, (p < h_brk h)%Z -> h_mem h' p = h_mem h p) /\
    (forall idx x y z, inside lead idx -> x < nx -> y < ny -> z < nz ->
       h_mem h' (cell out (idx ++ [(x * ny + y) * nz + z]))
       = fourier nx ny nz s norm (fun k => h_mem h (cell arr_g (idx ++ [k]))) x y z).
Proof.
  intros nx ny nz gs s norm sp h arr_g lead Hs Hsp Hg Hal.
  unfold g2r. rewrite (array_good _ _ _ Hg). cbn [bind].
  destruct Hg as (_ & Eg & Sg). rewrite Eg, removelast_snoc. unfold allocate.
  destruct (fresh_facts (h_brk h) lead 1 (sp_r sp)) as (D & Sp & Rg & CC). rewrite Nat.mul_1_l in D, Sp, Rg, CC.
  set (out := MkView true (lead ++ [sp_r sp]) (h_brk h) (c_strides (lead ++ [sp_r sp]))) in *.
  set (h1 := MkHeap (h_mem h) _).
  destruct (g2r_raw nx ny nz gs s norm sp h1 Hs Hsp arr_g out lead lead 1 1) as (sp' & m' & E & Hsp' & A & _).
  1,2: now rewrite Nat.mul_1_l. 1: assumption. 1: apply c_length.
  assert (Ap : apart arr_g out) by (intros a H1 H2; apply Hal in H1; apply Rg in H2; lia).
  destruct (A Sp D Ap) as (A1 & A2 & _). rewrite E. cbn [bind]. do 3 eexists. split; [reflexivity|]. split; [exact Hsp'|].
  rewrite <- (proj1 Hsp). split; [split; [reflexivity|split; [reflexivity|apply c_length]]|]. split; [exact CC|]. split.
  - cbn [h_brk]. unfold h1. cbn [h_brk]. do 2 f_equal. fold (prodl (lead ++ [sp_r sp])). rewrite prodl_app. unfold row_count, prodl. cbn. lia.
  - split.
    + intros p Hp. cbn [h_mem]. rewrite A1; [reflexivity|]. intros K. apply Rg in K. lia.
    + intros idx x y z Hi Hx Hy Hz. exact (A2 idx idx 0 0 Hi Hi ltac:(lia) ltac:(lia) ltac:(lia) x y z Hx Hy Hz).
Qed.
Print Assumptions C99_g2r_new.

Theorem C99_r2g_new : forall nx ny nz gs s norm sp h arr_r lead,
  gspace_base (zshape nx ny nz) gs = Ok s -> serves nx ny nz s norm sp ->
  array_of lead (sp_r sp) arr_r -> allocated h arr_r ->
  exists sp' h' out, r2g sp h arr_r None = Ok (sp', h', out) /\ serves nx ny nz s norm sp' /\
    array_of lead (length (gs_cryst s)) out /\
    (forall idx, inside (v_shape out) idx -> cell out idx = (h_brk h + Z.of_nat (ravel (v_shape out) idx))%Z) /\
    h_brk h' = (h_brk h + Z.of_nat (row_count lead * length (gs_cryst s)))%Z /\
    (forall p, (p < h_brk h)%Z -> h_mem h' p = h_mem h p) /\
    (forall idx k, inside lead idx -> k < length (gs_cryst s) ->
       h_mem h' (cell out (idx ++ [k])) = projection nx ny nz s (fun p => h_mem h (cell arr_r (idx ++ [p]))) k).
Proof.
  intros nx ny nz gs s norm sp h arr_r lead Hs Hsp Hg Hal.
  unfold r2g. rewrite (array_good _ _ _ Hg). cbn [bind].
  destruct Hg as (_ & Eg & Sg). rewrite Eg, removelast_snoc. unfold allocate.
  destruct (fresh_facts (h_brk h) lead 1 (sp_g sp)) as (D & Sp & Rg & CC). rewrite Nat.mul_1_l in D, Sp, Rg, CC.
  set (out := MkView true (lead ++ [sp_g sp]) (h_brk h) (c_strides (lead ++ [sp_g sp]))) in *.
  set (h1 := MkHeap (h_mem h) _).
  destruct (r2g_raw nx ny nz gs s norm sp h1 Hs Hsp arr_r out lead lead 1 1) as (sp' & m' & E & Hsp' & A & _).
  1,2: now rewrite Nat.mul_1_l. 1: assumption. 1: apply c_length.
  assert (Ap : apart arr_r out) by (intros a H1 H2; apply Hal in H1; apply Rg in H2; lia).
  destruct (A Sp D Ap) as (A1 & A2 & _). rewrite E. cbn [bind]. do 3 eexists. split; [reflexivity|]. split; [exact Hsp'|].
  rewrite <- (proj1 (proj2 Hsp)). split; [split; [reflexivity|split; [reflexivity|apply c_length]]|]. split; [exact CC|]. split.
  - cbn [h_brk]. unfold h1. cbn [h_brk]. do 2 f_equal. fold (prodl (lead ++ [sp_g sp])). rewrite prodl_app. unfold row_count, prodl. cbn. lia.
  - split.
    + intros p Hp. cbn [h_mem]. rewrite A1; [reflexivity|]. intros K. apply Rg in K. lia.
    + intros idx k Hi Hk. exact (A2 idx idx 0 0 Hi Hi ltac:(lia) ltac:(lia) ltac:(lia) k Hk).
Qed.
Print Assumptions C99_r2g_new.

(** C99.  An output array whose rows are not evenly spaced (for instance a
    transposed or cropped view) is accepted and returned, but nothing is
    written into it: the transform goes to a temporary copy and is lost. *)
Theorem C99_uneven_output_lost : forall nx ny nz gs s norm sp h arr_g arr_r lg lr,
  gspace_base (zshape nx ny nz) gs = Ok s -> serves nx ny nz s norm sp ->
  array_of lg (sp_g sp) arr_g -> array_of lr (sp_r sp) arr_r ->
  (0 < row_count lr -> ~ even_rows lr arr_r ->
     exists sp', g2r sp h arr_g (Some arr_r) = Ok (sp', h, arr_r)) /\
  (0 < row_count lg -> ~ even_rows lg arr_g ->
     exists sp', r2g sp h arr_r (Some arr_g) = Ok (sp', h, arr_g)).
Proof.
  intros nx ny nz gs s norm sp h arr_g arr_r lg lr Hs Hsp Hg Hr.
  unfold g2r, r2g. rewrite (array_good _ _ _ Hg). rewrite (array_good _ _ _ Hr). cbn [bind].
  destruct Hg as (_ & Eg & Sg). destruct Hr as (_ & Er & Sr). destruct h as [mm bk]. split; intros P N.
  - destruct (g2r_raw nx ny nz gs s norm sp (MkHeap mm bk) Hs Hsp arr_g arr_r lg lr 1 1) as (sp' & m' & E & _ & _ & B).
    1,2: now rewrite Nat.mul_1_l. 1,2: assumption.
    change (row_count lr) with (prodl lr) in P.
    rewrite E, B; [now exists sp'|lia|]. intros K. now apply N, (even_spaced _ _ (sp_r sp)).
  - destruct (r2g_raw nx ny nz gs s norm sp (MkHeap mm bk) Hs Hsp arr_r arr_g lr lg 1 1) as (sp' & m' & E & _ & _ & B).
    1,2: now rewrite Nat.mul_1_l. 1,2: assumption.
    change (row_count lg) with (prodl lg) in P.
    rewrite E, B; [now exists sp'|lia|]. intros K. now apply N, (even_spaced _ _ (sp_g sp)).
Qed.
Print Assumptions C99_uneven_output_lost.

(** C99.  What is refused.  An argument fits when it is an array of the backend's class with at
    least one axis and the right last axis.  The input is examined first. *)
Theorem C99_refused : forall nx ny nz gs s norm sp h a o,
  gspace_base (zshape nx ny nz) gs = Ok s -> serves nx ny nz s norm sp ->
  length (v_str a) = length (v_shape a) -> (forall b, o = Some b -> length (v_str b) = length (v_shape b)) ->
  (~ fits (nx * ny * nz) a -> r2g sp h a o = Err (complaint a)) /\
  (~ fits (length (gs_cryst s)) a -> g2r sp h a o = Err (complaint a)) /\
  (fits (nx * ny * nz) a -> forall b, o = Some b -> ~ fits (length (gs_cryst s)) b -> r2g sp h a o = Err (complaint b)) /\
  (fits (length (gs_cryst s)) a -> forall b, o = Some b -> ~ fits (nx * ny * nz) b -> g2r sp h a o = Err (complaint b)) /\
  (fits (nx * ny * nz) a -> (forall b, o = Some b -> fits (length (gs_cryst s)) b) -> exists y, r2g sp h a o = Ok y) /\
  (fits (length (gs_cryst s)) a -> (forall b, o = Some b -> fits (nx * ny * nz) b) -> exists y, g2r sp h a o = Ok y).
Proof.
  intros nx ny nz gs s norm sp h a o Hs Hsp La Lo. pose proof Hsp as (Er & Eg & _). rewrite <- Er, <- Eg.
  destruct (nonempty _ _ _ _ _ Hs) as [G0 N0]. rewrite <- Eg in G0. rewrite <- Er in N0.
  assert (BAD : forall n v, ~ fits n v -> check_array n v = Err (complaint v)).
  { intros n v H. apply check_err. intros K. apply H, check_ok, K. }
  assert (OK : forall n v, fits n v -> check_array n v = Ok tt) by (intros n v H; now apply check_ok).
  assert (RAW1 : forall v w hh, fits (sp_r sp) v -> length (v_str v) = length (v_shape v) -> (exists l, v_shape w = l ++ [sp_g sp]) -> length (v_str w) = length (v_shape w) ->
    exists y, raw_r2g sp hh v w = Ok y).
  { intros v w hh (_ & l1 & E1) S1 (l2 & E2) S2.
    destruct (r2g_raw nx ny nz gs s norm sp hh Hs Hsp v w l1 l2 1 1) as (sp' & m' & E & _); rewrite ?Nat.mul_1_l; try assumption.
    eexists. exact E. }
  assert (RAW2 : forall v w hh, fits (sp_g sp) v -> length (v_str v) = length (v_shape v) -> (exists l, v_shape w = l ++ [sp_r sp]) -> length (v_str w) = length (v_shape w) ->
    exists y, raw_g2r sp hh v w = Ok y).
  { intros v w hh (_ & l1 & E1) S1 (l2 & E2) S2.
    destruct (g2r_raw nx ny nz gs s norm sp hh Hs Hsp v w l1 l2 1 1) as (sp' & m' & E & _); rewrite ?Nat.mul_1_l; try assumption.
    eexists. exact E. }
  unfold r2g, g2r. split; [|split; [|split; [|split; [|split]]]].
  - intros H. now rewrite (BAD _ _ H).
  - intros H. now rewrite (BAD _ _ H).
  - intros H b -> Hb. rewrite (OK _ _ H). cbn [bind]. now rewrite (BAD _ _ Hb).
  - intros H b -> Hb. rewrite (OK _ _ H). cbn [bind]. now rewrite (BAD _ _ Hb).
  - intros H Hb. rewrite (OK _ _ H). cbn [bind]. destruct o as [b|].
    + pose proof (Hb b eq_refl) as (B1 & B2). rewrite (OK _ _ (Hb b eq_refl)). cbn [bind].
      destruct (RAW1 a b h H La B2 (Lo b eq_refl)) as [[sp' h'] ->]. cbn [bind]. eauto.
    + unfold allocate. match goal with |- context [raw_r2g sp ?hh a ?w] =>
        destruct (RAW1 a w hh H La) as [[sp' h'] ->]; [eexists; reflexivity|apply c_length|] end. cbn [bind]. eauto.
  - intros H Hb. rewrite (OK _ _ H). cbn [bind]. destruct o as [b|].
    + pose proof (Hb b eq_refl) as (B1 & B2). rewrite (OK _ _ (Hb b eq_refl)). cbn [bind].
      destruct (RAW2 a b h H La B2 (Lo b eq_refl)) as [[sp' h'] ->]. cbn [bind]. eauto.
    + unfold allocate. match goal with |- context [raw_g2r sp ?hh a ?w] =>
        destruct (RAW2 a w hh H La) as [[sp' h'] ->]; [eexists; reflexivity|apply c_length|] end. cbn [bind]. eauto.
Qed.
Print Assumptions C99_refused.

(** C99.  to_r of a container (a field for numspin = 1, spinor wavefunctions for numspin = 2):
    same shape, and every spin block of every entry is transformed on its own. *)
Theorem C99_container_to_r : forall nx ny nz gs s norm sp h numspin data lead,
  gspace_base (zshape nx ny nz) gs = Ok s -> serves nx ny nz s norm sp ->
  array_of lead (numspin * length (gs_cryst s)) data -> allocated h data ->
  exists sp' h' out, to_r numspin sp h data = Ok (sp', h', out) /\ serves nx ny nz s norm sp' /\
    array_of lead (numspin * (nx * ny * nz)) out /\ allocated h' out /\
    (forall p, (p < h_brk h)%Z -> h_mem h' p = h_mem h p) /\ (h_brk h <= h_brk h')%Z /\
    (forall idx b x y z, inside lead idx -> b < numspin -> x < nx -> y < ny -> z < nz ->
       h_mem h' (cell out (idx ++ [b * (nx * ny * nz) + ((x * ny + y) * nz + z)]))
       = fourier nx ny nz s norm (fun k => h_mem h (cell data (idx ++ [b * length (gs_cryst s) + k]))) x y z).
Proof.
  intros nx ny nz gs s norm sp h numspin data lead Hs Hsp Hg Hal. pose proof Hsp as (Er & Eg & _). rewrite <- Er, <- Eg in *.
  unfold to_r. destruct Hg as (_ & Es & Ss). rewrite Es, removelast_snoc. unfold allocate.
  destruct (fresh_facts (h_brk h) lead numspin (sp_r sp)) as (D & Sp & Rg & CC).
  set (out := MkView true (lead ++ [numspin * sp_r sp]) (h_brk h) (c_strides (lead ++ [numspin * sp_r sp]))) in *.
  set (h1 := MkHeap (h_mem h) _).
  destruct (g2r_raw nx ny nz gs s norm sp h1 Hs Hsp data out lead lead numspin numspin) as (sp' & m' & E & Hsp' & A & _).
  1: exact Es. 1: reflexivity. 1: exact Ss. 1: apply c_length.
  assert (Ap : apart data out) by (intros a H1 H2; apply Hal in H1; apply Rg in H2; lia).
  destruct (A Sp D Ap) as (A1 & A2 & _). rewrite E. cbn [bind]. do 3 eexists. split; [reflexivity|]. split; [exact Hsp'|].
  split; [split; [reflexivity|split; [reflexivity|apply c_length]]|]. split.
  { intros a Ha. apply Rg in Ha. cbn [h_brk]. exact (proj2 Ha). }
  split; [|split].
  - intros p Hp. cbn [h_mem]. rewrite A1; [reflexivity|]. intros K. apply Rg in K. lia.
  - cbn [h_brk h1]. unfold h1. cbn [h_brk]. lia.
  - intros idx b x y z Hi Hb Hx Hy Hz. exact (A2 idx idx b b Hi Hi Hb Hb eq_refl x y z Hx Hy Hz).
Qed.
Print Assumptions C99_container_to_r.

Theorem C99_container_to_g : forall nx ny nz gs s norm sp h numspin data lead,
  gspace_base (zshape nx ny nz) gs = Ok s -> serves nx ny nz s norm sp ->
  array_of lead (numspin * (nx * ny * nz)) data -> allocated h data ->
  exists sp' h' out, to_g numspin sp h data = Ok (sp', h', out) /\ serves nx ny nz s norm sp' /\
    array_of lead (numspin * length (gs_cryst s)) out /\ allocated h' out /\
    (forall p, (p < h_brk h)%Z -> h_mem h' p = h_mem h p) /\ (h_brk h <= h_brk h')%Z /\
    (forall idx b k, inside lead idx -> b < numspin -> k < length (gs_cryst s) ->
       h_mem h' (cell out (idx ++ [b * length (gs_cryst s) + k]))
       = projection nx ny nz s (fun p => h_mem h (cell data (idx ++ [b * (nx * ny * nz) + p]))) k).
Proof.
  intros nx ny nz gs s norm sp h numspin data lead Hs Hsp Hg Hal. pose proof Hsp as (Er & Eg & _). rewrite <- Er, <- Eg in *.
  unfold to_g. destruct Hg as (_ & Es & Ss). rewrite Es, removelast_snoc. unfold allocate.
  destruct (fresh_facts (h_brk h) lead numspin (sp_g sp)) as (D & Sp & Rg & CC).
  set (out := MkView true (lead ++ [numspin * sp_g sp]) (h_brk h) (c_strides (lead ++ [numspin * sp_g sp]))) in *.
  set (h1 := MkHeap (h_mem h) _).
  destruct (r2g_raw nx ny nz gs s norm sp h1 Hs Hsp data out lead lead numspin numspin) as (sp' & m' & E & Hsp' & A & _).
  1: exact Es. 1: reflexivity. 1: exact Ss. 1: apply c_length.
  assert (Ap : apart data out) by (intros a H1 H2; apply Hal in H1; apply Rg in H2; lia).
  destruct (A Sp D Ap) as (A1 & A2 & _). rewrite E. cbn [bind]. do 3 eexists. split; [reflexivity|]. split; [exact Hsp'|].
  split; [split; [reflexivity|split; [reflexivity|apply c_length]]|]. split.
  { intros a Ha. apply Rg in Ha. cbn [h_brk]. exact (proj2 Ha). }
  split; [|split].
  - intros p Hp. cbn [h_mem]. rewrite A1; [reflexivity|]. intros K. apply Rg in K. lia.
  - cbn [h_brk h1]. unfold h1. cbn [h_brk]. lia.
  - intros idx b k Hi Hb Hk. exact (A2 idx idx b b Hi Hi Hb Hb eq_refl k Hk).
Qed.
Print Assumptions C99_container_to_g.

Lemma projection_fourier nx ny nz gs s norm (c : nat -> C) (f : nat -> C) k : gspace_base (zshape nx ny nz) gs = Ok s ->
  k < length (gs_cryst s) ->
  (forall x y z, x < nx -> y < ny -> z < nz -> f ((x * ny + y) * nz + z) = fourier nx ny nz s norm c x y z) ->
  projection nx ny nz s f k = ((if norm then RtoC 1 else RtoC (INR (nx * ny * nz))) * c k)%C.
Proof.
  intros Hs Hk Hf.
  destruct (gspace_idx nx ny nz gs s Hs) as (HN & HB & HL & _).
  set (v := map c (seq 0 (length (gs_cryst s)))). set (idx := map Z.to_nat (gs_idxgrid s)) in *.
  assert (Lv : length v = length idx) by (unfold v; rewrite map_length, seq_length; congruence).
  pose proof (roundtrip nx ny nz idx norm v HN HB Lv) as RT.
  set (F := full_fun nx ny nz idx norm (G2R v)) in *.
  assert (LF : length F = nx * ny * nz) by apply (fun_length nx ny nz gs s norm Hs).
  assert (EF : F = map f (seq 0 (nx * ny * nz))).
  { apply nth_ext with (d := RtoC 0) (d' := RtoC 0); [now rewrite map_length, seq_length|]. intros p Hp. rewrite LF in Hp.
    rewrite nth_map_seq by exact Hp. destruct (flat_decomp nx ny nz p Hp) as (Hx & Hy & Hz & Ep). rewrite <- Ep.
    rewrite Hf by assumption. unfold F, v, idx. now apply (g2r_value nx ny nz gs s norm). }
  rewrite EF in RT. rewrite <- (r2g_value nx ny nz gs s norm f k Hs Hk). fold idx. rewrite RT. unfold v.
  rewrite map_map, nth_map_seq by exact Hk. reflexivity.
Qed.

(** C99.  to_r then to_g of a container gives the coefficients back for the spaces of fields,
    and multiplies them by the number of grid points for the spaces of wavefunctions. *)
Theorem C99_container_roundtrip : forall nx ny nz gs s norm sp h numspin data lead,
  gspace_base (zshape nx ny nz) gs = Ok s -> serves nx ny nz s norm sp ->
  array_of lead (numspin * length (gs_cryst s)) data -> allocated h data ->
  exists sp1 h1 field sp2 h2 out,
    to_r numspin sp h data = Ok (sp1, h1, field) /\ to_g numspin sp1 h1 field = Ok (sp2, h2, out) /\
    array_of lead (numspin * length (gs_cryst s)) out /\
    (forall idx j, inside lead idx -> j < numspin * length (gs_cryst s) ->
       h_mem h2 (cell data (idx ++ [j])) = h_mem h (cell data (idx ++ [j])) /\
       h_mem h2 (cell out (idx ++ [j]))
       = ((if norm then RtoC 1 else RtoC (INR (nx * ny * nz))) * h_mem h (cell data (idx ++ [j])))%C).
Proof.
  intros nx ny nz gs s norm sp h numspin data lead Hs Hsp Hd Hal.
  destruct (C99_container_to_r nx ny nz gs s norm sp h numspin data lead Hs Hsp Hd Hal)
    as (sp1 & h1 & field & E1 & Hsp1 & Hfd & Hal1 & Fr1 & Br1 & V1).
  destruct (C99_container_to_g nx ny nz gs s norm sp1 h1 numspin field lead Hs Hsp1 Hfd Hal1)
    as (sp2 & h2 & out & E2 & Hsp2 & Hod & _ & Fr2 & Br2 & V2).
  exists sp1, h1, field, sp2, h2, out. split; [exact E1|]. split; [exact E2|]. split; [exact Hod|].
  intros idx j Hi Hj. destruct (nonempty _ _ _ _ _ Hs) as [G0 N0]. split.
  - assert (Hh : holds data (cell data (idx ++ [j]))).
    { exists (idx ++ [j]). split; [|reflexivity]. destruct Hd as (_ & Es & _). rewrite Es. now apply inside_snoc. }
    apply Hal in Hh. rewrite Fr2 by lia. now apply Fr1.
  - set (g := length (gs_cryst s)) in *.
    assert (Ej : j = j / g * g + j mod g) by (rewrite (Nat.div_mod j g) at 1 by lia; lia).
    assert (Hb : j / g < numspin) by (apply Nat.div_lt_upper_bound; lia).
    assert (Hk : j mod g < g) by (apply Nat.mod_upper_bound; lia).
    rewrite Ej. rewrite (V2 idx (j / g) (j mod g) Hi Hb Hk).
    rewrite (projection_fourier nx ny nz gs s norm (fun k => h_mem h (cell data (idx ++ [j / g * g + k]))) _ (j mod g) Hs Hk); [reflexivity|].
    intros x y z Hx Hy Hz. exact (V1 idx (j / g) x y z Hi Hb Hx Hy Hz).
Qed.
Print Assumptions C99_container_roundtrip.

(** Non-vacuity: a G-space with five vectors on a 3 x 4 x 5 grid, a batch of six coefficient
    rows, an output in Fortran-ordered leading axes (not evenly spaced) and a contiguous one. *)
Example C99_instance : exists s sp h a even uneven,
  gspace_base (zshape 3 4 5) [(0, 0, 0); (1, -1, 2); (-1, 1, 0); (0, 1, -2); (0, -2, 0)]%Z = Ok s /\
  serves 3 4 5 s true sp /\ array_of [2; 3] (sp_g sp) a /\ allocated h a /\
  array_of [3; 2] (sp_r sp) even /\ even_rows [3; 2] even /\ distinct even /\ apart a even /\
  array_of [2; 3] (sp_r sp) uneven /\ ~ even_rows [2; 3] uneven /\ 0 < row_count [2; 3] /\
  fits (sp_g sp) a /\ ~ fits (sp_r sp) a.
Proof.
  destruct (gspace_base (zshape 3 4 5) [(0, 0, 0); (1, -1, 2); (-1, 1, 0); (0, 1, -2); (0, -2, 0)]%Z) as [s|] eqn:Es; [|vm_compute in Es; discriminate].
  assert (Lg : length (gs_cryst s) = 5).
  { pose proof (GIndexProofs.gspace_base_spec _ _ _ Es) as (HP & _). now apply Permutation_length in HP. }
  exists s, (MkSpace 60 5 (Full (full_run (full_init 3 4 5 (map Z.to_nat (gs_idxgrid s)) true (MkWorker zeros zeros zeros)) []))),
    (MkHeap (fun _ => RtoC 1) 30%Z),
    (MkView true [2; 3; 5] 0 (c_strides [2; 3; 5])),
    (MkView true [3; 2; 60] 30 (c_strides [3; 2; 60])),
    (MkView true [2; 3; 60] 0 [60; 120; 1]%Z).
  destruct (fresh_facts 0 [2; 3] 1 5) as (_ & _ & R1 & _). destruct (fresh_facts 30 [3; 2] 1 60) as (D2 & S2 & R2 & _).
  change (prodl ([2; 3] ++ [1 * 5])) with 30 in R1.
  split; [reflexivity|]. split.
  { split; [reflexivity|]. split; [now rewrite Lg|]. left. eexists. exists []. reflexivity. }
  split; [repeat split|]. split; [intros a0 Ha; apply R1 in Ha; cbn [h_brk]; lia|].
  split; [repeat split|]. split; [now apply (even_spaced _ _ 60)|]. split; [exact D2|].
  split; [intros a0 H1 H2; apply R1 in H1; apply R2 in H2; lia|].
  split; [repeat split|]. split.
  { intros (t & H). pose proof (H [0; 1] ltac:(repeat constructor)) as A. pose proof (H [1; 0] ltac:(repeat constructor)) as B.
    assert (A' : (120 = 0 + 1 * t)%Z) by exact A. assert (B' : (60 = 0 + 3 * t)%Z) by exact B. lia. }
  split; [cbn; lia|]. split; [split; [reflexivity|now exists [2; 3]]|].
  intros (_ & l & E). change [2; 3; 5] with ([2; 3] ++ [5]) in E. apply app_inj_tail in E. destruct E. discriminate.
Qed.
