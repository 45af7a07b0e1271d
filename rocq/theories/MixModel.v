(** Model of the charge-density mixers: [src/qtm/dft/mixing/base.py],
    [modbro.py], [genbro.py].

    Simplifications, stated once:
    - densities are functions [spin -> G index -> C] over exact complex numbers
      (the code: complex128 arrays of shape (numspin, size_g)); only indices
      below [numspin] and [size_g] are ever looked at by the specifications;
    - the caller's density objects live in a heap of buffers addressed by
      numbers, so that in-place operators are visible; the mixer's private arrays
      (never handed out) are part of its state;
    - uninitialised memory ([np.empty]) is arbitrary content;
    - [np.linalg.inv] is an oracle (see [inv_contract] in MixSpec.v). *)
From Verif Require Import Base CBase.
Open Scope nat_scope.

Definition dens := nat -> nat -> C.

(** NumPy's element-wise operators on the containers (containers/buffer.py 276-326). *)
Definition dadd (a b : dens) : dens := fun s g => (a s g + b s g)%C.
Definition dsub (a b : dens) : dens := fun s g => (a s g - b s g)%C.
Definition dscal (c : C) (a : dens) : dens := fun s g => (c * a s g)%C.
Definition dneg (a : dens) : dens := fun s g => (- a s g)%C.

(** Geometry read by [_dot]: mixing/base.py 37-53 uses [grho.reallat_dv], [grid_shape],
    [g_norm2], [has_g0], [recilat.tpiba], and [numspin], [beta], [mixdim]. *)
Record mixcfg := {
  mc_ns : nat;              (* numspin *)
  mc_ng : nat;              (* size_g *)
  mc_fac : R;               (* 0.5*FPI*reallat_dv/prod(grid_shape) *)
  mc_g2 : nat -> R;         (* g_norm2 *)
  mc_has_g0 : bool;
  mc_tpiba : R;
  mc_beta : R;
  mc_mixdim : nat
}.

(** [sum(rho)]: mixing/base.py 38 (Python's [sum] over the first axis, starting from 0). *)
Definition chden (cfg : mixcfg) (d : dens) (g : nat) : C := csum (mc_ns cfg) (fun s => d s g).

(** mixing/base.py 37-53, [_dot]. *)
Definition mdot (cfg : mixcfg) (d1 d2 : dens) : R :=
  let dotvec g :=
    if andb (mc_has_g0 cfg) (Nat.eqb g 0) then RtoC 0
    else (Cconj (chden cfg d1 g) * chden cfg d2 g / RtoC (mc_g2 cfg g))%C in
  let dot := (mc_fac cfg * fst (csum (mc_ng cfg) dotvec))%R in
  if Nat.eqb (mc_ns cfg) 2 then
    (dot + mc_fac cfg *
       fst (csum (mc_ng cfg) (fun g =>
              (Cconj (d1 0%nat g - d1 1%nat g) * (d2 0%nat g - d2 1%nat g))%C)) / (mc_tpiba cfg * mc_tpiba cfg))%R
  else dot.

(** mixing/base.py 55-58, [compute_error]. *)
Definition compute_error (cfg : mixcfg) (rho_in rho_out : dens) : R :=
  let res := dsub rho_in rho_out in mdot cfg res res.

(** Mixer state on the root of [pwgrp_inter_image]: modbro.py 14-24, genbro.py 15-31. *)
Record mixst := {
  ms_idxiter : nat;
  ms_rho_old : dens;
  ms_res_old : dens;
  ms_del_rho : nat -> dens;
  ms_del_res : nat -> dens;
  ms_overlap : nat -> nat -> C
}.

(** [for i in range(n): x = f(i, x)]. *)
Fixpoint for_range {A} (n : nat) (f : nat -> A -> A) (x : A) : A :=
  match n with O => x | S k => f k (for_range k f x) end.

Definition upd1 {A} (m : nat -> A) (i : nat) (v : A) : nat -> A :=
  fun k => if Nat.eqb k i then v else m k.
Definition upd2 (m : nat -> nat -> C) (i j : nat) (v : C) : nat -> nat -> C :=
  fun r c => if andb (Nat.eqb r i) (Nat.eqb c j) then v else m r c.

(** Heap of density buffers visible to the caller. *)
Record heap := { hp_at : nat -> dens; hp_next : nat }.
Definition hwrite (h : heap) (a : nat) (d : dens) : heap :=
  {| hp_at := upd1 (hp_at h) a d; hp_next := hp_next h |}.
Definition halloc (h : heap) (d : dens) : heap * nat :=
  ({| hp_at := upd1 (hp_at h) (hp_next h) d; hp_next := S (hp_next h) |}, hp_next h).

(** Outcome of [_mix]: the returned object (an address), or the exception raised
    when the overlap matrix cannot be inverted, with the state left behind. *)
Inductive mixres :=
| MixOk (st : mixst) (h : heap) (a : nat)
| MixSingular (st : mixst) (h : heap).

(** [np.linalg.inv] on the leading n x n block: [None] = LinAlgError. *)
Definition inv_t := nat -> (nat -> nat -> C) -> option (nat -> nat -> C).

(** modbro.py 57-58: copy the lower triangle into the upper one. *)
Definition copy_lower (n : nat) (m : nat -> nat -> C) : nat -> nat -> C :=
  for_range n (fun i M r c => if andb (Nat.eqb c i) (Nat.ltb r i) then M i r else M r c) m.

(** modbro.py 29-73, [ModBroyden._mix]. *)
Definition modbro_mix (cfg : mixcfg) (inv : inv_t) (st : mixst) (h : heap) (a_in a_out : nat)
  : mixres :=
  let rho_in := hp_at h a_in in
  let res := dsub (hp_at h a_out) rho_in in                                   (* 31 *)
  let numdim := Nat.min (ms_idxiter st) (mc_mixdim cfg) in                    (* 33 *)
  if Nat.eqb numdim 0 then                                                    (* 34 *)
    let st' := {| ms_idxiter := S (ms_idxiter st);                            (* 70 *)
                  ms_rho_old := rho_in; ms_res_old := res;                    (* 35-36 *)
                  ms_del_rho := ms_del_rho st; ms_del_res := ms_del_res st;
                  ms_overlap := ms_overlap st |} in
    MixOk st' (hwrite h a_in (dadd rho_in (dscal (RtoC (mc_beta cfg)) res))) a_in  (* 72-73 *)
  else
    let isave := (ms_idxiter st - 1) mod (mc_mixdim cfg) in                   (* 38 *)
    let del_rho := upd1 (ms_del_rho st) isave (dsub (ms_rho_old st) rho_in) in   (* 39 *)
    let del_res := upd1 (ms_del_res st) isave (dsub (ms_res_old st) res) in      (* 40 *)
    let overlap := for_range numdim (fun i ov =>                              (* 43-47 *)
        let ov1 := upd2 ov isave i (RtoC (mdot cfg (del_res i) (del_res isave))) in
        upd2 ov1 i isave (ov1 isave i)) (ms_overlap st) in
    let st1 := {| ms_idxiter := ms_idxiter st;
                  ms_rho_old := rho_in; ms_res_old := res;                    (* 41-42 *)
                  ms_del_rho := del_rho; ms_del_res := del_res; ms_overlap := overlap |} in
    match inv numdim overlap with                                             (* 49-55 *)
    | None => MixSingular st1 h
    | Some oinv =>
        let oinv' := copy_lower numdim oinv in                                (* 57-58 *)
        let l_dot i := RtoC (mdot cfg (del_res i) res) in                     (* 60-62 *)
        let comp i := csum numdim (fun k => (oinv' k i * l_dot k)%C) in       (* 64 *)
        let '(h1, a_new) := halloc h rho_in in                                (* 65 *)
        let '(rho', res') := for_range numdim (fun i '(x, r) =>               (* 66-68 *)
            (dsub x (dscal (comp i) (del_rho i)), dsub r (dscal (comp i) (del_res i))))
            (rho_in, res) in
        let st' := {| ms_idxiter := S (ms_idxiter st);                        (* 70 *)
                      ms_rho_old := rho_in; ms_res_old := res;
                      ms_del_rho := del_rho; ms_del_res := del_res; ms_overlap := overlap |} in
        MixOk st' (hwrite h1 a_new (dadd rho' (dscal (RtoC (mc_beta cfg)) res'))) a_new (* 72-73 *)
    end.

(** genbro.py 33-72, [GenBroyden._mix]; [G_1] (line 31) is the constant array -beta. *)
Definition genbro_mix (cfg : mixcfg) (inv : inv_t) (st : mixst) (h : heap) (a_in a_out : nat)
  : mixres :=
  let rho_in := hp_at h a_in in
  let res := dsub (hp_at h a_out) rho_in in                                   (* 34 *)
  let G_1 := RtoC (- mc_beta cfg) in                                          (* 31 *)
  let numdim := Nat.min (ms_idxiter st) (mc_mixdim cfg) in                    (* 36 *)
  if Nat.eqb numdim 0 then                                                    (* 37 *)
    let st' := {| ms_idxiter := S (ms_idxiter st);                            (* 69 *)
                  ms_rho_old := rho_in; ms_res_old := res;                    (* 67-68 *)
                  ms_del_rho := ms_del_rho st; ms_del_res := ms_del_res st;
                  ms_overlap := ms_overlap st |} in
    MixOk st' (hwrite h a_in (dadd rho_in (dscal (RtoC (mc_beta cfg)) res))) a_in  (* 38, 71-72 *)
  else
    let isave := (ms_idxiter st - 1) mod (mc_mixdim cfg) in                   (* 40 *)
    let del_rho := upd1 (ms_del_rho st) isave (dsub rho_in (ms_rho_old st)) in   (* 41 *)
    let del_res := upd1 (ms_del_res st) isave (dsub res (ms_res_old st)) in      (* 42 *)
    let overlap := for_range numdim (fun i ov =>                              (* 43-47 *)
        let ov1 := upd2 ov isave i (RtoC (mdot cfg (del_res isave) (del_res i))) in
        upd2 ov1 i isave (ov1 isave i)) (ms_overlap st) in
    let st1 := {| ms_idxiter := ms_idxiter st;
                  ms_rho_old := ms_rho_old st; ms_res_old := ms_res_old st;
                  ms_del_rho := del_rho; ms_del_res := del_res; ms_overlap := overlap |} in
    match inv numdim overlap with                                             (* 49-56 *)
    | None => MixSingular st1 h
    | Some oinv =>
        let l_dot i := RtoC (mdot cfg (del_res i) (dneg res)) in              (* 59-61 *)
        let comp i := csum numdim (fun k => (oinv i k * l_dot k)%C) in        (* 63 *)
        let del := for_range numdim (fun i d =>                               (* 64-65 *)
            dadd d (dscal (comp i) (dsub (del_rho i) (dscal G_1 (del_res i)))))
            (dscal (- G_1)%C res) in                                          (* 58 *)
        let st' := {| ms_idxiter := S (ms_idxiter st);                        (* 69 *)
                      ms_rho_old := rho_in; ms_res_old := res;                (* 67-68 *)
                      ms_del_rho := del_rho; ms_del_res := del_res; ms_overlap := overlap |} in
        MixOk st' (hwrite h a_in (dadd rho_in del)) a_in                      (* 71-72 *)
    end.

(** Which mixer is in use (scf.py selects by [mix_method]). *)
Inductive method := ModBro | GenBro.
Definition mix_of (m : method) := match m with ModBro => modbro_mix | GenBro => genbro_mix end.

(** A freshly constructed mixer: modbro.py 12-24, genbro.py 13-31 (arrays from
    [empty] have arbitrary content [g]). *)
Definition fresh (g : mixst) : mixst :=
  {| ms_idxiter := 0; ms_rho_old := ms_rho_old g; ms_res_old := ms_res_old g;
     ms_del_rho := ms_del_rho g; ms_del_res := ms_del_res g; ms_overlap := ms_overlap g |}.

(** mixing/base.py 60-67, [mix] as executed by all ranks of [pwgrp_inter_image] together.
    Rank 0 runs [_mix] on its own copies of the arguments; every other rank
    allocates an empty buffer and receives the broadcast. If rank 0 raises, the
    others are left waiting inside [Bcast]. *)
Inductive group_res :=
| GroupOk (st : mixst) (hs : nat -> heap) (addr : nat -> nat)
| GroupStuck (st : mixst) (h0 : heap).   (* rank 0 raised, the others block *)

Definition mix_group (cfg : mixcfg) (m : method) (inv : inv_t) (st : mixst)
    (hs : nat -> heap) (a_in a_out : nat -> nat) (junk : nat -> dens) : group_res :=
  match mix_of m cfg inv st (hs 0) (a_in 0) (a_out 0) with
  | MixSingular st' h' => GroupStuck st' h'
  | MixOk st' h' a' =>
      GroupOk st'
        (fun r => if Nat.eqb r 0 then h'
                  else let '(h1, a) := halloc (hs r) (junk r) in hwrite h1 a (hp_at h' a'))
        (fun r => if Nat.eqb r 0 then a' else hp_next (hs r))
  end.
