(** Vocabulary for the mixing properties (C31-C33, C57): what a history is, what
    "the latest differences" are, total charge, and the contract of the matrix
    inverse. Nothing here refers to the mixers' internals except through
    [mix_of], the call itself. *)
From Verif Require Import Base CBase MixModel.
Open Scope nat_scope.

(** Equality of densities on the stored components. *)
Definition deq (cfg : mixcfg) (a b : dens) : Prop :=
  forall s g, s < mc_ns cfg -> g < mc_ng cfg -> a s g = b s g.

(** The Kronecker delta. *)
Definition delta (i j : nat) : C := if Nat.eqb i j then RtoC 1 else RtoC 0.

(** [np.linalg.inv], exact arithmetic: a returned matrix is a two-sided inverse. *)
Definition inv_contract (inv : inv_t) : Prop :=
  forall n A B, inv n A = Some B ->
    (forall i k, i < n -> k < n -> csum n (fun j => (A i j * B j k)%C) = delta i k) /\
    (forall i k, i < n -> k < n -> csum n (fun j => (B i j * A j k)%C) = delta i k).

(** All states a mixer can be in after successful calls with the listed
    (rho_in, rho_out) contents, oldest first. Between two calls the caller may
    do anything to its own buffers: each call starts from an arbitrary heap. *)
Inductive mix_history (cfg : mixcfg) (m : method) (inv : inv_t)
  : list (dens * dens) -> mixst -> Prop :=
| MH_init g : mix_history cfg m inv [] (fresh g)
| MH_step hist st h a_in a_out st' h' a' :
    mix_history cfg m inv hist st ->
    mix_of m cfg inv st h a_in a_out = MixOk st' h' a' ->
    mix_history cfg m inv (hist ++ [(hp_at h a_in, hp_at h a_out)]) st'.

(** Residual of a call. *)
Definition residual (p : dens * dens) : dens := dsub (snd p) (fst p).

(** Any linear functional of the density; the total charge is the special case
    weight = cell volume at G = 0, 0 elsewhere. *)
Definition linfun (cfg : mixcfg) (w : nat -> nat -> C) (d : dens) : C :=
  csum (mc_ns cfg) (fun s => csum (mc_ng cfg) (fun g => (w s g * d s g)%C)).

(** [x - sum_i c_i v_i] *)
Definition lincomb (n : nat) (c : nat -> R) (x : dens) (v : nat -> dens) : dens :=
  fun s g => (x s g - csum n (fun i => (RtoC (c i) * v i s g)%C))%C.

(** The difference of two consecutive values as each method stores it: the
    modified Broyden mixer keeps old - new, the generalised one new - old. *)
Definition mdiff (m : method) (old new : dens) : dens :=
  match m with ModBro => dsub old new | GenBro => dsub new old end.

(** Default element for [nth]. *)
Definition dp : dens * dens := ((fun _ _ => RtoC 0), (fun _ _ => RtoC 0)).

(** The [i]-th most recent step, in a history whose last entry is call number
    [N]: value at call N-1-i minus value at call N-i. *)
Definition step_rho (hist : list (dens * dens)) (i : nat) : dens :=
  let N := length hist - 1 in dsub (fst (nth (N - 1 - i) hist dp)) (fst (nth (N - i) hist dp)).
Definition step_res (hist : list (dens * dens)) (i : nat) : dens :=
  let N := length hist - 1 in dsub (residual (nth (N - 1 - i) hist dp)) (residual (nth (N - i) hist dp)).

(** The grid data are those of a real reciprocal lattice: positive prefactor and
    |G|^2 > 0 except possibly at the G = 0 entry, which [has_g0] announces. *)
Definition good_grid (cfg : mixcfg) : Prop :=
  (0 <= mc_fac cfg)%R /\
  forall g, g < mc_ng cfg -> (mc_has_g0 cfg = true /\ g = 0) \/ (0 < mc_g2 cfg g)%R.
