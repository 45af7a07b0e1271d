(** Vocabulary for the Davidson properties (C37, C38): the contract of the dense
    generalised eigensolver, Hermitian matrices, and the states the loop passes through. *)
From Verif Require Import Base CBase MixSpec DavModel.
Open Scope nat_scope.

(** u^dagger M v *)
Definition qform (n : nat) (M : mat) (u v : vec) : C :=
  csum n (fun i => csum n (fun j => (Cconj (u i) * M i j * v j)%C)).

(** What [lower=True] reads: the lower triangle, its conjugate above, real diagonal. *)
Definition herm_lower (a : mat) : mat :=
  fun i j => if j <? i then a i j else if i <? j then Cconj (a j i) else RtoC (fst (a i i)).

(** (lam, c) are the m lowest eigenpairs of A c = lam B c: eigenvectors, B-orthonormal, in
    ascending order, and lam k is the minimum of the Rayleigh quotient over the vectors
    B-orthogonal to the first k eigenvectors. *)
Record lowest_pairs (m n : nat) (A B : mat) (lam : nat -> R) (c : mat) : Prop := {
  lp_eig : forall k i, k < m -> i < n ->
    csum n (fun j => (A i j * c k j)%C) = (RtoC (lam k) * csum n (fun j => (B i j * c k j)%C))%C;
  lp_orth : forall k l, k < m -> l < m -> qform n B (c k) (c l) = delta k l;
  lp_sorted : forall k l, k <= l -> l < m -> (lam k <= lam l)%R;
  lp_least : forall k v, k < m -> (forall l, l < k -> qform n B (c l) v = RtoC 0) ->
    (lam k * fst (qform n B v v) <= fst (qform n A v v))%R }.

(** The contract of scipy.linalg.eigh (exact arithmetic): whatever it returns are the
    lowest eigenpairs of the matrices it read. *)
Definition eigh_contract (eigh : eigh_t) : Prop :=
  forall m n a b lam c, eigh m n a b = Some (lam, c) -> lowest_pairs m n (herm_lower a) (herm_lower b) lam c.

Definition hermitian (n : nat) (M : mat) : Prop := forall i j, i < n -> j < n -> M j i = Cconj (M i j).
Definition identity : mat := delta.

(** States at the head of the while loop, with the number of iterations done. *)
Inductive dav_head (N : nat) (Hm : mat) (hdiag : nat -> R) (eigh : eigh_t) (numeig : nat) (thr : R) (numwork : nat)
  (evc0 : nat -> vec) : nat -> dav -> Prop :=
| DH_init s : dav_init N Hm eigh numeig evc0 = Ok s -> dav_head N Hm hdiag eigh numeig thr numwork evc0 0 s
| DH_go it s s1 : dav_head N Hm hdiag eigh numeig thr numwork evc0 it s ->
    dav_pass N Hm hdiag eigh numeig thr numwork s = Ok s1 ->
    d_nunc s1 <> 0 -> d_ndim s1 + d_nunc s1 <= ndim_max numeig numwork ->
    dav_head N Hm hdiag eigh numeig thr numwork evc0 (S it) s1
| DH_restart it s s1 : dav_head N Hm hdiag eigh numeig thr numwork evc0 it s ->
    dav_pass N Hm hdiag eigh numeig thr numwork s = Ok s1 ->
    d_nunc s1 <> 0 -> ndim_max numeig numwork < d_ndim s1 + d_nunc s1 ->
    dav_head N Hm hdiag eigh numeig thr numwork evc0 (S it) (restart numeig (set_evc s1)).

(** The residual (H - e) x of an approximate eigenpair. *)
Definition resid (N : nat) (Hm : mat) (e : R) (x : vec) : vec := fun g => (happ N Hm x g - RtoC e * x g)%C.
