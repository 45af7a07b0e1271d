(** Specification vocabulary for orbital densities and propagation (no code modelled). *)
From Verif Require Import Base GIndexModel LatModel GSphereModel CBase FFTSpec KSHamModel KSHamSpec.
Open Scope nat_scope.

(** Matrix times vector, and the n-th power of a matrix applied to a vector. *)
Definition mat_vec (n : nat) (M : nat -> nat -> C) (v : list C) : list C :=
  map (fun i => csum n (fun j => M i j * nth j v (RtoC 0))%C) (seq 0 n).
Fixpoint mat_pow (n : nat) (M : nat -> nat -> C) (p : nat) (v : list C) : list C :=
  match p with O => v | S q => mat_vec n M (mat_pow n M q v) end.

(** z^p *)
Fixpoint cpow (z : C) (p : nat) : C := match p with O => RtoC 1 | S q => (z * cpow z q)%C end.
(** z^p / p! *)
Definition exp_term (z : C) (p : nat) : C := (cpow z p / RtoC (INR (fact p)))%C.
(** The Taylor polynomial of exp of degree [order]. *)
Definition exp_poly (order : nat) (z : C) : C := csum (S order) (exp_term z).

(** sum over p <= order of (-i dt)^p / p! H^p v *)
Definition truncated_exp (n : nat) (H : nat -> nat -> C) (dt : R) (order : nat) (v : list C) : list C :=
  map (fun i => csum (S order) (fun p => exp_term (- Ci * RtoC dt) p * nth i (mat_pow n H p v) (RtoC 0))%C) (seq 0 n).

(** The array divided by its Euclidean norm. *)
Definition unit_vector (v : list C) : list C := map (fun c => c / RtoC (sqrt (norm2 v)))%C v.

(** Sum over the grid points. *)
Definition grid_sum (f : list C) : C := fold_right Cplus (RtoC 0) f.
