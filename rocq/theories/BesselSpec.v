(** Spherical Bessel functions by their power series. *)
From Coq Require Import Reals Lra.
Open Scope R_scope.

(** (2m+1)!! = 1 * 3 * .. * (2m+1) *)
Fixpoint odd_fact (m : nat) : R := match m with O => 1 | S k => (2 * INR m + 1) * odd_fact k end.
(** j_n(x) = sum over k of (-1)^k x^(n+2k) / (2^k k! (2n+2k+1)!!) *)
Definition jn_term (n : nat) (x : R) (k : nat) : R :=
  (-1) ^ k * x ^ (n + 2 * k) / (2 ^ k * INR (fact k) * odd_fact (n + k)).
Definition is_spherical_bessel (n : nat) (x j : R) : Prop := infinite_sum (jn_term n x) j.
