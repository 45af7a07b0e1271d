(** Vocabulary for C100 (no code modelled): what the rows of the two tables are. *)
From Coq Require Import Reals Ascii String.
From Verif Require Import Base LatModel QeInpModel QeInpSpec.
Import ListNotations.
Local Notation length := List.length.
Local Open Scope R_scope.

(** The text is blanks and a decimal number with eight decimals. *)
Definition fixed8 (t : list ascii) (x : R) : Prop :=
  exists b r, blank b /\ t = b ++ real_text r /\ real_ok r /\ r_sgn r <> Plus /\ r_int r <> [] /\ r_exp r = None
    /\ length (frac_digits r) = 8%nat /\ x = real_value r.
(** The text is blanks and an integer. *)
Definition integer_in (t : list ascii) (z : Z) : Prop :=
  exists b s ds, blank b /\ t = b ++ int_text s ds /\ s <> Plus /\ int_ok ds /\ z = signed s (denotes ds).
(** d.dddddddE+dd, d.dddddddE-dd, with d > 0 unless the number is zero. *)
Definition sci7 (t : list ascii) (x : R) : Prop :=
  exists r d s ds, t = real_text r /\ real_ok r /\ r_sgn r <> Plus /\ r_int r = [d] /\ length (frac_digits r) = 7%nat
    /\ r_exp r = Some ("E"%char, (s, ds)) /\ s <> NoSign /\ (2 <= length ds)%nat /\ (x <> 0 -> (0 < d)%nat) /\ x = real_value r.
(** Characters [a] up to [a + n] of a line. *)
Definition columns (a n : nat) (l : list ascii) : list ascii := firstn n (skipn a l).

(** A row of a Coulomb table: q, G and the factor (None: not a finite number). *)
Definition vrow := (rvec * (Z * Z * Z) * option R)%type.
(** The row that is read agrees with the row that was written: q to half a unit of the eighth
    decimal, G exactly, the factor to a relative 5e-8 and with its sign. *)
Definition same_number (x : R) (y : option R) : Prop :=
  exists z, y = Some z /\ Rabs (z - x) <= 5 / 10 ^ 8 * Rabs x /\ (0 < x -> 0 < z) /\ (x < 0 -> z < 0).
Definition row_matches (w : vrow) (q g : list (option R)) (v : option R) : Prop :=
  let '(k, (g1, g2, g3), x) := w in
  (exists a b c, q = [Some a; Some b; Some c] /\ Rabs (a - vx k) <= 5 / 10 ^ 9 /\ Rabs (b - vy k) <= 5 / 10 ^ 9 /\ Rabs (c - vz k) <= 5 / 10 ^ 9)
  /\ g = [Some (IZR g1); Some (IZR g2); Some (IZR g3)]
  /\ match x with Some y => same_number y v | None => v = None end.
