(** Vocabulary for C51 (no code modelled): how numbers, strings and assignments are written in a
    namelist, and what they mean. *)
From Coq Require Import Reals Ascii String.
From Verif Require Import Base QeInpModel.
Local Open Scope nat_scope.

Definition blank (w : list ascii) : Prop := forall c, In c w -> c = " "%char \/ c = ascii_of_nat 9 \/ c = ascii_of_nat 10 \/ c = ascii_of_nat 13.

(** Decimal digits, most significant first, and the number they denote. *)
Definition digits_ok (ds : list nat) : Prop := forall d, In d ds -> d < 10.
Definition digits_text (ds : list nat) : list ascii := map (fun d => ascii_of_nat (48 + d)) ds.
Fixpoint denotes (ds : list nat) : Z :=
  match ds with [] => 0%Z | d :: t => (Z.of_nat d * 10 ^ Z.of_nat (List.length t) + denotes t)%Z end.
Inductive sgn := NoSign | Plus | Minus.
Definition sgn_text (s : sgn) : list ascii := match s with NoSign => [] | Plus => ["+"%char] | Minus => ["-"%char] end.
Definition signed (s : sgn) (z : Z) : Z := match s with Minus => (- z)%Z | _ => z end.

(** Integer literals. *)
Definition int_text (s : sgn) (ds : list nat) : list ascii := sgn_text s ++ digits_text ds.
Definition int_ok (ds : list nat) : Prop := ds <> [] /\ digits_ok ds.
(** Fortran real literals: 12, 12., .5, 1.5e-3, 1.5D+03, ... *)
Record real_lit := MkReal {
  r_sgn : sgn; r_int : list nat; r_frac : option (list nat); r_exp : option (ascii * (sgn * list nat)) }.
Definition frac_digits (r : real_lit) : list nat := match r_frac r with Some f => f | None => [] end.
Definition real_text (r : real_lit) : list ascii :=
  sgn_text (r_sgn r) ++ digits_text (r_int r)
  ++ match r_frac r with Some f => "."%char :: digits_text f | None => [] end
  ++ match r_exp r with Some (c, (s, ds)) => c :: int_text s ds | None => [] end.
Definition real_ok (r : real_lit) : Prop :=
  digits_ok (r_int r) /\ digits_ok (frac_digits r) /\ r_int r ++ frac_digits r <> [] /\
  match r_exp r with
  | Some (c, (s, ds)) => (c = "e" \/ c = "E" \/ c = "d" \/ c = "D")%char /\ int_ok ds
  | None => True
  end.
Definition real_exponent (r : real_lit) : Z := match r_exp r with Some (_, (s, ds)) => signed s (denotes ds) | None => 0%Z end.
Definition real_value (r : real_lit) : R :=
  (IZR (signed (r_sgn r) 1) *
   (IZR (denotes (r_int r)) + IZR (denotes (frac_digits r)) / 10 ^ List.length (frac_digits r)) *
   powerRZ 10 (real_exponent r))%R.

(** Right-hand sides. *)
Inductive lit := LInt (s : sgn) (ds : list nat) | LReal (r : real_lit) | LStr (t : list ascii).
Definition lit_text (l : lit) : list ascii :=
  match l with
  | LInt s ds => int_text s ds
  | LReal r => real_text r
  | LStr t => "'"%char :: t ++ ["'"%char]
  end.
Definition free_of (c : ascii) (t : list ascii) : Prop := ~ In c t.
Definition lit_ok (l : lit) : Prop :=
  match l with
  | LInt _ ds => int_ok ds
  | LReal r => real_ok r
  | LStr t => free_of ","%char t /\ free_of "="%char t /\ free_of "'"%char t
  end.

(** An assignment  key = value  or  key(index) = value, with blanks and in any letter case. *)
Record asg := MkAsg {
  a_w1 : list ascii; a_key : list ascii; a_idx : option (list ascii * (sgn * list nat) * list ascii);
  a_w2 : list ascii; a_w3 : list ascii; a_lit : lit; a_w4 : list ascii }.
Definition idx_text (i : option (list ascii * (sgn * list nat) * list ascii)) : list ascii :=
  match i with None => [] | Some (w, (s, ds), w') => "("%char :: w ++ int_text s ds ++ w' ++ [")"%char] end.
Definition asg_text (a : asg) : list ascii :=
  a_w1 a ++ a_key a ++ idx_text (a_idx a) ++ a_w2 a ++ ["="%char] ++ a_w3 a ++ lit_text (a_lit a) ++ a_w4 a.
Definition asg_blank (a : asg) : Prop :=
  blank (a_w1 a) /\ blank (a_w2 a) /\ blank (a_w3 a) /\ blank (a_w4 a) /\
  match a_idx a with Some (w, (s, ds), w') => blank w /\ blank w' /\ int_ok ds | None => True end /\ lit_ok (a_lit a).

(** Lines of a namelist: comments, and comma-separated assignments with optional trailing commas. *)
Fixpoint joined (l : list (list ascii)) : list ascii :=
  match l with [] => [] | [x] => x | x :: t => x ++ ","%char :: joined t end.
Inductive nline := Comment (w : list ascii) (c : ascii) (t : list ascii) | Assigns (l : list asg) (commas : nat) (w : list ascii).
Definition nline_text (n : nline) : list ascii :=
  match n with
  | Comment w c t => w ++ c :: t
  | Assigns l k w => joined (map asg_text l) ++ repeat ","%char k ++ w
  end.
Definition nline_ok (n : nline) : Prop :=
  match n with
  | Comment w c _ => blank w /\ (c = "!"%char \/ c = "#"%char)
  | Assigns l _ w => l <> [] /\ blank w /\ forall a, In a l -> asg_blank a
  end.
Definition asgs_of (n : nline) : list asg := match n with Comment _ _ _ => [] | Assigns l _ _ => l end.
(** The last element of a list that satisfies a test. *)
Definition last_such {A} (p : A -> bool) (l : list A) : option A := find p (rev l).
(** Numeric value of a literal written for a real field. *)
Definition num_value (l : lit) : R := match l with LInt s ds => IZR (signed s (denotes ds)) | LReal r => real_value r | LStr _ => 0%R end.
Definition idx_value (a : asg) : Z := match a_idx a with Some (_, (s, ds), _) => signed s (denotes ds) | None => 0%Z end.
(** The literal is of the kind the field wants: an integer, a real or integer, a quoted string, or, for the
    indexed fields celldm and starting_magnetization, a number assigned to key(index). *)
Definition typed (ty : typ) (a : asg) : Prop :=
  match ty, a_lit a with
  | TInt, LInt _ _ => True
  | TFloat, LInt _ _ => True
  | TFloat, LReal _ => True
  | TStr, LStr _ => True
  | TDict, LInt _ _ => a_idx a <> None
  | TDict, LReal _ => a_idx a <> None
  | _, _ => False
  end.
(** What the assigned field must then hold.  Strings are read without regard to case. *)
Definition field_value (ty : typ) (l : lit) : value :=
  match ty, l with
  | TInt, LInt s ds => VInt (signed s (denotes ds))
  | TFloat, _ => VFloat (num_value l)
  | _, LStr t => VStr (lower t)
  | _, _ => VNone
  end.
