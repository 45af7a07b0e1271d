(** Model of [read_rho], /repo/src/qtm/interfaces/bgw/inp.py lines 37-103, on the bytes of the file, with
    scipy.io.FortranFile ([_read_size], [read_record]; SciPy, not in /repo) written out from its
    documentation: little-endian four-byte record sizes before and after every record.  A double is kept
    as its eight bytes and converted by the function [val] given to the reader. *)
From Coq Require Import Reals.
From Verif Require Import Base.
Import ListNotations.
Local Open Scope Z_scope.

(** FortranEOFError, FortranFormattingError, ValueError. *)
Inductive ferr := FEof | FFormat | FValue.
Inductive out (A : Type) := Got (a : A) | Raise (x : ferr).
Arguments Got {A} _.
Arguments Raise {A} _.
(** A reader takes what is left of the file and leaves the rest. *)
Definition reader (A : Type) := list Z -> out (A * list Z).
Definition rret {A} (a : A) : reader A := fun s => Got (a, s).
Definition rraise {A} (x : ferr) : reader A := fun _ => Raise x.
Definition rbind {A B} (p : reader A) (f : A -> reader B) : reader B :=
  fun s => match p s with Got (a, s') => f a s' | Raise x => Raise x end.

(** Bytes to numbers, lowest byte first. *)
Fixpoint le_dec (l : list Z) : Z := match l with [] => 0 | b :: t => b + 256 * le_dec t end.
Definition i4_dec (l : list Z) : Z := let u := le_dec l in if u <? 2 ^ 31 then u else u - 2 ^ 32.
Definition i1_dec (b : Z) : Z := if b <? 128 then b else b - 256.
(** Groups of [k] bytes. *)
Fixpoint chunks_fuel (fuel k : nat) (l : list Z) : list (list Z) :=
  match fuel with
  | O => []
  | S f => match l with [] => [] | _ => firstn k l :: chunks_fuel f k (skipn k l) end
  end.
Definition chunks (k : nat) (l : list Z) : list (list Z) := chunks_fuel (length l) k l.

(** SciPy [_read_size]. *)
Definition read_size (eof_ok : bool) : reader Z := fun s =>
  let b := firstn 4 s in
  if (length b =? 0)%nat && eof_ok then Raise FEof
  else if (length b <? 4)%nat then Raise FFormat
  else Got (le_dec b, skipn 4 s).
(** [np.fromfile] of [n] bytes in all. *)
Definition take (n : Z) : reader (list Z) := fun s =>
  if Z.of_nat (length s) <? n then Raise FFormat else Got (firstn (Z.to_nat n) s, skipn (Z.to_nat n) s).
(** SciPy [read_record] for item types of the given byte sizes: the size must be a multiple of the sum,
    and equal to it when several types are given. *)
Definition read_record (sizes : list Z) : reader (list Z) :=
  let block := fold_right Z.add 0 sizes in
  rbind (read_size true) (fun n =>
  if negb (n mod block =? 0) then rraise FValue
  else if negb (length sizes =? 1)%nat && negb (n =? block) then rraise FValue
  else rbind (take n) (fun p => rbind (read_size false) (fun n2 =>
  if n =? n2 then rret p else rraise FValue))).
Definition read_int32 : reader (list Z) := rbind (read_record [4]) (fun p => rret (map i4_dec (chunks 4 p))).
Definition read_double : reader (list (list Z)) := rbind (read_record [8]) (fun p => rret (chunks 8 p)).
(** inp.py 57, [chr] of every signed byte: negative ones are refused. *)
Definition header_ok (p : list Z) : bool := forallb (fun b => 0 <=? i1_dec b) p.
(** [reshape(-1, 3)] and [reshape(-1, 2)]. *)
Fixpoint triples (l : list Z) : option (list (Z * Z * Z)) :=
  match l with
  | [] => Some []
  | a :: b :: c :: t => match triples t with Some r => Some ((a, b, c) :: r) | None => None end
  | _ => None
  end.
Fixpoint pairs {A} (l : list A) : option (list (A * A)) :=
  match l with
  | [] => Some []
  | a :: b :: t => match pairs t with Some r => Some ((a, b) :: r) | None => None end
  | _ => None
  end.
Definition of_opt {A} (o : option A) : reader A := match o with Some a => rret a | None => rraise FValue end.

(** inp.py 54-103. The result is (rho, gvecs). *)
Definition read_rho_r (val : list Z -> R) : reader (list (R * R) * list (Z * Z * Z)) :=
  rbind (read_record [1]) (fun h => if negb (header_ok h) then rraise FValue else
  rbind (read_record [24; 4]) (fun _ =>
  rbind read_int32 (fun _ =>
  rbind read_double (fun _ =>
  rbind read_double (fun _ =>
  rbind read_int32 (fun _ =>
  rbind read_double (fun _ =>
  rbind (read_record [24; 4; 24; 4]) (fun _ =>
  rbind read_int32 (fun _ =>
  rbind read_int32 (fun _ =>
  rbind read_int32 (fun g => rbind (of_opt (triples g)) (fun gvecs =>
  rbind read_int32 (fun _ =>
  rbind read_int32 (fun _ =>
  rbind read_double (fun v => rbind (of_opt (pairs v)) (fun vs =>
  rret (map (fun p => (val (fst p), val (snd p))) vs, gvecs))))))))))))))))).
Definition read_rho (val : list Z -> R) (file : list Z) : out (list (R * R) * list (Z * Z * Z)) :=
  match read_rho_r val file with Got (a, _) => Got a | Raise x => Raise x end.
