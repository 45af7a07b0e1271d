(** Model of the timers and counters of src/qtm/logger.py. *)
From Verif Require Import Base.
From Coq Require Import Reals.
Local Open Scope nat_scope.

(** Labels are Python strings: lists of code points. *)
Definition label := list nat.
Definition label_eqb : label -> label -> bool := fun a b => if list_eq_dec Nat.eq_dec a b then true else false.

(** NumPy fixed-width strings do not keep trailing NUL characters, and comparisons between
    a stored string and a Python string ignore them. *)
Fixpoint strip0 (l : label) : label :=
  match l with
  | [] => []
  | c :: t => match strip0 t with [] => if c =? 0 then [] else [c] | t' => c :: t' end
  end.
(** Storing into a "U30" field (logger.py 47, 56) keeps the first 30 characters. *)
Definition to_u30 (l : label) : label := strip0 (firstn 30 l).

(** One row of TIMER_TYPE: logger.py 45-53. *)
Record timer := MkTimer { t_label : label; t_call : Z; t_time : R; t_status : bool; t_start : R }.

(** QTMTimer.l_timer[:numtimer]: logger.py 102-105.  Simplification: the rows past numtimer
    are not represented; no method reads them before overwriting them.  MAX_ENTRIES: 59. *)
Definition table := list timer.
Definition MAX_ENTRIES : nat := 500.

(** np.nonzero(... == label)[0]: the indices of the matching rows. *)
Fixpoint find_idx {A} (f : A -> bool) (t : list A) (i : nat) : list nat :=
  match t with [] => [] | x :: r => (if f x then [i] else []) ++ find_idx f r (S i) end.

(** QTMTimer._find_timer: logger.py 113-141 (the label is a string by typing here). *)
Definition find_timer (l : label) (t : table) : res (option nat) :=
  match find_idx (fun x => label_eqb (t_label x) (strip0 l)) t 0 with
  | [] => Ok None
  | [i] => Ok (Some i)
  | _ => Err RuntimeError
  end.

Fixpoint set_nth {A} (l : list A) (i : nat) (x : A) : list A :=
  match l, i with
  | [], _ => []
  | _ :: r, O => x :: r
  | y :: r, S j => y :: set_nth r j x
  end.

(** The second half of QTMTimer._start_timer: logger.py 164-170. *)
Definition start_row (now : R) (i : nat) (t : table) : table * res unit :=
  match nth_error t i with
  | None => (t, Err IndexError)
  | Some x => if t_status x then (t, Err ValueError)
              else (set_nth t i (MkTimer (t_label x) (t_call x + 1)%Z (t_time x) true now), Ok tt)
  end.

(** QTMTimer._start_timer: logger.py 143-170.  The new table is returned also when the
    call raises.  [now] is the perf_counter() reading. *)
Definition start_timer (l : label) (now : R) (t : table) : table * res unit :=
  match find_timer l t with
  | Err e => (t, Err e)
  | Ok (Some i) => start_row now i t
  | Ok None =>
      if MAX_ENTRIES <=? length t then (t, Err IndexError)
      else start_row now (length t) (t ++ [MkTimer (to_u30 l) 0 0%R false 0%R])
  end.

(** QTMTimer._stop_timer: logger.py 172-196. *)
Definition stop_timer (l : label) (now : R) (t : table) : table * res unit :=
  match find_timer l t with
  | Err e => (t, Err e)
  | Ok None => (t, Err ValueError)
  | Ok (Some i) =>
      match nth_error t i with
      | None => (t, Err IndexError)
      | Some x => if t_status x
                  then (set_nth t i (MkTimer (t_label x) (t_call x) (t_time x + (now - t_start x))%R false 0%R), Ok tt)
                  else (t, Err ValueError)
      end
  end.

(** QTMTimer.reset_timer: logger.py 244-264. *)
Definition reset_timer (l : label) (t : table) : table * res unit :=
  match find_timer l t with
  | Err e => (t, Err e)
  | Ok None => (t, Err ValueError)
  | Ok (Some i) =>
      match nth_error t i with
      | None => (t, Err IndexError)
      | Some x => (set_nth t i (MkTimer (t_label x) 0 0%R false (t_start x)), Ok tt)
      end
  end.

(** QTMTimer.delete_timer: logger.py 266-284: the last row moves into the freed slot. *)
Definition delete_timer (l : label) (t : table) : table * res unit :=
  match find_timer l t with
  | Err e => (t, Err e)
  | Ok None => (t, Err ValueError)
  | Ok (Some i) =>
      match nth_error t (length t - 1) with
      | None => (t, Err IndexError)
      | Some last => (firstn (length t - 1) (set_nth t i last), Ok tt)
      end
  end.

Inductive op := Start (l : label) (now : R) | Stop (l : label) (now : R) | Reset (l : label) | Delete (l : label).
Definition op_label (o : op) : label := match o with Start l _ => l | Stop l _ => l | Reset l => l | Delete l => l end.
Definition step (o : op) (t : table) : table * res unit :=
  match o with
  | Start l now => start_timer l now t
  | Stop l now => stop_timer l now t
  | Reset l => reset_timer l t
  | Delete l => delete_timer l t
  end.
(** A history of operations; the program goes on after an exception. *)
Fixpoint run (ops : list op) (t : table) : table * list (res unit) :=
  match ops with
  | [] => (t, [])
  | o :: r => let (t1, x) := step o t in let (t2, xs) := run r t1 in (t2, x :: xs)
  end.

(** Programs made of functions decorated with QTMTimer.time (logger.py 198-242): a timed
    call, sequencing, raising, and a try/except that swallows the exception. *)
Inductive prog := PSkip | PRaise (e : exn) | PSeq (p q : prog) | PTimed (l : label) (p : prog) | PTry (p : prog).

(** Execution with [enable_timer = True]; [clk] gives the successive perf_counter() readings.
    The wrapper's [try/except/finally] (logger.py 226-238): the exception of the body is
    re-raised unless stopping the timer raises, in which case Python replaces it. *)
Fixpoint exec (p : prog) (clk : nat -> R) (s : table * nat) : (table * nat) * res unit :=
  match p with
  | PSkip => (s, Ok tt)
  | PRaise e => (s, Err e)
  | PSeq p q => match exec p clk s with (s1, Ok _) => exec q clk s1 | (s1, Err e) => (s1, Err e) end
  | PTry p => match exec p clk s with (s1, _) => (s1, Ok tt) end
  | PTimed l p =>
      let (t, n) := s in
      match start_timer l (clk n) t with
      | (t1, Err e) => ((t1, S n), Err e)
      | (t1, Ok _) =>
          match exec p clk (t1, S n) with
          | ((t2, n2), r) =>
              match stop_timer l (clk n2) t2 with
              | (t3, Err e) => ((t3, S n2), Err e)
              | (t3, Ok _) => ((t3, S n2), r)
              end
          end
      end
  end.
(** Execution with [enable_timer = False] (interactive mode: logger.py 107-110, 226, 236). *)
Fixpoint exec_off (p : prog) : res unit :=
  match p with
  | PSkip => Ok tt
  | PRaise e => Err e
  | PSeq p q => match exec_off p with Ok _ => exec_off q | Err e => Err e end
  | PTry p => Ok tt
  | PTimed l p => exec_off p
  end.

(** Counters: QTMCounter, logger.py 304-375. *)
Record counter := MkCounter { c_label : label; c_count : Z }.
Definition ctable := list counter.
(** logger.py 335-342 *)
Definition find_counter (l : label) (t : ctable) : res (option nat) :=
  match find_idx (fun x => label_eqb (c_label x) (strip0 l)) t 0 with
  | [] => Ok None | [i] => Ok (Some i) | _ => Err RuntimeError end.
(** logger.py 344-357 *)
Definition add_row (val : Z) (i : nat) (t : ctable) : ctable * res unit :=
  match nth_error t i with
  | None => (t, Err IndexError)
  | Some x => (set_nth t i (MkCounter (c_label x) (c_count x + val)), Ok tt)
  end.
Definition add_to_counter (l : label) (val : Z) (t : ctable) : ctable * res unit :=
  match find_counter l t with
  | Err e => (t, Err e)
  | Ok (Some i) => add_row val i t
  | Ok None => if MAX_ENTRIES <=? length t then (t, Err IndexError)
               else add_row val (length t) (t ++ [MkCounter (to_u30 l) 0])
  end.
(** logger.py 359-366 *)
Definition clear_counter (l : label) (t : ctable) : ctable * res unit :=
  match find_counter l t with
  | Err e => (t, Err e)
  | Ok None => (t, Err ValueError)
  | Ok (Some i) => match nth_error t i with
                   | None => (t, Err IndexError)
                   | Some x => (set_nth t i (MkCounter (c_label x) 0), Ok tt) end
  end.
(** logger.py 368-375 *)
Definition delete_counter (l : label) (t : ctable) : ctable * res unit :=
  match find_counter l t with
  | Err e => (t, Err e)
  | Ok None => (t, Err ValueError)
  | Ok (Some i) => match nth_error t (length t - 1) with
                   | None => (t, Err IndexError)
                   | Some last => (firstn (length t - 1) (set_nth t i last), Ok tt) end
  end.
