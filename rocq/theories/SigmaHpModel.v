(** Model of the reader of BerkeleyGW's sigma_hp.log: /repo/src/qtm/interfaces/bgw/sigma_hp_reader.py, [read_sigma_hp].
    A file is the list of its lines.  The returned dictionary has text keys (header and preamble lines) and integer keys
    (k-points); they cannot collide, so the model keeps two dictionaries. *)
From Coq Require Import Reals String Ascii.
From Verif Require Import Base QeInpModel.
Import ListNotations.
Local Open Scope nat_scope.

(** Entries of the lists of a k-point: Python ints (column "n") or floats. *)
Inductive num := NI (z : Z) | NF (x : R).
Definition inner := list (text * list num).
Record dict := MkDict { d_text : list (text * list text); d_k : list (Z * inner) }.

Fixpoint zassoc (k : Z) (l : list (Z * inner)) : option inner :=
  match l with [] => None | (k', v) :: t => if (k' =? k)%Z then Some v else zassoc k t end.
Fixpoint zset (k : Z) (v : inner) (l : list (Z * inner)) : list (Z * inner) :=
  match l with [] => [(k, v)] | (k', v') :: t => if (k' =? k)%Z then (k', v) :: t else (k', v') :: zset k v t end.
Definition item_ {A} (l : list A) (i : nat) : res A := match nth_error l i with Some x => Ok x | None => Err IndexError end.
Fixpoint prefix (p t : text) : bool :=
  match p, t with [], _ => true | a :: p', b :: t' => Ascii.eqb a b && prefix p' t' | _, [] => false end.

(** Where the loop is: at its top, or after the "k =" line of point ik (line 30, then 32, then the rows of 42-50). *)
Inductive state := Top | Skip (ik : Z) | Header (ik : Z) | Rows (ik : Z).

(** d[ik][col].append(x) *)
Definition push (D : dict) (ik : Z) (col : text) (x : num) : res dict :=
  match zassoc ik (d_k D) with
  | None => Err KeyError
  | Some e => match assoc col e with
              | None => Err KeyError
              | Some l => Ok (MkDict (d_text D) (zset ik (upd col (l ++ [x]) e) (d_k D)))
              end
  end.
(** lines 18-27: the line of a k-point. *)
Definition k_line (D : dict) (line : text) : res (state * dict) :=
  let ws := words (strip line) in
  do w <- item_ ws 7; do ik <- py_int w;
  do w2 <- item_ ws 2; do a <- py_float w2; do w3 <- item_ ws 3; do b <- py_float w3; do w4 <- item_ ws 4; do c <- py_float w4;
  Ok (Skip ik, MkDict (d_text D) (zset ik (upd (T "kvec") [NF a; NF b; NF c] []) (d_k D))).
(** lines 34-39: the header (kept only the first time), and an empty list for every column. *)
Definition header_line (D : dict) (ik : Z) (line : text) : res (state * dict) :=
  let txt := match assoc (T "header") (d_text D) with None => upd (T "header") (words (strip line)) (d_text D) | Some _ => d_text D end in
  do h <- (match assoc (T "header") txt with Some h => Ok h | None => Err KeyError end);
  do e <- (match zassoc ik (d_k D) with Some e => Ok e | None => Err KeyError end);
  Ok (Rows ik, MkDict txt (zset ik (fold_left (fun e c => upd c [] e) h e) (d_k D))).
(** lines 44-50: one row. *)
Definition row_line (D : dict) (ik : Z) (line : text) : res dict :=
  let ws := words (strip line) in
  do w0 <- item_ ws 0;
  do h <- (match assoc (T "header") (d_text D) with Some h => Ok h | None => Err KeyError end);
  do e <- (match zassoc ik (d_k D) with Some e => Ok e | None => Err KeyError end);
  do _ <- (match assoc (T "n") e with Some _ => Ok tt | None => Err KeyError end);
  do n <- py_int w0;
  do D1 <- push D ik (T "n") (NI n);
  foldm (fun D' i => do c <- item_ h i; do w <- item_ ws i; do x <- py_float w; push D' ik c (NF x)) D1
        (seq 1 (List.length ws - 1)).
(** lines 52-62: any other line. *)
Definition other_line (D : dict) (line : text) : dict :=
  match words (strip line) with
  | [] => D
  | w :: t => MkDict (upd w (filter (fun x => negb (teqb x (T "="))) t) (d_text D)) (d_k D)
  end.
(** lines 12-64.  [next(f)] at the end of the file raises StopIteration, which leaves the function. *)
Fixpoint loop (st : state) (D : dict) (lines : list text) : res dict :=
  match lines with
  | [] => match st with Top => Ok D | _ => Err StopIteration end
  | l :: t =>
      match st with
      | Skip ik => loop (Header ik) D t
      | Header ik => do r <- header_line D ik l; loop (fst r) (snd r) t
      | Rows ik => match strip l with [] => loop Top D t | _ => do D' <- row_line D ik l; loop (Rows ik) D' t end
      | Top =>
          if prefix (T "k =") (strip l) then do r <- k_line D l; loop (fst r) (snd r) t
          else if prefix (T "=====") l then Ok D
          else loop Top (other_line D l) t
      end
  end.
Definition read_sigma_hp (lines : list text) : res dict := loop Top (MkDict [] []) lines.
