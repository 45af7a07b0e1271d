(** Model of the log files of /repo/src/qtm/logger.py 450-518 ([qtmlogger_set_filehandle]) with
    config.py 61-89 ([logging_enabled], [init_logfile]) and logger.py 407-442, 521-525.
    First part: one process, histories of calls, messages and warnings.  Second part: several processes
    calling the function together, every interleaving.
    Simplifications: a file is an inode number with its list of lines; a line is a message and not its
    formatted text; paths have no directory part; no other logger (in particular the root logger) has
    handlers; levels are integers; time stamps (strftime) are inputs.  [Path.is_file] is true for every
    existing path. *)
From Coq Require Import Ascii.
From Verif Require Import Base.
Open Scope nat_scope.

Definition text := list ascii.
Definition inode := nat.
Definition fsys := text -> option inode.
Definition text_dec : forall a b : text, {a = b} + {a <> b} := list_eq_dec ascii_dec.
Definition bind (fs : fsys) (p : text) (i : option inode) : fsys := fun q => if text_dec p q then i else fs q.

(** pathlib's [suffix]: from the last dot, unless the dot is the first or the last character.
    [last_dot] gives the text before and from the last dot. *)
Fixpoint last_dot (t : text) : option (text * text) :=
  match t with
  | [] => None
  | c :: r => match last_dot r with
              | Some (a, b) => Some (c :: a, b)
              | None => if ascii_dec c "."%char then Some ([], t) else None
              end
  end.
Definition split_suffix (name : text) : text * text :=
  match last_dot name with
  | Some (c :: a, d :: e :: b) => (c :: a, d :: e :: b)
  | _ => (name, [])
  end.
Definition dot_pre : text := ["."; "p"; "r"; "e"]%char.
(** logger.py 498-500: logfile_path.with_suffix('.pre' + stamp + suffix). *)
Definition old_name (name stamp : text) : text :=
  let '(stem, suffix) := split_suffix name in stem ++ dot_pre ++ stamp ++ suffix.

Definition line := nat.
Record handler := MkH { h_file : inode; h_level : Z }.
Record st := MkSt {
  s_enabled : bool; s_level : Z;
  s_qtm : list handler;           (* handlers of the logger "QTM" *)
  s_warn : list handler;          (* handlers of the logger "py.warnings" *)
  s_capture : bool;
  s_fs : fsys; s_lines : inode -> list line; s_next : inode;
  s_err : list line }.            (* what went to the standard error output *)
(** After [import qtm]: logger.py 410 (level INFO = 20), 525 (logging disabled). *)
Definition start (fs : fsys) (lines : inode -> list line) (next : inode) : st :=
  MkSt false 20 [] [] false fs lines next [].

Definition set_lines (s : st) (l : inode -> list line) : st :=
  MkSt (s_enabled s) (s_level s) (s_qtm s) (s_warn s) (s_capture s) (s_fs s) l (s_next s) (s_err s).
Definition to_stderr (m : line) (s : st) : st :=
  MkSt (s_enabled s) (s_level s) (s_qtm s) (s_warn s) (s_capture s) (s_fs s) (s_lines s) (s_next s) (s_err s ++ [m]).
(** logging.Logger.callHandlers: each handler whose level admits the record writes it. *)
Definition call_handlers (hs : list handler) (lvl : Z) (m : line) (s : st) : st :=
  fold_left (fun s h => if (h_level h <=? lvl)%Z
                        then set_lines s (fun i => if i =? h_file h then s_lines s i ++ [m] else s_lines s i) else s) hs s.
(** logging.disable() leaves level CRITICAL = 50 disabled and everything below. *)
Definition allowed (s : st) (lvl : Z) : bool := s_enabled s || (50 <? lvl)%Z.
(** qtmlogger.log(lvl, m) and its aliases (logger.py 416-442).  Without handlers Python's handler of last
    resort prints records of level WARNING = 30 and above. *)
Definition log_message (lvl : Z) (m : line) (s : st) : st :=
  if allowed s lvl && (s_level s <=? lvl)%Z
  then match s_qtm s with
       | [] => if (30 <=? lvl)%Z then to_stderr m s else s
       | hs => call_handlers hs lvl m s
       end
  else s.
(** warnings.warn, once Python's filters let it through: with capturing it is a record of level
    WARNING = 30 of "py.warnings", otherwise it goes to stderr. *)
Definition log_warning (m : line) (s : st) : st :=
  if s_capture s then (if allowed s 30 then call_handlers (s_warn s) 30 m s else s) else to_stderr m s.

Definition set_qtm (s : st) (h : list handler) : st :=
  MkSt (s_enabled s) (s_level s) h (s_warn s) (s_capture s) (s_fs s) (s_lines s) (s_next s) (s_err s).
Definition set_fs (s : st) (f : fsys) : st :=
  MkSt (s_enabled s) (s_level s) (s_qtm s) (s_warn s) (s_capture s) f (s_lines s) (s_next s) (s_err s).
(** logging.FileHandler(path): mode "a", opened at once. *)
Definition open_append (p : text) (s : st) : st * inode :=
  match s_fs s p with
  | Some i => (s, i)
  | None => (MkSt (s_enabled s) (s_level s) (s_qtm s) (s_warn s) (s_capture s) (bind (s_fs s) p (Some (s_next s)))
               (fun i => if i =? s_next s then [] else s_lines s i) (S (s_next s)) (s_err s), s_next s)
  end.

(** One call in one process.  [w1], [w2]: the warnings of 485-488 and 501-503, None when Python's
    filters suppress them. *)
Definition set_filehandle (p : text) (lvl : Z) (capture : bool) (stamp : text) (w1 w2 : option line) (s : st) : st :=
  let warn w s := match w with Some m => log_warning m s | None => s end in
  let s := match s_qtm s with [] => s | _ => set_qtm (warn w1 s) [] end in               (* 484-489 *)
  let s := match s_fs s p with                                                            (* 493-504 *)
           | Some i => let s := warn w2 s in set_fs s (bind (bind (s_fs s) (old_name p stamp) (Some i)) p None)
           | None => s
           end in
  let '(s, i) := open_append p s in                                                       (* 506-507 *)
  let h := MkH i lvl in
  MkSt (s_enabled s) (s_level s) (s_qtm s ++ [h]) (if capture then s_warn s ++ [h] else s_warn s) capture
       (s_fs s) (s_lines s) (s_next s) (s_err s).                                          (* 513-518 *)

Inductive op :=
| SetFile (p : text) (lvl : Z) (capture : bool) (stamp : text) (w1 w2 : option line)
| Message (lvl : Z) (m : line)
| Warning (m : line)
| Enable (b : bool)               (* config.py 69-81, a boolean *)
| SetLevel (lvl : Z).             (* logger.py 412-414 *)
Definition run_op (o : op) (s : st) : st :=
  match o with
  | SetFile p lvl c t w1 w2 => set_filehandle p lvl c t w1 w2 s
  | Message lvl m => log_message lvl m s
  | Warning m => log_warning m s
  | Enable b => MkSt b (s_level s) (s_qtm s) (s_warn s) (s_capture s) (s_fs s) (s_lines s) (s_next s) (s_err s)
  | SetLevel l => MkSt (s_enabled s) l (s_qtm s) (s_warn s) (s_capture s) (s_fs s) (s_lines s) (s_next s) (s_err s)
  end.
Definition run (ops : list op) (s : st) : st := fold_left (fun s o => run_op o s) ops s.

(** ---- several processes, one call each, on a common file system (logger.py 493-507) ---- *)
Inductive pc :=
| Check                  (* 494, is_file *)
| Barrier                (* 496, inside COMM_WORLD.barrier() *)
| Rename                 (* 504, rank 0 *)
| Open                   (* 506 *)
| Finished (h : inode).  (* handler on this file *)
Record world := MkW { w_pc : nat -> pc; w_log : option inode; w_old : option inode; w_next : inode; w_lines : inode -> list line }.
Definition at_rank (f : nat -> pc) (r : nat) (c : pc) : nat -> pc := fun q => if q =? r then c else f q.
Definition first_world (log : option inode) (next : inode) (lines : inode -> list line) : world :=
  MkW (fun _ => Check) log None next lines.
(** [P] processes, COMM_WORLD present. *)
Inductive step (P : nat) : world -> world -> Prop :=
| step_check r w : r < P -> w_pc w r = Check ->
    step P w (MkW (at_rank (w_pc w) r (match w_log w with Some _ => Barrier | None => Open end)) (w_log w) (w_old w) (w_next w) (w_lines w))
| step_barrier w : 0 < P -> (forall r, r < P -> w_pc w r = Barrier) ->
    step P w (MkW (fun r => if r =? 0 then Rename else Open) (w_log w) (w_old w) (w_next w) (w_lines w))
| step_rename w f : w_pc w 0 = Rename -> w_log w = Some f ->
    step P w (MkW (at_rank (w_pc w) 0 Open) None (Some f) (w_next w) (w_lines w))
(* an existing file is opened in mode "a": its lines stay *)
| step_open_old r w f : r < P -> w_pc w r = Open -> w_log w = Some f ->
    step P w (MkW (at_rank (w_pc w) r (Finished f)) (w_log w) (w_old w) (w_next w) (w_lines w))
| step_open_new r w : r < P -> w_pc w r = Open -> w_log w = None ->
    step P w (MkW (at_rank (w_pc w) r (Finished (w_next w))) (Some (w_next w)) (w_old w) (S (w_next w))
                (fun i => if i =? w_next w then [] else w_lines w i)).
Inductive steps (P : nat) : nat -> world -> world -> Prop :=
| steps_O w : steps P 0 w w
| steps_S n w1 w2 w3 : steps P n w1 w2 -> step P w2 w3 -> steps P (S n) w1 w3.
(** The same with the processes that have returned logging lines. *)
Inductive lstep (P : nat) : world -> world -> Prop :=
| lstep_call w1 w2 : step P w1 w2 -> lstep P w1 w2
| lstep_write r w f m : r < P -> w_pc w r = Finished f ->
    lstep P w (MkW (w_pc w) (w_log w) (w_old w) (w_next w)
                 (fun i => if i =? f then w_lines w i ++ [m] else w_lines w i)).
Inductive lsteps (P : nat) : world -> world -> Prop :=
| lsteps_O w : lsteps P w w
| lsteps_S w1 w2 w3 : lsteps P w1 w2 -> lstep P w2 w3 -> lsteps P w1 w3.
