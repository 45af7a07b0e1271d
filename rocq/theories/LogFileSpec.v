(** Vocabulary for the statements about log files. *)
From Coq Require Import Ascii.
From Verif Require Import Base LogFileModel.
Local Open Scope nat_scope.

(** What one reads in the file named [p]. *)
Definition content (s : st) (p : text) : option (list line) := option_map (s_lines s) (s_fs s p).
Definition prefix (a b : list line) : Prop := exists c, b = a ++ c.
(** Every existing file has a number below [next]. *)
Definition sane (fs : fsys) (next : inode) : Prop := forall p i, fs p = Some i -> i < next.
Definition no_files : fsys := fun _ => None.
Definition no_setfile (o : op) : Prop := match o with SetFile _ _ _ _ _ _ => False | _ => True end.
(** The switches after a history. *)
Fixpoint last_enabled (b : bool) (ops : list op) : bool :=
  match ops with [] => b | Enable c :: r => last_enabled c r | _ :: r => last_enabled b r end.
Fixpoint last_level (l : Z) (ops : list op) : Z :=
  match ops with [] => l | SetLevel k :: r => last_level k r | _ :: r => last_level l r end.
(** The lines a history without further set-up calls owes to the log file: messages that reach the levels of
    the logger and of the file, warnings when they are captured and the file takes level 30; with logging
    disabled only messages above level 50. *)
Fixpoint owed (enabled : bool) (level flevel : Z) (capture : bool) (ops : list op) : list line :=
  match ops with
  | [] => []
  | Enable b :: r => owed b level flevel capture r
  | SetLevel l :: r => owed enabled l flevel capture r
  | Message lvl m :: r =>
      (if (enabled || (50 <? lvl)%Z) && (level <=? lvl)%Z && (flevel <=? lvl)%Z then [m] else [])
      ++ owed enabled level flevel capture r
  | Warning m :: r =>
      (if capture && enabled && (flevel <=? 30)%Z then [m] else []) ++ owed enabled level flevel capture r
  | SetFile _ _ _ _ _ _ :: r => owed enabled level flevel capture r
  end.
(** Every renaming of the history goes to a name not in use at that time. *)
Fixpoint targets_free (ops : list op) (s : st) : Prop :=
  match ops with
  | [] => True
  | o :: r => match o with
              | SetFile p _ _ t _ _ => s_fs s p = None \/ s_fs s (old_name p t) = None
              | _ => True
              end /\ targets_free r (run_op o s)
  end.
(** The time stamps of the set-up calls. *)
Fixpoint stamps (ops : list op) : list text :=
  match ops with [] => [] | SetFile _ _ _ t _ _ :: r => t :: stamps r | _ :: r => stamps r end.
Definition only_path (p : text) (o : op) : Prop := match o with SetFile q _ _ _ _ _ => q = p | _ => True end.
(** Logging stays off and nothing above level CRITICAL is logged. *)
Definition off (o : op) : Prop :=
  match o with Enable b => b = false | Message lvl _ => (lvl <= 50)%Z | _ => True end.

(** ---- several processes ---- *)
Definition reach (P : nat) (w0 w : world) : Prop := exists n, steps P n w0 w.
Definition all_finished (P : nat) (w : world) : Prop := forall r, r < P -> exists f, w_pc w r = Finished f.
Definition can_step (P : nat) (w : world) : Prop := exists w', step P w w'.
