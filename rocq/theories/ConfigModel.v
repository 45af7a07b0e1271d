(** Model of the configuration objects: src/qtm/config.py (QTMConfig) and
    src/qtm/dft/config.py (DFTConfig). *)
From Verif Require Import Base.
From Coq Require Import String.
Local Open Scope string_scope.
Local Open Scope Z_scope.

(** The Python values that users assign.  Simplification: floats carry no payload that
    the setters look at, so they are represented by an identifier. *)
Inductive value : Type :=
| VInt (z : Z) | VBool (b : bool) | VStr (s : string) | VFloat (id : nat) | VNone.

(** Which optional packages the process has: config.py 25-29. *)
Record env := MkEnv { mpi4py : bool; mkl_fft : bool; pyfftw : bool; cupy : bool; primme : bool }.

(** FFT_AVAILABLE_BACKENDS: config.py 31-37. *)
Definition fft_available_backends (e : env) : list string :=
  (let l := ["scipy"; "numpy"] in
   let l := if pyfftw e then "pyfftw" :: l else l in
   let l := if mkl_fft e then "mkl_fft" :: l else l in
   if cupy e then (l ++ ["cupy"])%list else l).

(** Managed attributes: the properties with setters of QTMConfig (config.py 61-216) and
    DFTConfig (dft/config.py 93-155), the read-only property (config.py 130-133), and the
    plain class attributes of both (config.py 57-59, 83, 198; dft/config.py 94-96), which
    Python stores without looking. *)
Inductive prop :=
| Plogging | Pfft_backend | Pfft_threads | Pplanner | Pseed | Pavailable
| Peigsolve | Pdav_maxiter | Pdav_numwork | Pmixing
| Pplain (name : nat).

Scheme Equality for prop.

(** One configuration object: its instance dictionary.  [None] means the attribute is not
    set on the instance and the class attribute is used. *)
Definition inst := prop -> option value.
Definition store (s : inst) (p : prop) (v : value) : inst :=
  fun q => if prop_beq q p then Some v else s q.

(** Class-level defaults: config.py 61, 135+143, 155, 172+180, 202, 53; dft/config.py 98, 118, 133, 148.
    [plain_default] are the defaults of the plain attributes. *)
Definition default (e : env) (plain_default : nat -> value) (p : prop) : value :=
  match p with
  | Plogging => VBool false
  | Pfft_backend => VStr (hd "scipy" (fft_available_backends e))
  | Pfft_threads => VInt 1
  | Pplanner => VStr "FFTW_MEASURE"
  | Pseed => VInt 489
  | Pavailable => VNone
  | Peigsolve => VStr "davidson"
  | Pdav_maxiter => VInt 20
  | Pdav_numwork => VInt 2
  | Pmixing => VStr "modbroyden"
  | Pplain n => plain_default n
  end.

(** Reading an attribute.  The getters of fft_backend (config.py 137-144) and
    pyfftw_planner (174-181) also store the default on the instance the first time. *)
Definition get (e : env) (pd : nat -> value) (p : prop) (s : inst) : value * inst :=
  match s p with
  | Some v => (v, s)
  | None => let v := default e pd p in
            (v, match p with Pfft_backend | Pplanner => store s p v | _ => s end)
  end.

(** [val in [...]] for a list of strings. *)
Definition in_strs (v : value) (l : list string) : bool :=
  match v with VStr x => existsb (String.eqb x) l | _ => false end.

(** [isinstance(val, int)]: booleans are integers in Python. *)
Definition as_int (v : value) : option Z :=
  match v with VInt z => Some z | VBool b => Some (b2z b) | _ => None end.

(** What value_not_in_list_msg does: msg_format.py 66-73 slices a string with a tuple,
    so building the message raises TypeError before the ValueError is constructed. *)
Definition value_not_in_list_error : exn := TypeError.

(** The property setters.  [root_val] is the value rank 0 passes in the same collective
    assignment (only rng_seed communicates: config.py 210-216). *)
Definition set (e : env) (root_val : value) (p : prop) (v : value) (s : inst) : res inst :=
  match p with
  (* config.py 69-81 *)
  | Plogging => match v with VBool _ => Ok (store s p v) | _ => Err TypeError end
  (* config.py 146-153 *)
  | Pfft_backend => if in_strs v (fft_available_backends e) then Ok (store s p v) else Err ValueError
  (* config.py 163-170 *)
  | Pfft_threads => match as_int v with
                    | Some z => if z <? 1 then Err ValueError else Ok (store s p v)
                    | None => Err ValueError end
  (* config.py 183-196 *)
  | Pplanner => if in_strs v ["FFTW_ESTIMATE"; "FFTW_MEASURE"; "FFTW_PATIENT"; "FFTW_EXHAUSTIVE"]
                then Ok (store s p v) else Err ValueError
  (* config.py 210-216 *)
  | Pseed => Ok (store s p (if mpi4py e then root_val else v))
  (* config.py 130-133: a property without setter *)
  | Pavailable => Err AttributeError
  (* dft/config.py 104-115 *)
  | Peigsolve => if primme e then
                   if in_strs v ["davidson"; "scipy"; "primme"] then Ok (store s p v) else Err value_not_in_list_error
                 else if in_strs v ["primme"] then Err ImportError
                 else if in_strs v ["davidson"; "scipy"] then Ok (store s p v) else Err value_not_in_list_error
  (* dft/config.py 123-131 *)
  | Pdav_maxiter => match as_int v with
                    | Some z => if z <=? 0 then Err TypeError else Ok (store s p v)
                    | None => Err TypeError end
  (* dft/config.py 139-146: no assignment at the end *)
  | Pdav_numwork => match as_int v with
                    | Some z => if z <=? 0 then Err TypeError else Ok s
                    | None => Err TypeError end
  (* dft/config.py 154-160: no assignment at the end *)
  | Pmixing => if in_strs v ["modbroyden"; "genbroyden"] then Ok s else Err value_not_in_list_error
  (* plain attribute *)
  | Pplain _ => Ok (store s p v)
  end.

(** QTMConfig.set_gpu: config.py 223-233.  check_cupy (91-128) is the [cupy] flag here:
    a CuPy that is installed but broken raises RuntimeError and is not modelled. *)
Definition set_gpu (e : env) (gpu_enabled : bool) (s : inst) : res inst :=
  if gpu_enabled && cupy e then set e VNone Pfft_backend (VStr "cupy") s
  else set e VNone Pfft_backend (VStr (hd "scipy" (fft_available_backends e))) s.

(** A program: assignments and reads on any number of configuration objects.  A statement
    that raises leaves the dictionary as it was before the [store] (none of the setters
    stores before checking). *)
Inductive op := OAssign (i : nat) (p : prop) (root_val v : value) | ORead (i : nat) (p : prop) | OGpu (i : nat) (b : bool).

Definition world := nat -> inst.
Definition upd (w : world) (i : nat) (s : inst) : world := fun j => if Nat.eqb j i then s else w j.

Definition step (e : env) (pd : nat -> value) (w : world) (o : op) : world * res (option value) :=
  match o with
  | OAssign i p r v => match set e r p v (w i) with Ok s => (upd w i s, Ok None) | Err x => (w, Err x) end
  | ORead i p => let (v, s) := get e pd p (w i) in (upd w i s, Ok (Some v))
  | OGpu i b => match set_gpu e b (w i) with Ok s => (upd w i s, Ok None) | Err x => (w, Err x) end
  end.
Definition run (e : env) (pd : nat -> value) (ops : list op) (w : world) : world :=
  fold_left (fun w o => fst (step e pd w o)) ops w.
