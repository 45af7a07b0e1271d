(** Model of /repo/src/qtm/pseudo/upf.py, [UPFv2Data.from_file]: the reader of UPF v2 pseudopotential files.
    The XML tree produced by ElementTree is given: sections in file order, each with attributes, text and
    child elements; opening and parsing the XML, and the MD5 checksum, are not modelled.  [int()], [float()]
    and the conversion of text to float64 arrays are those of QeInpModel (decimal notation, exact numbers). *)
From Coq Require Import Reals Ascii String.
From Verif Require Import Base QeInpModel LatModel.
Local Open Scope nat_scope.

Record leaf := MkLeaf { l_tag : text; l_attr : list (text * text); l_text : option text }.
Record sect := MkSect { s_tag : text; s_attr : list (text * text); s_text : option text; s_kids : list leaf }.

(** lines 37-60: the header fields and their types; lines 62-79: the other annotated names. *)
Definition header_types : list (text * typ) :=
  [(T "generated", TStr); (T "author", TStr); (T "date", TStr); (T "comment", TStr);
   (T "element", TStr); (T "pseudo_type", TStr); (T "relativistic", TStr);
   (T "is_ultrasoft", TBool); (T "is_paw", TBool); (T "is_coulomb", TBool); (T "has_so", TBool); (T "has_wfc", TBool);
   (T "core_correction", TBool); (T "functional", TStr);
   (T "z_valence", TFloat); (T "total_psenergy", TFloat); (T "wfc_cutoff", TFloat); (T "rho_cutoff", TFloat);
   (T "l_max", TInt); (T "l_local", TInt); (T "mesh_size", TInt); (T "number_of_wfc", TInt); (T "number_of_proj", TInt)].
Definition reserved : list text :=
  [T "r"; T "r_ab"; T "rho_atc"; T "vloc"; T "l_kb_rbeta"; T "l_kb_l"; T "dij"; T "rhoatom"].
(** An entry of [data]: still the annotation (a Python type object), or a value. *)
Inductive hval := HType (ty : typ) | HVal (v : value).
Record ustate := MkU { u_hdr : list (text * hval); u_r : option (list R); u_rab : option (list R); u_vloc : option (list R); u_rho : option (list R) }.
(** line 92 *)
Definition ustart : ustate := MkU (map (fun f => (fst f, HType (snd f))) header_types) None None None None.
(** lines 100-108: one header attribute.  Calling a value, or a type that cannot be built from a string, is a TypeError. *)
Definition read_attr (data : list (text * hval)) (kv : text * text) : res (list (text * hval)) :=
  match assoc (fst kv) data with
  | None => if existsb (teqb (fst kv)) reserved then Err TypeError else Ok data
  | Some (HVal _) => Err TypeError
  | Some (HType TBool) => Ok (upd (fst kv) (HVal (VBool (teqb (lower (snd kv)) (T "t")))) data)
  | Some (HType TStr) => Ok (upd (fst kv) (HVal (VStr (snd kv))) data)
  | Some (HType TInt) => do z <- py_int (snd kv); Ok (upd (fst kv) (HVal (VInt z)) data)
  | Some (HType TFloat) => do x <- py_float (snd kv); Ok (upd (fst kv) (HVal (VFloat x)) data)
  | Some (HType TDict) => Err TypeError
  end.
(** np.array(text.split(), dtype=float64); an element without text has [text = None]: AttributeError *)
Definition numbers (t : option text) : res (list R) :=
  match t with None => Err AttributeError | Some s => sequence (map py_float (words s)) end.
(** constants.py line 55 *)
Definition rydberg : R := (1 / 2)%R.
Definition scaled (l : list R) : list R := map (fun x => x * rydberg)%R l.
(** lines 110-115: children of PP_MESH *)
Definition read_mesh (u : ustate) (g : leaf) : res ustate :=
  if teqb (l_tag g) (T "PP_R") then do a <- numbers (l_text g); Ok (MkU (u_hdr u) (Some a) (u_rab u) (u_vloc u) (u_rho u))
  else if teqb (l_tag g) (T "PP_RAB") then do a <- numbers (l_text g); Ok (MkU (u_hdr u) (u_r u) (Some a) (u_vloc u) (u_rho u))
  else Ok u.
(** lines 97-123: one section *)
Definition read_sect (u : ustate) (s : sect) : res ustate :=
  if teqb (s_tag s) (T "PP_HEADER") then
    do h <- foldm read_attr (u_hdr u) (s_attr s); Ok (MkU h (u_r u) (u_rab u) (u_vloc u) (u_rho u))
  else if teqb (s_tag s) (T "PP_MESH") then foldm read_mesh u (s_kids s)
  else if teqb (s_tag s) (T "PP_LOCAL") then
    do a <- numbers (s_text s); Ok (MkU (u_hdr u) (u_r u) (u_rab u) (Some (scaled a)) (u_rho u))
  else if teqb (s_tag s) (T "PP_RHOATOM") then
    do a <- numbers (s_text s); Ok (MkU (u_hdr u) (u_r u) (u_rab u) (u_vloc u) (Some a))
  else Ok u.
(** root.findall(tag)[0] *)
Definition first_sect (tag : text) (ss : list sect) : res sect :=
  match filter (fun s => teqb (s_tag s) tag) ss with s :: _ => Ok s | [] => Err IndexError end.
(** lines 140-153: children of PP_NONLOCAL: the last PP_DIJ, and the PP_BETA.* in file order *)
Fixpoint starts_with (p t : text) : bool :=
  match p, t with [], _ => true | a :: p', b :: t' => Ascii.eqb a b && starts_with p' t' | _, [] => false end.
Definition read_nonlocal (st : option (list R) * list (Z * list R)) (g : leaf) : res (option (list R) * list (Z * list R)) :=
  if teqb (l_tag g) (T "PP_DIJ") then do a <- numbers (l_text g); Ok (Some (scaled a), snd st)
  else if starts_with (T "PP_BETA.") (l_tag g) then
    match assoc (T "angular_momentum") (l_attr g) with
    | None => Err KeyError
    | Some v => do l <- py_int v; do b <- numbers (l_text g); Ok (fst st, snd st ++ [(l, b)])
    end
  else Ok st.
(** dij.reshape(n, n) *)
Fixpoint chunks (n k : nat) (l : list R) : list (list R) := match k with O => [] | S k' => firstn n l :: chunks n k' (skipn n l) end.
Definition reshape (n : nat) (l : list R) : res (list (list R)) :=
  if length l =? n * n then Ok (chunks n n l) else Err ValueError.
Record upf := MkUpf {
  f_hdr : list (text * hval); f_r : option (list R); f_rab : option (list R); f_vloc : option (list R); f_rho : option (list R);
  f_core : option (list R); f_dij : list (list R); f_beta : list (Z * list R); f_libxc : option (text * text); f_valence : Z }.
(** line 15 *)
Definition libxc_map (t : text) : option (text * text) :=
  if teqb t (T "pbe") then Some (T "gga_x_pbe", T "gga_c_pbe") else None.
(** lines 82-170.  Without projectors an unknown keyword is passed to the constructor: TypeError. *)
Definition upf_from_file (ss : list sect) : res upf :=
  do u <- foldm read_sect ustart ss;
  do core <- match assoc (T "core_correction") (u_hdr u) with
             | Some (HVal (VBool true)) => do s <- first_sect (T "PP_NLCC") ss; rmap Some (numbers (s_text s))
             | _ => Ok None
             end;
  do nl <- match assoc (T "number_of_proj") (u_hdr u) with
           | Some (HVal (VInt 0%Z)) => Ok None
           | _ => do s <- first_sect (T "PP_NONLOCAL") ss;
                  do st <- foldm read_nonlocal (None, []) (s_kids s);
                  match fst st with
                  | None => Err AttributeError
                  | Some d => do m <- reshape (List.length (snd st)) d; Ok (Some (m, snd st))
                  end
           end;
  do fn <- match assoc (T "functional") (u_hdr u) with Some (HVal (VStr t)) => Ok t | _ => Err TypeError end;
  do z <- match assoc (T "z_valence") (u_hdr u) with Some (HVal (VFloat x)) => Ok x | _ => Err TypeError end;
  match nl with
  | None => Err TypeError
  | Some (m, betas) =>
      Ok (MkUpf (u_hdr u) (u_r u) (u_rab u) (u_vloc u) (u_rho u) core m betas (libxc_map (lower fn)) (rint z))
  end.
