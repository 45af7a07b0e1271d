(** Model of the BerkeleyGW input readers: /repo/src/qtm/interfaces/bgw/inp.py lines 134-254 (read_epsilon_inp,
    read_sigma_inp, via JSON and namedtuple), epsinp.py (Epsinp.from_epsilon_inp) and sigmainp.py
    (Sigmainp.from_sigma_inp).  The file is its list of lines.  Of JSON's values only numbers are modelled: words
    that are quoted strings, true, null, or contain brackets, commas or escapes are outside the model.  int(),
    float() are those of QeInpModel.  A StopIteration (end of file inside a block) is written RuntimeError. *)
From Coq Require Import Reals Ascii String.
From Verif Require Import Base LatModel QeInpModel.
Local Open Scope nat_scope.

(** json.loads on one value (the NUMBER_RE of json.scanner): an optional minus, then 0 or digits not starting with 0,
    then optionally a point and digits, then optionally e or E, a sign and digits; without fraction and exponent the
    value is an int, otherwise a float. *)
Definition opt_minus (t : text) : text := match t with c :: r => if Ascii.eqb c "-" then r else t | [] => [] end.
Definition js_int_part (d : text) : bool :=
  match d with [] => false | [_] => true | c :: _ => negb (Ascii.eqb c "0") end.
Definition js_exponent (t : text) : bool :=
  match t with
  | [] => true
  | c :: r => (Ascii.eqb c "e" || Ascii.eqb c "E") &&
              (let r' := match r with s :: q => if Ascii.eqb s "-" || Ascii.eqb s "+" then q else r | [] => [] end in
               let (d, rest) := span_digits r' in match d, rest with _ :: _, [] => true | _, _ => false end)
  end.
Inductive js_shape := JsInt | JsFloat | JsBad.
Definition js_number (t : text) : js_shape :=
  let (ip, r) := span_digits (opt_minus t) in
  if js_int_part ip then
    match r with
    | [] => JsInt
    | c :: q => if Ascii.eqb c "." then let (fp, e) := span_digits q in
                                        match fp with [] => JsBad | _ => if js_exponent e then JsFloat else JsBad end
                else if js_exponent r then JsFloat else JsBad
    end
  else JsBad.
Definition js_value (t : text) : res value :=
  match js_number t with
  | JsInt => rmap VInt (py_int t)
  | JsFloat => rmap VFloat (py_float t)
  | JsBad => Err ValueError
  end.
(** namedtuple(name, dict): field names must be identifiers, not keywords, without a leading underscore. *)
Definition is_letter (c : ascii) : bool := let n := nat_of_ascii c in ((65 <=? n) && (n <=? 90)) || ((97 <=? n) && (n <=? 122)).
Definition is_name_char (c : ascii) : bool := is_letter c || is_digit c || Ascii.eqb c "_".
Definition keywords : list text :=
  map T ["False"; "None"; "True"; "and"; "as"; "assert"; "async"; "await"; "break"; "class"; "continue"; "def"; "del";
         "elif"; "else"; "except"; "finally"; "for"; "from"; "global"; "if"; "import"; "in"; "is"; "lambda"; "nonlocal";
         "not"; "or"; "pass"; "raise"; "return"; "try"; "while"; "with"; "yield"]%string.
Definition field_name (t : text) : bool :=
  match t with [] => false | c :: r => is_letter c && forallb is_name_char r end && negb (existsb (teqb t) keywords).

(** What is collected from the lines (inp.py 151-183 / 212-246): parameters, points, is_q0 flags, scale factors, options. *)
Record found := MkF { fd_params : list (text * text); fd_pts : list rvec; fd_q0 : list bool; fd_scale : list R; fd_opts : list text }.
Definition word (l : list text) (n : nat) : res text := match nth_error l n with Some w => Ok w | None => Err IndexError end.
(** inp.py 163-175 (q0 = true) and 223-234 (q0 = false): one row of the list of points. *)
Definition point (q0 : bool) (ws : list text) (f : found) : res found :=
  do xs <- sequence (map py_float (firstn 3 ws));
  do f' <- (if q0 then do w <- word ws 4; do z <- py_int w; Ok (MkF (fd_params f) (fd_pts f) (fd_q0 f ++ [negb (z =? 0)%Z]) (fd_scale f) (fd_opts f))
            else Ok f);
  do w <- word ws 3; do s <- py_float w;
  match xs with
  | [x; y; z] => Ok (MkF (fd_params f') (fd_pts f' ++ [V x y z]) (fd_q0 f') (fd_scale f' ++ [s]) (fd_opts f'))
  | _ => Err IndexError
  end.
(** [block = true]: inside the list of points.  inp.py 156-183 / 217-243. *)
Fixpoint scan (name : text) (q0 block : bool) (f : found) (lines : list text) : res found :=
  match lines with
  | [] => if block then Err RuntimeError else Ok f
  | line :: rest =>
      let ws := words line in
      if block then
        match ws with
        | [] => Err IndexError
        | w :: _ => if teqb w (T "end") then scan name q0 false f rest
                    else do f' <- point q0 ws f; scan name q0 true f' rest
        end
      else
        match ws with
        | [] => scan name q0 false f rest
        | [w] => if teqb w (T "begin") then Err IndexError
                 else scan name q0 false (MkF (fd_params f) (fd_pts f) (fd_q0 f) (fd_scale f) (fd_opts f ++ [w])) rest
        | w :: v :: _ => if teqb w (T "begin") && teqb v name then scan name q0 true f rest
                         else scan name q0 false (MkF (fd_params f ++ [(w, v)]) (fd_pts f) (fd_q0 f) (fd_scale f) (fd_opts f)) rest
        end
  end.
(** An attribute of the returned object. *)
Inductive attr := ANone | AFlag (b : bool) | ANum (v : value) | APoints (l : list rvec) | AFlags (l : list bool) | AWords (l : list text).
(** inp.py 185-195 / 245-250: the JSON object, then the specially parsed entries ([scale_factor] is not among them). *)
Definition json_dict (params : list (text * text)) : res (list (text * attr)) :=
  foldm (fun d kv => do v <- js_value (snd kv); Ok (upd (fst kv) (ANum v) d)) [] params.
Definition read_inp (name : text) (q0 : bool) (pts : text) (lines : list text) : res (list (text * attr)) :=
  do f <- scan name q0 false (MkF [] [] [] [] []) lines;
  do d <- json_dict (fd_params f);
  let d := upd pts (APoints (fd_pts f)) d in
  let d := if q0 then upd (T "is_q0") (AFlags (fd_q0 f)) d else d in
  let d := upd (T "options") (AWords (fd_opts f)) d in
  if forallb (fun e => field_name (fst e)) d then Ok d else Err ValueError.

(** epsinp.py lines 21-248: parameters (default None) and options (default False). *)
Definition eps_params : list text :=
  [T "qpts"; T "scale_factor"; T "is_q0"; T "frequency_dependence_method"; T "broadening"; T "init_frequency";
   T "frequency_low_cutoff"; T "delta_frequency"; T "number_imaginary_freqs"; T "frequency_high_cutoff";
   T "delta_frequency_step"; T "delta_sfrequency"; T "delta_sfrequency_step"; T "sfrequency_low_cutoff";
   T "sfrequency_high_cutoff"; T "chi_eigenvalue_cutoff"; T "nbasis_subspace"; T "evs"; T "ev0"; T "evdel"; T "ecs";
   T "ec0"; T "ecdel"; T "cvfit"; T "coulomb_truncation_radius"; T "epsilon_cutoff"; T "number_bands";
   T "frequency_dependence"; T "plasma_freq"; T "imaginary_frequency"; T "full_chi_conv_log"; T "fermi_level";
   T "verbosity"; T "number_valence_pools"; T "nfreq_group"; T "qgrid"].
Definition eps_options : list text :=
  [T "write_subspace_epsinv"; T "subspace_dont_keep_full_eps_omega0"; T "subspace_use_elpa";
   T "dont_keep_fix_buffers"; T "sub_collective_eigen_redistr"; T "cell_box_truncation"; T "cell_wire_truncation";
   T "cell_slab_truncation"; T "spherical_truncation"; T "use_wfn_hdf5"; T "comm_nonblocking_cyclic";
   T "fermi_level_absolute"; T "fermi_level_relative"; T "dont_use_hdf5"; T "eqp_corrections"; T "write_vcoul";
   T "gcomm_matrix"; T "gcomm_elements"; T "skip_epsilon"; T "skip_chi"; T "fullbz_replace"; T "fullbz_write";
   T "degeneracy_check_override"; T "no_min_fftgrid"; T "restart"; T "subsample"].
(** sigmainp.py lines 20-329 *)
Definition sigma_params : list text :=
  [T "band_index_min"; T "band_index_max"; T "kpts"; T "scale_factor"; T "sigma_matrix"; T "frequency_grid_shift";
   T "delta_frequency_eval"; T "max_frequency_eval"; T "init_frequency_eval"; T "number_frequency_eval";
   T "finite_difference_form"; T "finite_difference_spacing"; T "qgrid"; T "evs"; T "ev0"; T "evdel"; T "ecs";
   T "ec0"; T "ecdel"; T "cvfit"; T "coulomb_truncation_radius"; T "screened_coulomb_cutoff";
   T "bare_coulomb_cutoff"; T "number_bands"; T "spin_index_min"; T "spin_index_max"; T "cell_average_cutoff";
   T "frequency_dependence"; T "frequency_dependence_method"; T "cd_integration_method"; T "invalid_gpp_mode";
   T "full_ch_conv_log"; T "bare_exchange_fraction"; T "gpp_broadening"; T "gpp_sexcutoff"; T "fermi_level";
   T "verbosity"; T "evs_outer"; T "ev0_outer"; T "evdel_outer"; T "ecs_outer"; T "ec0_outer"; T "ecdel_outer";
   T "cvfit_outer"; T "avgpot"; T "avgpot_outer"; T "number_sigma_pools"; T "exact_static_ch"].
Definition sigma_options : list text :=
  [T "number_diag"; T "number_offdiag"; T "do_sigma_subspace"; T "screening_semiconductor"; T "screening_metal";
   T "screening_graphene"; T "cell_box_truncation"; T "cell_wire_truncation"; T "cell_slab_truncation";
   T "spherical_truncation"; T "use_epsilon_remainder"; T "use_xdat"; T "dont_use_vxcdat"; T "use_kihdat";
   T "fermi_level_absolute"; T "fermi_level_relative"; T "dont_use_hdf5"; T "use_wfn_hdf5"; T "eqp_corrections";
   T "eqp_outer_corrections"; T "write_vcoul"; T "tol_degeneracy"; T "fullbz_replace"; T "fullbz_write";
   T "degeneracy_check_override"; T "no_symmetries_q_grid"; T "use_symmetries_q_grid"; T "dont_symmetrize";
   T "no_symmetries_offdiagonals"; T "die_outside_sphere"; T "ignore_outside_sphere"; T "skip_averagew"; T "subsample"].
Definition blank (ps os : list text) : list (text * attr) := map (fun p => (p, ANone)) ps ++ map (fun o => (o, AFlag false)) os.
(** Setting known attributes only ([__dir__] of the object; its methods are not attributes of this model). *)
Definition set_known (o : list (text * attr)) (e : text * attr) : list (text * attr) :=
  match assoc (fst e) o with Some _ => upd (fst e) (snd e) o | None => o end.
Definition opts_of (d : list (text * attr)) : list text := match assoc (T "options") d with Some (AWords l) => l | _ => [] end.
(** epsinp.py 252-274: options are looked up among the namedtuple's own names (its fields, and the tuple
    methods count and index), then set on the object. *)
Definition from_epsilon_inp (lines : list text) : res (list (text * attr)) :=
  do nt <- read_inp (T "qpoints") true (T "qpts") lines;
  let o := fold_left set_known nt (blank eps_params eps_options) in
  Ok (fold_left (fun o w => if existsb (teqb w) (map fst nt ++ [T "count"; T "index"]) then upd w (AFlag true) o else o) (opts_of nt) o).
(** sigmainp.py 331-361, with [validate] *)
Definition from_sigma_inp (lines : list text) : res (list (text * attr)) :=
  do nt <- read_inp (T "kpoints") false (T "kpts") lines;
  let o := fold_left set_known nt (blank sigma_params sigma_options) in
  let o := fold_left (fun o w => set_known o (w, AFlag true)) (opts_of nt) o in
  match assoc (T "band_index_max") o, assoc (T "band_index_min") o, assoc (T "kpts") o with
  | Some ANone, _, _ | _, Some ANone, _ => Err AssertionError
  | _, _, Some (APoints []) => Err AssertionError
  | _, _, Some (APoints (_ :: _)) => Ok o
  | _, _, _ => Err TypeError
  end.
