(** Model of /repo/src/qtm/pot/xc.py over exact reals.  A libxc functional is an arbitrary
    point-wise function of the density and the contracted gradient (thresholds, xc.py 23-30,
    are internal to it); meta-GGA and hybrid families are not modelled. *)
From Verif Require Import Base GIndexModel LatModel GSphereModel FFTModel PotModel CBase.
Open Scope nat_scope.

Record xcf := MkXcf {
  x_gga : bool;                                  (* family GGA (else LDA) *)
  x_zk : list R -> list R -> R;
  x_vrho : list R -> list R -> nat -> R;
  x_vsigma : list R -> list R -> nat -> R }.

(** FieldG.to_r / FieldR.to_g on one channel with the FFT object [o] of the space (its work
    array is overwritten by each transform and does not influence the next: PotProofs
    field_g2r, field_r2g hold for every history). *)
Definition to_r (o : full) (v : list C) : list C := snd (full_g2r o v).
Definition to_g (o : full) (f : list C) : list C := snd (full_r2g o f).

(** pot/utils.py 21-26 and 29-42 on one channel (the general shapes are in PotModel). *)
Definition grad1 (G : gsp) (v : list C) (c : nat) : list C :=
  map (fun k => (nth k v (RtoC 0) * Ci * RtoC (rcomp (gp_cart G k) c))%C) (seq 0 (length v)).
Definition div1 (G : gsp) (h : nat -> list C) : list C :=
  map (fun k => csum 3 (fun c => nth k (h c) (RtoC 0) * (Ci * RtoC (rcomp (gp_cart G k) c)))%C) (seq 0 (gp_size G)).
(** fieldg_grad(..).to_r() of one channel: component c -> array. *)
Definition grad_r (G : gsp) (o : full) (v : list C) (c : nat) : list C := to_r o (grad1 G v c).

(** xc.py 61-92, [_get_sigma], at point p: [gr] are the gradients of the channels. *)
Definition get_sigma (gr : list (nat -> list C)) (p : nat) : list R :=
  let dot a b := fst (csum 3 (fun c => nth p (a c) (RtoC 0) * nth p (b c) (RtoC 0))%C) in
  match gr with
  | [a] => [dot a a]
  | [a; b] => [dot a a; dot a b; dot b b]
  | _ => []
  end.

(** xc.py 147: |rho_r| at point p, one entry per spin. *)
Definition inp_rho (rho_r : list (list C)) (p : nat) : list R := map (fun v => Cmod (nth p v (RtoC 0))) rho_r.

(** xc.py 129: rho + (1/numspin)*rhocore, the core density having one channel (as scf passes it). *)
Definition add_core (core : list C) (rho : list (list C)) : list (list C) :=
  map (fun v => map (fun k => (nth k v (RtoC 0) + RtoC (1 / INR (length rho)) * nth k core (RtoC 0))%C) (seq 0 (length v))) rho.

(** xc.py 174-183: h_r of spin s, component c. *)
Definition h_field (f : xcf) (n : nat) (rin sig : nat -> list R) (gr : list (nat -> list C)) (s c : nat) : list C :=
  let vs i p := RtoC (x_vsigma f (rin p) (sig p) i) in
  let g a p := nth p (a c) (RtoC 0) in
  map (fun p => match gr with
    | [a] => (RtoC 2 * vs 0 p * g a p)%C
    | [a; b] => if Nat.eqb s 0 then (RtoC 2 * vs 0 p * g a p + vs 1 p * g b p)%C
                else (RtoC 2 * vs 2 p * g b p + vs 1 p * g a p)%C
    | _ => RtoC 0 end) (seq 0 n).

(** xc.py 165-186: contribution of one functional to v_xc, spin s, point p. *)
Definition v_term (G : gsp) (o : full) (need_grad : bool) (f : xcf) (rin sig : nat -> list R) (gr : list (nat -> list C)) (s p : nat) : C :=
  (RtoC (x_vrho f (rin p) (sig p) s)
   - if need_grad then nth p (to_r o (div1 G (fun c => to_g o (h_field f (gp_n G) rin sig gr s c)))) (RtoC 0) else RtoC 0)%C.
(** xc.py 168-171: contribution to en_xc. *)
Definition en_term (G : gsp) (f : xcf) (rho_r : list (list C)) (rin sig : nat -> list R) : C :=
  (csum (gp_n G) (fun p => fold_left (fun acc v => acc + nth p v (RtoC 0) * RtoC (x_zk f (rin p) (sig p))) rho_r (RtoC 0)) * RtoC (gp_dv G))%C.

(** xc.py 96-188, [compute].  An LDA functional's output has no "vsigma" entry (line 175). *)
Definition xc_compute (G : gsp) (o : full) (fx fc : xcf) (rho : list (list C)) (core : list C) : res (list (list C) * R) :=
  do _ <- check_rho rho;
  let need_grad := (x_gga fx || x_gga fc)%bool in
  let rhoaux := add_core core rho in
  let rho_r := map (to_r o) rho in
  let rin := inp_rho rho_r in
  let sig := if need_grad then get_sigma (map (grad_r G o) rhoaux) else fun _ => [] in
  let gr := if need_grad then map (grad_r G o) rho else [] in
  if (need_grad && negb (x_gga fx && x_gga fc))%bool then Err KeyError else
  Ok (map (fun s => map (fun p => (RtoC 0 + v_term G o need_grad fx rin sig gr s p + v_term G o need_grad fc rin sig gr s p)%C) (seq 0 (gp_n G)))
        (seq 0 (length rho)),
      fst (RtoC 0 + en_term G fx rho_r rin sig + en_term G fc rho_r rin sig)%C).

(** xc.py 33-51, [get_libxc_func]: the species' functional names (None: unknown). *)
Fixpoint get_libxc_func {A} (eqb : A -> A -> bool) (l : list (option A)) (cur : option A) : res (option A) :=
  match l with
  | [] => Ok cur
  | None :: r => get_libxc_func eqb r cur
  | Some f :: r => match cur with
      | None => get_libxc_func eqb r (Some f)
      | Some g => if eqb f g then get_libxc_func eqb r cur else Err ValueError
      end
  end.
(** xc.py 54-58, [check_libxc_func]. *)
Fixpoint check_libxc_func {A} (avail : A -> bool) (names : list A) : res unit :=
  match names with
  | [] => Ok tt
  | f :: r => if avail f then check_libxc_func avail r else Err ValueError
  end.
