(** Model of the split-operator propagator with non-local projectors:
    /repo/src/qtm/tddft_gamma/expoper/splitoper.py 15-81 (TddftModel has the case of no projectors).
    Exact complex arithmetic; scipy.linalg.expm is the sum of the exponential series, numpy.linalg.inv is
    a parameter (the matrix it returns); one spin component; the FFT object belongs to the k+G space. *)
From Coq Require Import Reals.
From Coquelicot Require Import Series.
From Verif Require Import Base GIndexModel LatModel GSphereModel CBase FFTModel KSHamModel TddftModel.
Open Scope nat_scope.

(** [a @ b] for square matrices of size m. *)
Definition mmul (m : nat) (A B : nat -> nat -> C) (i j : nat) : C := csum m (fun l => A i l * B l j)%C.
Definition identity (i j : nat) : C := if Nat.eqb i j then RtoC 1 else RtoC 0.
Fixpoint mpow (m : nat) (A : nat -> nat -> C) (k : nat) : nat -> nat -> C :=
  match k with O => identity | S q => mmul m A (mpow m A q) end.
(** [scipy.linalg.expm(a)], entry by entry. *)
Definition expm (m : nat) (A : nat -> nat -> C) (i j : nat) : C :=
  (Series (fun k => fst (mpow m A k i j / RtoC (INR (fact k)))%C),
   Series (fun k => snd (mpow m A k i j / RtoC (INR (fact k)))%C)).

(** splitoper.py 36, [vkb.vdot(vkb)]: the values of the first factor are conjugated. *)
Definition ovl (vkb : list (list C)) (i j : nat) : C := vdot1 (nth i vkb []) (nth j vkb []).

(** splitoper.py 37-43, the matrix kept for one species; [inv] is what numpy.linalg.inv(ovl) gave. *)
Definition exp_dij_halfstep (dt : R) (vkb : list (list C)) (dij inv : nat -> nat -> C) : nat -> nat -> C :=
  let m := length vkb in
  mmul m inv (fun i j => expm m (fun a b => - RtoC (/ 2) * Ci * RtoC dt * mmul m (ovl vkb) dij a b)%C i j - identity i j)%C.

(** One entry of [l_vkb_dij] together with its matrix in [l_exp_dij_halfstep]. *)
Definition species : Type := (list (list C) * (nat -> nat -> C))%type.
(** splitoper.py 34-43, all species; [l_inv] are the inverses numpy returned, one per species. *)
Definition make_species (dt : R) (h : ksham) (l_inv : list (nat -> nat -> C)) : list species :=
  map (fun p => let '((vkb, dij), inv) := p in (vkb, exp_dij_halfstep dt vkb dij inv)) (combine (kh_nloc h) l_inv).

(** splitoper.py 67-68 for one band: proj = vkb.vdot(psi); psi += (exp_dij @ proj)^T @ vkb. *)
Definition nl_band (sp : species) (psi : list C) : list C :=
  let '(vkb, x) := sp in
  let m := length vkb in
  let proj j := vdot1 (nth j vkb []) psi in
  let xproj i := csum m (fun j => x i j * proj j)%C in
  map (fun g => nth g psi (RtoC 0) + csum m (fun i => xproj i * nth g (nth i vkb []) (RtoC 0)))%C (seq 0 (length psi)).
(** splitoper.py 61-68, [oper_nl]: the species one after another, backwards when [reverse]. *)
Definition oper_nl (l : list species) (reverse : bool) (b : bands) : bands :=
  fold_left (fun b sp => map (nl_band sp) b) (if reverse then rev l else l) b.

(** splitoper.py 75-81, [prop_psi]. *)
Definition split_prop_nl (s : split_exp) (l : list species) (o : full) (m : heap) (l_in : list nat)
  : res (full * heap * list nat) :=
  match l_in with
  | obj :: _ =>
      let b := oper_nl l false (oper_ke s (m obj)) in
      let '(o1, b) := oper_vloc s o b in
      Ok (o1, mset m obj (oper_ke s (oper_nl l true b)), l_in)
  | [] => Err IndexError
  end.
