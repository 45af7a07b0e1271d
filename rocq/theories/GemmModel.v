(** Model of /repo/src/qtm/containers/gemm_wrappers.py ([get_zgemm], [zgemm_sp]) and of the
    way KSHam.h_psi uses it (/repo/src/qtm/dft/ksham.py 82-87).  Products and sums are exact;
    the one conversion to single precision that the wrapper performs is modelled: line 93,
    [np.asarray(out, "F")], passes "F" as the dtype, i.e. complex64, not as the memory
    order, so the array C that is accumulated into is rounded first.  Rounding is to nearest
    even with 24 bits and least exponent -149 (Flocq); overflow is not modelled. *)
From Coq Require Import Reals.
From Flocq Require Import Core.
From Verif Require Import Base LatModel GIndexModel GSphereModel FFTModel KSHamModel CBase.
Open Scope R_scope.

Definition single (x : R) : R := round radix2 (FLT_exp (-149) 24) ZnearestE x.
Definition csingle (z : C) : C := (single (fst z), single (snd z)).

(** A two-dimensional complex array. *)
Record arr2 := MkArr2 { a_rows : nat; a_cols : nat; a_at : nat -> nat -> C }.

(** op(X) of BLAS for the codes 0, 1, 2. *)
Inductive trans := NoTrans | Trans | ConjTrans.
Definition op (t : trans) (x : arr2) : arr2 :=
  match t with
  | NoTrans => x
  | Trans => MkArr2 (a_cols x) (a_rows x) (fun i j => a_at x j i)
  | ConjTrans => MkArr2 (a_cols x) (a_rows x) (fun i j => Cconj (a_at x j i))
  end.

(** scipy.linalg.blas.zgemm (double precision): alpha op(a) op(b) + beta c; unequal sizes are
    an error of the wrapper module (ValueError here). *)
Definition blas_zgemm (alpha : C) (a b : arr2) (c : option arr2) (ta tb : trans) (beta : C) : res arr2 :=
  let A := op ta a in
  let B := op tb b in
  if negb (a_cols A =? a_rows B)%nat then Err ValueError else
  let prod i j := Cmult alpha (csum (a_cols A) (fun k => Cmult (a_at A i k) (a_at B k j))) in
  match c with
  | None => Ok (MkArr2 (a_rows A) (a_cols B) prod)
  | Some c =>
      if negb ((a_rows c =? a_rows A) && (a_cols c =? a_cols B))%nat then Err ValueError
      else Ok (MkArr2 (a_rows A) (a_cols B) (fun i j => Cplus (prod i j) (Cmult beta (a_at c i j))))
  end.

(** gemm_wrappers.py 81-110: the returned array; when [out] is given it is also its new content. *)
Definition zgemm_sp (a b : arr2) (ta tb : trans) (alpha : C) (out : option arr2) (beta : C) : res arr2 :=
  let out_ := match out with
              | Some o => Some (MkArr2 (a_rows o) (a_cols o) (fun i j => csingle (a_at o i j)))   (* line 93 *)
              | None => None
              end in
  blas_zgemm alpha a b out_ ta tb beta.

(** lines 76-78, 112-113, 126-129: which routine is returned for an array type; [None] when
    the branches fall through. *)
Inductive array_type := NumpyArray | CupyArray | OtherArray.
Inductive backend := ScipyBlas | CupyBlas.
Definition get_zgemm (cupy_installed : bool) (t : array_type) : res (option backend) :=
  match t with
  | NumpyArray => Ok (Some ScipyBlas)
  | _ => if cupy_installed then Ok (match t with CupyArray => Some CupyBlas | _ => None end)
         else Err NotImplementedError
  end.

(** ksham.py 82-87: one species, all bands.  [vkb.data.T] is (G, projector), [proj.T] is
    (band, projector), [l_hpsi.data.T] is (G, band). *)
Definition of_rows (ng : nat) (rows : list (list C)) : arr2 :=     (* the transpose of a list of rows *)
  MkArr2 ng (length rows) (fun g b => nth g (nth b rows []) (RtoC 0)).
Definition to_rows (m : arr2) : list (list C) :=
  map (fun b => map (fun g => a_at m g b) (seq 0 (a_rows m))) (seq 0 (a_cols m)).
Definition nonlocal_species (ng : nat) (vd : list (list C) * (nat -> nat -> C)) (l_psi l_hpsi : list (list C)) : res (list (list C)) :=
  let '(vkb, dij) := vd in
  let n := length vkb in
  let proj j b := vdot1 (nth j vkb []) (nth b l_psi []) in
  let dproj_T := MkArr2 (length l_psi) n (fun b i => csum n (fun j => Cmult (dij i j) (proj j b))) in
  do m <- zgemm_sp (of_rows ng vkb) dproj_T NoTrans Trans (RtoC 1) (Some (of_rows ng l_hpsi)) (RtoC 1);
  Ok (to_rows m).
Fixpoint nonlocal_all (ng : nat) (l_nloc : list (list (list C) * (nat -> nat -> C))) (l_psi l_hpsi : list (list C)) : res (list (list C)) :=
  match l_nloc with
  | [] => Ok l_hpsi
  | vd :: t => do h <- nonlocal_species ng vd l_psi l_hpsi; nonlocal_all ng t l_psi h
  end.
(** ksham.py 66-87, [h_psi], as KSHamModel.h_psi but with the accumulation of the nonlocal
    terms through the wrapper. *)
Definition h_psi_w (h : ksham) (o : full) (l_psi l_hpsi : list (list C)) : res (full * list (list C)) :=
  do _ <- assert_ (Nat.eqb (length l_psi) (length l_hpsi));
  let hp := map (zip_with Cmult (ke_gk h)) l_psi in
  let '(o1, hp) := local_bands h o l_psi hp in
  do hp <- nonlocal_all (length (gs_cryst (kh_gs h))) (kh_nloc h) l_psi hp;
  Ok (o1, hp).
