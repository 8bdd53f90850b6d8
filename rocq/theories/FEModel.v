(** Model of the primitive polynomial families, the factory that selects them
    and the finite element basis built from them. *)
Require Import Reals ZArith List Bool Arith Lia.
Require Import Verif.Prelude.
Import ListNotations.

(* ------------------------------------------------------------------ *)
(** * Primitive families *)

(** The concrete subclasses of PolynomialBasisT: libhelfem/include/LegendreBasis.h,
    LIPBasis.h, HIPBasis.h, HIP2Basis.h, HIP3Basis.h. *)
Inductive family := Legendre | LIP | HIP | HIP2 | HIP3.

(** noverlap set by the constructors: LegendreBasis.h:62, LIPBasis.h:50,
    HIPBasis.h:38, HIP2Basis.h:49, HIP3Basis.h:45. *)
Definition noverlap (f : family) : nat :=
  match f with Legendre => 1 | LIP => 1 | HIP => 2 | HIP2 => 3 | HIP3 => 4 end.

(** nprim set by the constructors for n nodes (same places). *)
Definition nprim (f : family) (n : nat) : nat :=
  match f with
  | Legendre => n | LIP => n | HIP => 2 * n | HIP2 => 3 * n | HIP3 => 4 * n
  end.

(** enabled after construction: IVec::LinSpaced(nprim, 0, nprim-1). *)
Definition all_enabled (f : family) (n : nat) : list nat := seq 0 (nprim f n).

Local Notation size l := (Z.of_nat (length l)).

(** LIPBasis.h:63-67 and LegendreBasis.h:75-79: drop_first. *)
Definition drop_first_lip (func : bool) (en : list nat) : res (list nat) :=
  if func then segment 1 (size en - 1) en else Ok en.
(** LIPBasis.h:68-72 and LegendreBasis.h:80-84: drop_last. *)
Definition drop_last_lip (func : bool) (en : list nat) : res (list nat) :=
  if func then segment 0 (size en - 1) en else Ok en.

(** HIPBasis.h:55-67: drop_first. *)
Definition drop_first_hip (func deriv : bool) (en : list nat) : res (list nat) :=
  if func && deriv then segment 2 (size en - 2) en
  else if func then segment 1 (size en - 1) en
  else if deriv then
    bind (at_ en 0) (fun e0 =>
    bind (segment 2 (size en - 2) en) (fun rest => Ok (e0 :: rest)))
  else Ok en.

(** HIPBasis.h:69-81: drop_last.  The last branch has no condition of its own. *)
Definition drop_last_hip (func deriv : bool) (en : list nat) : res (list nat) :=
  if func && deriv then segment 0 (size en - 2) en
  else if deriv then segment 0 (size en - 1) en
  else
    bind (segment 0 (size en - 2) en) (fun head =>
    bind (at_ en (size en - 1)) (fun e => Ok (head ++ [e]))).

(** HIP2Basis.h:81-92 (k = 3) and HIP3Basis.h:77-88 (k = 4): drop_first. *)
Definition drop_first_hipk (k : Z) (func deriv : bool) (en : list nat) : res (list nat) :=
  bind (segment 0 k en) (fun first =>
  bind (segment k (size en - k) en) (fun rest =>
  Ok ((if func then [] else firstn 1 first)
      ++ (if deriv then [] else skipn 1 first) ++ rest))).

(** HIP2Basis.h:94-107 (k = 3) and HIP3Basis.h:90-103 (k = 4): drop_last. *)
Definition drop_last_hipk (k : Z) (func deriv : bool) (en : list nat) : res (list nat) :=
  bind (segment 0 (size en - k) en) (fun head =>
  bind (segment (size en - k) k en) (fun last =>
  Ok (head ++ (if func then [] else firstn 1 last)
           ++ (if deriv then [] else skipn 1 last)))).

(** Virtual dispatch of drop_first / drop_last. *)
Definition drop_first (f : family) (func deriv : bool) (en : list nat) : res (list nat) :=
  match f with
  | Legendre | LIP => drop_first_lip func en
  | HIP => drop_first_hip func deriv en
  | HIP2 => drop_first_hipk 3 func deriv en
  | HIP3 => drop_first_hipk 4 func deriv en
  end.
Definition drop_last (f : family) (func deriv : bool) (en : list nat) : res (list nat) :=
  match f with
  | Legendre | LIP => drop_last_lip func en
  | HIP => drop_last_hip func deriv en
  | HIP2 => drop_last_hipk 3 func deriv en
  | HIP3 => drop_last_hipk 4 func deriv en
  end.

(* ------------------------------------------------------------------ *)
(** * Factory *)

(** Node sets used by the factory. *)
Inductive nodeset := NoNodes | GaussLobatto | ChebyshevNodes.

(** What the factory returns: the family, its nodes, and the two numbers the
    basis reports through get_id() and get_nnodes(). *)
Record polybasis := mkPoly {
  pb_family : family;
  pb_nodes : nodeset;
  pb_id : Z;
  pb_nnodes : Z
}.

(** libhelfem/src/PolynomialBasis.cpp:32-141: get_basis(primbas, Nnodes).
    The construction of the Gauss-Lobatto nodes is not modelled here. *)
Definition get_basis (primbas Nnodes : Z) : res polybasis :=
  if (Nnodes <? 2)%Z then Throw LogicError
  else match primbas with
  | 0 | 1 | 2 => Throw RuntimeError
  | 3 => Ok (mkPoly Legendre NoNodes primbas Nnodes)
  | 4 => Ok (mkPoly LIP GaussLobatto primbas Nnodes)
  | 5 => Ok (mkPoly HIP GaussLobatto primbas Nnodes)
  | 100 => Ok (mkPoly LIP ChebyshevNodes 4 Nnodes)
  | 101 => Ok (mkPoly HIP ChebyshevNodes 5 Nnodes)
  | 8 => Ok (mkPoly HIP2 GaussLobatto primbas Nnodes)
  | 9 => Ok (mkPoly HIP3 GaussLobatto primbas Nnodes)
  | 6 | 7 | 10 | 11 => Throw RuntimeError
  | _ => Throw LogicError
  end%Z.

(** libhelfem/include/PolynomialBasis.h:53-89: get_basis_T(primbas, Nnodes). *)
Definition get_basis_T (primbas Nnodes : Z) : res polybasis :=
  if (Nnodes <? 2)%Z then Throw LogicError
  else match primbas with
  | 3 => Ok (mkPoly Legendre NoNodes primbas Nnodes)
  | 4 => Ok (mkPoly LIP GaussLobatto primbas Nnodes)
  | 5 => Ok (mkPoly HIP GaussLobatto primbas Nnodes)
  | 8 => Ok (mkPoly HIP2 GaussLobatto primbas Nnodes)
  | 9 => Ok (mkPoly HIP3 GaussLobatto primbas Nnodes)
  | _ => Throw LogicError
  end%Z.

(* ------------------------------------------------------------------ *)
(** * Finite element basis *)

(** The data members of FiniteElementBasisT that determine its behaviour
    (libhelfem/include/FiniteElementBasis.h): primitive family and node count,
    element boundaries, boundary-condition flags.  The arrays
    first/last_func_in_element are recomputed from these by update_bf_list. *)
Record fe := mkFE {
  fe_fam : family;
  fe_n : nat;
  fe_bval : list R;
  fe_zfl : bool; fe_zdl : bool;
  fe_zfr : bool; fe_zdr : bool
}.

(** FiniteElementBasis.cpp:323-325: get_nelem (for a non-empty bval). *)
Definition get_nelem (b : fe) : nat := length (fe_bval b) - 1.

(** FiniteElementBasis.cpp:297-313: basis_indices(iel) through get_basis(iel). *)
Definition basis_indices (b : fe) (iel : nat) : res (list nat) :=
  bind (if Nat.eqb iel 0
        then drop_first (fe_fam b) (fe_zfl b) (fe_zdl b) (all_enabled (fe_fam b) (fe_n b))
        else Ok (all_enabled (fe_fam b) (fe_n b))) (fun en =>
  if Nat.eqb (iel + 2) (length (fe_bval b))
  then drop_last (fe_fam b) (fe_zfr b) (fe_zdr b) en
  else Ok en).

(** FiniteElementBasis.cpp:59-63: the loop of update_bf_list.  [prev] is
    last_func_in_element(iel-1), absent for iel = 0. *)
Fixpoint bf_loop (b : fe) (prev : option Z) (els : list nat) : res (list (Z * Z)) :=
  match els with
  | [] => Ok []
  | iel :: els' =>
    let first := match prev with
                 | None => 0
                 | Some l => l - Z.of_nat (noverlap (fe_fam b)) + 1
                 end%Z in
    bind (basis_indices b iel) (fun en =>
    let last := (first + Z.of_nat (length en) - 1)%Z in
    bind (bf_loop b (Some last) els') (fun rest => Ok ((first, last) :: rest)))
  end.

(** FiniteElementBasis.cpp:52-64: update_bf_list; the list holds
    (first_func_in_element, last_func_in_element). *)
Definition update_bf_list (b : fe) : res (list (Z * Z)) :=
  match fe_bval b with
  | [] => Throw LogicError
  | _ => bf_loop b None (seq 0 (get_nelem b))
  end.

(** FiniteElementBasis.cpp:158-161: get_idx(iel, ifirst, ilast). *)
Definition get_idx (b : fe) (iel : nat) : res (Z * Z) :=
  bind (update_bf_list b) (fun l => at_ l (Z.of_nat iel)).

(** FiniteElementBasis.cpp:316-320: get_nbf. *)
Definition get_nbf (b : fe) : res Z :=
  bind (update_bf_list b) (fun l =>
  match l with
  | [] => Throw LogicError
  | _ => Ok (snd (last l (0, 0)) + 1)%Z
  end).

(** FiniteElementBasis.cpp:199-216, 189-196: element_begin, element_end, element_length.
    An element outside the basis throws. *)
Definition element_begin (b : fe) (iel : nat) : res R :=
  if Nat.leb (get_nelem b) iel then Throw LogicError
  else at_ (fe_bval b) (Z.of_nat iel).
Definition element_end (b : fe) (iel : nat) : res R :=
  if Nat.leb (get_nelem b) iel then Throw LogicError
  else at_ (fe_bval b) (Z.of_nat (iel + 1)).
Definition element_length (b : fe) (iel : nat) : res R :=
  if Nat.leb (get_nelem b) iel then Throw LogicError
  else bind (at_ (fe_bval b) (Z.of_nat (iel + 1))) (fun e =>
       bind (at_ (fe_bval b) (Z.of_nat iel)) (fun s => Ok (e - s)%R)).

(** FiniteElementBasis.cpp:183-186: scaling_factor. *)
Definition scaling_factor (b : fe) (iel : nat) : res R :=
  bind (element_length b iel) (fun l => Ok (l / 2)%R).
(** FiniteElementBasis.cpp:219-221: element_midpoint. *)
Definition element_midpoint (b : fe) (iel : nat) : res R :=
  bind (element_begin b iel) (fun s =>
  bind (element_end b iel) (fun e => Ok (/ 2 * (s + e))%R)).

(** FiniteElementBasis.cpp:235-243: the bisection loop of find_element, on fuel. *)
Fixpoint find_loop (b : fe) (x : fp) (left right fuel : nat) : res nat :=
  match fuel with
  | O => OutOfFuel
  | S fuel' =>
    let middle := Nat.div (right + left) 2 in
    bind (element_begin b middle) (fun s =>
    bind (element_end b middle) (fun e =>
    if fleb (Fin s) x && fleb x (Fin e) then Ok middle
    else if fltb x (Fin s) then find_loop b x left middle fuel'
    else find_loop b x middle right fuel'))
  end.

(** FiniteElementBasis.cpp:224-244: find_element.  For an empty bval get_nelem()
    wraps around to SIZE_MAX and bval(1) is read out of range. *)
Definition find_element (b : fe) (x : fp) (fuel : nat) : res nat :=
  match fe_bval b with
  | [] => UB
  | _ =>
    bind (element_end b 0) (fun e0 =>
    if fleb x (Fin e0) then Ok 0%nat
    else bind (element_begin b (get_nelem b - 1)) (fun sl =>
    if fleb (Fin sl) x then Ok (get_nelem b - 1)%nat
    else find_loop b x 0 (get_nelem b - 1) fuel))
  end.

(** FiniteElementBasis.cpp:164-177: add_boundary (finite r); the function lists
    are recomputed from the new boundaries. *)
Definition add_boundary (b : fe) (r : R) : fe :=
  if existsb (fun v => Reqb v r) (fe_bval b) then b
  else mkFE (fe_fam b) (fe_n b) (sortR (fe_bval b ++ [r]))
            (fe_zfl b) (fe_zdl b) (fe_zfr b) (fe_zdr b).

(** FiniteElementBasis.cpp:258-260: eval_coord(x, iel). *)
Definition eval_coord (b : fe) (x : R) (iel : nat) : res R :=
  bind (element_midpoint b iel) (fun m =>
  bind (scaling_factor b iel) (fun s => Ok (m + s * x)%R)).

(** FiniteElementBasis.cpp:279-284: eval_prim(y, iel), here for one coordinate:
    the vector version tests the smallest and the largest of them. *)
Definition eval_prim (b : fe) (y : R) (iel : nat) : res R :=
  bind (element_begin b iel) (fun s =>
  bind (element_end b iel) (fun e =>
  if Rltb y s || Rltb e y then Throw LogicError
  else bind (element_midpoint b iel) (fun m =>
       bind (scaling_factor b iel) (fun f => Ok ((y - m) / f)%R)))).

(* ------------------------------------------------------------------ *)
(** * Assembly *)

(** M.block(first, first, n, n) += B for one element, on function matrices. *)
Definition add_block (first n : nat) (B M : mat) : mat := fun i j =>
  if (Nat.leb first i && Nat.ltb i (first + n) && (Nat.leb first j && Nat.ltb j (first + n)))%bool
  then (M i j + B (i - first)%nat (j - first)%nat)%R else M i j.

(** FiniteElementBasis.cpp:396-404 and src/general/radial_block_helper.h:46-54:
    the element blocks are added one after the other, in the order [els], into
    a zero matrix.  [idx iel] is (ifirst, number of functions). *)
Definition assemble (idx : nat -> nat * nat) (blk : nat -> mat) (els : list nat) : mat :=
  fold_left (fun M iel => add_block (fst (idx iel)) (snd (idx iel)) (blk iel) M) els mzero.

(** The index ranges of get_idx as natural numbers, for assembly. *)
Definition elem_range (b : fe) (iel : nat) : nat * nat :=
  match get_idx b iel with
  | Ok (f, l) => (Z.to_nat f, Z.to_nat (l - f + 1))
  | _ => (0, 0)
  end.

(** FiniteElementBasis.cpp:386-405: matrix_element for given element blocks. *)
Definition matrix_element (b : fe) (blk : nat -> mat) : mat :=
  assemble (elem_range b) blk (seq 0 (get_nelem b)).

(** FiniteElementBasis.cpp:441-479: one element block on [x_left, x_right] for
    quadrature points xq, weights wq (length nq), a weight function that may be
    non-finite ([None]), and the two evaluated function tables. *)
Definition element_block (mid sf : R) (x_left x_right : R) (nq : nat) (xq wq : vec)
    (f : R -> option R) (lh rh : R -> nat -> R) : mat :=
  let a := ((x_right - x_left) / 2)%R in
  let c := ((x_right + x_left) / 2)%R in
  fun i j => sum nq (fun q =>
    let x := (a * xq q + c)%R in
    let wp := match f (mid + sf * x)%R with
              | Some fv => (wq q * sf * a * fv)%R
              | None => 0%R
              end in
    (lh x i * wp * rh x j)%R).
