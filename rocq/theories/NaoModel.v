(** Model of the numerical atomic orbital basis and of the Slater and Gaussian bases built on it:
    /repo/libhelfemqc/include/{NAORadialBasis,STO,GTO}.h.  Scalars are exact real numbers;
    matrices carry their dimensions, and an Eigen operation whose size assertion would fail gives
    [UB]. *)
Require Import Reals ZArith List Bool Arith.
Require Import Verif.Prelude Verif.FEModel Verif.AngModel Verif.JKModel.
Import ListNotations.
Local Open Scope R_scope.

(* ------------------------------------------------------------------ *)
(** * NAORadialBasis *)

(** What a RadialBasis answers; [r_fem] is what a FEMRadialBasis adds: the layout of its elements
    and its integrals for the bare and the screened interaction. *)
Record fem_part := mkFem { f_layout : layout; f_bare : kernel; f_yukawa : R -> kernel }.
Record radial := mkRadial {
  r_nbf : nat;
  r_overlap : dmat; r_kinetic : dmat; r_kinetic_l : dmat; r_nuclear : dmat;
  r_eval : dmat -> R -> res (list R);
  r_fem : option fem_part
}.
(** The bases that shared pointers lead to. *)
Definition heap := nat -> option radial.
(** NAORadialBasis.h:65-67: the members. *)
Record nao := mkNao { n_ptr : nat; n_C : dmat }.

(** NAORadialBasis.h:72-86: the constructor; None is a null pointer. *)
Definition nao_new (h : heap) (p : option nat) (C : dmat) : res nao :=
  match p with
  | None => Throw LogicError
  | Some a =>
      match h a with
      | None => UB
      | Some u =>
          if negb (drows C =? r_nbf u)%nat then Throw LogicError
          else if (dcols C =? 0)%nat then Throw LogicError
          else Ok (mkNao a C)
      end
  end.
(** NAORadialBasis.h:95-99: from_owned_radial; [a] is the address of the copy. *)
Definition from_owned (h : heap) (a : nat) (u : radial) (C : dmat) : heap * res nao :=
  let h := fun b => if (b =? a)%nat then Some u else h b in
  (h, nao_new h (Some a) C).
(** NAORadialBasis.h:106: Nbf. *)
Definition nao_nbf (b : nao) : nat := dcols (n_C b).
Definition deref (h : heap) (b : nao) : res radial := match h (n_ptr b) with None => UB | Some u => Ok u end.
(** C^T * M * C. *)
Definition congruence (C M : dmat) : res dmat := bind (dprod (dT C) M) (fun A => dprod A C).
(** NAORadialBasis.h:108-126. *)
Definition nao_overlap (h : heap) (b : nao) : res dmat := bind (deref h b) (fun u => congruence (n_C b) (r_overlap u)).
Definition nao_kinetic (h : heap) (b : nao) : res dmat := bind (deref h b) (fun u => congruence (n_C b) (r_kinetic u)).
Definition nao_kinetic_l (h : heap) (b : nao) : res dmat := bind (deref h b) (fun u => congruence (n_C b) (r_kinetic_l u)).
Definition nao_nuclear (h : heap) (b : nao) : res dmat := bind (deref h b) (fun u => congruence (n_C b) (r_nuclear u)).
(** NAORadialBasis.h:131-140: eval_orbs. *)
Definition nao_eval (h : heap) (b : nao) (C_orb : dmat) (r : R) : res (list R) :=
  if negb (drows C_orb =? nao_nbf b)%nat then Throw LogicError
  else bind (deref h b) (fun u => bind (dprod (n_C b) C_orb) (fun Cp => r_eval u Cp r)).

(** NAORadialBasis.h:276-284: underlying_fem_. *)
Definition underlying_fem (h : heap) (b : nao) : res fem_part :=
  bind (deref h b) (fun u => match r_fem u with None => Throw LogicError | Some f => Ok f end).
(** NAORadialBasis.h:248-257: require_shared_fe_. *)
Definition require_shared (h : heap) (b other : nao) : res unit :=
  if negb (n_ptr b =? n_ptr other)%nat then Throw LogicError
  else bind (underlying_fem h b) (fun _ => Ok tt).
(** NAORadialBasis.h:259-270: require_density_shape_. *)
Definition require_shape (other : nao) (D : dmat) : res unit :=
  if (negb (drows D =? nao_nbf other)%nat || negb (dcols D =? nao_nbf other)%nat)%bool then Throw LogicError else Ok tt.
(** other.C_ * D * other.C_^T. *)
Definition promote (other : nao) (D : dmat) : res dmat :=
  bind (dprod (n_C other) D) (fun A => dprod A (dT (n_C other))).

(** NAORadialBasis.h:188-196: coulomb_radial. *)
Definition coulomb_radial (h : heap) (b : nao) (k : nat) (other : nao) (D : dmat) : res dmat :=
  bind (require_shared h b other) (fun _ =>
  bind (require_shape other D) (fun _ =>
  bind (underlying_fem h b) (fun f =>
  bind (promote other D) (fun P =>
  bind (assemble_J_uncached (f_layout f) (f_bare f) k P) (fun J => congruence (n_C b) J))))).
(** NAORadialBasis.h:201-209: exchange_radial. *)
Definition exchange_radial (h : heap) (b : nao) (k : nat) (other : nao) (D : dmat) : res dmat :=
  bind (require_shared h b other) (fun _ =>
  bind (require_shape other D) (fun _ =>
  bind (underlying_fem h b) (fun f =>
  bind (promote other D) (fun P =>
  bind (assemble_K_uncached (f_layout f) (f_bare f) k P) (fun K => congruence (n_C b) K))))).
(** NAORadialBasis.h:215-227: coulomb_radial_yukawa. *)
Definition coulomb_radial_yukawa (h : heap) (b : nao) (k : nat) (lambda : R) (other : nao) (D : dmat) : res dmat :=
  bind (require_shared h b other) (fun _ =>
  bind (require_shape other D) (fun _ =>
  if Rleb lambda 0 then Throw LogicError
  else
  bind (underlying_fem h b) (fun f =>
  bind (promote other D) (fun P =>
  bind (assemble_J_uncached (f_layout f) (f_yukawa f lambda) k P) (fun J => congruence (n_C b) J))))).
(** NAORadialBasis.h:230-242: exchange_radial_yukawa. *)
Definition exchange_radial_yukawa (h : heap) (b : nao) (k : nat) (lambda : R) (other : nao) (D : dmat) : res dmat :=
  bind (require_shared h b other) (fun _ =>
  bind (require_shape other D) (fun _ =>
  if Rleb lambda 0 then Throw LogicError
  else
  bind (underlying_fem h b) (fun f =>
  bind (promote other D) (fun P =>
  bind (assemble_K_uncached (f_layout f) (f_yukawa f lambda) k P) (fun K => congruence (n_C b) K))))).

(* ------------------------------------------------------------------ *)
(** * Slater and Gaussian primitives *)

(** STO.h:41-44, GTO.h:41-44: the power and the exponent. *)
Record prim := mkPrim { p_n : Z; p_exp : R }.
(** STO.h:50-55, GTO.h:47-52. *)
Record contracted := mkContr { c_prims : list prim; c_coef : list R }.

(** STO.h:60-64: primitive_norm (n >= 1 is tested by the caller). *)
Definition sto_norm (p : prim) : R :=
  let n := Z.to_nat (p_n p) in
  let f := fold_left (fun f k => f * INR k) (seq 2 (2 * n - 1)) 1 in
  sqrt ((2 * p_exp p) ^ (2 * n + 1) / f).
(** STO.h:67-75: eval_u.  The lists have the same length (STO.h:130). *)
Definition sto_u (c : contracted) (r : R) : R :=
  fold_left (fun s pc => s + snd pc * sto_norm (fst pc) * r ^ Z.to_nat (p_n (fst pc)) * exp (- p_exp (fst pc) * r))
    (combine (c_prims c) (c_coef c)) 0.

(** GTO.h:57-64: I and primitive_norm; [tgamma] is std::tgamma. *)
Definition gto_I (tgamma : R -> R) (p : nat) (a : R) : R :=
  let half := 1 / 2 * (INR p + 1) in 1 / 2 * tgamma half / Rpower a half.
Definition gto_norm (tgamma : R -> R) (p : prim) : R :=
  1 / sqrt (gto_I tgamma (2 * Z.to_nat (p_n p) + 2) (2 * p_exp p)).
(** GTO.h:66-74: eval_u. *)
Definition gto_u (tgamma : R -> R) (c : contracted) (r : R) : R :=
  fold_left (fun s pc => s + snd pc * gto_norm tgamma (fst pc) * r ^ (Z.to_nat (p_n (fst pc)) + 1) * exp (- p_exp (fst pc) * r * r))
    (combine (c_prims c) (c_coef c)) 0.

(** STO.h:94, GTO.h:89: the doubling of the upper end. *)
Fixpoint grow (fuel : nat) (g : R -> R) (tol hi : R) : res R :=
  if Rltb tol (g hi) then match fuel with O => OutOfFuel | S f => grow f g tol (hi * 2) end else Ok hi.
(** STO.h:95-99, GTO.h:90-94: bisection. *)
Fixpoint bisect (n : nat) (g : R -> R) (tol width lo hi : R) : R :=
  match n with
  | O => hi
  | S n' =>
      let mid := 1 / 2 * (lo + hi) in
      let '(lo, hi) := if Rltb tol (g mid) then (mid, hi) else (lo, mid) in
      if Rltb (hi - lo) width then hi else bisect n' g tol width lo hi
  end.
Definition extent (fuel : nat) (g : R -> R) (tol r_peak hi : R) : res R :=
  bind (grow fuel g tol hi) (fun hi => Ok (bisect 200 g tol (1 / 10 ^ 12 * Rmax 1 r_peak) r_peak hi)).
(** STO.h:86-101: primitive_r_extent. *)
Definition sto_peak (p : prim) : R := IZR (p_n p) / p_exp p.
Definition sto_over_peak (p : prim) (r : R) : R :=
  (r / sto_peak p) ^ Z.to_nat (p_n p) * exp (IZR (p_n p) - p_exp p * r).
Definition sto_extent (fuel : nat) (tol : R) (p : prim) : res R :=
  extent fuel (sto_over_peak p) tol (sto_peak p) (sto_peak p + 200 / p_exp p).
(** GTO.h:79-96: primitive_r_extent. *)
Definition gto_peak (p : prim) : R := sqrt (IZR (p_n p + 1) / (2 * p_exp p)).
Definition gto_over_peak (p : prim) (r : R) : R :=
  (r / gto_peak p) ^ Z.to_nat (p_n p + 1) * exp (p_exp p * (gto_peak p * gto_peak p - r * r)).
Definition gto_extent (fuel : nat) (tol : R) (p : prim) : res R :=
  extent fuel (gto_over_peak p) tol (gto_peak p) (gto_peak p + 20 / sqrt (p_exp p)).

(* ------------------------------------------------------------------ *)
(** * Building the basis *)

(** STO.h:127-139, GTO.h:108-120: the tests; [n0] is the smallest allowed power. *)
Definition bad_prim (n0 : Z) (p : prim) : bool := ((p_n p <? n0)%Z || Rleb (p_exp p) 0)%bool.
Definition bad_contr (n0 : Z) (c : contracted) : bool :=
  ((length (c_prims c) =? 0)%nat || negb (length (c_coef c) =? length (c_prims c))%nat || existsb (bad_prim n0) (c_prims c))%bool.
Definition validate (n0 : Z) (bas : list contracted) : res unit :=
  if (length bas =? 0)%nat then Throw LogicError
  else if existsb (bad_contr n0) bas then Throw LogicError else Ok tt.
(** STO.h:141-144, GTO.h:121-124: the largest extent. *)
Definition r_max (ext : prim -> res R) (bas : list contracted) : res R :=
  fold_res (fun m c => fold_res (fun m p => bind (ext p) (fun e => Ok (Rmax m e))) (c_prims c) m) bas 0.
(** STO.h:147-150, GTO.h:125-128: the element boundaries. *)
Definition boundaries (rmax : R) (nelem : nat) : list R :=
  map (fun k => rmax * (exp (2 * INR k / INR nelem) - 1) / (exp 2 - 1)) (seq 0 (nelem + 1)).

(** FiniteElementBasis.cpp:650-664: vector_element of one element; [bf x i] are the evaluated
    functions. *)
Definition vector_block (mid sf : R) (nq : nat) (xq wq : vec) (bf : R -> nat -> R) (f : R -> R) : vec :=
  fun i => sum nq (fun q => bf (xq q) i * (wq q * sf * f (mid + sf * xq q))).
(** V.segment(first, n) += b. *)
Definition add_segment (first n : nat) (b V : vec) : vec := fun i =>
  if (Nat.leb first i && Nat.ltb i (first + n))%bool then V i + b (i - first)%nat else V i.
(** FiniteElementBasis.cpp:408-424: vector_element. *)
Definition vector_element (b : fe) (nq : nat) (xq wq : vec) (bf : nat -> R -> nat -> R) (f : R -> R) : res vec :=
  fold_res (fun V iel =>
    bind (element_midpoint b iel) (fun mid =>
    bind (scaling_factor b iel) (fun sf =>
    let '(first, n) := elem_range b iel in
    Ok (add_segment first n (vector_block mid sf nq xq wq (bf iel) f) V))))
    (seq 0 (get_nelem b)) (fun _ => 0).

Section Build.
(** Everything the finite element radial basis answers, its evaluated functions, the Chebyshev
    rule, and the solution of a linear system by Eigen::LDLT. *)
Variables (radial_of : fe -> radial) (bf_of : fe -> nat -> R -> nat -> R).
Variables (nq : nat) (xq wq : vec) (ldlt : dmat -> vec -> vec).

Fixpoint each_res {A B} (f : A -> res B) (l : list A) : res (list B) :=
  match l with
  | [] => Ok []
  | x :: l' => bind (f x) (fun y => bind (each_res f l') (fun ys => Ok (y :: ys)))
  end.
(** STO.h:160-175, GTO.h:135-148: the columns of C, one for each function. *)
Definition project (b : fe) (us : list (R -> R)) : res dmat :=
  let S := r_overlap (radial_of b) in
  bind (each_res (fun f => bind (vector_element b nq xq wq (bf_of b) f) (fun be => Ok (ldlt S be))) us) (fun cols =>
  Ok (mkD (drows S) (length us) (fun i k => nth k cols (fun _ => 0) i))).
(** STO.h:145-177, GTO.h:125-150.  A non-positive number of elements gives a division by zero or
    an empty vector and is not modelled; the continuity check of the finite element
    constructor passes for increasing boundaries and is not modelled. *)
Definition build (h : heap) (a : nat) (rmax : R) (us : list (R -> R)) (nelem nnodes : Z) : res (heap * nao) :=
  if (nelem <? 1)%Z then UB
  else
    bind (get_basis 4 nnodes) (fun pb =>
    let b := mkFE (pb_family pb) (Z.to_nat (pb_nnodes pb)) (boundaries rmax (Z.to_nat nelem)) true false true false in
    bind (project b us) (fun C =>
    let '(h, n) := from_owned h a (radial_of b) C in
    bind n (fun n => Ok (h, n)))).
(** STO.h:122-178: make_nao_sto. *)
Definition make_nao_sto (fuel : nat) (h : heap) (a : nat) (bas : list contracted) (tol : R) (nelem nnodes : Z) : res (heap * nao) :=
  bind (validate 1 bas) (fun _ =>
  bind (r_max (sto_extent fuel tol) bas) (fun rmax => build h a rmax (map sto_u bas) nelem nnodes)).
(** GTO.h:103-151: make_nao_gto. *)
Definition make_nao_gto (tgamma : R -> R) (fuel : nat) (h : heap) (a : nat) (bas : list contracted) (tol : R) (nelem nnodes : Z) : res (heap * nao) :=
  bind (validate 0 bas) (fun _ =>
  bind (r_max (gto_extent fuel tol) bas) (fun rmax => build h a rmax (map (gto_u tgamma) bas) nelem nnodes)).
End Build.
