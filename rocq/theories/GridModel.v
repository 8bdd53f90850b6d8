(** Model of the radial grid constructors:
    /repo/libhelfem/include/grid.h and /repo/src/atomic/basis.cpp.
    Scalars are exact real numbers. *)
Require Import Reals ZArith List Bool.
Require Import Verif.Prelude.
Import ListNotations.
Local Open Scope R_scope.

(** std::pow(x, z) for x >= 0 and real z.  Simplification: for x = 0 and z < 0
    C++ gives +infinity; the model gives 0.  get_grid evaluates that only for
    its first entry, which it overwrites afterwards. *)
Definition rpow (x z : R) : R :=
  if Reqb x 0 then (if Reqb z 0 then 1 else 0) else Rpower x z.

(** Eigen's Vec::LinSpaced(n, lo, hi): n values, a single one is hi. *)
Definition lin_spaced (n : nat) (lo hi : R) : list R :=
  if Nat.eqb n 1 then [hi]
  else map (fun i => lo + INR i * ((hi - lo) / INR (n - 1))) (seq 0 n).

(** v(i) = x, undefined outside the vector. *)
Fixpoint set_nth (i : nat) (x : R) (l : list R) : list R :=
  match l, i with
  | nil, _ => nil
  | _ :: l', O => x :: l'
  | a :: l', S i' => a :: set_nth i' x l'
  end.
Definition put (i : Z) (x : R) (l : list R) : res (list R) :=
  if ((0 <=? i) && (i <? Z.of_nat (length l)))%Z then Ok (set_nth (Z.to_nat i) x l) else UB.

(** grid.h 43-47 *)
Definition linear_values (rmax : R) (n : nat) : list R := lin_spaced (n + 1) 0 rmax.
(** grid.h 48-55 *)
Definition quadratic_values (rmax : R) (n : nat) : list R :=
  let inv_n2 := 1 / (INR n * INR n) in
  map (fun i => INR i * INR i * rmax * inv_n2) (seq 0 (n + 1)).
(** grid.h 56-65 *)
Definition polynomial_values (rmax : R) (n : nat) (zexp : R) : list R :=
  let inv_n := 1 / INR n in
  map (fun i => rmax * rpow (INR i * inv_n) zexp) (seq 0 (n + 1)).
(** grid.h 66-76 *)
Definition exponential_values (rmax : R) (n : nat) (zexp : R) : list R :=
  let upper := rpow (ln (rmax + 1)) (1 / zexp) in
  map (fun t => exp (rpow t zexp) - 1) (lin_spaced (n + 1) 0 upper).

(** grid.h 84-87: the element lengths, filled from the last one down. *)
Fixpoint geometric_lengths (k : nat) (zexp : R) (hk : list R) : list R :=
  match k with
  | O => hk
  | S k' => geometric_lengths k' zexp (zexp * hd 0 hk :: hk)
  end.
(** grid.h 88-90: bval(iel+1) = bval(iel) + hk(iel). *)
Fixpoint accumulate (b : R) (hk : list R) : list R :=
  match hk with
  | nil => [b]
  | h :: hk' => b :: accumulate (b + h) hk'
  end.
(** grid.h 77-92 *)
Definition geometric_values (rmax : R) (n : nat) (zexp : R) : res (list R) :=
  if Rleb zexp 0 || Rleb 1 zexp then Throw LogicError
  else match n with
       | O => UB                          (* hk(num_el - 1) with no element *)
       | S n' =>
         let last := (1 - zexp) / (1 - zexp ^ n) * rmax in
         Ok (accumulate 0 (geometric_lengths n' zexp [last]))
       end.

(** grid.h 38-101.  A negative element count asks Eigen for a vector of
    non-positive size, whose entries do not exist. *)
Definition get_grid (rmax : R) (num_el : Z) (igrid : Z) (zexp : R) : res (list R) :=
  let values :=
    if (num_el <? 0)%Z then
      (if ((1 <=? igrid) && (igrid <=? 4))%Z then UB
       else if (igrid =? 5)%Z
            then (if Rleb zexp 0 || Rleb 1 zexp then Throw LogicError else UB)
            else Throw LogicError)
    else
      let n := Z.to_nat num_el in
      if (igrid =? 1)%Z then Ok (linear_values rmax n)
      else if (igrid =? 2)%Z then Ok (quadratic_values rmax n)
      else if (igrid =? 3)%Z then Ok (polynomial_values rmax n zexp)
      else if (igrid =? 4)%Z then Ok (exponential_values rmax n zexp)
      else if (igrid =? 5)%Z then geometric_values rmax n zexp
      else Throw LogicError in
  bind values (fun bval =>
  bind (put 0 0 bval) (fun bval =>
  put (Z.of_nat (length bval) - 1) rmax bval)).

(** src/atomic/basis.cpp 35-51 *)
Definition concatenate_grid (left right : list R) : res (list R) :=
  match left, right with
  | nil, _ => Ok right
  | _, nil => Ok left
  | l0 :: _, r0 :: rtail =>
    if negb (Reqb l0 0) then Throw LogicError
    else if negb (Reqb r0 0) then Throw LogicError
    else Ok (left ++ map (fun r => r + last left 0) rtail)
  end.

(** src/atomic/basis.cpp 53-55 *)
Definition normal_grid (num_el : Z) (rmax : R) (igrid : Z) (zexp : R) : res (list R) :=
  get_grid rmax num_el igrid zexp.

(** src/atomic/basis.cpp 57-69 *)
Definition finite_nuclear_grid (num_el : Z) (rmax : R) (igrid : Z) (zexp : R)
    (num_el_nuc : Z) (rnuc : R) (igrid_nuc : Z) (zexp_nuc : R) : res (list R) :=
  if negb (num_el_nuc =? 0)%Z then
    bind (get_grid rnuc num_el_nuc igrid_nuc zexp_nuc) (fun bnuc =>
    bind (get_grid (rmax - rnuc) num_el igrid zexp) (fun belec =>
    bind (concatenate_grid bnuc bnuc) (fun bnucel =>
    concatenate_grid bnucel belec)))
  else get_grid rmax num_el igrid zexp.

(** src/atomic/basis.cpp 91-101: the reversed grid from b0 to b1. *)
Definition reversed_grid (d : R) (num_el0 : Z) (igrid : Z) (zexp : R) : res (list R) :=
  bind (get_grid d num_el0 igrid zexp) (fun b1grid =>
  let bval1 := map (fun x => - x + d) (rev b1grid) in
  bind (put 0 0 bval1) (fun bval1 =>
  put (Z.of_nat (length bval1) - 1) d bval1)).

(** src/atomic/basis.cpp 71-119.  Simplification: Zm + Zlr = 0 divides by zero
    in C++ (infinity or NaN); the model calls that undefined. *)
Definition offcenter_nuclear_grid (num_el0 : Z) (Zm Zlr : Z) (Rhalf : R) (num_el : Z)
    (rmax : R) (igrid : Z) (zexp : R) : res (list R) :=
  if (Zm + Zlr =? 0)%Z then UB else
  let b0used := negb (Zm =? 0)%Z in
  let b0 := IZR Zm * Rhalf / IZR (Zm + Zlr) in
  let b1used := negb (Zlr =? 0)%Z in
  let b1 := Rhalf in
  let b2 := rmax in
  bind (if b0used then get_grid b0 num_el0 igrid zexp else Ok nil) (fun bval0 =>
  bind (if b1used then reversed_grid (b1 - b0) num_el0 igrid zexp else Ok nil) (fun bval1 =>
  bind (get_grid (b2 - b1) num_el igrid zexp) (fun bval2 =>
  bind (if b0used && b1used then concatenate_grid bval0 bval1
        else if b0used then Ok bval0
        else if b1used then Ok bval1 else Ok nil) (fun bval =>
  if b0used || b1used then concatenate_grid bval bval2 else Ok bval2)))).

(** src/general/model_potential.h 16-23 *)
Inductive nuclear_model :=
  POINT_NUCLEUS | GAUSSIAN_NUCLEUS | SPHERICAL_NUCLEUS | HOLLOW_NUCLEUS
| REGULARIZED_NUCLEUS | NOSUCH_NUCLEUS.

(** src/atomic/basis.cpp 134-142 *)
Definition nuclear_radius (model : nuclear_model) (Rrms : R) : res R :=
  match model with
  | HOLLOW_NUCLEUS => Ok Rrms
  | SPHERICAL_NUCLEUS => Ok (sqrt (5 / 3) * Rrms)
  | GAUSSIAN_NUCLEUS => Ok (3 * Rrms)
  | _ => Throw LogicError
  end.

(** src/atomic/basis.cpp 155-171 *)
Definition add_element (bval : list R) (add_el : bool) (shift_conf : R) : list R :=
  if add_el then
    if existsb (fun v => Reqb v shift_conf) bval then bval
    else sortR (bval ++ [shift_conf])
  else bval.

(** src/atomic/basis.cpp 125-177; the shorter overload (121-123) passes
    add_el = false. *)
Definition form_grid (model : nuclear_model) (Rrms : R) (Nelem : Z) (Rmax : R) (igrid : Z)
    (zexp : R) (Nelem0 : Z) (igrid0 : Z) (zexp0 : R) (Z_ Zl Zr : Z) (Rhalf : R)
    (add_el : bool) (shift_conf : R) : res (list R) :=
  let offcenter := negb (Zl =? 0)%Z || negb (Zr =? 0)%Z in
  let pointlike := match model with POINT_NUCLEUS | REGULARIZED_NUCLEUS => true | _ => false end in
  bind (if negb pointlike then
          if offcenter then Throw LogicError
          else bind (nuclear_radius model Rrms) (fun rnuc =>
               finite_nuclear_grid Nelem Rmax igrid zexp Nelem0 rnuc igrid0 zexp0)
        else if offcenter then
          offcenter_nuclear_grid Nelem0 Z_ (Z.max Zl Zr) Rhalf Nelem Rmax igrid zexp
        else normal_grid Nelem Rmax igrid zexp) (fun bval =>
  Ok (add_element bval add_el shift_conf)).
