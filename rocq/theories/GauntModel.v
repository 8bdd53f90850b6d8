(** The Gaunt coefficient table: /repo/src/general/gaunt.h and gaunt.cpp.
    Integers are unbounded; the scalar type is the exact reals.  The external
    generator wigner_gaunt<T>::eval is the argument [eval], which like the C++
    function takes doubled angular momenta. *)
Require Import Reals ZArith List Bool.
Require Import Verif.Prelude Verif.AngModel.
Import ListNotations.
Local Open Scope Z_scope.

Notation generator := (Z -> Z -> Z -> Z -> Z -> Z -> R) (only parsing).

(** (M & 1) ? -1 : 1 *)
Definition parity_sign (M : Z) : R := if Z.odd M then (-1)%R else 1%R.

(** gaunt.cpp 78-85: gaunt_coefficient_T(L,M,l,m,lp,mp). *)
Definition gaunt_coefficient (eval : generator) (L M l m lp mp : Z) : R :=
  Rmult (parity_sign M) (eval (2 * L) (-2 * M) (2 * l) (2 * m) (2 * lp) (2 * mp)).

(** gaunt.h: class GauntT.  A vector is its size and its entries; NPOS is
    None. *)
Record gtable := mkG {
  g_Lmax : Z; g_lmax : Z; g_lpmax : Z;
  g_lall : Z; g_mcap : Z; g_mstore : Z;
  g_nbase : Z; g_base : Z -> option Z;
  g_ncoeff : Z; g_coeff : Z -> R }.

Definition zset {A} (f : Z -> A) (k : Z) (v : A) : Z -> A := fun i => if i =? k then v else f i.

Definition zsum {A} (f : A -> Z) (l : list A) : Z := fold_left (fun s x => s + f x) l 0.

(** gaunt.h 79-81 *)
Definition triple_index (lall l1 l2 l3 : Z) : Z := (l1 * (lall + 1) + l2) * (lall + 1) + l3.

(** gaunt.cpp 136-139, 158-161: the loop nest over triples. *)
Definition triples (lall : Z) : list (Z * Z * Z) :=
  flat_map (fun l1 =>
  flat_map (fun l2 =>
  flat_map (fun l3 => if Z.odd (l1 + l2 + l3) then [] else [(l1, l2, l3)])
    (zrange (l1 - l2) (Z.min l2 lall)))
    (zrange (Z.quot (l1 + 1) 2) (Z.min l1 lall)))
    (zrange 0 lall).

Definition m2lo (mstore l2 : Z) : Z := Z.max (- l2) (- mstore).
Definition m2hi (mstore l1 l2 m3 : Z) : Z := Z.min (Z.min (l1 - m3) l2) mstore.

(** gaunt.cpp 178-183 *)
Definition m2_count (mstore l1 l2 l3 m3 : Z) : Z :=
  if m2lo mstore l2 <=? m2hi mstore l1 l2 m3 then m2hi mstore l1 l2 m3 - m2lo mstore l2 + 1 else 0.

(** gaunt.cpp 133-143: the first pass, returning triple_base and total. *)
Definition lay_out (lall mstore : Z) : (Z -> option Z) * Z :=
  fold_left (fun s t =>
    let '(l1, l2, l3) := t in
    (zset (fst s) (triple_index lall l1 l2 l3) (Some (snd s)),
     fold_left (fun total m3 => total + m2_count mstore l1 l2 l3 m3)
       (zrange 0 (Z.min l3 mstore)) (snd s)))
    (triples lall) (fun _ => None, 0).

(** gaunt.cpp 185-199: slot.  [nbase] is triple_base.size(). *)
Definition slot (lall mstore nbase : Z) (base : Z -> option Z) (l1 l2 l3 m3 m2 : Z) : option Z :=
  if (l1 <? 0) || (lall <? l1) || (l2 <? 0) || (l3 <? 0) then None else
  let ti := triple_index lall l1 l2 l3 in
  if nbase <=? ti then None else
  match base ti with
  | None => None
  | Some b =>
    if (m3 <? 0) || (Z.min l3 mstore <? m3) then None else
    if (m2 <? m2lo mstore l2) || (m2hi mstore l1 l2 m3 <? m2) then None else
    Some (fold_left (fun off mm => off + m2_count mstore l1 l2 l3 mm) (zrange 0 (m3 - 1)) b
          + (m2 - m2lo mstore l2))
  end.

(** gaunt.cpp 158-175: the cells visited by the filling loop, (l1,l2,l3,m3,m2). *)
Definition fill_cells (lall mstore : Z) : list (Z * Z * Z * Z * Z) :=
  flat_map (fun t => let '(l1, l2, l3) := t in
  flat_map (fun m3 =>
  flat_map (fun m2 => if l1 <? Z.abs (- m2 - m3) then [] else [(l1, l2, l3, m3, m2)])
    (zrange (m2lo mstore l2) (m2hi mstore l1 l2 m3)))
    (zrange 0 (Z.min l3 mstore)))
    (triples lall).

(** gaunt.cpp 165-174: the body of the filling loop; a store outside the
    vector is UB. The OpenMP loop over l1 is run in order. *)
Definition fill_step (eval : generator) (lall mstore nbase : Z) (base : Z -> option Z) (total : Z)
    (s : res (Z -> R)) (c : Z * Z * Z * Z * Z) : res (Z -> R) :=
  let '(l1, l2, l3, m3, m2) := c in
  bind s (fun co =>
    let m1 := - m2 - m3 in
    match slot lall mstore nbase base l1 l2 l3 m3 m2 with
    | None => Ok co
    | Some at_ =>
      if (0 <=? at_) && (at_ <? total)
      then Ok (zset co at_ (eval (2 * l1) (2 * m1) (2 * l2) (2 * m2) (2 * l3) (2 * m3)))
      else UB
    end).

(** gaunt.cpp 126-176: GauntT(Lmax, lmax, lpmax, mcap). *)
Definition gaunt_table (eval : generator) (Lmax lmax lpmax mcap_ : Z) : res gtable :=
  let lall := Z.max (Z.max Lmax lmax) lpmax in
  let mcap := if mcap_ <? 0 then lall else Z.min mcap_ lall in
  let mstore := Z.min (2 * mcap) lall in
  let nbase := (lall + 1) * (lall + 1) * (lall + 1) in
  let '(base, total) := lay_out lall mstore in
  bind (fold_left (fill_step eval lall mstore nbase base total) (fill_cells lall mstore)
          (Ok (fun _ => 0%R))) (fun co =>
  Ok (mkG Lmax lmax lpmax lall mcap mstore nbase base total co)).

(** gaunt.cpp 243-245: swap_if on one pair of columns. *)
Definition swap_if (a b : Z * Z) : (Z * Z) * (Z * Z) := if fst a <? fst b then (b, a) else (a, b).

(** gaunt.cpp 240-247: the columns sorted by l and negated. *)
Definition canonical (a b c : Z * Z) : (Z * Z) * (Z * Z) * (Z * Z) :=
  let '(a, b) := swap_if a b in
  let '(b, c) := swap_if b c in
  let '(a, b) := swap_if a b in
  if snd c <? 0
  then ((fst a, - snd a), (fst b, - snd b), (fst c, - snd c)) else (a, b, c).

(** gaunt.cpp 201-251: coeff(L, M, l, m, lp).  A read outside the vector is UB. *)
Definition coeff (g : gtable) (L M l m lp : Z) : res R :=
  if (L <? 0) || (g_Lmax g <? L) then Ok 0%R else
  if (l <? 0) || (g_lmax g <? l) then Ok 0%R else
  if (lp <? 0) || (g_lpmax g <? lp) then Ok 0%R else
  if L <? Z.abs M then Ok 0%R else
  if l <? Z.abs m then Ok 0%R else
  if (g_mcap g <? Z.abs M) || (g_mcap g <? Z.abs m) then Throw LogicError else
  let mp := M - m in
  if lp <? Z.abs mp then Ok 0%R else
  let '(c1, c2, c3) := canonical (L, - M) (l, m) (lp, mp) in
  match slot (g_lall g) (g_mstore g) (g_nbase g) (g_base g) (fst c1) (fst c2) (fst c3) (snd c3) (snd c2) with
  | None => Ok 0%R
  | Some at_ =>
    if (0 <=? at_) && (at_ <? g_ncoeff g) then Ok (parity_sign M * g_coeff g at_)%R else UB
  end.

Definition radd (a b : res R) : res R := bind a (fun x => bind b (fun y => Ok (x + y)%R)).
Definition rmul (a b : res R) : res R := bind a (fun x => bind b (fun y => Ok (x * y)%R)).
Definition rscal (c : R) (a : res R) : res R := bind a (fun x => Ok (c * x)%R).

Definition mod_const0 : R := (2 / 3 * sqrt PI)%R.
Definition mod_const2 : R := (4 / 15 * sqrt (5 * PI))%R.

(** gaunt.cpp 91-105: modified_gaunt_coefficient(lj,mj,L,M,li,mi). *)
Definition modified_gaunt_coefficient (eval : generator) (lj mj L M li mi : Z) : R :=
  let g := gaunt_coefficient eval in
  let cpl0 := Rmult (g L M 0 0 L M) (g lj mj li mi L M) in
  let cpl2 := fold_left (fun s Lp => Rplus s (Rmult (g Lp M 2 0 L M) (g lj mj li mi Lp M)))
                (zrange (Z.max (Z.max (L - 2) 0) (Z.abs M)) (L + 2)) 0%R in
  (mod_const0 * cpl0 + mod_const2 * cpl2)%R.

(** gaunt.cpp 253-271: mod_coeff(lj,mj,L,M,li,mi). *)
Definition mod_coeff (g : gtable) (lj mj L M li mi : Z) : res R :=
  if negb (mj =? M + mi) then Ok 0%R else
  let cpl0 := rmul (coeff g L M 0 0 L) (coeff g lj mj li mi L) in
  let cpl2 := fold_left (fun s Lp => radd s (rmul (coeff g Lp M 2 0 L) (coeff g lj mj li mi Lp)))
                (zrange (Z.max (Z.max (L - 2) 0) (Z.abs M)) (L + 2)) (Ok 0%R) in
  radd (rscal mod_const0 cpl0) (rscal mod_const2 cpl2).

(** gaunt.cpp 276-333: the couplings through cos^n and sin^n.  Each is a list of
    (constant, L) terms constant * coeff(lj,mj,L,0,li), added in order. *)
Definition coupling (terms : list (R * Z)) (g : gtable) (lj mj li mi : Z) : res R :=
  if negb (mi =? mj) then Ok 0%R else
  match terms with
  | [] => Ok 0%R
  | (c0, n0) :: rest =>
    fold_left (fun s t => radd s (rscal (fst t) (coeff g lj mj (snd t) 0 li))) rest
      (rscal c0 (coeff g lj mj n0 0 li))
  end.

(** gaunt.cpp 276-281 *)
Definition cos1_terms : list (R * Z) := [((2 * sqrt (PI / 3))%R, 1)].
(** gaunt.cpp 283-289 *)
Definition cos2_terms : list (R * Z) := [((2 / 3 * sqrt PI)%R, 0); ((4 / 15 * sqrt (5 * PI))%R, 2)].
(** gaunt.cpp 291-297 *)
Definition cos3_terms : list (R * Z) := [((2 / 5 * sqrt (3 * PI))%R, 1); ((4 / 35 * sqrt (7 * PI))%R, 3)].
(** gaunt.cpp 299-306 *)
Definition cos4_terms : list (R * Z) :=
  [((2 / 5 * sqrt PI)%R, 0); ((8 / 35 * sqrt (5 * PI))%R, 2); ((16 / 105 * sqrt PI)%R, 4)].
(** gaunt.cpp 308-315 *)
Definition cos5_terms : list (R * Z) :=
  [((2 / 7 * sqrt (3 * PI))%R, 1); ((8 / 63 * sqrt (7 * PI))%R, 3); ((16 / 693 * sqrt (11 * PI))%R, 5)].
(** gaunt.cpp 317-323 *)
Definition sin2_terms : list (R * Z) := [((4 / 3 * sqrt PI)%R, 0); ((-4 / 15 * sqrt (5 * PI))%R, 2)].
(** gaunt.cpp 325-332 *)
Definition cos2_sin2_terms : list (R * Z) :=
  [((4 / 15 * sqrt PI)%R, 0); ((4 / 105 * sqrt (5 * PI))%R, 2); ((-16 / 105 * sqrt PI)%R, 4)].

(* ------------------------------------------------------------------ *)
(** * The tables the basis classes build *)

Definition zmax_list (l : list Z) : Z := match l with [] => 0 | x :: r => fold_left Z.max r x end.
Definition zmin_list (l : list Z) : Z := match l with [] => 0 | x :: r => fold_left Z.min r x end.

(** /repo/src/diatomic/basis.cpp 543-558, 605-641: (lrval, midval, mcap) of the
    table of a diatomic basis with shells sh.  maxCoeff of an empty vector is
    undefined in the code; here the list is assumed non-empty. *)
Definition diatomic_gaunt (sh : list (Z * Z)) (legendre : bool) : Z * Z * Z :=
  let gmax := zmax_list (map fst sh) + 2 in
  let mabs := Z.max (Z.abs (zmax_list (map snd sh))) (Z.abs (zmin_list (map snd sh))) in
  if legendre then
    let Lmax := fold_left (fun Lmax ij =>
      let '((li, mi), (lj, mj)) := ij in
      fold_left Z.max (zrange (Z.max (Z.abs (lj - li) - 2) (Z.abs (mj - mi))) (lj + li + 2)) Lmax)
      (list_prod sh sh) 0 in
    (Z.max (Lmax + 2) gmax, Z.max Lmax 5, 2 * mabs)
  else (gmax, 5, 2 * mabs).

(** /repo/src/atomic/TwoDBasis.cpp 407, 486, 517, 556, 787, 889, 1011 *)
Definition atomic_gmax (sh : list (Z * Z)) : Z := Z.max (zmax_list (map fst sh)) (zmax_list (map snd sh)).
