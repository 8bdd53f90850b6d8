(** Vocabulary for the Gaunt table properties. *)
Require Import Reals ZArith List Bool.
Require Import Verif.Prelude Verif.GauntModel.
Import ListNotations.
Local Open Scope Z_scope.

(** The three angular momenta can couple. *)
Definition triangle (l1 l2 l3 : Z) : Prop := Z.abs (l1 - l2) <= l3 <= l1 + l2.

(** What is assumed of the generator, the integral of a product of three
    spherical harmonics: columns commute, all m may be negated together, and
    it vanishes unless the l form a triangle with an even sum. *)
Definition generator_ok (eval : generator) : Prop :=
  (forall l1 m1 l2 m2 l3 m3, eval l1 m1 l2 m2 l3 m3 = eval l2 m2 l1 m1 l3 m3) /\
  (forall l1 m1 l2 m2 l3 m3, eval l1 m1 l2 m2 l3 m3 = eval l1 m1 l3 m3 l2 m2) /\
  (forall l1 m1 l2 m2 l3 m3, eval l1 m1 l2 m2 l3 m3 = eval l1 (- m1) l2 (- m2) l3 (- m3)) /\
  (forall l1 m1 l2 m2 l3 m3, ~ triangle l1 l2 l3 \/ Z.odd (l1 + l2 + l3) = true ->
     eval (2 * l1) (2 * m1) (2 * l2) (2 * m2) (2 * l3) (2 * m3) = 0%R).

(** The three maxima the table is built for contain the query. *)
Definition in_range (Lmax lmax lpmax L l lp : Z) : Prop :=
  0 <= L <= Lmax /\ 0 <= l <= lmax /\ 0 <= lp <= lpmax.

(** The bound on |M| and |m|: the requested cap, or none. *)
Definition within_cap (Lmax lmax lpmax mcap M m : Z) : Prop :=
  mcap < 0 \/ (Z.abs M <= mcap /\ Z.abs m <= mcap).

(** The spherical harmonic Y_l^0 at cos(theta) = x, for l <= 5. *)
Definition legendre (l : Z) (x : R) : R :=
  match l with
  | 0 => 1
  | 1 => x
  | 2 => (3 * x ^ 2 - 1) / 2
  | 3 => (5 * x ^ 3 - 3 * x) / 2
  | 4 => (35 * x ^ 4 - 30 * x ^ 2 + 3) / 8
  | 5 => (63 * x ^ 5 - 70 * x ^ 3 + 15 * x) / 8
  | _ => 0
  end%R.
Definition Yl0 (l : Z) (x : R) : R := (sqrt ((2 * IZR l + 1) / (4 * PI)) * legendre l x)%R.

(** sum of c * Y_L^0 over the terms of a coupling. *)
Definition expansion (terms : list (R * Z)) (x : R) : R := lsum terms (fun t => (fst t * Yl0 (snd t) x)%R).

(** The same terms with the exact coefficients. *)
Definition exact_coupling (eval : generator) (terms : list (R * Z)) (lj mj li mi : Z) : R :=
  lsum terms (fun t => (fst t * gaunt_coefficient eval lj mj (snd t) 0 li mi)%R).

(** Shells (l, m) with |m| <= l. *)
Definition shells_ok (sh : list (Z * Z)) : Prop :=
  sh <> [] /\ forall l m, In (l, m) sh -> Z.abs m <= l.

(** Every admissible query of the table is answered with the exact coefficient. *)
Definition exact_in (eval : generator) (g : gtable) (Lmax lmax lpmax mcap : Z) : Prop :=
  forall L M l m lp, in_range Lmax lmax lpmax L l lp -> Z.abs M <= L -> Z.abs m <= l ->
     within_cap Lmax lmax lpmax mcap M m -> Z.abs (M - m) <= lp ->
     coeff g L M l m lp = Ok (gaunt_coefficient eval L M l m lp (M - m)).

(** The couplings used for one-electron operators. *)
Definition one_electron (terms : list (R * Z)) : Prop :=
  In terms [cos1_terms; cos2_terms; cos3_terms; cos4_terms; cos5_terms; sin2_terms; cos2_sin2_terms].
