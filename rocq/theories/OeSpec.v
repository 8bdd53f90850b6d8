(** Vocabulary for the one-electron matrices. *)
Require Import Reals ZArith List Bool Arith Permutation.
Require Import Verif.Prelude Verif.AngModel Verif.JKModel Verif.JKSpec Verif.GauntModel Verif.GauntSpec Verif.TwoDModel Verif.TwoDSpec
  Verif.DiaModel Verif.DiaSpec Verif.OeModel.
Import ListNotations.
Local Open Scope R_scope.

(* ------------------------------------------------------------------ *)
(** * Integrals *)

Definition polynomial (h : R -> R) : Prop := exists c : list R, forall x, h x = fold_right (fun a s => a + x * s) 0 c.

(** The Legendre polynomial of degree n, by Bonnet's recurrence, and the spherical
    harmonic Y_n^0 at cos(theta) = x. *)
Fixpoint leg2 (n : nat) (x : R) : R * R :=
  match n with
  | O => (1, x)
  | S k => let '(p, q) := leg2 k x in (q, ((2 * INR k + 3) * x * q - (INR k + 1) * p) / (INR k + 2))
  end.
Definition P_ (n : nat) (x : R) : R := fst (leg2 n x).
Definition Y_ (n : nat) (x : R) : R := sqrt ((2 * INR n + 1) / (4 * PI)) * P_ n x.

(** The integral over the sphere of conj(Y_li^mi) h(cos theta) Y_lj^mj: linear on
    polynomials, a Gaunt coefficient for h = Y_L^0, and orthonormality for h = 1. *)
Definition angular_integral (eval : generator) (li mi lj mj : Z) (ang : (R -> R) -> R) : Prop :=
  (forall terms f, (forall c h, In (c, h) terms -> polynomial h) ->
     (forall x, -1 <= x <= 1 -> f x = lsum terms (fun t => fst t * snd t x)) ->
     ang f = lsum terms (fun t => fst t * ang (snd t))) /\
  (forall L, ang (Y_ L) = if (mi =? mj)%Z then gaunt_coefficient eval lj mj (Z.of_nat L) 0 li mi else 0) /\
  ang (fun _ => 1) = if ((li =? lj) && (mi =? mj))%bool%Z then 1 else 0.

(** The integral E of a function of two coordinates, r > 0 and -1 <= x <= 1, is the
    product of the integrals over each for sums of products of a radial function in
    [okr] and a polynomial. *)
Definition separates (okr : (R -> R) -> Prop) (rad ang : (R -> R) -> R) (E : (R -> R -> R) -> R) : Prop :=
  forall (terms : list (R * ((R -> R) * (R -> R)))) f,
  (forall c g h, In (c, (g, h)) terms -> okr g /\ polynomial h) ->
  (forall r x, 0 < r -> -1 <= x <= 1 -> f r x = lsum terms (fun t => fst t * (fst (snd t) r * snd (snd t) x))) ->
  E f = lsum terms (fun t => fst t * (rad (fst (snd t)) * ang (snd (snd t)))).

(** The integrals of functions of the coordinates between function a of shell i of
    one basis and function c of shell j of another, as products of radial and angular
    integrals. *)
Definition integral_of := nat -> nat -> nat -> nat -> (R -> R -> R) -> R.
Definition one_electron_integrals (eval : generator) (sh sh' : list (Z * Z)) (N N' : nat)
    (okr : (R -> R) -> Prop) (rad : nat -> nat -> (R -> R) -> R) (E : integral_of) : Prop :=
  forall i j, (i < length sh)%nat -> (j < length sh')%nat ->
  exists ang, angular_integral eval (l_of sh i) (m_of sh i) (l_of sh' j) (m_of sh' j) ang /\
  forall a c, (a < N)%nat -> (c < N')%nat -> separates okr (rad a c) ang (E i a j c).

(** An r x c matrix with the given entries. *)
Definition is_dmat (r : res dmat) (n m : nat) (f : mat) : Prop :=
  exists M, r = Ok M /\ drows M = n /\ dcols M = m /\
  forall a c, (a < n)%nat -> (c < m)%nat -> dent M a c = f a c.

(** The matrices of the elements add up to the integrals of g. *)
Definition radial_sum (lay : layout) (blk : nat -> mat) (a c : nat) : R :=
  sum (lnel lay) (fun e => if (inside lay e a && inside lay e c)%bool then blk e (local lay e a) (local lay e c) else 0).
Definition adds_up (lay : layout) (acc : nat -> res dmat) (f : mat) : Prop :=
  exists blk, (forall e, (e < lnel lay)%nat -> supplies acc e (count_of lay e) (count_of lay e) (blk e)) /\
  forall a c, (a < lnbf lay)%nat -> (c < lnbf lay)%nat -> radial_sum lay blk a c = f a c.

(* ------------------------------------------------------------------ *)
(** * The atomic basis *)

Definition same_shell (sh : list (Z * Z)) (sh' : list (Z * Z)) (i j : nat) : bool :=
  ((l_of sh i =? l_of sh' j) && (m_of sh i =? m_of sh' j))%bool%Z.

Definition aone_ok (b : aone) : Prop :=
  shells_ok (ao_sh b) /\ generator_ok (ao_eval b) /\ fits (ao_lay b).

(** The radial integrals of r^n, n = -1, 0, 1, 2, and of the multipoles of a unit
    charge at distance Rh from the origin. *)
Definition charge_multipole (Rh : R) (L : nat) (r : R) : R := Rmin r Rh ^ L / Rmax r Rh ^ (L + 1).
Definition atomic_radial (b : aone) (Rh : R) (okr : (R -> R) -> Prop) (rad : nat -> nat -> (R -> R) -> R) : Prop :=
  (forall n, (-1 <= n <= 2)%Z -> okr (fun r => powerRZ r n) /\
     adds_up (ao_lay b) (ao_int b n) (fun a c => rad a c (fun r => powerRZ r n))) /\
  (forall L, okr (charge_multipole Rh L) /\
     adds_up (ao_lay b) (ao_off b L) (fun a c => - sqrt (4 * PI / (2 * INR L + 1)) * rad a c (charge_multipole Rh L))).

(** The attraction of a nucleus Z at the origin and charges Zl and Zr at -Rh and Rh
    on the z axis, with the multipole expansion of 1/|r - R| carried to order n. *)
Definition charge_potential (Rh : R) (n : nat) (r x : R) : R :=
  sum (S n) (fun L => charge_multipole Rh L r * P_ L x).
Definition atomic_attraction (Z Zl Zr : Z) (Rh : R) (n : nat) (r x : R) : R :=
  - IZR Z / r - IZR Zl * charge_potential Rh n r (- x) - IZR Zr * charge_potential Rh n r x.

Definition orders_ok (b : aone) (orderL : list nat) (order : list (nat * nat)) : Prop :=
  Permutation orderL (seq 0 (Z.to_nat (2 * lmax_of (ao_sh b) + 1))) /\
  Permutation order (list_prod (seq 0 (length (ao_sh b))) (seq 0 (length (ao_sh b)))).

(* ------------------------------------------------------------------ *)
(** * The diatomic basis *)

(** Prolate spheroidal coordinates: nuclei Z1 and Z2 at -Rh and Rh on the z axis, mu > 0
    and x = nu. *)
Definition volume (Rh mu x : R) : R := Rh ^ 3 * sinh mu * (cosh mu ^ 2 - x ^ 2).
Definition z_coord (Rh mu x : R) : R := Rh * cosh mu * x.
Definition rho2 (Rh mu x : R) : R := Rh ^ 2 * (sinh mu ^ 2 * (1 - x ^ 2)).
(** The distance from the point (rho, z) to the nucleus at -Rh (s = -1) or Rh (s = 1). *)
Definition nuclear_distance (s Rh mu x : R) : R := sqrt (rho2 Rh mu x + (z_coord Rh mu x - s * Rh) ^ 2).
Definition dist2 (Rh mu x : R) : R := rho2 Rh mu x + z_coord Rh mu x ^ 2.

Definition sinh_cosh (p : Z) (q : nat) (mu : R) : R := powerRZ (sinh mu) p * cosh mu ^ q.
Definition diatomic_radial (b : done) (okr : (R -> R) -> Prop) (rad : nat -> nat -> (R -> R) -> R) : Prop :=
  forall p q, In (p, q) [(1, 0); (1, 1); (1, 2); (1, 3); (1, 4); (3, 0); (3, 2); (-1, 0)]%Z ->
    let q := Z.to_nat q in
    okr (sinh_cosh p q) /\ is_dmat (do_int b p q) (do_N b) (do_N b) (fun a c => rad a c (sinh_cosh p q)).

Definition done_ok (b : done) : Prop := dbasis_ok (do_b b).

(** The matrix over the basis functions with the integrals of f. *)
Definition is_operator (b : done) (E : integral_of) (r : res dmat) (f : Z -> R -> R -> R) : Prop :=
  is_dmat r (dia_size (do_b b)) (dia_size (do_b b)) (fun u v =>
    E (sh_ix (do_b b) u) (rad_ix (do_b b) u) (sh_ix (do_b b) v) (rad_ix (do_b b) v)
      (f (m_of (do_sh b) (sh_ix (do_b b) v)))).
