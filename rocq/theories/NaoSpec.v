(** Vocabulary for the statements about numerical atomic orbitals and the Slater and Gaussian
    bases built from them. *)
Require Import Reals ZArith List Bool Arith.
Require Import Verif.Prelude Verif.FEModel Verif.AngModel Verif.JKModel Verif.JKSpec Verif.NaoModel.
Import ListNotations.
Local Open Scope R_scope.

(** [M] is an n x n matrix. *)
Definition square (n : nat) (M : dmat) : Prop := drows M = n /\ dcols M = n.
(** The basis [b] is one the constructor accepted; [u] is what it wraps. *)
Definition wraps (h : heap) (b : nao) (u : radial) : Prop :=
  h (n_ptr b) = Some u /\ drows (n_C b) = r_nbf u /\ (0 < nao_nbf b)%nat.
Definition column (C : dmat) (a : nat) : vec := fun i => dent C i a.
(** The function with coefficients [c] over the functions [phi]. *)
Definition combination (n : nat) (c : vec) (phi : nat -> R -> R) : R -> R := fun r => sum n (fun i => c i * phi i r).
(** sum_pq f_p M_pq g_q. *)
Definition quadratic (n : nat) (M : mat) (f g : vec) : R := sum n (fun p => sum n (fun q => f p * M p q * g q)).
(** sum_pqrs f_p g_q h_r k_s R(pq,rs): the integral over the functions with these coefficients. *)
Definition slater (n : nat) (T : nat -> nat -> nat -> nat -> R) (f g h k : vec) : R :=
  sum n (fun p => sum n (fun q => sum n (fun r => sum n (fun s => f p * g q * h r * k s * T p q r s)))).

(** A bilinear form on functions. *)
Definition bilinear (B : (R -> R) -> (R -> R) -> R) : Prop :=
  (forall f g h, B (fun r => f r + g r) h = B f h + B g h) /\
  (forall f g h, B h (fun r => f r + g r) = B h f + B h g) /\
  (forall c f h, B (fun r => c * f r) h = c * B f h) /\
  (forall c f h, B h (fun r => c * f r) = c * B h f) /\
  (forall f g h, (forall r, f r = g r) -> B f h = B g h) /\
  (forall f g h, (forall r, f r = g r) -> B h f = B h g).
(** An inner product: a symmetric, non-negative bilinear form. *)
Definition inner (B : (R -> R) -> (R -> R) -> R) : Prop :=
  bilinear B /\ (forall f g, B f g = B g f) /\ (forall f, 0 <= B f f).
(** The underlying basis evaluates orbitals as combinations of the functions [phi]. *)
Definition evaluates (u : radial) (phi : nat -> R -> R) (r : R) : Prop :=
  forall C, drows C = r_nbf u -> exists v, r_eval u C r = Ok v /\ length v = dcols C /\
    forall j, (j < dcols C)%nat -> nth j v 0 = combination (r_nbf u) (column C j) phi r.
(** The wrapped basis is a finite element basis with consistent integrals at multipole [k]. *)
Definition fem_ok (u : radial) (lay : layout) (K : kernel) (k : nat) : Prop :=
  lnbf lay = r_nbf u /\ fits lay /\ kernel_ok lay K k.

(** The contract of std::tgamma: Gamma(1/2) = sqrt(pi), Gamma(x + 1) = x Gamma(x). *)
Definition is_gamma (g : R -> R) : Prop := g (1 / 2) = sqrt PI /\ forall x, 0 < x -> g (x + 1) = x * g x.

(** One primitive of a Slater or Gaussian function, without normalisation. *)
Definition slater_shape (p : prim) (r : R) : R := r ^ Z.to_nat (p_n p) * exp (- (p_exp p * r)).
Definition gauss_shape (p : prim) (r : R) : R := r ^ S (Z.to_nat (p_n p)) * exp (- (p_exp p * (r * r))).
(** [peak] is the place of the maximum of f. *)
Definition maximum_at (f : R -> R) (peak : R) : Prop := 0 < peak /\ forall r, 0 <= r -> f r <= f peak.
(** From [e] on, f is at most tol times its maximum. *)
Definition negligible_from (f : R -> R) (peak tol e : R) : Prop := forall r, e <= r -> f r <= tol * f peak.
(** [e] is a tail radius: beyond the maximum, f is negligible from there, and nothing that lies
    [width] or more below [e] would do. *)
Definition tail_radius (f : R -> R) (peak tol width e : R) : Prop :=
  peak < e /\ negligible_from f peak tol e /\
  forall r, peak < r -> r + width <= e -> tol * f peak < f r.

(** What the basis functions are required to be. *)
Definition valid_prim (n0 : Z) (p : prim) : Prop := (n0 <= p_n p)%Z /\ 0 < p_exp p.
Definition valid_basis (n0 : Z) (bas : list contracted) : Prop :=
  bas <> [] /\ Forall (fun c => c_prims c <> [] /\ length (c_coef c) = length (c_prims c) /\
                                Forall (valid_prim n0) (c_prims c)) bas.
(** All primitives of the basis. *)
Definition primitives (bas : list contracted) : list prim := flat_map c_prims bas.

(** The finite element basis that is built. *)
Definition nao_fe (rmax : R) (nelem nnodes : Z) : fe :=
  mkFE LIP (Z.to_nat nnodes) (boundaries rmax (Z.to_nat nelem)) true false true false.
(** The integral of function i times f, by the rule (xq, wq) on every element that has i. *)
Definition load (b : fe) (nq : nat) (xq wq : vec) (bf : nat -> R -> nat -> R) (f : R -> R) (i : nat) : R :=
  sum (get_nelem b) (fun e =>
    let lo := nth e (fe_bval b) 0 in let hi := nth (S e) (fe_bval b) 0 in
    let '(first, n) := elem_range b e in
    if (Nat.leb first i && Nat.ltb i (first + n))%bool
    then sum nq (fun q => wq q * ((hi - lo) / 2) * (bf e (xq q) (i - first)%nat * f ((lo + hi) / 2 + (hi - lo) / 2 * xq q)))
    else 0).
(** The contract of the linear solver for the overlap matrix [S]. *)
Definition solves (S : dmat) (ldlt : dmat -> vec -> vec) : Prop :=
  forall v i, (i < drows S)%nat -> sum (dcols S) (fun j => dent S i j * ldlt S v j) = v i.
(** The matrix has a trivial kernel. *)
Definition nonsingular (n : nat) (S : mat) : Prop :=
  forall x, (forall i, (i < n)%nat -> sum n (fun j => S i j * x j) = 0) -> forall i, (i < n)%nat -> x i = 0.
(** sum_i c_i w(p_i) over the primitives of a contracted function. *)
Definition contraction (w : prim -> R) (c : contracted) : R :=
  lsum (combine (c_prims c) (c_coef c)) (fun pc => snd pc * w (fst pc)).
(** The same with the absolute values of the coefficients. *)
Definition abs_contraction (w : prim -> R) (c : contracted) : R :=
  lsum (combine (c_prims c) (c_coef c)) (fun pc => Rabs (snd pc) * w (fst pc)).
(** The radius [rmax] is the largest of the tail radii [ext] of all primitives. *)
Definition largest (ext : prim -> res R) (bas : list contracted) (rmax : R) : Prop :=
  (exists p, In p (primitives bas) /\ ext p = Ok rmax) /\
  forall p, In p (primitives bas) -> exists e, ext p = Ok e /\ e <= rmax.
(** The result of building the basis functions [us] on the elements [b]: a new finite element
    basis at address [a], nothing else changed, and one column per function that solves the
    overlap equations. *)
Definition projected (radial_of : fe -> radial) (bf_of : fe -> nat -> R -> nat -> R) (nq : nat) (xq wq : vec)
    (h : heap) (a : nat) (b : fe) (us : list (R -> R)) (r : res (heap * nao)) : Prop :=
  exists h' C, r = Ok (h', mkNao a C) /\ h' a = Some (radial_of b) /\ (forall x, x <> a -> h' x = h x) /\
    drows C = r_nbf (radial_of b) /\ dcols C = length us /\
    forall k i, (k < length us)%nat -> (i < drows C)%nat ->
      sum (drows C) (fun j => dent (r_overlap (radial_of b)) i j * column C k j) =
      load b nq xq wq (bf_of b) (nth k us (fun _ => 0)) i.
(** The elements go from 0 to rmax. *)
Definition spans (b : fe) (rmax : R) (nelem : nat) : Prop :=
  get_nelem b = nelem /\ increasing (fe_bval b) /\ nth 0 (fe_bval b) 0 = 0 /\ nth nelem (fe_bval b) 0 = rmax.
