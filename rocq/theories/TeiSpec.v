(** Vocabulary for the precomputed two-electron integrals of a diatomic basis. *)
Require Import Reals ZArith List Bool Arith.
Require Import Verif.Prelude Verif.AngModel Verif.CholModel Verif.LegSpec Verif.QuadModel Verif.QuadSpec Verif.TeiModel.
Import ListNotations.
Local Open Scope R_scope.

(** A program run with an oracle that answers every question by itself, without
    any memory. *)
Fixpoint answered {A} (ans : bool -> Z -> R -> R) (p : prog A) : A :=
  match p with
  | Ret a => a
  | Ask w L x k => answered ans (k (ans w L x))
  end.

(** Whatever the answers, the program only asks for multipole L at points from 1
    upwards. *)
Fixpoint asks {A} (L : Z) (p : prog A) : Prop :=
  match p with
  | Ret _ => True
  | Ask w L' x k => L' = L /\ 1 <= x /\ forall v, asks L (k v)
  end.

(** A value that is not a normal number counts as zero. *)
Definition flush (normal : R -> bool) (v : R) : R := if normal v then v else 0.

(** The associated Legendre functions; the second kind counts as zero at 1. *)
Definition exact_legendre (normal : R -> bool) (DP DQ : nat -> nat -> R -> R) (M : Z) (wantP : bool) (L : Z) (x : R) : R :=
  if wantP then flush normal (associated DP (Z.to_nat L) (Z.to_nat M) x)
  else if Req_EM_T x 1 then 0 else flush normal (associated DQ (Z.to_nat L) (Z.to_nat M) x).

(** What is assumed of the functions: they are the Legendre functions, and the
    continued fraction returns the quotient of neighbours. *)
Definition legendre_ok (cf : R -> nat -> nat -> res R) (seed_low : R) (DP DQ : nat -> nat -> R -> R) : Prop :=
  first_kind DP /\ second_kind DQ /\ seed_low <> 0 /\
  forall x l m, 1 < x -> (1 <= l)%nat -> (m <= 1)%nat ->
    exists rho, cf x l m = Ok rho /\ associated DQ l m x = rho * associated DQ (l - 1) m x.

(** The multipoles (L, |M|). *)
Definition multipoles_ok (lm : list (Z * Z)) : Prop := forall L M, In (L, M) lm -> (0 <= L)%Z /\ (0 <= M)%Z.

(** Every element has a positive length. *)
Definition elements_ok (rb : dradial) : Prop := forall iel, (iel < d_Nel rb)%nat -> d_lo rb iel < d_hi rb iel.

(** Sizes of blocks are sizes, and the tolerances are ordered. *)
Definition numerics_ok (rb : dradial) : Prop :=
  (forall a b, magnitude (d_dist rb a b)) /\ (forall a, magnitude (d_scale rb a)) /\
  0 <= d_tol rb /\ d_tol rb <= d_sqrteps rb.

(** The matrix of sinh(mu) cosh(mu)^k f(cosh mu) in element iel, with the rule of
    order n. *)
Definition element_matrix (rb : dradial) (iel k : nat) (f : R -> R) (n : nat) : dmat :=
  let x := fst (d_rule rb n) in let w := snd (d_rule rb n) in
  mkD (d_n rb iel) (d_n rb iel) (fun i j =>
    quad n x w (d_lo rb iel) (d_hi rb iel) (fun mu => sinh mu * cosh mu ^ k * f (cosh mu) *
      (let t := (mu - (d_hi rb iel + d_lo rb iel) / 2) / ((d_hi rb iel - d_lo rb iel) / 2) in
       d_bf rb iel t i * d_bf rb iel t j))).

(** The two-channel kernel of element iel at order n with functions P and Q. *)
Definition kernel_matrix (rb : dradial) (iel n : nat) (P Q : R -> R) : dmat :=
  let N := d_n rb iel in
  let T := c_twoe n (snd (d_rule rb n)) N P Q
             (d_element (fst (d_rule rb n)) N (d_bf rb iel) cosh sinh (d_lo rb iel) (d_hi rb iel)) in
  mkD (2 * (N * N)) (2 * (N * N)) (two_channel (N * N) (T 0%nat 0%nat) (T 0%nat 2%nat) (T 2%nat 2%nat)).

(** X is the matrix at the order where the refinement from the starting order
    ends; n is that order. *)
Definition refined (rb : dradial) (eval : nat -> dmat) (fallback : bool) (nstart : Z) (X : dmat) (n : nat) : Prop :=
  exists tried, converge_block dmat (d_dist rb) (d_scale rb) (d_tol rb) (d_sqrteps rb) (d_floor rb)
                  eval order_cap fallback nstart = Ok (tried, X, n).

(** The order used in element iel. *)
Definition element_order (normal : R -> bool) (DP DQ : nat -> nat -> R -> R) (rb : dradial) (lm : list (Z * Z)) (iel n : nat) : Prop :=
  let nstart := Z.min 512 (Z.max 5 (d_nquad rb)) in
  lm = [] /\ n = Z.to_nat nstart \/
  exists L M X, In (L, M) lm /\ (forall L' M', In (L', M') lm -> (L' < L \/ L' = L /\ M' <= M)%Z) /\
    refined rb (fun n => kernel_matrix rb iel n (exact_legendre normal DP DQ M true L) (exact_legendre normal DP DQ M false L))
      false nstart X n.

(** The runs: consecutive ranges that start at 0 and end at n. *)
Fixpoint consecutive (i n : nat) (runs : list (nat * nat)) : Prop :=
  match runs with
  | [] => i = n
  | (lo, hi) :: rest => lo = i /\ (lo < hi)%nat /\ consecutive hi n rest
  end.

(** The cells a parallel iteration stores into. *)
Definition cells {Loc} (th : thread Loc) : list cell := map fst (th_todo th).

(** Factors (sign, column) as a matrix with these columns and a vector of signs. *)
Definition columns_of (N : nat) (f : list (R * vec)) : dmat := mkD N (length f) (fun i p => snd (nth p f (0, fun _ => 0)) i).
Definition signs_of (f : list (R * vec)) : dmat := mkD (length f) 1 (fun p _ => fst (nth p f (0, fun _ => 0))).

(** The memory holds the integrals of every multipole and every element. *)
Definition integrals_in (normal : R -> bool) (DP DQ : nat -> nat -> R -> R) (rb : dradial) (lm : list (Z * Z)) (thresh : R) (m : memory) : Prop :=
  forall ilm iel L M, nth_error lm ilm = Some (L, M) -> (iel < d_Nel rb)%nat ->
  let at_ := (ilm * d_Nel rb + iel)%nat in
  let P := exact_legendre normal DP DQ M true L in
  let Q := exact_legendre normal DP DQ M false L in
  let nstart := Z.max 5 (d_nquad rb) in
  (exists n, refined rb (element_matrix rb iel 0 P) true nstart (m 0%nat at_) n) /\
  (exists n, refined rb (element_matrix rb iel 2 P) true nstart (m 1%nat at_) n) /\
  (exists n, refined rb (element_matrix rb iel 0 Q) true nstart (m 2%nat at_) n) /\
  (exists n, refined rb (element_matrix rb iel 2 Q) true nstart (m 3%nat at_) n) /\
  exists n, element_order normal DP DQ rb lm iel n /\
    let W := kernel_matrix rb iel n P Q in
    let f := signed_cholesky (drows W) (dent W) thresh in
    m 4%nat at_ = columns_of (drows W) f /\ m 5%nat at_ = signs_of f.

(** The states of a cache in a run (M, Lmax), after any history: it is made new
    or pointed at the run, and then serves computations. *)
Inductive served (normal : R -> bool) (cf : R -> nat -> nat -> res R) (seed_low : R) (M Lmax : Z) : mcache -> Prop :=
| served_new : served normal cf seed_low M Lmax (mc_new M Lmax)
| served_reset c : served normal cf seed_low M Lmax (mc_reset c M Lmax)
| served_run A (p : prog A) L c a c' : served normal cf seed_low M Lmax c -> (0 <= L <= Lmax)%Z -> asks L p ->
    run_cached normal cf seed_low p c = Ok (a, c') -> served normal cf seed_low M Lmax c'.

(** The second component of entry i. *)
Definition M_at (lm : list (Z * Z)) (i : nat) : Z := snd (nth i lm (0, 0)%Z).
