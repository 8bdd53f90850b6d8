(** Vocabulary for the two-electron matrices of spherically averaged atoms. *)
Require Import Reals ZArith List Bool Arith Permutation.
Require Import Verif.Prelude Verif.AngModel Verif.JKModel Verif.JKSpec Verif.GauntModel Verif.GauntSpec
  Verif.TwoDModel Verif.TwoDSpec Verif.SxModel.
Import ListNotations.
Local Open Scope R_scope.

(** A spherically averaged basis with angular momenta 0..lmax, and the calls made
    on it. *)
Definition sad_basis_ok (b : tbasis) (lmax : nat) (calls : list call) : Prop :=
  b_sh b = sad_shells lmax /\ basis_ok b calls.

(** The squared coupling of Y_lin^m' with Y_L^(m-m') to Y_lout^m, summed over m'
    and averaged over m. *)
Definition averaged_weight (eval : generator) (lout L lin : Z) : R :=
  / IZR (2 * lout + 1) *
  lsum (zrange (- lout) lout) (fun m => lsum (zrange (- lin) lin) (fun m' =>
    if (Z.abs (m - m') <=? L)%Z then gaunt_coefficient eval lout m L (m - m') lin m' ^ 2 else 0)).

(** The averaged exchange matrix of lout: minus the sum over lin and L of the
    weight, the factor of the multipole and the radial contraction. *)
Definition averaged_exchange (eval : generator) (lmax N : nat) (fac : Z -> R)
    (Rad : nat -> nat -> nat -> nat -> nat -> R) (p : nat -> mat) (lout a b : nat) : R :=
  - sum (lmax + 1) (fun lin => sum (2 * lmax + 1) (fun L =>
      fac (Z.of_nat L) * averaged_weight eval (Z.of_nat lout) (Z.of_nat L) (Z.of_nat lin) *
      exchange_of N (Rad L) (p lin) a b)).

(** One radial density matrix per angular momentum. *)
Definition radial_densities (lmax N : nat) (P : list dmat) : Prop :=
  length P = (lmax + 1)%nat /\ forall X, In X P -> density N X.
Definition pick (P : list dmat) (l : nat) : mat := dent (nth l P dempty).

(** The computed matrices have entries f l a b. *)
Definition is_cube (r : res (list dmat)) (n N : nat) (f : nat -> nat -> nat -> R) : Prop :=
  exists K, r = Ok K /\ length K = n /\ forall l, (l < n)%nat ->
    drows (nth l K dempty) = N /\ dcols (nth l K dempty) = N /\
    forall a b, (a < N)%nat -> (b < N)%nat -> dent (nth l K dempty) a b = f l a b.

(** An order in which the parallel loop can visit the angular momenta. *)
Definition visits (lmax : nat) (order : list nat) : Prop := Permutation order (seq 0 (lmax + 1)).

(** All shells (l,m) with |m| <= l <= lmax, each once. *)
Definition all_shells (lmax : nat) (sh : list (Z * Z)) : Prop :=
  Permutation sh (flat_map (fun l => map (fun m => (l, m)) (zrange (- l) l)) (zrange 0 (Z.of_nat lmax))).

(** A density matrix of the full basis that is the same for all m of an l and
    couples no shells: block (i,i) is p of the shell's l. *)
Definition spherical (sh : list (Z * Z)) (N : nat) (p : nat -> mat) (P : mat) : Prop :=
  forall i j c d, (i < length sh)%nat -> (j < length sh)%nat -> (c < N)%nat -> (d < N)%nat ->
    P (fn N i c) (fn N j d) = if Nat.eqb i j then p (Z.to_nat (l_of sh i)) c d else 0.

(** The filled shell of every l <= lmax is spherical (Unsold's theorem), and Y_0^0
    is constant. *)
Definition unsold (eval : generator) (lmax : nat) : Prop :=
  (forall l L, (0 <= l <= Z.of_nat lmax)%Z -> (0 < L <= 2 * Z.of_nat lmax)%Z ->
     lsum (zrange (- l) l) (fun m => gaunt_coefficient eval l m L 0 l m) = 0) /\
  (forall l m, (0 <= l <= Z.of_nat lmax)%Z -> (Z.abs m <= l)%Z ->
     gaunt_coefficient eval l m 0 0 l m = / sqrt (4 * PI)).

(** The average over the m of one l of the diagonal blocks of a full matrix. *)
Definition m_average (sh : list (Z * Z)) (N : nat) (K : mat) (l : nat) (a b : nat) : R :=
  / INR (2 * l + 1) * sum (length sh) (fun j => if (l_of sh j =? Z.of_nat l)%Z then K (fn N j a) (fn N j b) else 0).

(** sum_ab A(a,b) B(a,b), and the same for one matrix per l with weights 2l+1. *)
Definition mdot (N : nat) (A B : mat) : R := sum N (fun a => sum N (fun b => A a b * B a b)).
Definition shell_dot (lmax N : nat) (A B : nat -> mat) : R :=
  sum (lmax + 1) (fun l => INR (2 * l + 1) * mdot N (A l) (B l)).

(** The atomic basis b' has the radial functions, integrals and couplings of b. *)
Definition same_radial (b b' : tbasis) : Prop :=
  b_lay b' = b_lay b /\ b_bare b' = b_bare b /\ b_yukawa b' = b_yukawa b /\ b_erfc b' = b_erfc b /\
  b_tol b' = b_tol b /\ b_eval b' = b_eval b.

(** No density is small enough for the exchange of the atomic basis to skip it,
    except zero. *)
Definition not_screened (lmax N : nat) (thr : R) (p : nat -> mat) : Prop :=
  forall l, (l <= lmax)%nat -> thr <= sqrt (mdot N (p l) (p l)) \/
    forall c d, (c < N)%nat -> (d < N)%nat -> p l c d = 0.

(** The full density per unit solid angle: sum_l (2l+1) p_l / 4 pi. *)
Definition total_density (lmax N : nat) (p : nat -> mat) (Pt : mat) : Prop :=
  forall c d, (c < N)%nat -> (d < N)%nat -> Pt c d = sum (lmax + 1) (fun l => INR (2 * l + 1) * p l c d) / (4 * PI).

(** Both succeed, and the matrix of every l is the average of the full matrix over
    the m of that l. *)
Definition averages (lmax N : nat) (sh : list (Z * Z)) (r : res (list dmat)) (rf : res dmat) : Prop :=
  exists K Kf, r = Ok K /\ rf = Ok Kf /\ forall l a b, (l <= lmax)%nat -> (a < N)%nat -> (b < N)%nat ->
    dent (nth l K dempty) a b = m_average sh N (dent Kf) l a b.

(** (ab|cd) = (ba|cd) = (cd|ab). *)
Definition fully_symmetric (N : nat) (T : nat -> nat -> nat -> nat -> R) : Prop :=
  forall a b c d, (a < N)%nat -> (b < N)%nat -> (c < N)%nat -> (d < N)%nat ->
    T a b c d = T b a c d /\ T a b c d = T c d a b.
