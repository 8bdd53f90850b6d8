(** Vocabulary for the two-electron matrices of an atomic basis. *)
Require Import Reals ZArith List Bool Arith.
Require Import Verif.Prelude Verif.AngModel Verif.CholModel Verif.CholSpec Verif.JKModel Verif.JKSpec
  Verif.GauntModel Verif.GauntSpec Verif.TwoDModel.
Import ListNotations.
Local Open Scope R_scope.

Definition l_of (sh : list (Z * Z)) (i : nat) : Z := fst (nth i sh (0, 0)%Z).
Definition m_of (sh : list (Z * Z)) (i : nat) : Z := snd (nth i sh (0, 0)%Z).

(** The two-electron integral over the products of shells (i,j) and (k,l) with
    radial functions (a,b) and (c,d), expanded in multipoles up to Lcut:
    sum_L fac(L) G(lj,mj,L,M,li,mi) G(lk,mk,L,M,ll,ml) R_L(ab,cd) for M = mj - mi
    = mk - ml, over the L for which Y_L^M exists. *)
Definition multipole_tensor (eval : generator) (sh : list (Z * Z)) (Lcut : Z) (fac : Z -> R)
    (Rad : nat -> nat -> nat -> nat -> nat -> R) (i j k l a b c d : nat) : R :=
  let M := (m_of sh j - m_of sh i)%Z in
  if (m_of sh k - m_of sh l =? M)%Z then
    lsum (zrange (Z.abs M) Lcut) (fun L =>
      fac L * gaunt_coefficient eval (l_of sh j) (m_of sh j) L M (l_of sh i) (m_of sh i) *
      gaunt_coefficient eval (l_of sh k) (m_of sh k) L M (l_of sh l) (m_of sh l) *
      Rad (Z.to_nat L) a b c d)
  else 0.

(** Function a of shell i among all basis functions. *)
Definition fn (N i a : nat) : nat := (i * N + a)%nat.

(** The matrix J(ia,jb) = sum V(ia jb, kc ld) P(kc,ld). *)
Definition full_coulomb (nsh N : nat) (V : nat -> nat -> nat -> nat -> nat -> nat -> nat -> nat -> R)
    (P : mat) (i a j b : nat) : R :=
  sum nsh (fun k => sum nsh (fun l => sum N (fun c => sum N (fun d =>
    V i j k l a b c d * P (fn N k c) (fn N l d))))).

(** The matrix K(ja,kb) = - sum V(ic ja, kb ld) P(ic,ld). *)
Definition full_exchange (nsh N : nat) (V : nat -> nat -> nat -> nat -> nat -> nat -> nat -> nat -> R)
    (P : mat) (j a k b : nat) : R :=
  - sum nsh (fun i => sum nsh (fun l => sum N (fun c => sum N (fun d =>
    V i j k l c a b d * P (fn N i c) (fn N l d))))).

(** The computed matrix has entries f over (shell, radial) pairs. *)
Definition is_shell_matrix (r : res dmat) (nsh N : nat) (f : nat -> nat -> nat -> nat -> R) : Prop :=
  exists M, r = Ok M /\ drows M = (nsh * N)%nat /\ dcols M = (nsh * N)%nat /\
    forall i a j b, (i < nsh)%nat -> (a < N)%nat -> (j < nsh)%nat -> (b < N)%nat ->
      dent M (fn N i a) (fn N j b) = f i a j b.

(** The Frobenius norm of the density block of two shells, and the density
    without the blocks exchange screens out. *)
Definition block_norm (N : nat) (P : mat) (i l : nat) : R :=
  sqrt (sum N (fun c => sum N (fun d => P (fn N i c) (fn N l d) * P (fn N i c) (fn N l d)))).
Definition screened (N : nat) (thr : R) (P : mat) : mat := fun r s =>
  if Rltb (block_norm N P (r / N) (s / N)) thr then 0 else P r s.

(** A pivoted Cholesky factor of an in-element tensor, as stored. *)
Definition stored_factor (T : dmat) (tol : R) : dmat :=
  match chol_factor T tol with Ok F => F | _ => dempty end.

(** The radial tensor of multipole L the stored integrals of kernel k stand for. *)
Definition stored_tensor (lay : layout) (k : kernel) (tol : R) (L : nat) : nat -> nat -> nat -> nat -> R :=
  tensor lay (element_pair lay (fun e => dent (k_small k L e)) (fun e => dent (k_big k L e))
    (fun e => factor_tensor (stored_factor (k_tei k L e) tol))).

(** The radial tensor of the erfc kernel. *)
Definition erfc_tensor (lay : layout) (erfc : nat -> nat -> nat -> dmat) (L : nat) : nat -> nat -> nat -> nat -> R :=
  tensor lay (fun i j a b c d => dent (erfc L i j) (pair_ix (count_of lay i) a b) (pair_ix (count_of lay j) c d)).

(** The erfc integrals of all element pairs have the right shapes and do not
    depend on the order of the two functions of the first pair. *)
Definition erfc_ok (lay : layout) (erfc : nat -> nat -> nat -> dmat) (L : nat) : Prop :=
  forall i j, (i < lnel lay)%nat -> (j < lnel lay)%nat ->
     drows (erfc L i j) = (count_of lay i * count_of lay i)%nat /\
     dcols (erfc L i j) = (count_of lay j * count_of lay j)%nat /\
     forall a b r, (a < count_of lay i)%nat -> (b < count_of lay i)%nat ->
       (r < count_of lay j * count_of lay j)%nat ->
       dent (erfc L i j) (pair_ix (count_of lay i) a b) r = dent (erfc L i j) (pair_ix (count_of lay i) b a) r.

(** The in-element tensors of a kernel are positive semidefinite. *)
Definition kernel_psd (lay : layout) (k : kernel) (L : nat) : Prop :=
  forall e, (e < lnel lay)%nat -> psd (count_of lay e * count_of lay e) (dent (k_tei k L e)).

(** A basis and the kernels a history of calls uses. *)
Definition good_kernel (b : tbasis) (k : kernel) : Prop :=
  forall L, (L < N_L_of (b_sh b))%nat -> kernel_ok (b_lay b) k L /\ kernel_psd (b_lay b) k L.
Definition basis_ok (b : tbasis) (calls : list call) : Prop :=
  shells_ok (b_sh b) /\ generator_ok (b_eval b) /\ fits (b_lay b) /\ (0 < lnel (b_lay b))%nat /\ 0 <= b_tol b /\
  good_kernel b (b_bare b) /\
  (forall l, In (CallYukawa l) calls -> good_kernel b (b_yukawa b l)) /\
  (forall m, In (CallErfc m) calls -> forall L, (L < N_L_of (b_sh b))%nat -> erfc_ok (b_lay b) (b_erfc b m) L).

(** The most recent call that chose a screened kernel. *)
Definition last_screened (calls : list call) : option call :=
  fold_left (fun o c => match c with CallTei => o | _ => Some c end) calls None.

(** The radial tensor as a matrix over column-major pairs of functions. *)
Definition pair_matrix (N : nat) (T : nat -> nat -> nat -> nat -> R) : mat := fun r s =>
  T (r mod N)%nat (r / N)%nat (s mod N)%nat (s / N)%nat.

(** The vectors B reproduce the radial tensor within tol: at most N^2 symmetric
    N x N matrices with |R(ab,cd) - sum_V V(a,b) V(c,d)| < tol. *)
Definition fitted (N : nat) (T : nat -> nat -> nat -> nat -> R) (tol : R) (B : list dmat) : Prop :=
  (length B <= N * N)%nat /\
  (forall V, In V B -> drows V = N /\ dcols V = N /\ symmetric N (dent V)) /\
  forall a b c d, (a < N)%nat -> (b < N)%nat -> (c < N)%nat -> (d < N)%nat ->
    Rabs (T a b c d - lsum B (fun V => dent V a b * dent V c d)) < tol.
