(** Model of the per-multipole Coulomb and exchange assembly and of its caches:
    /repo/libhelfemqc/include/CoulombExchangeFE.h.  Scalars are exact real
    numbers; matrices carry their dimensions, and every Eigen operation whose
    size assertion would fail gives [UB]. *)
Require Import Reals ZArith List Bool Arith.
Require Import Verif.Prelude Verif.FEModel Verif.AngModel Verif.CholModel.
Import ListNotations.
Local Open Scope R_scope.

(* ------------------------------------------------------------------ *)
(** * Eigen operations *)

(** A loop whose body may fail. *)
Fixpoint fold_res {S X} (f : S -> X -> res S) (l : list X) (s : S) : res S :=
  match l with
  | [] => Ok s
  | x :: l' => bind (f s x) (fun s' => fold_res f l' s')
  end.

Definition dzero (r c : nat) : dmat := mkD r c mzero.
(** A default-constructed matrix. *)
Definition dempty : dmat := dzero 0 0.

(** P.block(f, g, n, m) *)
Definition get_block (P : dmat) (f g n m : nat) : res dmat :=
  if (Nat.leb (f + n) (drows P) && Nat.leb (g + m) (dcols P))%bool
  then Ok (mkD n m (fun i j => dent P (f + i)%nat (g + j)%nat)) else UB.

(** A * B *)
Definition dprod (A B : dmat) : res dmat :=
  if Nat.eqb (dcols A) (drows B)
  then Ok (mkD (drows A) (dcols B) (mmul (dcols A) (dent A) (dent B))) else UB.

(** A.transpose() *)
Definition dT (A : dmat) : dmat := mkD (dcols A) (drows A) (mT (dent A)).
(** c * A *)
Definition dscale (c : R) (A : dmat) : dmat := mkD (drows A) (dcols A) (mscal c (dent A)).
(** A + B *)
Definition dadd (A B : dmat) : res dmat :=
  if (Nat.eqb (drows A) (drows B) && Nat.eqb (dcols A) (dcols B))%bool
  then Ok (mkD (drows A) (dcols A) (madd (dent A) (dent B))) else UB.
(** A.trace() *)
Definition dtrace (A : dmat) : R := sum (min (drows A) (dcols A)) (fun i => dent A i i).

(** M.block(f, g, n, m) += B *)
Definition block_add (M : dmat) (f g n m : nat) (B : dmat) : res dmat :=
  if (Nat.leb (f + n) (drows M) && Nat.leb (g + m) (dcols M) &&
      Nat.eqb (drows B) n && Nat.eqb (dcols B) m)%bool
  then Ok (mkD (drows M) (dcols M) (fun i j =>
         if (Nat.leb f i && Nat.ltb i (f + n) && (Nat.leb g j && Nat.ltb j (g + m)))%bool
         then dent M i j + dent B (i - f)%nat (j - g)%nat else dent M i j))
  else UB.

(** Map<Vec>(A.data(), rows*cols): the column-major vector, as one column. *)
Definition dvec (A : dmat) : dmat :=
  mkD (drows A * dcols A) 1 (fun k _ => dent A (k mod drows A)%nat (k / drows A)%nat).
(** Map<Mat>(v.data(), n, m) *)
Definition reshape (v : dmat) (n m : nat) : res dmat :=
  if Nat.eqb (drows v) (n * m)
  then Ok (mkD n m (fun a b => dent v (b * n + a)%nat 0%nat)) else UB.
(** L.col(p) *)
Definition dcol (L : dmat) (p : nat) : dmat := mkD (drows L) 1 (fun i _ => dent L i p).

(* ------------------------------------------------------------------ *)
(** * The radial layout *)

(** What the assemblers ask the radial basis: Nel(), Nbf(), and get_idx(iel)
    as (first index, number of functions). *)
Record layout := mkLayout { lnel : nat; lnbf : nat; lidx : nat -> nat * nat }.

(** The layout of a finite element basis: /repo/libhelfem/src/RadialBasis.cpp
    205-227 forwards Nel, Nbf and get_idx to it. *)
Definition fe_layout (b : fe) : layout :=
  mkLayout (get_nelem b) (match get_nbf b with Ok n => Z.to_nat n | _ => 0%nat end) (elem_range b).

(** The accessors r_small(iel), r_big(iel), ...: any callable. *)
Notation accessor := (nat -> res dmat) (only parsing).

(* ------------------------------------------------------------------ *)
(** * Coulomb *)

(** CoulombExchangeFE.h 329-342 (and 462-475): block(iel) += c * acc(iel) for
    the elements in [els]. *)
Definition add_disjoint (lay : layout) (acc : accessor) (c : R) (els : list nat) (J : dmat) : res dmat :=
  fold_res (fun J iel =>
    let '(ifirst, Ni) := lidx lay iel in
    bind (acc iel) (fun A => block_add J ifirst ifirst Ni Ni (dscale c A))) els J.

(** CoulombExchangeFE.h 304-350 with the in-element contraction as a parameter. *)
Definition assemble_J (lay : layout) (r_small r_big : accessor)
    (in_element : nat -> dmat -> res dmat) (P : dmat) : res dmat :=
  fold_res (fun J jel =>
    let '(jfirst, Nj) := lidx lay jel in
    bind (get_block P jfirst jfirst Nj Nj) (fun Psub =>
    bind (bind (r_small jel) (fun A => dprod A Psub)) (fun AP =>
    let jsmall := dtrace AP in
    bind (if Nat.ltb 0 jel
          then bind (r_big jel) (fun A => bind (dprod A Psub) (fun AP => Ok (dtrace AP)))
          else Ok 0) (fun jbig =>
    bind (add_disjoint lay r_small jbig (seq 0 jel) J) (fun J =>
    bind (add_disjoint lay r_big jsmall (seq (jel + 1) (lnel lay - (jel + 1))) J) (fun J =>
    bind (in_element jel (dvec Psub)) (fun Jsub_v =>
    bind (reshape Jsub_v Nj Nj) (fun Jsub =>
    block_add J jfirst jfirst Nj Nj Jsub))))))))
    (seq 0 (lnel lay)) (dzero (lnbf lay) (lnbf lay)).

(** CoulombExchangeFE.h 304-350: Jsub_v = twoe_in_element(jel) * Psub_v. *)
Definition assemble_J_dense (lay : layout) (r_small r_big twoe : accessor) (P : dmat) : res dmat :=
  assemble_J lay r_small r_big (fun jel v => bind (twoe jel) (fun T => dprod T v)) P.

(** CoulombExchangeFE.h 432-482: Jsub_v = L * (L^T * Psub_v). *)
Definition assemble_J_chol (lay : layout) (r_small r_big chol : accessor) (P : dmat) : res dmat :=
  assemble_J lay r_small r_big
    (fun jel v => bind (chol jel) (fun L => bind (dprod (dT L) v) (fun s => dprod L s))) P.

(* ------------------------------------------------------------------ *)
(** * Exchange *)

(** CoulombExchangeFE.h 378-385 (and 519-525): iint * (Psub * jint^T). *)
Definition K_disjoint (r_small r_big : accessor) (iel jel : nat) (Psub : dmat) : res dmat :=
  bind (if Nat.ltb jel iel then r_big iel else r_small iel) (fun iint =>
  bind (if Nat.ltb jel iel then r_small jel else r_big jel) (fun jint =>
  bind (dprod Psub (dT jint)) (fun PJ => dprod iint PJ))).

(** The double loop over elements with the block of each pair as a parameter:
    CoulombExchangeFE.h 362-388, 404-419, 494-528. *)
Definition assemble_K (lay : layout) (pair : nat -> nat -> dmat -> res dmat) (P : dmat) : res dmat :=
  fold_res (fun K iel =>
    let '(ifirst, Ni) := lidx lay iel in
    fold_res (fun K jel =>
      let '(jfirst, Nj) := lidx lay jel in
      bind (get_block P ifirst jfirst Ni Nj) (fun Psub =>
      bind (pair iel jel Psub) (fun Ksub =>
      block_add K ifirst jfirst Ni Nj Ksub)))
      (seq 0 (lnel lay)) K)
    (seq 0 (lnel lay)) (dzero (lnbf lay) (lnbf lay)).

(** ktei * vec(Psub), reshaped. *)
Definition K_permuted (ktei : dmat) (Psub : dmat) : res dmat :=
  bind (dprod ktei (dvec Psub)) (fun v => reshape v (drows Psub) (dcols Psub)).

(** CoulombExchangeFE.h 352-389 *)
Definition assemble_K_dense (lay : layout) (r_small r_big ktei : accessor) (P : dmat) : res dmat :=
  assemble_K lay (fun iel jel Psub =>
    if Nat.eqb iel jel then bind (ktei iel) (fun T => K_permuted T Psub)
    else K_disjoint r_small r_big iel jel Psub) P.

(** CoulombExchangeFE.h 396-422 *)
Definition assemble_K_pairwise (lay : layout) (ktei : nat -> nat -> res dmat) (P : dmat) : res dmat :=
  assemble_K lay (fun iel jel Psub => bind (ktei iel jel) (fun T => K_permuted T Psub)) P.

(** CoulombExchangeFE.h 511-516: Ksub = sum_p M_p (Psub M_p^T). *)
Definition K_factored (L : dmat) (Psub : dmat) : res dmat :=
  let Ni := drows Psub in
  fold_res (fun K p =>
    bind (reshape (dcol L p) Ni Ni) (fun Mp =>
    bind (dprod Psub (dT Mp)) (fun PM =>
    bind (dprod Mp PM) (fun X => dadd K X))))
    (seq 0 (dcols L)) (dzero Ni (dcols Psub)).

(** CoulombExchangeFE.h 484-530 *)
Definition assemble_K_chol (lay : layout) (r_small r_big chol : accessor) (P : dmat) : res dmat :=
  assemble_K lay (fun iel jel Psub =>
    if Nat.eqb iel jel then bind (chol iel) (fun L => K_factored L Psub)
    else K_disjoint r_small r_big iel jel Psub) P.

(* ------------------------------------------------------------------ *)
(** * Caches *)

(** A std::vector<Mat>: reading past the end is undefined. *)
Record cache := mkCache { csize : nat; centry : nat -> dmat }.
Definition cache_at (c : cache) (i : nat) : res dmat :=
  if Nat.ltb i (csize c) then Ok (centry c i) else UB.
Definition cache_put (c : cache) (i : nat) (A : dmat) : res cache :=
  if Nat.ltb i (csize c) then Ok (mkCache (csize c) (setv (centry c) i A)) else UB.
(** An empty vector, and std::vector::resize from it. *)
Definition cache_none : cache := mkCache 0 (fun _ => dempty).
(** resize(n) keeps the first entries and default-constructs new ones. *)
Definition cache_resize (c : cache) (n : nat) : cache :=
  mkCache n (fun i => if Nat.ltb i (csize c) then centry c i else dempty).

(** The integrals the radial basis computes for one interaction kernel. *)
Record kernel := mkKernel {
  k_small : nat -> nat -> dmat;            (* radial_integral(L, iel), bessel_il_integral *)
  k_big : nat -> nat -> dmat;              (* radial_integral(-L-1, iel), bessel_kl_integral *)
  k_tei : nat -> nat -> dmat;              (* twoe_integral(L, iel), yukawa_integral *)
}.

(** for L < N_L, for iel < Nel *)
Definition for_L_iel {S} (N_L Nel : nat) (f : S -> nat -> nat -> res S) (s : S) : res S :=
  fold_res (fun s L => fold_res (fun s iel => f s L iel) (seq 0 Nel) s) (seq 0 N_L) s.

(** CoulombExchangeFE.h 181-217: compute_disjoint_radial_integrals.  The cache of
    r_big keeps whatever it held in the entries of element 0. *)
Definition compute_disjoint (k : kernel) (N_L Nel : nat) (old : cache * cache) : res (cache * cache) :=
  for_L_iel N_L Nel (fun c L iel =>
    bind (cache_put (fst c) (L * Nel + iel) (k_small k L iel)) (fun sm =>
    if Nat.eqb iel 0 then Ok (sm, snd c)
    else bind (cache_put (snd c) (L * Nel + iel) (k_big k L iel)) (fun bg => Ok (sm, bg))))
    (cache_resize (fst old) (N_L * Nel), cache_resize (snd old) (N_L * Nel)).

(** CoulombExchangeFE.h 225-242: compute_in_element_tei. *)
Definition compute_in_element_tei (k : kernel) (N_L Nel : nat) (old : cache) : res cache :=
  for_L_iel N_L Nel (fun c L iel =>
    cache_put c (Nel * Nel * L + iel * Nel + iel) (k_tei k L iel))
    (cache_resize old (Nel * Nel * N_L)).

(** CoulombExchangeFE.h 248-267: compute_in_element_ktei_from_tei. *)
Definition compute_in_element_ktei (nprim : nat -> nat) (N_L Nel : nat) (tei old : cache) : res cache :=
  for_L_iel N_L Nel (fun c L iel =>
    bind (cache_at tei (Nel * Nel * L + iel * Nel + iel)) (fun T =>
    bind (exchange_tei T (nprim iel) (nprim iel) (nprim iel) (nprim iel)) (fun K =>
    cache_put c (Nel * Nel * L + iel * Nel + iel) K)))
    (cache_resize old (Nel * Nel * N_L)).

(** CoulombExchangeFE.h 275-297: compute_erfc_ktei; [erfc L iel jel] is
    radial.erfc_integral(L, mu, iel, jel). *)
Definition compute_erfc_ktei (nprim : nat -> nat) (erfc : nat -> nat -> nat -> dmat)
    (N_L Nel : nat) (old : cache) : res cache :=
  for_L_iel N_L Nel (fun c L iel =>
    fold_res (fun c jel =>
      bind (exchange_tei (erfc L iel jel) (nprim iel) (nprim iel) (nprim jel) (nprim jel)) (fun K =>
      cache_put c (Nel * Nel * L + iel * Nel + jel) K)) (seq 0 Nel) c)
    (cache_resize old (Nel * Nel * N_L)).

(* ------------------------------------------------------------------ *)
(** * Uncached entry points *)

(** CoulombExchangeFE.h 535-561 and 591-616.  The scratch vectors only memoise
    the integrals, so the accessors return them directly. *)
Definition assemble_J_uncached (lay : layout) (k : kernel) (L : nat) (P : dmat) : res dmat :=
  assemble_J_dense lay (fun iel => Ok (k_small k L iel)) (fun iel => Ok (k_big k L iel))
    (fun iel => Ok (k_tei k L iel)) P.

(** CoulombExchangeFE.h 563-589 and 618-646. *)
Definition assemble_K_uncached (lay : layout) (k : kernel) (L : nat) (P : dmat) : res dmat :=
  assemble_K_dense lay (fun iel => Ok (k_small k L iel)) (fun iel => Ok (k_big k L iel))
    (fun iel => let Ni := snd (lidx lay iel) in exchange_tei (k_tei k L iel) Ni Ni Ni Ni) P.
