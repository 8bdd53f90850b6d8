(** Model of the two-electron part of the atomic basis:
    /repo/src/atomic/TwoDBasis.cpp 582-1131 (and TwoDBasis.h 60-130).  Scalars are
    exact real numbers; operations outside an array or between matrices of
    different size are [UB]. *)
Require Import Reals ZArith List Bool Arith.
Require Import Verif.Prelude Verif.AngModel Verif.CholModel Verif.JKModel Verif.GauntModel.
Import ListNotations.
Local Open Scope R_scope.

(* ------------------------------------------------------------------ *)
(** * The basis and its caches *)

(** What the two-electron code reads of a basis: the shells (lval(i), mval(i)),
    the radial layout, the radial integrals of the bare, Yukawa and erfc kernels,
    chol_tol, the generator of the Gaunt coefficients and the screening
    threshold 10*epsilon of exchange. *)
Record tbasis := mkB {
  b_sh : list (Z * Z);
  b_lay : layout;
  b_bare : kernel;
  b_yukawa : R -> kernel;
  b_erfc : R -> nat -> nat -> nat -> dmat;
  b_tol : R;
  b_eval : generator;
  b_thr : R }.

(** TwoDBasis.h 68-128: the mutable members. *)
Record tstate := mkT {
  t_L : cache; t_m1L : cache; t_chol : cache;
  t_iL : cache; t_kL : cache; t_rschol : cache; t_rsktei : cache;
  t_lambda : R; t_yukawa : bool }.

(** A freshly constructed basis: empty vectors; lambda and yukawa are not
    initialised by the constructor, so they are arbitrary. *)
Definition fresh (lambda : R) (yukawa : bool) : tstate :=
  mkT cache_none cache_none cache_none cache_none cache_none cache_none cache_none lambda yukawa.

(** lval.maxCoeff() and N_L = 2*lval.maxCoeff()+1 *)
Definition lmax_of (sh : list (Z * Z)) : Z := zmax_list (map fst sh).
Definition N_L_of (sh : list (Z * Z)) : nat := Z.to_nat (2 * lmax_of sh + 1).

(** /repo/libhelfem/src/RadialBasis.cpp 705-727: the columns put in a matrix. *)
Definition chol_factor (T : dmat) (tol : R) : res dmat :=
  bind (pivoted_cholesky T tol) (fun cols =>
  Ok (mkD (drows T) (length cols) (fun i p => nth p cols (fun _ => 0) i))).

(** TwoDBasis.cpp 724-732 and 752-758: assign, then fill in order (the OpenMP
    loop writes distinct entries). *)
Definition fill_chol (k : kernel) (tol : R) (N_L Nel : nat) : res cache :=
  for_L_iel N_L Nel (fun c L iel =>
    bind (chol_factor (k_tei k L iel) tol) (fun F => cache_put c (L * Nel + iel) F))
    (mkCache (N_L * Nel) (fun _ => dempty)).

(** TwoDBasis.cpp 708-735 *)
Definition compute_tei (b : tbasis) (s : tstate) : res tstate :=
  let N_L := N_L_of (b_sh b) in let Nel := lnel (b_lay b) in
  bind (compute_disjoint (b_bare b) N_L Nel (t_L s, t_m1L s)) (fun d =>
  bind (fill_chol (b_bare b) (b_tol b) N_L Nel) (fun c =>
  Ok (mkT (fst d) (snd d) c (t_iL s) (t_kL s) (t_rschol s) (t_rsktei s) (t_lambda s) (t_yukawa s)))).

(** TwoDBasis.cpp 737-759 *)
Definition compute_yukawa (b : tbasis) (lambda : R) (s : tstate) : res tstate :=
  let N_L := N_L_of (b_sh b) in let Nel := lnel (b_lay b) in
  bind (compute_disjoint (b_yukawa b lambda) N_L Nel (t_iL s, t_kL s)) (fun d =>
  bind (fill_chol (b_yukawa b lambda) (b_tol b) N_L Nel) (fun c =>
  Ok (mkT (t_L s) (t_m1L s) (t_chol s) (fst d) (snd d) c (t_rsktei s) lambda true))).

(** TwoDBasis.cpp 761-771 *)
Definition compute_erfc (b : tbasis) (mu : R) (s : tstate) : res tstate :=
  let N_L := N_L_of (b_sh b) in let Nel := lnel (b_lay b) in
  bind (compute_erfc_ktei (fun e => snd (lidx (b_lay b) e)) (b_erfc b mu) N_L Nel (t_rsktei s)) (fun k =>
  Ok (mkT (t_L s) (t_m1L s) (t_chol s) cache_none cache_none (t_rschol s) k mu false)).

(** The calls that change the caches. *)
Inductive call := CallTei | CallYukawa (lambda : R) | CallErfc (mu : R).
Definition do_call (b : tbasis) (s : tstate) (c : call) : res tstate :=
  match c with
  | CallTei => compute_tei b s
  | CallYukawa l => compute_yukawa b l s
  | CallErfc m => compute_erfc b m s
  end.
Definition history (b : tbasis) (calls : list call) (s : tstate) : res tstate :=
  fold_res (do_call b) calls s.

(* ------------------------------------------------------------------ *)
(** * Coulomb *)

(** A std::vector<std::vector<Mat>> of N_L rows with 2*Mmax+1 entries, indexed
    [L][M+Mmax]. *)
Definition aux_ok (N_L : nat) (Mmax L M : Z) : bool :=
  ((0 <=? L) && (L <? Z.of_nat N_L) && (0 <=? M + Mmax) && (M + Mmax <? 2 * Mmax + 1))%bool%Z.
(** A[L][M+Mmax] += X *)
Definition aux_add (N_L : nat) (Mmax : Z) (A : Z -> Z -> dmat) (L M : Z) (X : dmat) : res (Z -> Z -> dmat) :=
  if aux_ok N_L Mmax L M then
    bind (dadd (A L M) X) (fun Y =>
    Ok (fun L' M' => if ((L' =? L) && (M' =? M))%bool%Z then Y else A L' M'))
  else UB.
Definition aux_get (N_L : nat) (Mmax : Z) (A : Z -> Z -> dmat) (L M : Z) : res dmat :=
  if aux_ok N_L Mmax L M then Ok (A L M) else UB.

(** TwoDBasis.cpp 793-800 and 826-832: zero matrices for |M| <= min(L,Mmax), the
    other entries are left empty. *)
Definition aux_init (Nrad : nat) (Mmax : Z) : Z -> Z -> dmat := fun L M =>
  if ((- Z.min L Mmax <=? M) && (M <=? Z.min L Mmax))%bool%Z then dzero Nrad Nrad else dempty.

(** P.block(kang*Nrad, lang*Nrad, Nrad, Nrad) *)
Definition ang_block (Nrad : nat) (P : dmat) (k l : nat) : res dmat :=
  get_block P (k * Nrad) (l * Nrad) Nrad Nrad.

(** TwoDBasis.cpp 803-823: contract the density. *)
Definition contract_ket (sh : list (Z * Z)) (Nrad N_L : nat) (Mmax : Z) (g : gtable) (P : dmat) : res (Z -> Z -> dmat) :=
  fold_res (fun A kang => fold_res (fun A lang =>
    let '(lk, mk) := nth kang sh (0, 0)%Z in let '(ll, ml) := nth lang sh (0, 0)%Z in
    let M := (mk - ml)%Z in
    fold_res (fun A L =>
      bind (coeff g lk mk L M ll) (fun cpl =>
      bind (ang_block Nrad P kang lang) (fun X => aux_add N_L Mmax A L M (dscale cpl X))))
      (zrange (Z.max (Z.abs (lk - ll)) (Z.abs M)) (lk + ll)) A)
    (seq 0 (length sh)) A) (seq 0 (length sh)) (aux_init Nrad Mmax).

(** TwoDBasis.cpp 835-851: the radial part for every (L, M). *)
Definition contract_radial (Nrad N_L : nat) (Mmax : Z) (Jrad : nat -> dmat -> res dmat)
    (Paux : Z -> Z -> dmat) : res (Z -> Z -> dmat) :=
  fold_res (fun A L => fold_res (fun A M =>
    bind (aux_get N_L Mmax Paux L M) (fun X =>
    bind (Jrad (Z.to_nat L) X) (fun J =>
    aux_add N_L Mmax A L M (dscale (4 * PI / IZR (2 * L + 1)) J))))
    (zrange (- Z.min L Mmax) (Z.min L Mmax)) A)
    (zrange 0 (Z.of_nat N_L - 1)) (aux_init Nrad Mmax).

(** TwoDBasis.cpp 854-874: the full matrix. *)
Definition expand_bra (sh : list (Z * Z)) (Nrad N_L : nat) (Mmax : Z) (g : gtable) (Jaux : Z -> Z -> dmat) : res dmat :=
  fold_res (fun J iang => fold_res (fun J jang =>
    let '(li, mi) := nth iang sh (0, 0)%Z in let '(lj, mj) := nth jang sh (0, 0)%Z in
    let M := (mj - mi)%Z in
    fold_res (fun J L =>
      bind (coeff g lj mj L M li) (fun cpl =>
      if Reqb cpl 0 then Ok J else
      bind (aux_get N_L Mmax Jaux L M) (fun X =>
      block_add J (iang * Nrad) (jang * Nrad) Nrad Nrad (dscale cpl X))))
      (zrange (Z.max (Z.abs (lj - li)) (Z.abs M)) (lj + li)) J)
    (seq 0 (length sh)) J) (seq 0 (length sh)) (dzero (length sh * Nrad) (length sh * Nrad)).

(** TwoDBasis.cpp 787-788, 889-890, 1011-1012 *)
Definition atomic_gaunt (b : tbasis) : res gtable :=
  let gmax := atomic_gmax (b_sh b) in gaunt_table (b_eval b) gmax (2 * gmax) gmax (-1).

(** The accessors of the caches: c[L*Nel+iel]. *)
Definition disjoint_at (c : cache) (Nel L iel : nat) : res dmat := cache_at c (L * Nel + iel).

(** The per-multipole helper with the cached bare integrals: 594-604, 838-849. *)
Definition J_cached (b : tbasis) (s : tstate) (L : nat) (P : dmat) : res dmat :=
  let Nel := lnel (b_lay b) in
  assemble_J_chol (b_lay b) (disjoint_at (t_L s) Nel L) (disjoint_at (t_m1L s) Nel L)
    (disjoint_at (t_chol s) Nel L) P.

(** TwoDBasis.cpp 773-877 *)
Definition coulomb (b : tbasis) (s : tstate) (P : dmat) : res dmat :=
  if Nat.eqb (csize (t_chol s)) 0 then Throw LogicError else
  let sh := b_sh b in let Nrad := lnbf (b_lay b) in let N_L := N_L_of sh in
  let Mmax := (zmax_list (map snd sh) - zmin_list (map snd sh))%Z in
  bind (atomic_gaunt b) (fun g =>
  bind (contract_ket sh Nrad N_L Mmax g P) (fun Paux =>
  bind (contract_radial Nrad N_L Mmax (J_cached b s) Paux) (fun Jaux =>
  expand_bra sh Nrad N_L Mmax g Jaux))).

(* ------------------------------------------------------------------ *)
(** * Exchange *)

(** P.block(...).norm() *)
Definition fnorm (X : dmat) : R := sqrt (sum (drows X) (fun i => sum (dcols X) (fun j => dent X i j * dent X i j))).

(** Rmat[L] += X and couple[L] = true *)
Definition r_add (N_L : nat) (s : (Z -> dmat) * (Z -> bool)) (L : Z) (X : dmat) : res ((Z -> dmat) * (Z -> bool)) :=
  if ((0 <=? L) && (L <? Z.of_nat N_L))%bool%Z then
    bind (dadd (fst s L) X) (fun Y =>
    Ok (fun L' => if (L' =? L)%Z then Y else fst s L', fun L' => if (L' =? L)%Z then true else snd s L'))
  else UB.

(** TwoDBasis.cpp 921-968 and 1042-1090: the angular sums for the block
    (jang, kang). *)
Definition angular_sums (b : tbasis) (g : gtable) (Lfac : Z -> R) (P : dmat) (jang kang : nat)
    : res ((Z -> dmat) * (Z -> bool)) :=
  let sh := b_sh b in let Nrad := lnbf (b_lay b) in let N_L := N_L_of sh in
  let '(lj, mj) := nth jang sh (0, 0)%Z in let '(lk, mk) := nth kang sh (0, 0)%Z in
  fold_res (fun s iang => fold_res (fun s lang =>
    let '(li, mi) := nth iang sh (0, 0)%Z in let '(ll, ml) := nth lang sh (0, 0)%Z in
    let M := (mj - mi)%Z in
    if negb (M =? mk - ml)%Z then Ok s else
    bind (ang_block Nrad P iang lang) (fun X =>
    if Rltb (fnorm X) (b_thr b) then Ok s else
    fold_res (fun s L =>
      bind (coeff g lj mj L M li) (fun c1 =>
      bind (coeff g lk mk L M ll) (fun c2 =>
      if Reqb (c1 * c2) 0 then Ok s else r_add N_L s L (dscale (Lfac L * (c1 * c2)) X))))
      (zrange (Z.max (Z.max (Z.abs (li - lj)) (Z.abs (lk - ll))) (Z.abs M)) (Z.min (li + lj) (lk + ll))) s))
    (seq 0 (length sh)) s) (seq 0 (length sh)) (fun _ => dzero Nrad Nrad, fun _ => false).

(** A - B *)
Definition dsub_block (M : dmat) (f g n m : nat) (B : dmat) : res dmat := block_add M f g n m (dscale (-1) B).

(** TwoDBasis.cpp 901-996 and 1023-1128 with the radial helper as a parameter.
    The iterations of the parallel loop write distinct blocks of K, so it is run
    in order. *)
Definition exchange_loop (b : tbasis) (Krad : nat -> dmat -> res dmat) (Lfac : Z -> R) (P : dmat) : res dmat :=
  let sh := b_sh b in let Nrad := lnbf (b_lay b) in let N_L := N_L_of sh in
  bind (atomic_gaunt b) (fun g =>
  fold_res (fun K jang => fold_res (fun K kang =>
    bind (angular_sums b g Lfac P jang kang) (fun s =>
    bind (fold_res (fun B L =>
            if negb (snd s (Z.of_nat L)) then Ok B else
            bind (Krad L (fst s (Z.of_nat L))) (fun X => dadd B X))
            (seq 0 N_L) (dzero Nrad Nrad)) (fun K_block =>
    dsub_block K (jang * Nrad) (kang * Nrad) Nrad Nrad K_block)))
    (seq 0 (length sh)) K) (seq 0 (length sh)) (dzero (length sh * Nrad) (length sh * Nrad))).

(** TwoDBasis.cpp 879-999 *)
Definition exchange (b : tbasis) (s : tstate) (P : dmat) : res dmat :=
  if Nat.eqb (csize (t_chol s)) 0 then Throw LogicError else
  let Nel := lnel (b_lay b) in
  exchange_loop b (fun L => assemble_K_chol (b_lay b) (disjoint_at (t_L s) Nel L)
      (disjoint_at (t_m1L s) Nel L) (disjoint_at (t_chol s) Nel L))
    (fun L => 4 * PI / IZR (2 * L + 1)) P.

(** TwoDBasis.cpp 1001-1131 *)
Definition rs_exchange (b : tbasis) (s : tstate) (P : dmat) : res dmat :=
  if (Nat.eqb (csize (t_rsktei s)) 0 && Nat.eqb (csize (t_rschol s)) 0)%bool then Throw LogicError else
  let Nel := lnel (b_lay b) in
  if t_yukawa s
  then exchange_loop b (fun L => assemble_K_chol (b_lay b) (disjoint_at (t_iL s) Nel L)
         (disjoint_at (t_kL s) Nel L) (disjoint_at (t_rschol s) Nel L))
         (fun L => 4 * PI * t_lambda s) P
  else exchange_loop b (fun L => assemble_K_pairwise (b_lay b)
         (fun iel jel => cache_at (t_rsktei s) (Nel * Nel * L + iel * Nel + jel)))
         (fun L => 4 * PI * t_lambda s / IZR (2 * L + 1)) P.

(* ------------------------------------------------------------------ *)
(** * Density fitting factors *)

(** TwoDBasis.cpp 635-640 and 671-677: the indicator of a pair. *)
Definition pair_density (N i j : nat) : dmat :=
  mkD N N (if Nat.eqb i j then store mzero i i 1
           else store (store mzero i j (1 / 2)) j i (1 / 2)).

(** TwoDBasis.cpp 626-648: the initial diagonal. *)
Definition df_diagonal (lay : layout) (J : dmat -> res dmat) : res dmat :=
  let N := lnbf lay in
  fold_res (fun D iel =>
    let '(ifirst, Ni) := lidx lay iel in
    fold_res (fun D j_loc => fold_res (fun D i_loc =>
      let i := (ifirst + i_loc)%nat in let j := (ifirst + j_loc)%nat in
      if (Nat.ltb i N && Nat.ltb j N)%bool then
        bind (J (pair_density N i j)) (fun Jm =>
        let D1 := store (dent D) i j (dent Jm i j) in
        Ok (mkD N N (store D1 j i (D1 i j))))
      else UB)
      (seq 0 (j_loc + 1)) D) (seq 0 Ni) D) (seq 0 (lnel lay)) (dzero N N).

(** D.maxCoeff(&i, &j): column-major position of the first largest entry. *)
Definition max_coeff (N : nat) (D : mat) : nat * R :=
  let d := fun r => D (r mod N)%nat (r / N)%nat in
  fold_left (fun pv r => if Rltb (snd pv) (d r) then (r, d r) else pv) (seq 1 (N * N - 1)) (0%nat, d 0%nat).

(** TwoDBasis.cpp 657-699: one loop per multipole; a non-positive pivot would
    divide by zero. *)
Fixpoint df_loop (fuel : nat) (N : nat) (J : dmat -> res dmat) (tol : R) (D : mat) (B : list dmat)
    : res (list dmat) :=
  match fuel with
  | O => OutOfFuel
  | S fuel' =>
    let '(r, D_pivot) := max_coeff N D in
    if Rltb D_pivot tol then Ok B else
    if Rleb D_pivot 0 then UB else
    let i := (r mod N)%nat in let j := (r / N)%nat in
    bind (J (pair_density N i j)) (fun col0 =>
    let col := fold_left (fun col V => fun a b => col a b - dent V i j * dent V a b) B (dent col0) in
    let v := fun a b => col a b / sqrt D_pivot in
    df_loop fuel' N J tol (fun a b => Rmax (D a b - v a b * v a b) 0) (B ++ [mkD N N v]))
  end.

(** TwoDBasis.cpp 582-706 *)
Definition radial_df_factors (fuel : nat) (b : tbasis) (s : tstate) (tol : R) : res (list (list dmat)) :=
  if Nat.eqb (csize (t_chol s)) 0 then Throw LogicError else
  fold_res (fun out L =>
    bind (df_diagonal (b_lay b) (J_cached b s L)) (fun D =>
    bind (df_loop fuel (lnbf (b_lay b)) (J_cached b s L) tol (dent D) []) (fun B =>
    Ok (out ++ [B])))) (seq 0 (N_L_of (b_sh b))) [].
