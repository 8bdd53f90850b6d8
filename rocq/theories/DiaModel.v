(** Model of the Coulomb and exchange matrices of the diatomic basis:
    /repo/src/diatomic/basis.cpp 1549-1560 and 1627-2088.  Scalars are exact real
    numbers; operations outside an array or between matrices of different size are
    [UB]. *)
Require Import Reals ZArith List Bool Arith.
Require Import Verif.Prelude Verif.AngModel Verif.JKModel Verif.GauntModel Verif.TwoDModel Verif.TeiModel.
Import ListNotations.
Local Open Scope R_scope.

(* ------------------------------------------------------------------ *)
(** * The basis *)

(** What coulomb and exchange read of the basis: the shells (lval(i), mval(i)), the
    radial layout, Rhalf, the generator behind the Gaunt table, the screening
    threshold 10*DBL_EPSILON and absm_symmetric. *)
Record dbasis := mkDB {
  db_sh : list (Z * Z);
  db_lay : layout;
  db_Rhalf : R;
  db_eval : generator;
  db_thr : R;
  db_absm : bool }.

(** The arrays disjoint_P0, disjoint_P2, disjoint_Q0, disjoint_Q2, cd_B and cd_sigma
    are numbers 0 to 5 of the memory and have the same size; before compute_tei
    (basis.cpp 1384-1547) the size is zero. *)
Record dstate := mkDS { ds_size : nat; ds_mem : memory }.
Definition arr (s : dstate) (a i : nat) : res dmat :=
  if Nat.ltb i (ds_size s) then Ok (ds_mem s a i) else UB.

(** basis.cpp 607-627: the table built by the constructor. *)
Definition di_gaunt (b : dbasis) : res gtable :=
  let '(lrval, midval, mcap) := diatomic_gaunt (db_sh b) true in
  gaunt_table (db_eval b) lrval midval lrval mcap.

(** basis.cpp 1549-1560: build_LMfac_abs. *)
Definition LMfac_entry (Rhalf : R) (LM : Z * Z) : R :=
  let '(L, Ma) := LM in
  4 * PI * Rhalf ^ 5 / fold_left (fun fr p => fr * IZR p) (rev (zrange (L - Ma + 1) (L + Ma))) 1.
Definition build_LMfac_abs (Rhalf : R) (lm : list (Z * Z)) : list R := map (LMfac_entry Rhalf) lm.

(** basis.cpp 1699-1701 and 1938-1940: signM * LMfac_abs[ilm]. *)
Definition signed_factor (tbl : list R) (M : Z) (ilm : nat) : res R :=
  match nth_error tbl ilm with
  | Some f => Ok ((if Z.odd M then -1 else 1) * f)
  | None => UB
  end.

(* ------------------------------------------------------------------ *)
(** * Eigen operations *)

(** A[c] += X for a vector of n matrices per channel. *)
Definition put_add (n : nat) (A : memory) (c : cell) (X : dmat) : res memory :=
  if Nat.ltb (snd c) n then bind (dadd (A (fst c) (snd c)) X) (fun Y => Ok (mem_put A c Y)) else UB.

(** The vector [u; v]. *)
Definition stack (u v : dmat) : dmat :=
  mkD (drows u + drows v) 1 (fun i _ => if Nat.ltb i (drows u) then dent u i 0%nat else dent v (i - drows u)%nat 0%nat).
(** v.head(n), v.tail(n) *)
Definition head (n : nat) (v : dmat) : res dmat :=
  if Nat.leb n (drows v) then Ok (mkD n 1 (fun i _ => dent v i 0%nat)) else UB.
Definition tail (n : nat) (v : dmat) : res dmat :=
  if Nat.leb n (drows v) then Ok (mkD n 1 (fun i _ => dent v (drows v - n + i)%nat 0%nat)) else UB.
(** u.array() *= v.array() *)
Definition array_mul (u v : dmat) : res dmat :=
  if (Nat.eqb (drows u) (drows v) && Nat.eqb (dcols u) (dcols v))%bool
  then Ok (mkD (drows u) (dcols u) (fun i j => dent u i j * dent v i j)) else UB.

(* ------------------------------------------------------------------ *)
(** * Coulomb *)

(** basis.cpp 1641-1645 and 1682-1686 *)
Definition zero_channels (Nrad : nat) : memory := fun _ _ => dzero Nrad Nrad.

(** basis.cpp 1648-1677: contract the density.  Channels 0 and 1 are Paux0 and
    Paux2. *)
Definition di_ket (sh : list (Z * Z)) (lM : list (Z * Z)) (Nrad : nat) (g : gtable) (P : dmat) : res memory :=
  fold_res (fun A kang => fold_res (fun A lang =>
    let '(lk, mk) := nth kang sh (0, 0)%Z in let '(ll, ml) := nth lang sh (0, 0)%Z in
    let M := (mk - ml)%Z in
    fold_res (fun A L =>
      bind (LMind lM L M true) (fun iLM =>
      bind (mod_coeff g lk mk L M ll ml) (fun cpl0 =>
      bind (coeff g lk mk L M ll) (fun cpl2 =>
      bind (ang_block Nrad P kang lang) (fun Prad =>
      bind (if Reqb cpl0 0 then Ok A else put_add (length lM) A (0%nat, iLM) (dscale cpl0 Prad)) (fun A =>
      if Reqb cpl2 0 then Ok A else put_add (length lM) A (1%nat, iLM) (dscale cpl2 Prad)))))))
      (zrange (Z.max (Z.abs (lk - ll) - 2) (Z.abs M)) (lk + ll + 2)) A)
    (seq 0 (length sh)) A) (seq 0 (length sh)) (zero_channels Nrad).

(** (X*Psub).trace() for the stored matrix X *)
Definition stored_trace (s : dstate) (a i : nat) (Psub : dmat) : res R :=
  bind (arr s a i) (fun X => bind (dprod X Psub) (fun Y => Ok (dtrace Y))).

(** basis.cpp 1722-1734 and 1737-1749: J0.block += f0*iint0, J2.block += f2*iint2 for
    the elements in [els]; iint0 and iint2 are from arrays a and a+1. *)
Definition di_disjoint (lay : layout) (s : dstate) (ilm a : nat) (f0 f2 : R) (els : list nat) (J : dmat * dmat)
    : res (dmat * dmat) :=
  fold_res (fun J iel =>
    let '(ifirst, Ni) := lidx lay iel in
    bind (arr s a (ilm * lnel lay + iel)) (fun iint0 =>
    bind (arr s (a + 1) (ilm * lnel lay + iel)) (fun iint2 =>
    bind (block_add (fst J) ifirst ifirst Ni Ni (dscale f0 iint0)) (fun J0 =>
    bind (block_add (snd J) ifirst ifirst Ni Ni (dscale f2 iint2)) (fun J2 => Ok (J0, J2)))))) els J.

(** basis.cpp 1769-1788: the in-element contribution. *)
Definition di_in_element (lay : layout) (s : dstate) (ilm jel : nat) (LMfac : R) (Psub0 Psub2 : dmat) (J : dmat * dmat)
    : res (dmat * dmat) :=
  let '(ifirst, Ni) := lidx lay jel in
  bind (arr s 4 (ilm * lnel lay + jel)) (fun B =>
  bind (arr s 5 (ilm * lnel lay + jel)) (fun sigma =>
  let nn := (Ni * Ni)%nat in
  let p2ch := stack (dvec Psub0) (dvec Psub2) in
  bind (dprod (dT B) p2ch) (fun c =>
  bind (array_mul c sigma) (fun c =>
  bind (dprod B c) (fun Bc =>
  let jv := dscale LMfac Bc in
  bind (head nn jv) (fun jv0 =>
  bind (tail nn jv) (fun jv2 =>
  bind (reshape jv0 Ni Ni) (fun Jsub0 =>
  bind (reshape jv2 Ni Ni) (fun Jsub2 =>
  bind (block_add (fst J) ifirst ifirst Ni Ni Jsub0) (fun J0 =>
  bind (block_add (snd J) ifirst ifirst Ni Ni Jsub2) (fun J2 => Ok (J0, J2)))))))))))).

(** basis.cpp 1704-1790: the body of the loop over input elements. *)
Definition di_element (lay : layout) (s : dstate) (ilm : nat) (LMfac : R) (P0 P2 : dmat) (J : dmat * dmat) (jel : nat)
    : res (dmat * dmat) :=
  let Nel := lnel lay in
  let '(jfirst, Nj) := lidx lay jel in
  bind (get_block P0 jfirst jfirst Nj Nj) (fun Psub0 =>
  bind (get_block P2 jfirst jfirst Nj Nj) (fun Psub2 =>
  bind (stored_trace s 0 (ilm * Nel + jel) Psub0) (fun t =>
  let jsmall0 := LMfac * t in
  bind (stored_trace s 2 (ilm * Nel + jel) Psub0) (fun t =>
  let jbig0 := LMfac * t in
  bind (stored_trace s 1 (ilm * Nel + jel) Psub2) (fun t =>
  let jsmall2 := LMfac * t in
  bind (stored_trace s 3 (ilm * Nel + jel) Psub2) (fun t =>
  let jbig2 := LMfac * t in
  bind (di_disjoint lay s ilm 0 (jbig0 - jbig2) (- jbig0 + jbig2) (seq 0 jel) J) (fun J =>
  bind (di_disjoint lay s ilm 2 (jsmall0 - jsmall2) (- jsmall0 + jsmall2) (seq (jel + 1) (Nel - (jel + 1))) J) (fun J =>
  di_in_element lay s ilm jel LMfac Psub0 Psub2 J)))))))).

(** basis.cpp 1691-1791: the radial part for every (L, M).  Jaux0[iLM] and Jaux2[iLM]
    are only written by iteration iLM, which starts from zero matrices. *)
Definition di_radial (lay : layout) (s : dstate) (lm lM : list (Z * Z)) (tbl : list R) (Paux : memory) : res memory :=
  let Nrad := lnbf lay in
  fold_res (fun A iLM =>
    let '(L, M) := nth iLM lM (0, 0)%Z in
    bind (lmind lm L M true) (fun ilm =>
    bind (signed_factor tbl M ilm) (fun LMfac =>
    bind (fold_res (di_element lay s ilm LMfac (Paux 0%nat iLM) (Paux 1%nat iLM)) (seq 0 (lnel lay))
            (dzero Nrad Nrad, dzero Nrad Nrad)) (fun J =>
    Ok (mem_put (mem_put A (0%nat, iLM) (fst J)) (1%nat, iLM) (snd J))))))
    (seq 0 (length lM)) (zero_channels Nrad).

(** basis.cpp 1794-1814: the full matrix. *)
Definition di_bra (sh : list (Z * Z)) (lM : list (Z * Z)) (Nrad : nat) (g : gtable) (Jaux : memory) : res dmat :=
  fold_res (fun J iang => fold_res (fun J jang =>
    let '(li, mi) := nth iang sh (0, 0)%Z in let '(lj, mj) := nth jang sh (0, 0)%Z in
    let M := (mj - mi)%Z in
    fold_res (fun J L =>
      bind (LMind lM L M true) (fun iLM =>
      bind (mod_coeff g lj mj L M li mi) (fun cpl0 =>
      bind (if Reqb cpl0 0 then Ok J else
              block_add J (iang * Nrad) (jang * Nrad) Nrad Nrad (dscale cpl0 (Jaux 0%nat iLM))) (fun J =>
      bind (coeff g lj mj L M li) (fun cpl2 =>
      if Reqb cpl2 0 then Ok J else
        block_add J (iang * Nrad) (jang * Nrad) Nrad Nrad (dscale cpl2 (Jaux 1%nat iLM)))))))
      (zrange (Z.max (Z.abs (lj - li) - 2) (Z.abs M)) (lj + li + 2)) J)
    (seq 0 (length sh)) J) (seq 0 (length sh)) (dzero (di_Ndummy sh Nrad) (di_Ndummy sh Nrad)).

(** basis.cpp 1627-1818: coulomb. *)
Definition di_coulomb (b : dbasis) (s : dstate) (P_in : dmat) : res dmat :=
  if Nat.eqb (ds_size s) 0 then Throw LogicError else
  let sh := db_sh b in let lay := db_lay b in let Nrad := lnbf lay in
  bind (expand_boundaries sh Nrad P_in) (fun P =>
  bind (build_tables sh) (fun maps => let '(lm, lM) := maps in
  bind (di_gaunt b) (fun g =>
  bind (di_ket sh lM Nrad g P) (fun Paux =>
  bind (di_radial lay s lm lM (build_LMfac_abs (db_Rhalf b) lm) Paux) (fun Jaux =>
  bind (di_bra sh lM Nrad g Jaux) (fun J =>
  remove_boundaries sh Nrad J)))))).

(* ------------------------------------------------------------------ *)
(** * Exchange *)

(** basis.cpp 1855-1863: pairs_by_dm[dm + 2*mabs].emplace_back(iang, lang). *)
Definition bucket_push (mabs : Z) (bk : Z -> list (nat * nat)) (dm : Z) (x : nat * nat) : res (Z -> list (nat * nat)) :=
  if ((0 <=? dm + 2 * mabs) && (dm + 2 * mabs <? 4 * mabs + 1))%bool%Z
  then Ok (fun d => if (d =? dm)%Z then bk d ++ [x] else bk d) else UB.
Definition buckets (sh : list (Z * Z)) (Nrad : nat) (thr : R) (mabs : Z) (P : dmat) : res (Z -> list (nat * nat)) :=
  fold_res (fun bk iang => fold_res (fun bk lang =>
    bind (ang_block Nrad P iang lang) (fun X =>
    if Rltb (fnorm X) thr then Ok bk else
    let dm := (snd (nth iang sh (0, 0)) - snd (nth lang sh (0, 0)))%Z in
    if (2 * mabs <? Z.abs dm)%Z then Ok bk else bucket_push mabs bk dm (iang, lang)))
    (seq 0 (length sh)) bk) (seq 0 (length sh)) (fun _ => []).
Definition bucket_get (mabs : Z) (bk : Z -> list (nat * nat)) (dm : Z) : res (list (nat * nat)) :=
  if ((0 <=? dm + 2 * mabs) && (dm + 2 * mabs <? 4 * mabs + 1))%bool%Z then Ok (bk dm) else UB.

(** The helpers Rmat00, Rmat02, Rmat20, Rmat22 as channels 0 to 3, and couple. *)
Definition helpers := (memory * (nat -> bool))%type.

(** basis.cpp 1942-1957: start the helpers of entry ilm at zero if they are not in
    use, and add c_a * X to each. *)
Definition helper_add (n Nrad : nat) (h : helpers) (ilm : nat) (c : nat -> R) (X : dmat) : res helpers :=
  if Nat.ltb ilm n then
    let old := fun a => if snd h ilm then fst h a ilm else dzero Nrad Nrad in
    bind (dadd (old 0%nat) (dscale (c 0%nat) X)) (fun Y0 =>
    bind (dadd (old 1%nat) (dscale (c 1%nat) X)) (fun Y1 =>
    bind (dadd (old 2%nat) (dscale (c 2%nat) X)) (fun Y2 =>
    bind (dadd (old 3%nat) (dscale (c 3%nat) X)) (fun Y3 =>
    Ok (mem_put (mem_put (mem_put (mem_put (fst h) (0%nat, ilm) Y0) (1%nat, ilm) Y1) (2%nat, ilm) Y2) (3%nat, ilm) Y3,
        fun i => if Nat.eqb i ilm then true else snd h i)))))
  else UB.

(** The four couplings of a block. *)
Definition four (c0 c1 c2 c3 : R) (a : nat) : R := match a with 0 => c0 | 1 => c1 | 2 => c2 | _ => c3 end%nat.

(** basis.cpp 1908-1960: the angular sums of block (jang, kang) over the candidates. *)
Definition di_angular (sh lm : list (Z * Z)) (tbl : list R) (Nrad : nat) (g : gtable) (P : dmat) (jang kang : nat)
    (cand : list (nat * nat)) : res helpers :=
  let '(lj, mj) := nth jang sh (0, 0)%Z in let '(lk, mk) := nth kang sh (0, 0)%Z in
  fold_res (fun h c =>
    let '(iang, lang) := c in
    let '(li, mi) := nth iang sh (0, 0)%Z in let '(ll, ml) := nth lang sh (0, 0)%Z in
    let M := (mj - mi)%Z in
    fold_res (fun h L =>
      bind (mod_coeff g lj mj L M li mi) (fun mji =>
      bind (mod_coeff g lk mk L M ll ml) (fun mkl =>
      bind (coeff g lj mj L M li) (fun cji =>
      bind (coeff g lk mk L M ll) (fun ckl =>
      let cpl00 := mji * mkl in let cpl02 := - mji * ckl in
      let cpl20 := - cji * mkl in let cpl22 := cji * ckl in
      if (Reqb cpl00 0 && Reqb cpl02 0 && Reqb cpl20 0 && Reqb cpl22 0)%bool then Ok h else
      bind (lmind lm L M true) (fun ilm =>
      bind (signed_factor tbl M ilm) (fun LMfac =>
      bind (ang_block Nrad P iang lang) (fun Psub =>
      helper_add (length lm) Nrad h ilm (four (LMfac * cpl00) (LMfac * cpl02) (LMfac * cpl20) (LMfac * cpl22)) Psub))))))))
      (zrange (Z.max (Z.max (Z.abs (li - lj)) (Z.abs (lk - ll)) - 2) (Z.abs M)) (Z.min (li + lj) (lk + ll) + 2)) h)
    cand (fun _ _ => dempty, fun _ => false).

(** A - B *)
Definition dsub (A B : dmat) : res dmat := dadd A (dscale (-1) B).
(** A*B*C *)
Definition dprod3 (A B C : dmat) : res dmat := bind (dprod A B) (fun AB => dprod AB C).

(** Map<Matrix>(B.col(p).data() + off, Ni, Ni) *)
Definition column_map (B : dmat) (p off Ni : nat) : res dmat :=
  if (Nat.ltb p (dcols B) && Nat.leb (off + Ni * Ni) (drows B))%bool
  then Ok (mkD Ni Ni (fun a b => dent B (off + (b * Ni + a))%nat p)) else UB.

(** basis.cpp 2003-2020 (and 842-851 of check_cd): Ksubm += sigma(p)*contrib over the
    columns of one factor. *)
Definition di_factor_K (B sigma : dmat) (Ni : nat) (Rb : nat -> dmat) (K : dmat) : res dmat :=
  fold_res (fun K p =>
    bind (column_map B p 0 Ni) (fun M0 =>
    bind (column_map B p (Ni * Ni) Ni) (fun M2 =>
    let M0t := dT M0 in let M2t := dT M2 in
    bind (dprod3 M0t (Rb 0%nat) M0t) (fun X0 =>
    bind (dprod3 M0t (Rb 1%nat) M2t) (fun X1 =>
    bind (dprod3 M2t (Rb 2%nat) M0t) (fun X2 =>
    bind (dprod3 M2t (Rb 3%nat) M2t) (fun X3 =>
    bind (dsub X0 X1) (fun Y =>
    bind (dsub Y X2) (fun Y =>
    bind (dadd Y X3) (fun contrib =>
    if (Nat.ltb p (drows sigma) && Nat.ltb 0 (dcols sigma))%bool then dadd K (dscale (dent sigma p 0%nat) contrib) else UB))))))))))
    (seq 0 (dcols B)) K.

(** Rmat.block(ifirst, jfirst, Ni, Nj) of the four helpers of entry ilm. *)
Definition helper_blocks (h : helpers) (ilm ifirst jfirst Ni Nj : nat) : res (nat -> dmat) :=
  bind (get_block (fst h 0%nat ilm) ifirst jfirst Ni Nj) (fun R0 =>
  bind (get_block (fst h 1%nat ilm) ifirst jfirst Ni Nj) (fun R1 =>
  bind (get_block (fst h 2%nat ilm) ifirst jfirst Ni Nj) (fun R2 =>
  bind (get_block (fst h 3%nat ilm) ifirst jfirst Ni Nj) (fun R3 =>
  Ok (fun a => match a with 0 => R0 | 1 => R1 | 2 => R2 | _ => R3 end%nat))))).

(** basis.cpp 1991-2021: the in-element block. *)
Definition di_K_same (lay : layout) (s : dstate) (nlm : nat) (h : helpers) (iel : nat) : res dmat :=
  let '(ifirst, Ni) := lidx lay iel in
  fold_res (fun K ilm =>
    if negb (snd h ilm) then Ok K else
    bind (arr s 4 (ilm * lnel lay + iel)) (fun B =>
    bind (arr s 5 (ilm * lnel lay + iel)) (fun sigma =>
    bind (helper_blocks h ilm ifirst ifirst Ni Ni) (fun Rb =>
    di_factor_K B sigma Ni Rb K)))) (seq 0 nlm) (dzero Ni Ni).

(** basis.cpp 2027-2044: the block of two different elements. *)
Definition di_K_pair (lay : layout) (s : dstate) (nlm : nat) (h : helpers) (iel jel : nat) : res dmat :=
  let Nel := lnel lay in
  let '(ifirst, Ni) := lidx lay iel in let '(jfirst, Nj) := lidx lay jel in
  fold_res (fun K ilm =>
    if negb (snd h ilm) then Ok K else
    bind (arr s (if Nat.ltb jel iel then 2 else 0) (ilm * Nel + iel)) (fun iint0 =>
    bind (arr s (if Nat.ltb jel iel then 3 else 1) (ilm * Nel + iel)) (fun iint2 =>
    bind (arr s (if Nat.ltb jel iel then 0 else 2) (ilm * Nel + jel)) (fun jint0 =>
    bind (arr s (if Nat.ltb jel iel then 1 else 3) (ilm * Nel + jel)) (fun jint2 =>
    bind (helper_blocks h ilm ifirst jfirst Ni Nj) (fun Rb =>
    bind (dprod (Rb 0%nat) (dT jint0)) (fun T0 =>
    bind (dprod (Rb 1%nat) (dT jint2)) (fun T1 =>
    bind (dadd T0 T1) (fun T =>
    bind (dprod iint0 T) (fun X =>
    bind (dsub K X) (fun K =>
    bind (dprod (Rb 2%nat) (dT jint0)) (fun T0 =>
    bind (dprod (Rb 3%nat) (dT jint2)) (fun T1 =>
    bind (dadd T0 T1) (fun T =>
    bind (dprod iint2 T) (fun X => dsub K X))))))))))))))) (seq 0 nlm) (dzero Ni Nj).

(** basis.cpp 1967-2050: the loops over elements for block (jang, kang). *)
Definition di_K_block (lay : layout) (s : dstate) (nlm : nat) (h : helpers) (jang kang : nat) (K : dmat) : res dmat :=
  let Nrad := lnbf lay in
  fold_res (fun K iel => fold_res (fun K jel =>
    let '(ifirst, Ni) := lidx lay iel in let '(jfirst, Nj) := lidx lay jel in
    if Nat.eqb iel jel
    then bind (di_K_same lay s nlm h iel) (fun X => dsub_block K (jang * Nrad + ifirst) (kang * Nrad + jfirst) Ni Nj X)
    else bind (di_K_pair lay s nlm h iel jel) (fun X => block_add K (jang * Nrad + ifirst) (kang * Nrad + jfirst) Ni Nj X))
    (seq 0 (lnel lay)) K) (seq 0 (lnel lay)) K.

(** basis.cpp 1874-2051: one iteration of the parallel loop. *)
Definition di_K_iteration (b : dbasis) (s : dstate) (lm : list (Z * Z)) (tbl : list R) (g : gtable) (mabs : Z)
    (bk : Z -> list (nat * nat)) (P : dmat) (K : dmat) (jk : nat * nat) : res dmat :=
  let '(jang, kang) := jk in
  let sh := db_sh b in let Nrad := lnbf (db_lay b) in
  let mj := snd (nth jang sh (0, 0)%Z) in let mk := snd (nth kang sh (0, 0)%Z) in
  if (db_absm b && ((mj <? 0) || (mk <? 0)))%bool%Z then Ok K else
  let dmjk := (mj - mk)%Z in
  if (2 * mabs <? Z.abs dmjk)%Z then Ok K else
  bind (bucket_get mabs bk dmjk) (fun cand =>
  match cand with
  | [] => Ok K
  | _ =>
    bind (di_angular sh lm tbl Nrad g P jang kang cand) (fun h =>
    if negb (existsb (snd h) (seq 0 (length lm))) then Ok K else
    di_K_block (db_lay b) s (length lm) h jang kang K)
  end).

(** basis.cpp 2070-2073: mirror_ang; no entry is None. *)
Definition mirror_of (sh : list (Z * Z)) (a : nat) : option nat :=
  List.find (fun b1 => ((fst (nth b1 sh (0, 0)) =? fst (nth a sh (0, 0))) && (snd (nth b1 sh (0, 0)) =? - snd (nth a sh (0, 0))))%bool%Z)
    (seq 0 (length sh)).

(** K.block(f, g, n, n) = X *)
Definition block_set (M : dmat) (f g n m : nat) (B : dmat) : res dmat :=
  if (Nat.leb (f + n) (drows M) && Nat.leb (g + m) (dcols M) && Nat.eqb (drows B) n && Nat.eqb (dcols B) m)%bool
  then Ok (mkD (drows M) (dcols M) (fun i j =>
         if (Nat.leb f i && Nat.ltb i (f + n) && (Nat.leb g j && Nat.ltb j (g + m)))%bool
         then dent B (i - f)%nat (j - g)%nat else dent M i j))
  else UB.

(** basis.cpp 2067-2085 *)
Definition di_mirror (sh : list (Z * Z)) (Nrad : nat) (K : dmat) : res dmat :=
  fold_res (fun K jang =>
    if (0 <=? snd (nth jang sh (0, 0)))%Z then Ok K else
    match mirror_of sh jang with
    | None => Ok K
    | Some jm =>
      fold_res (fun K kang =>
        if (0 <=? snd (nth kang sh (0, 0)))%Z then Ok K else
        match mirror_of sh kang with
        | None => Ok K
        | Some km =>
          bind (get_block K (jm * Nrad) (km * Nrad) Nrad Nrad) (fun X =>
          block_set K (jang * Nrad) (kang * Nrad) Nrad Nrad X)
        end) (seq 0 (length sh)) K
    end) (seq 0 (length sh)) K.

(** basis.cpp 1820-2088: exchange.  [order] is the order in which the iterations
    (jang, kang) of the parallel loop take effect; each reads nothing of K and
    writes its own block. *)
Definition di_exchange (b : dbasis) (s : dstate) (order : list (nat * nat)) (P_in : dmat) : res dmat :=
  if Nat.eqb (ds_size s) 0 then Throw LogicError else
  let sh := db_sh b in let lay := db_lay b in let Nrad := lnbf lay in
  bind (expand_boundaries sh Nrad P_in) (fun P =>
  bind (build_tables sh) (fun maps => let '(lm, _) := maps in
  let tbl := build_LMfac_abs (db_Rhalf b) lm in
  bind (di_gaunt b) (fun g =>
  bind (absm_max sh) (fun mabs =>
  bind (buckets sh Nrad (db_thr b) mabs P) (fun bk =>
  bind (fold_res (di_K_iteration b s lm tbl g mabs bk P) order (dzero (di_Ndummy sh Nrad) (di_Ndummy sh Nrad))) (fun K =>
  bind (if db_absm b then di_mirror sh Nrad K else Ok K) (fun K =>
  remove_boundaries sh Nrad K))))))).
