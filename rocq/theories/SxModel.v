(** The two-electron matrices of spherically averaged atoms:
    /repo/src/sadatom/basis.cpp 132-430 and 579-597.  The caches and the calls
    that fill them (132-184) are textually those of the atomic basis, with lval =
    0, 1, ..., lmax (line 49), so [tbasis], [tstate] and [history] of TwoDModel
    are reused with the shells [sad_shells lmax]; the magnetic quantum numbers
    and the screening threshold of a [tbasis] are not used here. *)
Require Import Reals ZArith List Bool Arith.
Require Import Verif.Prelude Verif.AngModel Verif.JKModel Verif.GauntModel Verif.TwoDModel.
Import ListNotations.
Local Open Scope R_scope.

(** basis.cpp 49: lval = LinSpaced(lmax+1, 0, lmax) *)
Definition sad_shells (lmax : nat) : list (Z * Z) := map (fun l => (Z.of_nat l, 0%Z)) (seq 0 (lmax + 1)).

(** basis.cpp 186-207 *)
Definition sad_coulomb (b : tbasis) (s : tstate) (P : dmat) : res dmat :=
  if Nat.eqb (csize (t_chol s)) 0 then Throw LogicError else
  let L := 0%nat in let Nel := lnel (b_lay b) in
  let Lfac := 4 * PI / INR (2 * L + 1) in
  bind (assemble_J_chol (b_lay b) (disjoint_at (t_L s) Nel L) (disjoint_at (t_m1L s) Nel L)
          (disjoint_at (t_chol s) Nel L) P) (fun J => Ok (dscale Lfac J)).

(** basis.cpp 213-214, 319-320 *)
Definition sad_gaunt (b : tbasis) : res gtable :=
  let gmax := lmax_of (b_sh b) in gaunt_table (b_eval b) gmax (2 * gmax) gmax (-1).

(** basis.cpp 253-269 and 358-374: totcoup, as a function of L. *)
Definition sad_totcoup (g : gtable) (lout lin : Z) : res (Z -> R) :=
  bind (fold_res (fun t mout => fold_res (fun t min =>
    let M := (mout - min)%Z in
    fold_res (fun t L =>
      bind (coeff g lout mout L M lin) (fun c1 =>
      bind (coeff g lout mout L M lin) (fun c2 =>
      Ok (zset t L (t L + c1 * c2)))))
      (zrange (Z.abs (lin - lout)) (lin + lout)) t)
    (zrange (- lin) lin) t) (zrange (- lout) lout) (fun _ => 0)) (fun t =>
  Ok (fun L => t L / IZR (2 * lout + 1))).

(** P[l] *)
Definition cube_at (P : list dmat) (l : nat) : res dmat :=
  match nth_error P l with Some X => Ok X | None => UB end.

(** basis.cpp 237-283 and 342-388: Prad and coupling for one lout. *)
Definition sad_sums (b : tbasis) (g : gtable) (Lfac : Z -> R) (P : list dmat) (lout : nat)
    : res ((Z -> dmat) * (Z -> bool)) :=
  let Nrad := lnbf (b_lay b) in let gmax := lmax_of (b_sh b) in
  fold_res (fun s lin =>
    bind (cube_at P lin) (fun X =>
    if Reqb (fnorm X) 0 then Ok s else
    let lo := Z.of_nat lout in let li := Z.of_nat lin in
    bind (sad_totcoup g lo li) (fun t =>
    fold_res (fun s L =>
      if Reqb (t L) 0 then Ok s else
      r_add (Z.to_nat (2 * gmax + 1)) s L (dscale (Lfac L * t L) X))
      (zrange (Z.abs (li - lo)) (li + lo)) s)))
    (seq 0 (Z.to_nat (gmax + 1))) (fun _ => dzero Nrad Nrad, fun _ => false).

(** basis.cpp 225-310 and 330-428 with the radial helper as a parameter.  The
    parallel loop visits the lout in any order [order]; each visit writes its own
    matrix K[lout]. *)
Definition sad_exchange_loop (b : tbasis) (Krad : nat -> dmat -> res dmat) (Lfac : Z -> R) (order : list nat)
    (P : list dmat) : res (list dmat) :=
  let Nrad := lnbf (b_lay b) in let gmax := lmax_of (b_sh b) in
  bind (sad_gaunt b) (fun g =>
  if negb (Z.of_nat (length P) =? gmax + 1)%Z then Throw LogicError else
  bind (cube_at P 0) (fun P0 =>
  if (negb (Nat.eqb (drows P0) Nrad) || negb (Nat.eqb (dcols P0) Nrad))%bool then Throw LogicError else
  bind (fold_res (fun K lout =>
    bind (sad_sums b g Lfac P lout) (fun s =>
    bind (fold_res (fun Kl L =>
            if negb (snd s (Z.of_nat L)) then Ok Kl else
            bind (Krad L (fst s (Z.of_nat L))) (fun X => dadd Kl (dscale (-1) X)))
            (seq 0 (Z.to_nat (2 * gmax + 1))) (K lout)) (fun Kl =>
    Ok (fun l => if Nat.eqb l lout then Kl else K l))))
    order (fun _ : nat => dzero Nrad Nrad)) (fun K =>
  Ok (map K (seq 0 (Z.to_nat (gmax + 1))))))).

(** basis.cpp 209-312 *)
Definition sad_exchange (b : tbasis) (s : tstate) (order : list nat) (P : list dmat) : res (list dmat) :=
  if Nat.eqb (csize (t_chol s)) 0 then Throw LogicError else
  let Nel := lnel (b_lay b) in
  sad_exchange_loop b (fun L => assemble_K_chol (b_lay b) (disjoint_at (t_L s) Nel L)
      (disjoint_at (t_m1L s) Nel L) (disjoint_at (t_chol s) Nel L))
    (fun L => 4 * PI / IZR (2 * L + 1)) order P.

(** basis.cpp 314-430 *)
Definition sad_rs_exchange (b : tbasis) (s : tstate) (order : list nat) (P : list dmat) : res (list dmat) :=
  if (Nat.eqb (csize (t_rsktei s)) 0 && Nat.eqb (csize (t_rschol s)) 0)%bool then Throw LogicError else
  let Nel := lnel (b_lay b) in
  if t_yukawa s
  then sad_exchange_loop b (fun L => assemble_K_chol (b_lay b) (disjoint_at (t_iL s) Nel L)
         (disjoint_at (t_kL s) Nel L) (disjoint_at (t_rschol s) Nel L))
         (fun L => 4 * PI * t_lambda s) order P
  else sad_exchange_loop b (fun L => assemble_K_pairwise (b_lay b)
         (fun iel jel => cache_at (t_rsktei s) (Nel * Nel * L + iel * Nel + jel)))
         (fun L => 4 * PI * t_lambda s / IZR (2 * L + 1)) order P.

(** basis.cpp 579-597; the orbital is a column of length [n]. *)
Definition slater_F (b : tbasis) (k : nat) (n : nat) (c : nat -> R) : res R :=
  if negb (Nat.eqb n (lnbf (b_lay b))) then Throw LogicError else
  let P := mkD n n (fun i j => c i * c j) in
  bind (assemble_J_uncached (b_lay b) (b_bare b) k P) (fun Jk =>
  bind (dprod P Jk) (fun X => Ok (dtrace X))).
