(** Model of the one-electron matrices of the atomic and the diatomic basis:
    /repo/src/atomic/TwoDBasis.cpp 308-580, /repo/src/diatomic/basis.cpp 1022-1299 and
    /repo/src/general/radial_block_helper.h 40-56.  Scalars are exact real numbers;
    operations outside a matrix or between matrices of different size are [UB].  The
    radial matrices are read from accessors. *)
Require Import Reals ZArith List Bool Arith.
Require Import Verif.Prelude Verif.AngModel Verif.JKModel Verif.GauntModel Verif.TwoDModel Verif.TeiModel Verif.DiaModel.
Import ListNotations.
Local Open Scope R_scope.

(* ------------------------------------------------------------------ *)
(** * Blocks *)

(** TwoDBasis.cpp 308-318, basis.cpp 1022-1030: set_sub and add_sub. *)
Definition set_sub (N : nat) (M : dmat) (iang jang : nat) (Mrad : dmat) : res dmat :=
  block_set M (iang * N) (jang * N) N N Mrad.
Definition add_sub (N : nat) (M : dmat) (iang jang : nat) (Mrad : dmat) : res dmat :=
  block_add M (iang * N) (jang * N) N N Mrad.

(** radial_block_helper.h 40-56: assemble_radial_diagonal. *)
Definition assemble_radial_diagonal (lay : layout) (kernel : accessor) : res dmat :=
  fold_res (fun M iel =>
    let '(ifirst, n) := lidx lay iel in
    bind (kernel iel) (fun B => block_add M ifirst ifirst n n B))
    (seq 0 (lnel lay)) (dzero (lnbf lay) (lnbf lay)).

(** The nested loops over iang and jang. *)
Definition shell_pairs (n m : nat) : list (nat * nat) := list_prod (seq 0 n) (seq 0 m).

(** for(iang) set_sub(M,iang,iang,Mrad) into a zero matrix *)
Definition diagonal_blocks (n N : nat) (Mrad : dmat) : res dmat :=
  fold_res (fun M iang => set_sub N M iang iang Mrad) (seq 0 n) (dzero (n * N) (n * N)).

(** if(cpl != 0) ... *)
Definition when_nonzero (cpl : R) (M : dmat) (act : dmat -> res dmat) : res dmat :=
  if Reqb cpl 0 then Ok M else act M.

(* ------------------------------------------------------------------ *)
(** * The atomic basis *)

(** What the matrices read of the basis: the shells, the radial layout, the generator
    behind the Gaunt tables, the charges Z, Zl and Zr, whether the nuclear model is
    POINT_NUCLEUS, and per element radial_integral(n, iel), kinetic(iel),
    kinetic_l(iel), nuclear_offcenter(iel, Rhalf, L), and model_potential(pot, iel) for
    the potential of the nuclear model. *)
Record aone := mkAO {
  ao_sh : list (Z * Z);
  ao_lay : layout;
  ao_eval : generator;
  ao_Z : Z; ao_Zl : Z; ao_Zr : Z;
  ao_point : bool;
  ao_int : Z -> accessor;
  ao_kin : accessor;
  ao_kinl : accessor;
  ao_off : nat -> accessor;
  ao_nuc : accessor }.

Definition ao_n (b : aone) : nat := length (ao_sh b).
Definition ao_N (b : aone) : nat := lnbf (ao_lay b).
Definition ao_zero (b : aone) : dmat := dzero (ao_n b * ao_N b) (ao_n b * ao_N b).
(** GauntT(gmax, n, gmax) *)
Definition ao_gaunt (b : aone) (n : Z) : res gtable :=
  gaunt_table (ao_eval b) (atomic_gmax (ao_sh b)) n (atomic_gmax (ao_sh b)) (-1).

(** TwoDBasis.cpp 320-334: overlap() *)
Definition ao_overlap (b : aone) : res dmat :=
  bind (assemble_radial_diagonal (ao_lay b) (ao_int b 0)) (fun Orad =>
  diagonal_blocks (ao_n b) (ao_N b) Orad).

(** TwoDBasis.cpp 336-354: overlap(rh); [Srad] is radial.overlap(rh.radial). *)
Definition ao_cross_overlap (b rh : aone) (Srad : res dmat) : res dmat :=
  bind Srad (fun Srad =>
  fold_res (fun S p => let '(iang, jang) := p in
    let '(li, mi) := shell (ao_sh b) iang in let '(lj, mj) := shell (ao_sh rh) jang in
    if ((li =? lj) && (mi =? mj))%bool%Z
    then block_set S (iang * ao_N b) (jang * ao_N rh) (ao_N b) (ao_N rh) Srad else Ok S)
    (shell_pairs (ao_n b) (ao_n rh)) (dzero (ao_n b * ao_N b) (ao_n rh * ao_N rh))).

(** TwoDBasis.cpp 356-377: kinetic() *)
Definition ao_kinetic (b : aone) : res dmat :=
  bind (assemble_radial_diagonal (ao_lay b) (ao_kin b)) (fun Trad =>
  bind (assemble_radial_diagonal (ao_lay b) (ao_kinl b)) (fun Trad_l =>
  fold_res (fun Tm iang =>
    let '(l, _) := shell (ao_sh b) iang in
    bind (set_sub (ao_N b) Tm iang iang Trad) (fun Tm =>
    if (0 <? l)%Z then add_sub (ao_N b) Tm iang iang (dscale (IZR (l * (l + 1))) Trad_l) else Ok Tm))
    (seq 0 (ao_n b)) (ao_zero b))).

(** An exception that leaves an iteration of an OpenMP loop ends the program. *)
Definition in_parallel {A} (r : res A) : res A := match r with Throw _ => UB | _ => r end.

(** TwoDBasis.cpp 398-405: Vaux, its entries filled in the order [order]. *)
Definition ao_vaux (b : aone) (order : list nat) (n : nat) : res (nat -> dmat) :=
  fold_res (fun V L => in_parallel (
    bind (assemble_radial_diagonal (ao_lay b) (ao_off b L)) (fun A =>
    if Nat.ltb L n then Ok (fun k => if Nat.eqb k L then A else V k) else UB))) order (fun _ => dempty).

(** TwoDBasis.cpp 416-438: one iteration of the loop over shell pairs. *)
Definition ao_off_block (b : aone) (g : gtable) (Vaux : nat -> dmat) (n : nat) (V : dmat) (p : nat * nat) : res dmat :=
  let '(iang, jang) := p in
  let '(li, mi) := shell (ao_sh b) iang in let '(lj, mj) := shell (ao_sh b) jang in
  if negb (mi =? mj)%Z then Ok V else
  fold_res (fun V L =>
    bind (coeff g li mi L 0 lj) (fun cpl =>
    when_nonzero cpl V (fun V =>
      let signL := if Z.odd L then -1 else 1 in
      if Nat.ltb (Z.to_nat L) n
      then add_sub (ao_N b) V iang jang (dscale (cpl * (signL * IZR (ao_Zl b) + IZR (ao_Zr b))) (Vaux (Z.to_nat L)))
      else UB)))
    (zrange (Z.abs (li - lj)) (li + lj)) V.

(** TwoDBasis.cpp 443-456: model_potential(pot). *)
Definition ao_model_potential (b : aone) (pot : accessor) : res dmat :=
  bind (assemble_radial_diagonal (ao_lay b) pot) (fun Vrad => diagonal_blocks (ao_n b) (ao_N b) Vrad).

(** TwoDBasis.cpp 379-441: nuclear().  [orderL] and [order] are the orders in which the
    iterations of the two parallel loops take effect; an iteration of the second writes
    only its own block. *)
Definition ao_nuclear (b : aone) (orderL : list nat) (order : list (nat * nat)) : res dmat :=
  if negb (ao_point b) then ao_model_potential b (ao_nuc b) else
  bind (if (ao_Z b =? 0)%Z then Ok (ao_zero b) else
        bind (assemble_radial_diagonal (ao_lay b) (ao_int b (-1))) (fun Vrad =>
        fold_res (fun V iang => set_sub (ao_N b) V iang iang (dscale (IZR (- ao_Z b)) Vrad)) (seq 0 (ao_n b)) (ao_zero b)))
  (fun V =>
  if ((ao_Zl b =? 0) && (ao_Zr b =? 0))%bool%Z then Ok V else
  let n := Z.to_nat (2 * zmax_list (map fst (ao_sh b)) + 1) in
  bind (ao_vaux b orderL n) (fun Vaux =>
  bind (ao_gaunt b (2 * atomic_gmax (ao_sh b))) (fun g =>
  fold_res (fun V p => in_parallel (ao_off_block b g Vaux n V p)) order V))).

(** TwoDBasis.cpp 458-477: confinement; [conf] is confinement_potential(iel, N, r_0,
    iconf, V, shift_pot). *)
Definition ao_confinement (b : aone) (iconf : Z) (conf : accessor) : res dmat :=
  if (iconf =? 0)%Z then Ok (ao_zero b) else
  bind (assemble_radial_diagonal (ao_lay b) conf) (fun Orad => diagonal_blocks (ao_n b) (ao_N b) Orad).

(** TwoDBasis.cpp 479-508: dipole_z() *)
Definition ao_dipole_z (b : aone) : res dmat :=
  bind (assemble_radial_diagonal (ao_lay b) (ao_int b 1)) (fun Orad =>
  bind (ao_gaunt b 1) (fun g =>
  fold_res (fun V p => let '(iang, jang) := p in
    let '(li, mi) := shell (ao_sh b) iang in let '(lj, mj) := shell (ao_sh b) jang in
    bind (coupling cos1_terms g lj mj li mi) (fun cpl =>
    when_nonzero cpl V (fun V => set_sub (ao_N b) V iang jang (dscale cpl Orad))))
    (shell_pairs (ao_n b) (ao_n b)) (ao_zero b))).

(** TwoDBasis.cpp 510-546: quadrupole_zz() *)
Definition ao_quadrupole_zz (b : aone) : res dmat :=
  bind (assemble_radial_diagonal (ao_lay b) (ao_int b 2)) (fun Orad =>
  bind (ao_gaunt b 2) (fun g =>
  fold_res (fun V p => let '(iang, jang) := p in
    let '(li, mi) := shell (ao_sh b) iang in let '(lj, mj) := shell (ao_sh b) jang in
    if negb (mj =? mi)%Z then Ok V else
    bind (coeff g lj mj 2 0 li) (fun cpl =>
    when_nonzero cpl V (fun V =>
      let c0 := 2 / 5 * sqrt (5 * PI) in
      set_sub (ao_N b) V iang jang (dscale (cpl * c0) Orad))))
    (shell_pairs (ao_n b) (ao_n b)) (ao_zero b))).

(** TwoDBasis.cpp 548-586: Bz_field(B) *)
Definition ao_Bz_field (b : aone) (B : R) : res dmat :=
  bind (assemble_radial_diagonal (ao_lay b) (ao_int b 0)) (fun O0rad =>
  bind (assemble_radial_diagonal (ao_lay b) (ao_int b 2)) (fun O2rad =>
  bind (ao_gaunt b 4) (fun g =>
  fold_res (fun V p => let '(iang, jang) := p in
    let '(li, mi) := shell (ao_sh b) iang in let '(lj, mj) := shell (ao_sh b) jang in
    bind (coupling sin2_terms g lj mj li mi) (fun cpl =>
    bind (when_nonzero cpl V (fun V => set_sub (ao_N b) V iang jang (dscale (B * B / 8 * cpl) O2rad))) (fun V =>
    if ((li =? lj) && (mi =? mj))%bool%Z
    then add_sub (ao_N b) V iang jang (dscale (- (1 / 2) * B * IZR mj) O0rad) else Ok V)))
    (shell_pairs (ao_n b) (ao_n b)) (ao_zero b)))).

(* ------------------------------------------------------------------ *)
(** * The diatomic basis *)

(** In addition to what the two-electron part reads: the charges, whether the
    constructor was given the multipole range of the two-electron integrals, and
    radial.radial_integral(m, n) and radial.kinetic(). *)
Record done := mkDO {
  do_b : dbasis;
  do_legendre : bool;
  do_Z1 : Z; do_Z2 : Z;
  do_int : Z -> nat -> res dmat;
  do_kin : res dmat }.

Definition do_sh (b : done) := db_sh (do_b b).
Definition do_n (b : done) : nat := length (do_sh b).
Definition do_N (b : done) : nat := lnbf (db_lay (do_b b)).
Definition do_zero (b : done) : dmat := dzero (do_n b * do_N b) (do_n b * do_N b).

(** basis.cpp 605-641: the table built by the constructor. *)
Definition do_gaunt (b : done) : res gtable :=
  let '(lrval, midval, mcap) := diatomic_gaunt (do_sh b) (do_legendre b) in
  gaunt_table (db_eval (do_b b)) lrval midval lrval mcap.

(** The loop over pairs of shells with equal m. *)
Definition do_loop (b : done) (body : nat -> nat -> Z -> Z -> Z -> Z -> dmat -> res dmat) : res dmat :=
  fold_res (fun M p => let '(iang, jang) := p in
    let '(li, mi) := shell (do_sh b) iang in let '(lj, mj) := shell (do_sh b) jang in
    if (mi =? mj)%Z then body iang jang li mi lj mj M else Ok M)
    (shell_pairs (do_n b) (do_n b)) (do_zero b).

Definition do_remove (b : done) : dmat -> res dmat := remove_boundaries (do_sh b) (do_N b).

(** basis.cpp 1032-1064: overlap() *)
Definition do_overlap (b : done) : res dmat :=
  bind (do_int b 1 0) (fun I10 => bind (do_int b 1 2) (fun I12 =>
  bind (do_gaunt b) (fun g =>
  bind (do_loop b (fun iang jang li mi lj mj S =>
    bind (if (li =? lj)%Z then set_sub (do_N b) S iang jang I12 else Ok S) (fun S =>
    bind (coupling cos2_terms g lj mj li mi) (fun cpl =>
    when_nonzero cpl S (fun S => add_sub (do_N b) S iang jang (dscale (- cpl) I10)))))) (fun S =>
  do_remove b (dscale (db_Rhalf (do_b b) ^ 3) S))))).

(** basis.cpp 1066-1098: overlap(rh); [cross n] is radial.overlap(rh.radial, n). *)
Definition do_cross_overlap (b rh : done) (cross : nat -> res dmat) : res dmat :=
  bind (cross 0%nat) (fun I10 => bind (cross 2%nat) (fun I12 =>
  bind (do_gaunt b) (fun g =>
  let Ni := do_N b in let Nj := do_N rh in
  bind (fold_res (fun S p => let '(iang, jang) := p in
    let '(li, mi) := shell (do_sh b) iang in let '(lj, mj) := shell (do_sh rh) jang in
    if (mi =? mj)%Z then
      bind (if (li =? lj)%Z then block_set S (iang * Ni) (jang * Nj) Ni Nj I12 else Ok S) (fun S =>
      bind (coupling cos2_terms g lj mj li mi) (fun cpl =>
      when_nonzero cpl S (fun S => block_add S (iang * Ni) (jang * Nj) Ni Nj (dscale (- cpl) I10))))
    else Ok S)
    (shell_pairs (do_n b) (do_n rh)) (dzero (do_n b * Ni) (do_n rh * Nj))) (fun S =>
  let S := dscale (db_Rhalf (do_b b) ^ 3) S in
  let ridx := pure_indices (do_sh b) Ni in let cidx := pure_indices (do_sh rh) Nj in
  if (forallb (fun r => Nat.ltb r (drows S)) ridx && forallb (fun c => Nat.ltb c (dcols S)) cidx)%bool
  then Ok (mkD (length ridx) (length cidx) (fun u v => dent S (nth u ridx 0%nat) (nth v cidx 0%nat)))
  else UB)))).

(** basis.cpp 1100-1126: kinetic() *)
Definition do_kinetic (b : done) : res dmat :=
  bind (do_kin b) (fun Trad => bind (do_int b 1 0) (fun Ip1 => bind (do_int b (-1) 0) (fun Im1 =>
  bind (fold_res (fun Tm iang =>
    let '(l, m) := shell (do_sh b) iang in
    bind (set_sub (do_N b) Tm iang iang Trad) (fun Tm =>
    bind (if (l =? 0)%Z then Ok Tm else add_sub (do_N b) Tm iang iang (dscale (IZR (l * (l + 1))) Ip1)) (fun Tm =>
    if (m =? 0)%Z then Ok Tm else add_sub (do_N b) Tm iang iang (dscale (IZR (m * m)) Im1))))
    (seq 0 (do_n b)) (do_zero b)) (fun Tm =>
  do_remove b (dscale (db_Rhalf (do_b b) / 2) Tm))))).

(** basis.cpp 1128-1166: nuclear() *)
Definition do_nuclear (b : done) : res dmat :=
  bind (do_int b 1 0) (fun I10 => bind (do_int b 1 1) (fun I11 =>
  bind (do_gaunt b) (fun g =>
  bind (do_loop b (fun iang jang li mi lj mj V =>
    bind (if (li =? lj)%Z then set_sub (do_N b) V iang jang (dscale (IZR (do_Z1 b + do_Z2 b)) I11) else Ok V) (fun V =>
    if (do_Z1 b =? do_Z2 b)%Z then Ok V else
    bind (coupling cos1_terms g lj mj li mi) (fun cpl =>
    when_nonzero cpl V (fun V => add_sub (do_N b) V iang jang (dscale (IZR (do_Z2 b - do_Z1 b) * cpl) I10)))))) (fun V =>
  do_remove b (dscale (- (db_Rhalf (do_b b) ^ 2)) V))))).

(** basis.cpp 1168-1204: dipole_z() *)
Definition do_dipole_z (b : done) : res dmat :=
  bind (do_int b 1 1) (fun I11 => bind (do_int b 1 3) (fun I13 =>
  bind (do_gaunt b) (fun g =>
  bind (do_loop b (fun iang jang li mi lj mj V =>
    bind (coupling cos1_terms g lj mj li mi) (fun cpl1 =>
    bind (when_nonzero cpl1 V (fun V => add_sub (do_N b) V iang jang (dscale cpl1 I13))) (fun V =>
    bind (coupling cos3_terms g lj mj li mi) (fun cpl3 =>
    when_nonzero cpl3 V (fun V => add_sub (do_N b) V iang jang (dscale (- cpl3) I11))))))) (fun V =>
  do_remove b (dscale (db_Rhalf (do_b b) ^ 4) V))))).

(** A - B *)
Definition dsub (A B : dmat) : res dmat := dadd A (dscale (-1) B).

(** basis.cpp 1206-1247: quadrupole_zz() *)
Definition do_quadrupole_zz (b : done) : res dmat :=
  bind (do_int b 1 0) (fun I10 => bind (do_int b 1 2) (fun I12 => bind (do_int b 1 4) (fun I14 =>
  bind (do_gaunt b) (fun g =>
  bind (do_loop b (fun iang jang li mi lj mj V =>
    bind (coupling cos4_terms g lj mj li mi) (fun cpl4 =>
    bind (when_nonzero cpl4 V (fun V => bind (dsub I10 (dscale 3 I12)) (fun X =>
      add_sub (do_N b) V iang jang (dscale cpl4 X)))) (fun V =>
    bind (coupling cos2_terms g lj mj li mi) (fun cpl2 =>
    bind (when_nonzero cpl2 V (fun V => bind (dsub (dscale 3 I14) I10) (fun X =>
      add_sub (do_N b) V iang jang (dscale cpl2 X)))) (fun V =>
    if (li =? lj)%Z then bind (dsub I12 I14) (fun X => add_sub (do_N b) V iang jang X) else Ok V)))))) (fun V =>
  do_remove b (dscale (db_Rhalf (do_b b) ^ 5 / 2) V)))))).

(** basis.cpp 1249-1299: Bz_field(B) *)
Definition do_Bz_field (b : done) (B : R) : res dmat :=
  let Rh := db_Rhalf (do_b b) in
  bind (do_int b 1 0) (fun I10 => bind (do_int b 1 2) (fun I12 =>
  bind (do_int b 3 0) (fun I30 => bind (do_int b 3 2) (fun I32 =>
  let I10 := dscale (Rh ^ 3) I10 in let I12 := dscale (Rh ^ 3) I12 in
  let I30 := dscale (Rh ^ 5) I30 in let I32 := dscale (Rh ^ 5) I32 in
  bind (do_gaunt b) (fun g =>
  bind (do_loop b (fun iang jang li mi lj mj V =>
    let cs := B * B / 8 in
    bind (coupling sin2_terms g lj mj li mi) (fun cpl2 =>
    bind (when_nonzero cpl2 V (fun V => add_sub (do_N b) V iang jang (dscale (cs * cpl2) I32))) (fun V =>
    bind (coupling cos2_sin2_terms g lj mj li mi) (fun cpl22 =>
    bind (when_nonzero cpl22 V (fun V => add_sub (do_N b) V iang jang (dscale (- cs * cpl22) I30))) (fun V =>
    let ds := - (1 / 2) * IZR mj * B in
    if Reqb ds 0 then Ok V else
    bind (if (li =? lj)%Z then add_sub (do_N b) V iang jang (dscale ds I12) else Ok V) (fun V =>
    bind (coupling cos2_terms g lj mj li mi) (fun cpl =>
    when_nonzero cpl V (fun V => add_sub (do_N b) V iang jang (dscale (- ds * cpl) I10)))))))))) (fun V =>
  do_remove b V)))))).
