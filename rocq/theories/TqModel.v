(** Model of the two-dimensional quadrature of a diatomic basis:
    /repo/src/diatomic/twodquadrature.{h,cpp}.  The basis is the one of DftModel (shells,
    radial tables, spherical harmonics); scalars are exact real numbers.  There is one radial
    point at a time, so that point idx = ia * wrad.size() + ir is angular point ia. *)
Require Import Reals ZArith List Bool Arith.
Require Import Verif.Prelude Verif.FEModel Verif.AngModel Verif.JKModel Verif.DftModel Verif.DdfModel Verif.PmModel Verif.PotModel Verif.CbModel.
Import ListNotations.
Local Open Scope R_scope.

(** twodquadrature.h 27-34 *)
Inductive probe := PROBE_LEFT | PROBE_MIDDLE | PROBE_RIGHT.

(* ------------------------------------------------------------------ *)
(** * The worker *)

(** twodquadrature.h 39-59: the members that change; [q_mu] is r(0), and wrad(0) and m are
    used only where they are set. *)
Record tqw := mkTQ { q_mu : R; q_w : nat -> R; q_ind : list nat; q_bf : dmat; q_itg : dmat }.
(** twodquadrature.cpp 153-156: the constructor; cth and wang together. *)
Definition cheb_rule (lang : nat) : nurule := map (fun j => (fst (chebyshev lang) j, snd (chebyshev lang) j)) (seq 0 lang).
Definition tq_new : tqw := mkTQ 0 (fun _ => 0) [] dempty dempty.

(** basis.cpp 2142-2164: the row eval_bf(iel, irad, cth, m, rad_all). *)
Definition tq_eval_bf (b : abasis) (F : dmat) (irad : nat) (c : R) (m : Z) : res (list R) :=
  if Nat.ltb irad (drows F)
  then Ok (flat_map (fun l => map (fun j => pm_Y b l m c * dent F irad j) (seq 0 (dcols F))) (l_list (ab_sh b) m)) else UB.
(** twodquadrature.cpp 179-190 *)
Definition tq_weight (Rh mu wr : R) (ru : nurule) (ia : nat) : R :=
  let sth := sqrt (1 - fst (nu ru ia) * fst (nu ru ia)) in
  2 * PI * snd (nu ru ia) * wr * Rh ^ 3 * sinh mu * (sinh mu ^ 2 + sth ^ 2).
(** A matrix from its columns, each of which has n entries; a column of another size does
    not fit. *)
Definition from_columns (n : nat) (cols : list (list R)) : res dmat :=
  if forallb (fun c => Nat.eqb (length c) n) cols
  then Ok (mkD n (length cols) (fun i j => nth i (nth j cols []) 0)) else UB.
(** twodquadrature.cpp 161-218: compute_bf.  The exception for a wrong number of functions
    is thrown inside a parallel loop, which terminates the program. *)
Definition tq_compute_bf (b : abasis) (Rh : R) (ru : nurule) (iel irad : nat) (m : Z) (w : tqw) : res tqw :=
  bind (bf_list_dummy_m (ab_fe b) (ab_sh b) iel m) (fun ind =>
  bind (vget (ab_r b iel) irad) (fun mu =>
  bind (vget (ab_wrad b iel) irad) (fun wr =>
  bind (each (fun q => tq_eval_bf b (ab_f b iel) irad (fst q) m) ru) (fun cols =>
  bind (from_columns (length ind) cols) (fun bf =>
  Ok (mkTQ mu (tq_weight Rh mu wr ru) ind bf (q_itg w))))))).

(** std::isnormal: an infinity, a NaN or zero is not added. *)
Definition normal_part (v : fp) : R := match v with Fin x => x | _ => 0 end.
(** twodquadrature.cpp 220-239: model_potential.  Potentials that throw are left out, and so
    are subnormal numbers. *)
Definition tq_potential (Rh : R) (ru : nurule) (p1 p2 : R -> fp) (w : tqw) : tqw :=
  mkTQ (q_mu w) (q_w w) (q_ind w) (q_bf w)
    (mkD 1 (length ru) (fun _ ia => normal_part (p1 (Rh * (cosh (q_mu w) + fst (nu ru ia)))) + normal_part (p2 (Rh * (cosh (q_mu w) - fst (nu ru ia)))))).

(** twodquadrature.cpp 258, 268, 278: cthval; the denominators are positive for mu > 0. *)
Definition tq_cos (p : probe) (mu c : R) : R :=
  match p with
  | PROBE_LEFT => (1 + cosh mu * c) / (cosh mu + c)
  | PROBE_RIGHT => (1 - cosh mu * c) / (cosh mu - c)
  | PROBE_MIDDLE => c
  end.
(** std::clamp(x, -1, 1) *)
Definition clamp1 (x : R) : R := if Rltb x (-1) then -1 else if Rltb 1 x then 1 else x.
(** twodquadrature.cpp 241-284: multiply_Plm; [Y] is std::sph_legendre(l, m, theta).  A
    negative l, which would wrap around, is left out. *)
Definition tq_multiply (Y : nat -> nat -> R -> R) (ru : nurule) (l : nat) (m : Z) (p : probe) (w : tqw) : tqw :=
  mkTQ (q_mu w) (q_w w) (q_ind w) (q_bf w)
    (mkD (drows (q_itg w)) (dcols (q_itg w))
       (fun i ia => dent (q_itg w) i ia * Y l (Z.abs_nat m) (acos (clamp1 (tq_cos p (q_mu w) (fst (nu ru ia))))))).

(** twodquadrature.cpp 296, 305, 317: ra, rb, rc. *)
Definition tq_radius (p : probe) (Rh mu c : R) : R :=
  match p with
  | PROBE_LEFT => Rh * (cosh mu + c)
  | PROBE_RIGHT => Rh * (cosh mu - c)
  | PROBE_MIDDLE => Rh * sqrt (Rmax (cosh mu * cosh mu + c * c - 1) 0)
  end.
(** twodquadrature.cpp 286-321: ao_projection. *)
Definition tq_ao (Rh : R) (ru : nurule) (ao : R -> res (list R)) (p : probe) (w : tqw) : res tqw :=
  bind (ao 0) (fun a0 =>
  bind (each (fun q => ao (tq_radius p Rh (q_mu w) (fst q))) ru) (fun cols =>
  bind (from_columns (length a0) cols) (fun itg =>
  Ok (mkTQ (q_mu w) (q_w w) (q_ind w) (q_bf w) itg)))).
(** twodquadrature.cpp 323-341: gto and sto. *)
Definition tq_gto (l : nat) (expn : list R) (r : R) : res (list R) := Ok (map (radial_GTO r l) expn).
Definition tq_sto (l : nat) (expn : list R) (r : R) : res (list R) := Ok (map (radial_STO r l) expn).

(** V(rows, cols) += X, one entry after the other. *)
Definition add_at (V : dmat) (rows cols : list nat) (X : dmat) : res dmat :=
  if (Nat.eqb (drows X) (length rows) && Nat.eqb (dcols X) (length cols)
      && forallb (fun i => Nat.ltb i (drows V)) rows && forallb (fun j => Nat.ltb j (dcols V)) cols)%bool
  then Ok (mkD (drows V) (dcols V)
         (fun i j => dent V i j + sum (length rows) (fun a => sum (length cols) (fun c =>
            if (Nat.eqb (nth a rows 0%nat) i && Nat.eqb (nth c cols 0%nat) j)%bool then dent X a c else 0))))
  else UB.
(** A * w.asDiagonal() *)
Definition weighted (A : dmat) (w : nat -> R) : dmat := mkD (drows A) (dcols A) (fun i j => dent A i j * w j).
(** twodquadrature.cpp 343-350: eval_pot. *)
Definition tq_eval_pot (w : tqw) (V : dmat) : res dmat :=
  if negb (Nat.eqb (drows (q_itg w)) 1) then Throw LogicError
  else if negb (Nat.eqb (dcols (q_itg w)) (dcols (q_bf w))) then UB
  else bind (dprod (weighted (q_bf w) (fun ia => dent (q_itg w) 0%nat ia * q_w w ia)) (dT (q_bf w))) (fun X =>
       add_at V (q_ind w) (q_ind w) X).
(** twodquadrature.cpp 352-354: eval_proj. *)
Definition tq_eval_proj (w : tqw) (V : dmat) : res dmat :=
  bind (dprod (weighted (q_itg w) (q_w w)) (dT (q_bf w))) (fun X => add_at V (seq 0 (drows V)) (q_ind w) X).
(** twodquadrature.cpp 356-358: eval_proj_overlap. *)
Definition tq_eval_overlap (w : tqw) (V : dmat) : res dmat :=
  bind (dprod (weighted (q_itg w) (q_w w)) (dT (q_itg w))) (fun X => dadd V X).

(* ------------------------------------------------------------------ *)
(** * The grid *)

(** The loops over elements and radial points (384-390, 403-410, ...); the state is the
    worker and the matrix. *)
Definition tq_loops (b : abasis) (step : nat -> nat -> tqw * dmat -> res (tqw * dmat)) (st : tqw * dmat) : res (tqw * dmat) :=
  fold_res (fun st iel => fold_res (fun st irad => step iel irad st) (seq 0 (length (ab_r b iel))) st) (seq 0 (get_nelem (ab_fe b))) st.
(** twodquadrature.cpp 369-397: TwoDGrid::model_potential. *)
Definition tq_model_potential (b : abasis) (Rh : R) (lang : nat) (p1 p2 : R -> fp) : res dmat :=
  let ru := cheb_rule lang in
  bind (get_nbf (ab_fe b)) (fun nb =>
  let Nrad := Z.to_nat nb in let Nd := di_Ndummy (ab_sh b) Nrad in
  bind (fold_res (fun st m =>
     tq_loops b (fun iel irad st =>
       bind (tq_compute_bf b Rh ru iel irad m (fst st)) (fun w =>
       let w := tq_potential Rh ru p1 p2 w in
       bind (tq_eval_pot w (snd st)) (fun H => Ok (w, H)))) st)
     (m_list (ab_sh b)) (tq_new, dzero Nd Nd)) (fun st =>
  remove_boundaries (ab_sh b) Nrad (snd st))).
(** S(Eigen::all, basp->pure_indices()) *)
Definition pure_columns (b : abasis) (Nrad : nat) (S : dmat) : dmat :=
  let p := pure_indices (ab_sh b) Nrad in mkD (drows S) (length p) (fun i j => dent S i (nth j p 0%nat)).
(** twodquadrature.cpp 399-413, 431-445 and 492-504: projections; [n] is the number of
    functions of [ao]. *)
Definition tq_projection (b : abasis) (Rh : R) (lang : nat) (Y : nat -> nat -> R -> R) (n : nat) (ao : R -> res (list R)) (l : nat) (m : Z) (p : probe) : res dmat :=
  let ru := cheb_rule lang in
  bind (get_nbf (ab_fe b)) (fun nb =>
  let Nrad := Z.to_nat nb in let Nd := di_Ndummy (ab_sh b) Nrad in
  bind (tq_loops b (fun iel irad st =>
       bind (tq_compute_bf b Rh ru iel irad m (fst st)) (fun w =>
       bind (tq_ao Rh ru ao p w) (fun w =>
       let w := tq_multiply Y ru l m p w in
       bind (tq_eval_proj w (snd st)) (fun S => Ok (w, S))))) (tq_new, dzero n Nd)) (fun st =>
  Ok (pure_columns b Nrad (snd st)))).
Definition gto_projection b Rh lang Y l m expn p := tq_projection b Rh lang Y (length expn) (tq_gto l expn) l m p.
Definition sto_projection b Rh lang Y l m expn p := tq_projection b Rh lang Y (length expn) (tq_sto l expn) l m p.
(** twodquadrature.cpp 415-429 and 447-461: overlaps. *)
Definition tq_overlap (b : abasis) (Rh : R) (lang : nat) (Y : nat -> nat -> R -> R) (n : nat) (ao : R -> res (list R)) (l : nat) (m : Z) (p : probe) : res dmat :=
  let ru := cheb_rule lang in
  bind (tq_loops b (fun iel irad st =>
       bind (tq_compute_bf b Rh ru iel irad m (fst st)) (fun w =>
       bind (tq_ao Rh ru ao p w) (fun w =>
       let w := tq_multiply Y ru l m p w in
       bind (tq_eval_overlap w (snd st)) (fun S => Ok (w, S))))) (tq_new, dzero n n)) (fun st => Ok (snd st)).
Definition gto_overlap b Rh lang Y l m expn p := tq_overlap b Rh lang Y (length expn) (tq_gto l expn) l m p.
Definition sto_overlap b Rh lang Y l m expn p := tq_overlap b Rh lang Y (length expn) (tq_sto l expn) l m p.

(* ------------------------------------------------------------------ *)
(** * Atoms *)

(** twodquadrature.h 100-105: what is kept of one atom; [s_eval] is basis.eval_orbs. *)
Record side := mkSide { s_eval : dmat -> R -> res (list R); s_orbs : list dmat; s_occs : list Z }.
(** Default-constructed members. *)
Definition no_side : side := mkSide (fun _ _ => UB) [] [].
Record tqgrid := mkGrid { g_lh : side; g_rh : side }.
Definition new_grid : tqgrid := mkGrid no_side no_side.

(** std::ceil(occ/(2.0*(2.0*l+1.0))) *)
Definition ceil_div (a d : Z) : Z := (- ((- a) / d))%Z.
(** C = orbs[l].leftCols(nocc) *)
Definition left_cols (C : dmat) (n : Z) : res dmat :=
  if ((n <? 0) || (Z.of_nat (dcols C) <? n))%Z%bool then UB else Ok (mkD (drows C) (Z.to_nat n) (dent C)).
(** twodquadrature.cpp 466-486: the orbitals to project; None is the empty matrix. *)
Definition tq_orbitals (g : tqgrid) (l : nat) (p : probe) : res (option (side * dmat)) :=
  let pick s :=
    if Nat.leb (length (s_occs s)) l then Ok None
    else bind (vget (s_occs s) l) (fun occ =>
         let nocc := ceil_div occ (2 * (2 * Z.of_nat l + 1)) in
         if (nocc =? 0)%Z then Ok None
         else bind (vget (s_orbs s) l) (fun o => bind (left_cols o nocc) (fun C => Ok (Some (s, C))))) in
  match p with
  | PROBE_LEFT => pick (g_lh g)
  | PROBE_RIGHT => pick (g_rh g)
  | PROBE_MIDDLE => Throw LogicError
  end.
(** twodquadrature.cpp 463-505: atomic_projection. *)
Definition atomic_projection (b : abasis) (Rh : R) (lang : nat) (Y : nat -> nat -> R -> R) (g : tqgrid) (l : nat) (m : Z) (p : probe) : res dmat :=
  bind (tq_orbitals g l p) (fun o =>
  match o with
  | None => Ok dempty
  | Some (s, C) => tq_projection b Rh lang Y (dcols C) (s_eval s C) l m p
  end).

(** twodquadrature.cpp 26-145: pbe_ground_states *)
Definition pbe_ground_states : list (list Z) := ([
  [1;0;0;0]; [2;0;0;0]; [3;0;0;0]; [4;0;0;0]; [4;1;0;0]; [4;2;0;0];
  [4;3;0;0]; [4;4;0;0]; [4;5;0;0]; [4;6;0;0]; [5;6;0;0]; [6;6;0;0];
  [6;7;0;0]; [6;8;0;0]; [6;9;0;0]; [6;10;0;0]; [6;11;0;0]; [6;12;0;0];
  [7;12;0;0]; [8;12;0;0]; [8;13;0;0]; [8;12;2;0]; [8;12;3;0]; [8;12;4;0];
  [6;12;7;0]; [6;12;8;0]; [6;12;9;0]; [6;12;10;0]; [7;12;10;0]; [8;12;10;0];
  [8;13;10;0]; [8;14;10;0]; [8;15;10;0]; [8;16;10;0]; [8;17;10;0]; [8;18;10;0];
  [9;18;10;0]; [10;18;10;0]; [10;19;10;0]; [10;18;12;0]; [10;18;13;0]; [8;18;16;0];
  [8;18;17;0]; [8;18;18;0]; [8;18;19;0]; [8;18;20;0]; [9;18;20;0]; [10;18;20;0];
  [10;19;20;0]; [10;20;20;0]; [10;21;20;0]; [10;22;20;0]; [10;23;20;0]; [10;24;20;0];
  [11;24;20;0]; [12;24;20;0]; [12;24;21;0]; [12;24;22;0]; [12;24;21;2]; [12;24;20;4];
  [12;24;20;5]; [12;24;20;6]; [12;24;20;7]; [11;24;20;9]; [10;24;20;11]; [10;24;20;12];
  [10;24;20;13]; [10;24;20;14]; [11;24;20;14]; [12;24;20;14]; [12;25;20;14]; [12;24;22;14];
  [12;24;23;14]; [10;24;26;14]; [10;24;27;14]; [10;24;28;14]; [10;24;29;14]; [10;24;30;14];
  [11;24;30;14]; [12;24;30;14]; [12;25;30;14]; [12;26;30;14]; [12;27;30;14]; [12;28;30;14];
  [12;29;30;14]; [12;30;30;14]; [13;30;30;14]; [14;30;30;14]; [14;30;31;14]; [14;30;32;14];
  [14;30;30;17]; [14;30;30;18]; [14;30;30;19]; [13;30;30;21]; [12;30;30;23]; [12;30;30;24];
  [12;30;30;25]; [12;30;30;26]; [12;30;30;27]; [12;30;30;28]; [13;30;30;28]; [14;30;30;28];
  [14;30;31;28]; [14;30;32;28]; [14;30;33;28]; [12;30;36;28]; [12;30;37;28]; [12;30;38;28];
  [12;30;39;28]; [12;30;40;28]; [13;30;40;28]; [14;30;40;28]; [14;31;40;28]; [14;32;40;28];
  [14;33;40;28]; [14;34;40;28]; [14;35;40;28]; [14;36;40;28]])%Z.
(** pbe_ground_states[Z-1][l]; reading outside of the table is undefined. *)
Definition pbe (z l : Z) : res Z :=
  if ((z <? 1) || (l <? 0))%Z%bool then UB else bind (vget pbe_ground_states (Z.to_nat (z - 1))) (fun row => vget row (Z.to_nat l)).
(** twodquadrature.cpp 529-533: lmax_for_Z. *)
Definition lmax_for_Z (z : Z) : res Z :=
  fold_right (fun l k => bind (pbe z l) (fun n => if (0 <? n)%Z then Ok l else k)) (Ok (-1)%Z) [3; 2; 1; 0]%Z.
(** twodquadrature.cpp 534-539: per_l_occ. *)
Definition per_l_occ (z : Z) : res (list Z) :=
  bind (lmax_for_Z z) (fun lmax => each (fun l => pbe z (Z.of_nat l)) (seq 0 (Z.to_nat (lmax + 1)))).
(** twodquadrature.cpp 541-564: the options of run_atomic_scf that depend on the atom or
    matter for the electrons. *)
Record side_opts := mkSO { so_Z : Z; so_lmax : Z; so_nela : Z; so_nelb : Z; so_restricted : bool; so_fixed : list Z }.
Definition side_options (z : Z) : res side_opts :=
  bind (lmax_for_Z z) (fun lmax => bind (per_l_occ z) (fun occ =>
  let Ntot := fold_left Z.add occ 0%Z in
  Ok (mkSO z lmax (Z.quot Ntot 2) (Z.quot Ntot 2) true occ))).
(** twodquadrature.cpp 507-573: compute_atoms; [scf] is run_atomic_scf. *)
Definition compute_atoms (scf : side_opts -> res side) (Zl Zr : Z) (g : tqgrid) : res tqgrid :=
  let run z s := if (0 <? z)%Z then bind (side_options z) scf else Ok s in
  bind (run Zl (g_lh g)) (fun lh => bind (run Zr (g_rh g)) (fun rh => Ok (mkGrid lh rh))).
