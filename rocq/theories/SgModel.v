(** Model of the quadrature of exchange-correlation functionals in an atom with a
    spherical density: /repo/src/sadatom/dftgrid.{h,cpp}.  What all grids do in the same
    way is taken from DftModel, and so is the treatment of scalars, sizes and divisions. *)
Require Import Reals ZArith List Bool Arith.
Require Import Verif.Prelude Verif.FEModel Verif.AngModel Verif.JKModel Verif.DftModel Verif.PmModel.
Import ListNotations.
Local Open Scope R_scope.

(** dftgrid.h 39-56: the worker.  [sg_w] has the members of the base class, wtot and grho;
    Pv, Pav and Pbv are used only where they are computed.  Of the basis, ab_sh and ab_Y
    are not used. *)
Record sgworker := mkSG { sg_r : list R; sg_wr : list R; sg_ind : list nat; sg_f : dmat; sg_d : dmat; sg_l : dmat; sg_w : worker }.

(** dftgrid.cpp 464-486: compute_bf; the tables of the basis come from the cache or are
    computed (RadModel), which makes no difference for their values. *)
Definition sg_compute_bf (b : abasis) (iel : nat) (w : sgworker) : res sgworker :=
  let fl := w_fl (sg_w w) in
  bind (bf_list_sad (ab_fe b) iel) (fun ind =>
  let r := ab_r b iel in let wr := ab_wrad b iel in
  if negb (Nat.eqb (length wr) (length r)) then UB else
  Ok (mkSG r wr ind (dT (ab_f b iel))
        (if f_grad fl then dT (ab_d b iel) else sg_d w)
        (if f_lapl fl then dT (ab_l b iel) else sg_l w)
        (mkW fl (plain_grid (length r) (fun ip => 4 * PI * nth ip wr 0 * nth ip r 0 ^ 2)) (w_d (sg_w w)) (w_x (sg_w w))))).

(* ------------------------------------------------------------------ *)
(** * Density *)

(** islice*(islice+1) *)
Definition ll1 (l : nat) : R := INR (l * (l + 1)).
(** dftgrid.cpp 50-66: the density of the element summed over the slices, and the one
    multiplied by l(l+1). *)
Definition sum_slices (ind : list nat) (c : nat -> R) (P0 : list dmat) : res dmat :=
  bind (each (slice ind) P0) (fun Pc =>
  fold_res (fun A l => bind (vget Pc l) (fun X => dadd A (dscale (c l) X))) (seq 0 (length P0)) (dzero (length ind) (length ind))).
(** The products P*bf, P*bf_rho, Pl*bf of one spin. *)
Record sprods := mkSP { sp_v : dmat; sp_p : dmat; sp_l : dmat }.
Definition sg_products (w : sgworker) (P0 : list dmat) : res sprods :=
  let fl := w_fl (sg_w w) in
  bind (sum_slices (sg_ind w) (fun _ => 1) P0) (fun P =>
  bind (sum_slices (sg_ind w) ll1 P0) (fun Pl =>
  bind (dprod P (sg_f w)) (fun Pv =>
  bind (if (f_tau fl || f_lapl fl)%bool then dprod P (sg_d w) else Ok dempty) (fun Pvp =>
  bind (if f_tau fl then dprod Pl (sg_f w) else Ok dempty) (fun Plv =>
  Ok (mkSP Pv Pvp Plv)))))).
(** dftgrid.cpp 93-104 *)
Definition sg_tau (w : sgworker) (X : sprods) (ip : nat) : res R :=
  bind (coldot (sp_p X) (sg_d w) ip) (fun t1 =>
  bind (coldot (sp_l X) (sg_f w) ip) (fun x =>
  bind (vget (sg_r w) ip) (fun r =>
  bind (rdiv x (r * r)) (fun t2 => Ok (/ 2 * (t1 + Rmax t2 0)))))).
(** dftgrid.cpp 109-120 *)
Definition sg_lapl (w : sgworker) (X : sprods) (ip : nat) : res R :=
  bind (coldot (sp_p X) (sg_d w) ip) (fun x =>
  bind (coldot (sp_v X) (sg_l w) ip) (fun y =>
  bind (coldot (sp_v X) (sg_d w) ip) (fun z =>
  bind (vget (sg_r w) ip) (fun r =>
  bind (rdiv (4 * z) r) (fun t3 => Ok (2 * x + 2 * y + t3)))))).
(** dftgrid.cpp 45-125 (one density) and 127-242 (two): update_density.  [Ps] holds the
    slices of one density or of two; only the second overload looks for empty lists. *)
Definition sg_update_density (pol : bool) (w : sgworker) (Ps : list (list dmat)) : res sgworker :=
  if (pol && existsb (fun P => match P with [] => true | _ => false end) Ps)%bool then Throw RuntimeError else
  let v := sg_w w in let fl := w_fl v in let d := w_d v in let N := g_n (w_g v) in let ns := nspin pol in
  bind (each (sg_products w) Ps) (fun Xs =>
  bind (tab ns N (fun s ip => bind (vget Xs s) (fun X => coldot (sp_v X) (sg_f w) ip))) (fun rho =>
  bind (if f_grad fl then
          bind (tab ns N (fun s ip => bind (vget Xs s) (fun X => bind (coldot (sp_v X) (sg_d w) ip) (fun x => Ok (2 * x))))) (fun grho =>
          bind (tab (nsigma pol) N (fun k ip =>
                  bind (get grho (if Nat.eqb k 2 then 1 else 0) ip) (fun x => bind (get grho (if Nat.eqb k 0 then 0 else 1) ip) (fun y => Ok (x * y))))) (fun sigma =>
          Ok (grho, sigma)))
        else Ok (d_grho d, d_sigma d)) (fun gs =>
  bind (if f_tau fl then tab ns N (fun s ip => bind (vget Xs s) (fun X => sg_tau w X ip)) else Ok (d_tau d)) (fun tau =>
  bind (if f_lapl fl then tab ns N (fun s ip => bind (vget Xs s) (fun X => sg_lapl w X ip)) else Ok (d_lapl d)) (fun lapl =>
  Ok (mkSG (sg_r w) (sg_wr w) (sg_ind w) (sg_f w) (sg_d w) (sg_l w)
        (mkW fl (w_g v) (mkDn pol rho (fst gs) (snd gs) tau lapl) (w_x v)))))))).

(* ------------------------------------------------------------------ *)
(** * Fock matrix *)

(** dftgrid.cpp 279-287 and 369-393: the weighted gradient of spin s. *)
Definition sg_gradient (pol : bool) (s : nat) (w : sgworker) : res dmat :=
  let v := sg_w w in let x := w_x v in let G := d_grho (w_d v) in let N := g_n (w_g v) in let wt := g_w (w_g v) in
  bind (row (x_vsigma x) (2 * s) N) (fun vs =>
  bind (if pol then row (x_vsigma x) 1 N else Ok (fun _ => 0)) (fun vs_ab =>
  bind (if x_ml x then row (x_vlapl x) s N else Ok (fun _ => 0)) (fun vl =>
  tab N 1 (fun i _ =>
    bind (get G s i) (fun y =>
    bind (if pol then bind (get G (1 - s) i) (fun z => Ok (wt i * (2 * vs i * y + vs_ab i * z))) else Ok (y * (2 * (wt i * vs i)))) (fun g =>
    if x_ml x then bind (vget (sg_r w) i) (fun r => bind (vget (sg_wr w) i) (fun wr => Ok (g + 2 * vl i * r * (wr * 4 * PI))))
    else Ok g)))))).
(** dftgrid.cpp 261-318 and 335-437: the matrices of spin s without and with the factor
    l(l+1). *)
Definition sg_channel (pol : bool) (s : nat) (w : sgworker) : res (dmat * dmat) :=
  let v := sg_w w in let x := w_x v in let N := g_n (w_g v) in let wt := g_w (w_g v) in let nbf := length (sg_ind w) in
  bind (row (x_vrho x) s N) (fun vrho =>
  bind (increment_lda_real (dzero nbf nbf) N (fun ip => vrho ip * wt ip) (sg_f w)) (fun H =>
  bind (if x_gga x then
          bind (sg_gradient pol s w) (fun gr => increment_gga_split H gr (sg_f w) dempty [sg_d w] [])
        else Ok H) (fun H =>
  if (x_mt x || x_ml x)%bool then
    bind (if x_mt x then row (x_vtau x) s N else Ok (fun _ => 0)) (fun vt =>
    bind (if x_ml x then row (x_vlapl x) s N else Ok (fun _ => 0)) (fun vl =>
    bind (increment_lda_real H N (fun ip => ((if x_mt x then / 2 * vt ip else 0) + (if x_ml x then 2 * vl ip else 0)) * wt ip) (sg_d w)) (fun H =>
    bind (if x_mt x then
            increment_lda_real (dzero nbf nbf) N (fun ip => vt ip * (/ 2 * nth ip (sg_wr w) 0 * 4 * PI)) (sg_f w)
          else Ok (dzero nbf nbf)) (fun Hl =>
    bind (if x_ml x then increment_mgga_lapl_real H N (fun ip => vl ip * wt ip) (sg_f w) (sg_l w) else Ok H) (fun H =>
    Ok (H, Hl))))))
  else Ok (H, dzero nbf nbf)))).
(** dftgrid.cpp 320-327 and 439-458: the slices of the output are the matrices k0, k0+1, ... of size [nout]. *)
Definition sg_add (w : sgworker) (H Hl : dmat) (k0 nsl nout : nat) : res (list update) :=
  fold_res (fun us l => bind (dadd H (dscale (ll1 l) Hl)) (fun Hs => bind (updates (k0 + l) (sg_ind w) Hs nout) (fun u => Ok (us ++ u))))
    (seq 0 nsl) [].
(** dftgrid.cpp 256-328 and 330-459: eval_Fxc.  An output is its spin, the number of its
    first slice, the number of slices and their size; unless beta there is only the first. *)
Definition sg_fock (pol : bool) (outs : list (nat * nat * nat * nat)) (w : sgworker) : res (list update) :=
  if negb (Bool.eqb pol (d_pol (w_d (sg_w w)))) then Throw RuntimeError else
  fold_res (fun us o => let '(s, k0, nsl, nout) := o in
    bind (sg_channel pol s w) (fun HH => bind (sg_add w (fst HH) (snd HH) k0 nsl nout) (fun u => Ok (us ++ u)))) outs [].

(* ------------------------------------------------------------------ *)
(** * The driver *)

Definition sg_base (w : sgworker) (v : worker) : sgworker := mkSG (sg_r w) (sg_wr w) (sg_ind w) (sg_f w) (sg_d w) (sg_l w) v.
(** dftgrid.cpp 536-547, 552-564 and 610-621, 627-638: one iteration. *)
Definition sg_iteration (pol : bool) (outs : list (nat * nat * nat * nat)) (lib : libxc) (b : abasis) (fn : functional)
    (Ps : list (list dmat)) (w : sgworker) (iel : nat) : res (sgworker * sums * list update) :=
  bind (sg_compute_bf b iel w) (fun w =>
  bind (sg_update_density pol w Ps) (fun w =>
  bind (compute_Nel (sg_w w)) (fun nel =>
  bind (run_xc lib fn (sg_w w)) (fun v =>
  bind (eval_Exc v) (fun exc =>
  bind (sg_fock pol outs (sg_base w v)) (fun us =>
  Ok (sg_base w v, (exc, nel, 0), us))))))).
Definition new_sgworker (fl : flags) : sgworker := mkSG [] [] [] dempty dempty dempty (new_worker fl).
(** The slices k0, ..., k0+n-1 *)
Definition slices (H : shared) (k0 n : nat) : list dmat := map (fun l => H (k0 + l)%nat) (seq 0 n).
(** dftgrid.cpp 497-503: prime_quadrature_cache, which asks the functionals what they need
    before the threads start. *)
Definition sg_prime (lib : libxc) (fn : functional) : res unit :=
  bind (check_grad_tau_lapl lib (fn_x fn) (fn_c fn)) (fun _ => Ok tt).
(** dftgrid.cpp 505-574: DFTGrid::eval_Fxc for one density; the matrices, Exc and Nel. *)
Definition sg_eval_Fxc (lib : libxc) (b : abasis) (fn : functional) (P : list dmat) (sc : schedule) : res (list dmat * (R * R)) :=
  bind (vget P 0) (fun P0 => let nrad := drows P0 in
  bind (sg_prime lib fn) (fun _ =>
  bind (driver new_sgworker lib fn (sg_iteration false [(0, 0, length P, nrad)%nat] lib b fn [P]) (fun _ => dzero nrad nrad) sc) (fun o =>
  Ok (slices (fst o) 0 (length P), fst (snd o))))).
(** dftgrid.cpp 576-653: for two densities. *)
Definition sg_eval_Fxc_pol (lib : libxc) (b : abasis) (fn : functional) (Pa Pb : list dmat) (beta : bool) (sc : schedule)
  : res (list dmat * list dmat * (R * R)) :=
  bind (vget Pa 0) (fun Pa0 => bind (vget Pb 0) (fun Pb0 =>
  let na := length Pa in let nb := length Pb in
  bind (sg_prime lib fn) (fun _ =>
  bind (driver new_sgworker lib fn
          (sg_iteration true ((0, 0, na, drows Pa0)%nat :: if beta then [(1, na, nb, drows Pb0)%nat] else []) lib b fn [Pa; Pb])
          (fun k => if Nat.ltb k na then dzero (drows Pa0) (drows Pa0) else dzero (drows Pb0) (drows Pb0)) sc) (fun o =>
  Ok (slices (fst o) 0 na, if beta then slices (fst o) na nb else map (fun _ => dzero (drows Pb0) (drows Pb0)) (seq 0 nb), fst (snd o)))))).
