(** Model of the quadrature of exchange-correlation functionals in a diatomic molecule
    whose orbitals have a definite m: /repo/src/diatomic/dftgrid_purem.{h,cpp}.  What all
    grids do in the same way is taken from DftModel, and so is the treatment of scalars,
    sizes and divisions. *)
Require Import Reals ZArith List Bool Arith.
Require Import Verif.Prelude Verif.FEModel Verif.AngModel Verif.JKModel Verif.DftModel Verif.DdfModel.
Import ListNotations.
Local Open Scope R_scope.

(** The nodes and weights (cth, wang) of chebyshev::chebyshev(lang). *)
Definition nurule := list (R * R).
Definition nu (ru : nurule) (ia : nat) : R * R := nth ia ru (0, 0).

(* ------------------------------------------------------------------ *)
(** * The constructor *)

(** dftgrid_purem.cpp 38-43: the different values of m ... *)
Definition distinct (ms : list Z) : list Z :=
  fold_left (fun acc m => if existsb (Z.eqb m) acc then acc else acc ++ [m]) ms [].
(** dftgrid_purem.cpp 44: ... in increasing order (std::sort). *)
Fixpoint insert_Z (m : Z) (l : list Z) : list Z :=
  match l with [] => [m] | x :: l' => if (m <=? x)%Z then m :: l else x :: insert_Z m l' end.
Definition m_list (sh : list (Z * Z)) : list Z := fold_right insert_Z [] (distinct (map snd sh)).
(** dftgrid_purem.cpp 56-59: lval_m. *)
Definition l_list (sh : list (Z * Z)) (m : Z) : list Z := map fst (filter (fun lm => (snd lm =? m)%Z) sh).
(** dftgrid_purem.cpp 62-77: sph and dsph in the point with cosine c. *)
Definition pm_sin (c : R) : R := sqrt (Rmax ((1 - c) * (1 + c)) 0).
Definition pm_Y (b : abasis) (l m : Z) (c : R) : R := fst (ab_Y b l m c 0).
Definition pm_dY (b : abasis) (l m : Z) (c : R) : R :=
  let cot := if Rltb 0 (pm_sin c) then c / pm_sin c else 0 in
  let dY := IZR m * cot * pm_Y b l m c in
  if (m <? l)%Z then dY + sqrt (IZR (l - m) * IZR (l + m + 1)) * fst (ab_Y b l (m + 1)%Z c 0) else dY.

(* ------------------------------------------------------------------ *)
(** * Basis functions *)

(** One block: m, bf_ind_m, bf_m, dr_m, dth_m, bf_lapl_m. *)
Record pmblock := mkB { k_m : Z; k_ind : list nat; k_f : dmat; k_r : dmat; k_t : dmat; k_l : dmat }.
(** dftgrid_purem.h 53-110: the worker (mlist, lval_m, sph_m and dsph_m are functions below).  [pm_cache] is None unless cache_valid, otherwise
    cached_iel with rad_f, rad_df and rad_d2f; [pm_h], [pm_ir2], [pm_ip2] are scale_r,
    inv_scale_r2 and inv_scale_phi2; [pm_w] has the members of the base class and grho;
    the members of the three-dimensional worker in it are not used.  Pv_m, rho_m and so
    on are used only where they are computed, and the copies made for the partner of a
    block are never read. *)
Record pmworker := mkPM { pm_cache : option (nat * (dmat * dmat * dmat)); pm_h : nat -> R; pm_ir2 : nat -> R; pm_ip2 : nat -> R;
  pm_blocks : list pmblock; pm_w : worker }.
Definition plain_grid (n : nat) (w : nat -> R) : gridb :=
  mkG n w (fun _ _ => 0) (fun _ _ => 0) [] (dempty, dempty) (fun _ => (dempty, dempty)) (dempty, dempty).

(** dftgrid_purem.cpp 103-117 *)
Definition pm_scale (Rh mu : R) (ru : nurule) (ia : nat) : R :=
  let sth := pm_sin (fst (nu ru ia)) in Rh * sqrt (sinh mu * sinh mu + sth * sth).
Definition pm_scale_phi (Rh mu : R) (ru : nurule) (ia : nat) : R := Rh * sinh mu * pm_sin (fst (nu ru ia)).
Definition inv_square (h : R) : R := if Rltb 0 h then 1 / (h * h) else 0.
Definition pm_weight (Rh mu wr : R) (ru : nurule) (ia : nat) : R :=
  let sth := pm_sin (fst (nu ru ia)) in
  2 * PI * snd (nu ru ia) * wr * Rh ^ 3 * sinh mu * (sinh mu * sinh mu + sth * sth).

(** dftgrid_purem.cpp 122-131: the cache of one element. *)
Definition pm_load (b : abasis) (fl : flags) (iel : nat) (c : option (nat * (dmat * dmat * dmat))) : nat * (dmat * dmat * dmat) :=
  let need_df := (f_grad fl || f_tau fl || f_lapl fl)%bool in
  let fresh (d l : dmat) := (iel, (ab_f b iel, if need_df then ab_d b iel else d, if (need_df && f_lapl fl)%bool then ab_l b iel else l)) in
  match c with
  | Some (i, (f, d, l)) => if Nat.eqb i iel then (i, (f, d, l)) else fresh d l
  | None => fresh dempty dempty
  end.

(** f(Ps[0]), f(Ps[1]), ... *)
Definition each {A B} (f : A -> res B) (l : list A) : res (list B) := fold_res (fun acc x => bind (f x) (fun y => Ok (acc ++ [y]))) l [].
(** M.row(r) = v *)
Definition set_row (M : dmat) (r : nat) (v : nat -> R) : res dmat :=
  if Nat.ltb r (drows M) then Ok (mkD (drows M) (dcols M) (fun i j => if Nat.eqb i r then v j else dent M i j)) else UB.
(** dftgrid_purem.cpp 166-198: the loops over the shells of a block and the radial
    functions; the matrices are filled one after the other. *)
Definition fill_shell (Nr : nat) (v : nat -> nat -> res (nat -> R)) (M : dmat) (ish : nat) : res dmat :=
  fold_res (fun M j => bind (v ish j) (fun x => set_row M (ish * Nr + j) x)) (seq 0 Nr) M.
Definition fill_rows (nsh Nr : nat) (v : nat -> nat -> res (nat -> R)) (M : dmat) : res dmat :=
  fold_res (fill_shell Nr v) (seq 0 nsh) M.
(** dftgrid_purem.cpp 188-192: Y * A(irad, j). *)
Definition shell_row (ru : nurule) (ls : list Z) (irad : nat) (Y : Z -> R -> R) (A : dmat) (ish j : nat) : res (nat -> R) :=
  bind (vget ls ish) (fun l => bind (get A irad j) (fun x => Ok (fun ia => Y l (fst (nu ru ia)) * x))).
(** dftgrid_purem.cpp 133-137, 161, 177-184, 194-196: the Laplacian. *)
Definition lapl_row (ru : nurule) (ls : list Z) (irad : nat) (m : Z) (mu : R) (ir2 : nat -> R) (Y : Z -> R -> R) (F D L : dmat) (ish j : nat) : res (nat -> R) :=
  let sh := sinh mu in
  let coth := if Rltb 0 sh then cosh mu / sh else 0 in
  let m2_sh2 := IZR (m * m) * (if Rltb 0 sh then 1 / (sh * sh) else 0) in
  bind (vget ls ish) (fun l =>
  bind (get L irad j) (fun d2 => bind (get D irad j) (fun d1 => bind (get F irad j) (fun f =>
  let radop := d2 + coth * d1 - (IZR (l * (l + 1)) + m2_sh2) * f in
  Ok (fun ia => Y l (fst (nu ru ia)) * ir2 ia * radop))))).
Definition pm_block (b : abasis) (ru : nurule) (fl : flags) (rad : dmat * dmat * dmat) (iel irad : nat) (mu : R) (ir2 : nat -> R) (m : Z) : res pmblock :=
  let '(F, D, L) := rad in
  let need_df := (f_grad fl || f_tau fl || f_lapl fl)%bool in
  bind (bf_list_dummy_m (ab_fe b) (ab_sh b) iel m) (fun ind =>
  match ind with
  | [] => Ok (mkB m [] dempty dempty dempty dempty)
  | _ =>
    let nbf := length ind in let nang := length ru in let ls := l_list (ab_sh b) m in
    let Y l := pm_Y b l m in let dY l := pm_dY b l m in
    let fill v := fill_rows (length ls) (dcols F) v (dzero nbf nang) in
    bind (fill (shell_row ru ls irad Y F)) (fun bf =>
    bind (if need_df then fill (shell_row ru ls irad Y D) else Ok dempty) (fun dr =>
    bind (if need_df then fill (shell_row ru ls irad dY F) else Ok dempty) (fun dth =>
    bind (if f_lapl fl then fill (lapl_row ru ls irad m mu ir2 Y F D L) else Ok dempty) (fun lf =>
    Ok (mkB m ind bf dr dth lf)))))
  end).

(** dftgrid_purem.cpp 87-200: compute_bf. *)
Definition pm_compute_bf (b : abasis) (Rh : R) (ru : nurule) (iel irad : nat) (w : pmworker) : res pmworker :=
  let fl := w_fl (pm_w w) in
  bind (vget (ab_r b iel) irad) (fun mu =>
  bind (vget (ab_wrad b iel) irad) (fun wr =>
  let h := pm_scale Rh mu ru in
  let ir2 ia := inv_square (h ia) in
  let c := pm_load b fl iel (pm_cache w) in
  bind (each (pm_block b ru fl (snd c) iel irad mu ir2) (m_list (ab_sh b))) (fun bl =>
  Ok (mkPM (Some c) h ir2 (fun ia => inv_square (pm_scale_phi Rh mu ru ia)) bl
        (mkW fl (plain_grid (length ru) (pm_weight Rh mu wr ru)) (w_d (pm_w w)) (w_x (pm_w w))))))).

(* ------------------------------------------------------------------ *)
(** * Density *)

(** dftgrid_purem.cpp 467-472: mirror_block. *)
Definition mirror (bl : list pmblock) (k : pmblock) : option pmblock :=
  find (fun k' => ((k_m k' =? - k_m k)%Z && Nat.eqb (length (k_ind k')) (length (k_ind k)))%bool) bl.
(** dftgrid_purem.cpp 238-249, 267-273, 291-300, 331-335 and 479-484: the blocks the loops visit.
    A block of negative m is left to its partner; a block of positive m comes with its
    partner.  There are no partners unless [share]. *)
Definition visit (share : bool) (bl : list pmblock) (k : pmblock) : list (pmblock * option pmblock) :=
  match k_ind k with
  | [] => []
  | _ => match (if share then mirror bl k else None) with
         | Some k' => if (k_m k <? 0)%Z then [] else [(k, if (0 <? k_m k)%Z then Some k' else None)]
         | None => [(k, None)]
         end
  end.
Definition visited (share : bool) (bl : list pmblock) : list (pmblock * option pmblock) := flat_map (visit share bl) bl.
(** w, wpair *)
Definition pair_weight (a : pmblock * option pmblock) : R := match snd a with Some _ => 2 | None => 1 end.

(** dftgrid_purem.cpp 203-210, 250-251: gather_block(P, bf_ind) * A, for the blocks visited. *)
Definition block_products (Q : dmat) (sel : pmblock -> dmat) (act : list (pmblock * option pmblock)) : res (list dmat) :=
  each (fun a => bind (slice (k_ind (fst a)) Q) (fun P => dprod P (sel (fst a)))) act.
(** The sum over the blocks visited of what [f] gives for a block. *)
Definition block_sum (act : list (pmblock * option pmblock)) (f : nat -> pmblock * option pmblock -> res R) : res R :=
  fold_sum (length act) (fun i => bind (vget act i) (f i)).
(** (X.array() * A.array()).colwise().sum() in point ip *)
Definition block_dot (Xs : list dmat) (sel : pmblock -> dmat) (ip i : nat) (a : pmblock * option pmblock) : res R :=
  bind (vget Xs i) (fun X => coldot X (sel (fst a)) ip).

(** dftgrid_purem.cpp 252-259: rho; added twice for a pair. *)
Definition pm_rho (act : list (pmblock * option pmblock)) (Pv : list dmat) (ip : nat) : res R :=
  block_sum act (fun i a => bind (block_dot Pv k_f ip i a) (fun x => Ok match snd a with Some _ => x + x | None => x end)).
(** dftgrid_purem.cpp 273-280: one component of the gradient. *)
Definition pm_grad (w : pmworker) (act : list (pmblock * option pmblock)) (Pv : list dmat) (c ip : nat) : res R :=
  bind (block_sum act (fun i a => bind (block_dot Pv (if Nat.eqb c 0 then k_r else k_t) ip i a) (fun x => Ok (2 * pair_weight a * x)))) (fun x =>
  rdiv x (pm_h w ip)).
(** dftgrid_purem.cpp 281, 387-391: sigma from rows a, a+1 and b, b+1. *)
Definition pm_sigma (G : dmat) (a b ip : nat) : res R :=
  bind (get G a ip) (fun a0 => bind (get G b ip) (fun b0 =>
  bind (get G (a + 1) ip) (fun a1 => bind (get G (b + 1) ip) (fun b1 => Ok (a0 * b0 + a1 * b1))))).
(** dftgrid_purem.cpp 291-322: kin; rho_m is computed again. *)
Definition pm_kin (w : pmworker) (act : list (pmblock * option pmblock)) (Pv Pr Pt : list dmat) (ip : nat) : res R :=
  block_sum act (fun i a =>
    bind (block_dot Pr k_r ip i a) (fun r => bind (block_dot Pt k_t ip i a) (fun t => bind (block_dot Pv k_f ip i a) (fun n =>
    Ok (pair_weight a * (r * pm_ir2 w ip + t * pm_ir2 w ip + IZR (k_m (fst a) * k_m (fst a)) * n * pm_ip2 w ip)))))).
(** dftgrid_purem.cpp 330-338: the Laplacian. *)
Definition pm_lapl (w : pmworker) (act : list (pmblock * option pmblock)) (Pv Pr Pt : list dmat) (ip : nat) : res R :=
  bind (block_sum act (fun i a => bind (block_dot Pv k_l ip i a) (fun x => Ok (2 * pair_weight a * x)))) (fun x =>
  bind (pm_kin w act Pv Pr Pt ip) (fun k => Ok (x + 2 * k))).

(** dftgrid_purem.cpp 212-341 (one density) and 343-442 (two): update_density.  The two
    differ in the number of densities and in that the first uses the partners if
    [absm], which is is_absm_symmetric(). *)
Definition pm_update_density (b : abasis) (Nrad : nat) (absm pol : bool) (w : pmworker) (Ps : list dmat) : res pmworker :=
  if existsb (fun P => Nat.eqb (drows P * dcols P) 0) Ps then Throw RuntimeError else
  bind (each (expand_boundaries (ab_sh b) Nrad) Ps) (fun Qs =>
  let v := pm_w w in let fl := w_fl v in let d := w_d v in let N := g_n (w_g v) in let ns := nspin pol in
  let act := visited (absm && negb pol) (pm_blocks w) in
  bind (each (fun Q => block_products Q k_f act) Qs) (fun Pv =>
  bind (tab ns N (fun s ip => bind (vget Pv s) (fun X => pm_rho act X ip))) (fun rho =>
  bind (if f_grad fl then
          bind (tab (2 * ns) N (fun k ip => bind (vget Pv (k / 2)) (fun X => pm_grad w act X (k mod 2) ip))) (fun grho =>
          bind (tab (nsigma pol) N (fun k ip =>
                  pm_sigma grho (if Nat.eqb k 2 then 2 else 0) (if Nat.eqb k 0 then 0 else 2) ip)) (fun sigma =>
          Ok (grho, sigma)))
        else Ok (d_grho d, d_sigma d)) (fun gs =>
  bind (if (f_tau fl || f_lapl fl)%bool then
          bind (each (fun Q => block_products Q k_r act) Qs) (fun Pr =>
          bind (each (fun Q => block_products Q k_t act) Qs) (fun Pt =>
          let with_products {A} (s : nat) (f : list dmat -> list dmat -> list dmat -> res A) :=
            bind (vget Pv s) (fun X => bind (vget Pr s) (fun Y => bind (vget Pt s) (fun Z => f X Y Z))) in
          bind (if f_tau fl then
                  tab ns N (fun s ip => with_products s (fun X Y Z => bind (pm_kin w act X Y Z ip) (fun k => Ok (/ 2 * k))))
                else Ok (d_tau d)) (fun tau =>
          bind (if f_lapl fl then tab ns N (fun s ip => with_products s (fun X Y Z => pm_lapl w act X Y Z ip))
                else Ok (d_lapl d)) (fun lapl => Ok (tau, lapl)))))
        else Ok (d_tau d, d_lapl d)) (fun tl =>
  Ok (mkPM (pm_cache w) (pm_h w) (pm_ir2 w) (pm_ip2 w) (pm_blocks w)
        (mkW fl (w_g v) (mkDn pol rho (fst gs) (snd gs) (fst tl) (snd tl)) (w_x v)))))))).

(* ------------------------------------------------------------------ *)
(** * Fock matrix *)

(** dftgrid_common.h 150-171: increment_lda for a real matrix. *)
Definition increment_lda_real (H : dmat) (n : nat) (v : nat -> R) (f : dmat) : res dmat :=
  if negb (Nat.eqb (dcols f) n) then Throw RuntimeError
  else if negb (Nat.eqb (drows H) (drows f) && Nat.eqb (dcols H) (drows f)) then Throw RuntimeError else
  bind (dprod (colscale f v) (dT f)) (fun X => dadd H X).
(** dftgrid_common.h 245-269: increment_mgga_lapl for real matrices. *)
Definition increment_mgga_lapl_real (H : dmat) (n : nat) (v : nat -> R) (f l : dmat) : res dmat :=
  if negb (Nat.eqb (dcols f) n) then Throw RuntimeError
  else if negb (Nat.eqb (drows H) (drows f) && Nat.eqb (dcols H) (drows f)) then Throw RuntimeError
  else if negb (Nat.eqb (drows l) (drows f) && Nat.eqb (dcols l) (dcols f)) then Throw RuntimeError else
  bind (dprod (colscale f v) (dT l)) (fun X =>
  bind (dprod l (dT (colscale f v))) (fun Y =>
  bind (dadd X Y) (fun Z => dadd H Z))).

(** dftgrid_purem.cpp 495-506 and 582-601: the weighted gradient of spin s. *)
Definition pm_gradient (pol : bool) (s : nat) (w : pmworker) : res dmat :=
  let v := pm_w w in let x := w_x v in let G := d_grho (w_d v) in let N := g_n (w_g v) in let wt := g_w (w_g v) in
  if pol then
    bind (row (x_vsigma x) (2 * s) N) (fun vs =>
    bind (row (x_vsigma x) 1 N) (fun vs_ab =>
    tab N 2 (fun i c =>
      bind (rdiv (wt i) (pm_h w i)) (fun f =>
      bind (get G (2 * s + c) i) (fun y => bind (get G (2 - 2 * s + c) i) (fun z =>
      Ok (f * (2 * vs i * y + vs_ab i * z))))))))
  else
    bind (row (x_vsigma x) 0 N) (fun vs =>
    tab N 2 (fun i c =>
      bind (rdiv (2 * wt i * vs i) (pm_h w i)) (fun f => bind (get G c i) (fun y => Ok (f * y))))).
(** dftgrid_purem.cpp 485-536 and 564-641: the matrix of block k, spin s. *)
Definition pm_channel (pol : bool) (s : nat) (w : pmworker) (k : pmblock) : res dmat :=
  let v := pm_w w in let x := w_x v in let N := g_n (w_g v) in let wt := g_w (w_g v) in
  let nbf := length (k_ind k) in
  bind (row (x_vrho x) s N) (fun vrho =>
  bind (increment_lda_real (dzero nbf nbf) N (fun ip => vrho ip * wt ip) (k_f k)) (fun H =>
  bind (if x_gga x then
          bind (pm_gradient pol s w) (fun gr => increment_gga_split H gr (k_f k) dempty [k_r k; k_t k] [])
        else Ok H) (fun H =>
  bind (if (x_mt x || x_ml x)%bool then
          bind (if x_mt x then row (x_vtau x) s N else Ok (fun _ => 0)) (fun vt =>
          bind (if x_ml x then row (x_vlapl x) s N else Ok (fun _ => 0)) (fun vl =>
          let vtl ip := ((if x_mt x then / 2 * vt ip else 0) + (if x_ml x then 2 * vl ip else 0)) * wt ip in
          bind (increment_lda_real H N (fun ip => vtl ip * pm_ir2 w ip) (k_r k)) (fun H =>
          bind (increment_lda_real H N (fun ip => vtl ip * pm_ir2 w ip) (k_t k)) (fun H =>
          if (k_m k * k_m k =? 0)%Z then Ok H
          else increment_lda_real H N (fun ip => vtl ip * pm_ip2 w ip * IZR (k_m k * k_m k)) (k_f k)))))
        else Ok H) (fun H =>
  if x_ml x then
    bind (row (x_vlapl x) s N) (fun vl => increment_mgga_lapl_real H N (fun ip => vl ip * wt ip) (k_f k) (k_l k))
  else Ok H)))).

(** dftgrid_purem.cpp 538-546 and 643-655: the block is added to its own place and to the
    place of its partner. *)
Definition pm_add (s : nat) (H : dmat) (a : pmblock * option pmblock) (nout : nat) : res (list update) :=
  bind (updates s (k_ind (fst a)) H nout) (fun u =>
  match snd a with
  | Some k' => bind (updates s (k_ind k') H nout) (fun u' => Ok (u ++ u'))
  | None => Ok u
  end).
(** dftgrid_purem.cpp 474-548 and 550-657: eval_Fxc.  With [spins] = [0] it is the one for
    one density, and the one for two densities has [0; 1] or, unless beta, [0]. *)
Definition pm_fock (pol : bool) (spins : list nat) (w : pmworker) (nout : nat) : res (list update) :=
  if negb (Bool.eqb pol (d_pol (w_d (pm_w w)))) then Throw RuntimeError else
  fold_res (fun us a =>
    fold_res (fun us s => bind (pm_channel pol s w (fst a)) (fun H => bind (pm_add s H a nout) (fun u => Ok (us ++ u)))) spins us)
    (visited true (pm_blocks w)) [].

(* ------------------------------------------------------------------ *)
(** * The loops over the grid *)

Definition with_base (w : pmworker) (v : worker) : pmworker := mkPM (pm_cache w) (pm_h w) (pm_ir2 w) (pm_ip2 w) (pm_blocks w) v.
Definition pm_state := (pmworker * sums * shared)%type.
(** dftgrid_purem.cpp 686-696 and 717-727: one point of the radial quadrature. *)
Definition pm_point_step (absm pol : bool) (spins : list nat) (nout Nrad : nat) (lib : libxc) (b : abasis) (Rh : R) (ru : nurule) (fn : functional)
    (Ps : list dmat) (st : pm_state) (iel irad : nat) : res pm_state :=
  let '(w, s, H) := st in
  bind (pm_compute_bf b Rh ru iel irad w) (fun w =>
  bind (pm_update_density b Nrad absm pol w Ps) (fun w =>
  bind (compute_Nel (pm_w w)) (fun nel =>
  bind (compute_Ekin (pm_w w)) (fun ekin =>
  bind (run_xc lib fn (pm_w w)) (fun v =>
  bind (eval_Exc v) (fun exc =>
  bind (pm_fock pol spins (with_base w v) nout) (fun us =>
  Ok (with_base w v, sums_add s (exc, nel, ekin), apply_updates H us)))))))).
(** dftgrid_purem.cpp 684-698 and 715-729: the loops over elements and points. *)
Definition pm_loops (b : abasis) (step : pm_state -> nat -> nat -> res pm_state) (st : pm_state) : res pm_state :=
  fold_res (fun st iel => fold_res (fun st irad => step st iel irad) (seq 0 (length (ab_r b iel))) st)
    (seq 0 (get_nelem (ab_fe b))) st.
Definition new_pmworker (fl : flags) : pmworker := mkPM None (fun _ => 0) (fun _ => 0) (fun _ => 0) [] (new_worker fl).
Definition pm_driver (absm pol : bool) (spins : list nat) (lib : libxc) (b : abasis) (Rh : R) (ru : nurule) (fn : functional)
    (Ps : list dmat) : res (nat * shared * sums) :=
  bind (get_nbf (ab_fe b)) (fun nb =>
  let Nrad := Z.to_nat nb in let Nd := di_Ndummy (ab_sh b) Nrad in
  bind (check_grad_tau_lapl lib (fn_x fn) (fn_c fn)) (fun fl =>
  bind (pm_loops b (pm_point_step absm pol spins Nd Nrad lib b Rh ru fn Ps) (new_pmworker fl, (0, 0, 0), fun _ => dzero Nd Nd)) (fun st =>
  let '(_, s, H) := st in Ok (Nrad, H, s)))).
(** dftgrid_purem.cpp 675-702: PureMDFTGrid::eval_Fxc for one density; [absm] is
    is_absm_symmetric() of the basis. *)
Definition pm_eval_Fxc (absm : bool) (lib : libxc) (b : abasis) (Rh : R) (ru : nurule) (fn : functional) (P : dmat) : res (dmat * sums) :=
  bind (pm_driver absm false [0%nat] lib b Rh ru fn [P]) (fun o => let '(Nrad, H, s) := o in
  bind (remove_boundaries (ab_sh b) Nrad (H 0%nat)) (fun H_e => Ok (H_e, s))).
(** dftgrid_purem.cpp 704-744: for two densities. *)
Definition pm_eval_Fxc_pol (absm : bool) (lib : libxc) (b : abasis) (Rh : R) (ru : nurule) (fn : functional) (Pa Pb : dmat) (beta : bool)
  : res (dmat * dmat * sums) :=
  bind (pm_driver absm true (if beta then [0%nat; 1%nat] else [0%nat]) lib b Rh ru fn [Pa; Pb]) (fun o => let '(Nrad, H, s) := o in
  bind (remove_boundaries (ab_sh b) Nrad (H 0%nat)) (fun Ha =>
  bind (remove_boundaries (ab_sh b) Nrad (H 1%nat)) (fun Hb => Ok (Ha, Hb, s)))).
