(** Model of the quadrature of exchange-correlation functionals in a diatomic molecule:
    /repo/src/diatomic/dftgrid.cpp and the functions of /repo/src/diatomic/basis.cpp
    2120-2330 it calls.  What both grids do in the same way is taken from DftModel, and so
    is the treatment of scalars, sizes and divisions.  The parallel loops write to
    different columns of arrays and are modelled as loops. *)
Require Import Reals ZArith List Bool Arith.
Require Import Verif.Prelude Verif.FEModel Verif.AngModel Verif.JKModel Verif.DftModel.
Import ListNotations.
Local Open Scope R_scope.

(** M.row(i) as a matrix of one row; a row that does not exist gives a matrix of no row,
    which does not fit where it is used. *)
Definition mat_row (M : dmat) (i : nat) : dmat :=
  mkD (if Nat.ltb i (drows M) then 1 else 0) (dcols M) (fun _ j => dent M i j).
(** The basis as seen from one radial point: basis.cpp 2125-2149 (eval_bf(iel, irad, cth,
    phi)) and 2225-2290 (eval_df(iel, irad, ...)) do with row irad of get_bf and get_df
    what the atomic functions do with all rows. *)
Definition row_view (b : abasis) (irad : nat) : abasis :=
  mkAB (ab_sh b) (ab_fe b) (fun iel => [nth irad (ab_r b iel) 0]) (fun iel => [nth irad (ab_wrad b iel) 0])
    (fun iel => mat_row (ab_f b iel) irad) (fun iel => mat_row (ab_d b iel) irad) (fun iel => mat_row (ab_l b iel) irad) (ab_Y b).

(** diatomic/dftgrid.cpp 434-460: the scale factors; 461-469: the weights.  There is one
    radial point, so point ip is angular point ip. *)
Definition di_scale (Rh mu : R) (ru : rule) (c ip : nat) : R :=
  let ct := a_cth (ang ru ip) in let sth := sqrt (1 - ct * ct) in
  match c with
  | 0%nat | 1%nat => Rh * sqrt (sinh mu ^ 2 + sth ^ 2)
  | _ => Rh * sinh mu * sth
  end.
Definition di_weight (Rh mu wr : R) (ru : rule) (ip : nat) : R :=
  let ct := a_cth (ang ru ip) in let sth := sqrt (1 - ct * ct) in
  a_w (ang ru ip) * wr * Rh ^ 3 * sinh mu * (sinh mu ^ 2 + sth ^ 2).

(** diatomic/dftgrid.cpp 415-523: compute_bf(iel, irad). *)
Definition di_compute_bf (b : abasis) (Rh : R) (ru : rule) (iel irad : nat) (w : worker) : res worker :=
  bind (bf_list_full (ab_fe b) (length (ab_sh b)) iel) (fun ind =>
  let nbf := length ind in let nang := length ru in let fl := w_fl w in let g := w_g w in
  bind (vget (ab_wrad b iel) irad) (fun wr =>
  bind (vget (ab_r b iel) irad) (fun mu =>
  if existsb (fun ip => (Reqb (di_scale Rh mu ru 0 ip) 0 || Reqb (di_scale Rh mu ru 2 ip) 0)%bool) (seq 0 nang) then UB else
  let v := row_view b irad in
  let ev (f : R -> R -> cmat) := fill_points nbf 1 nang (fun ia => f (a_cth (ang ru ia)) (a_phi (ang ru ia))) in
  bind (ev (eval_bf v iel)) (fun bf =>
  bind (if f_grad fl then
          bind (ev (fun ct ph => eval_df v iel ct ph 0)) (fun d0 =>
          bind (ev (fun ct ph => eval_df v iel ct ph 1)) (fun d1 =>
          bind (ev (fun ct ph => eval_df v iel ct ph 2)) (fun d2 =>
          Ok (fun c => match c with 0 => d0 | 1 => d1 | _ => d2 end%nat))))
        else Ok (g_df g)) (fun df =>
  if f_lapl fl then Throw LogicError else
  Ok (mkW fl (mkG nang (di_weight Rh mu wr ru) (di_scale Rh mu ru) (fun c ip => / (di_scale Rh mu ru c ip) ^ 2) ind bf df (g_lf g))
        (w_d w) (w_x w))))))).

(** diatomic/dftgrid.cpp 51-232: update_density.  Without the Laplacian the formulas are
    those of the atomic grid; with it the functions throw (the one for two densities only
    if the kinetic energy density is needed as well), but compute_bf does so before. *)
Definition di_update_density (pol : bool) (w : worker) (Ps : list dmat) : res worker :=
  if f_lapl (w_fl w) then Throw LogicError else update_density pol w Ps.

(** diatomic/dftgrid.cpp 273-319 and 321-410: eval_Fxc.  Without the Laplacian they do
    what the atomic functions do, except that the gradient products of two densities are
    added by increment_lda_split. *)
Definition di_fock_restricted (w : worker) (nout : nat) : res (list update) :=
  if d_pol (w_d w) then Throw RuntimeError
  else if x_ml (w_x w) then Throw LogicError else eval_Fxc_restricted w nout.
Definition di_fock_polarised (w : worker) (beta : bool) (nout : nat) : res (list update) :=
  if negb (d_pol (w_d w)) then Throw RuntimeError
  else if x_ml (w_x w) then Throw LogicError else eval_Fxc_polarised increment_lda_split w beta nout nout.

(** One addition H(i,j) += x after the other. *)
Definition apply_updates (H : shared) (us : list update) : shared :=
  fold_left (fun H u => let '(k, i, j, x) := u in set_entry H k i j (dent (H k) i j + x)) us H.

(** diatomic/dftgrid.cpp 557-572 and 597-612: one point of the radial quadrature; the
    state is the worker, the sums and the matrices. *)
Definition di_state := (worker * sums * shared)%type.
Definition di_point_step (pol : bool) (fock : worker -> res (list update)) (lib : libxc) (b : abasis) (Rh : R) (ru : rule) (fn : functional)
    (Ps : list dmat) (st : di_state) (iel irad : nat) : res di_state :=
  let '(w, s, H) := st in
  bind (di_compute_bf b Rh ru iel irad w) (fun w =>
  bind (di_update_density pol w Ps) (fun w =>
  bind (compute_Nel w) (fun nel =>
  bind (compute_Ekin w) (fun ekin =>
  bind (run_xc lib fn w) (fun w =>
  bind (eval_Exc w) (fun exc =>
  bind (fock w) (fun us =>
  Ok (w, sums_add s (exc, nel, ekin), apply_updates H us)))))))).

(** The loops over elements and points: diatomic/dftgrid.cpp 555-574. *)
Definition di_loops (b : abasis) (step : di_state -> nat -> nat -> res di_state) (st : di_state) : res di_state :=
  fold_res (fun st iel => fold_res (fun st irad => step st iel irad) (seq 0 (length (ab_r b iel))) st)
    (seq 0 (get_nelem (ab_fe b))) st.

(** diatomic/dftgrid.cpp 539-583 and 585-628: DFTGrid::eval_Fxc. *)
Definition di_driver (pol : bool) (fock : nat -> worker -> res (list update)) (lib : libxc) (b : abasis) (Rh : R) (ru : rule) (fn : functional)
    (Ps : list dmat) : res (nat * shared * sums) :=
  bind (get_nbf (ab_fe b)) (fun nb =>
  let Nrad := Z.to_nat nb in let Nd := di_Ndummy (ab_sh b) Nrad in
  bind (check_grad_tau_lapl lib (fn_x fn) (fn_c fn)) (fun fl =>
  bind (fold_res (fun l P => bind (expand_boundaries (ab_sh b) Nrad P) (fun Q => Ok (l ++ [Q]))) Ps []) (fun Qs =>
  bind (di_loops b (di_point_step pol (fock Nd) lib b Rh ru fn Qs) (new_worker fl, (0, 0, 0), fun _ => dzero Nd Nd)) (fun st =>
  let '(_, s, H) := st in Ok (Nrad, H, s))))).
Definition di_eval_Fxc (lib : libxc) (b : abasis) (Rh : R) (ru : rule) (fn : functional) (P : dmat) : res (dmat * sums) :=
  bind (di_driver false (fun Nd w => di_fock_restricted w Nd) lib b Rh ru fn [P]) (fun o => let '(Nrad, H, s) := o in
  bind (remove_boundaries (ab_sh b) Nrad (H 0%nat)) (fun H_e => Ok (H_e, s))).
Definition di_eval_Fxc_pol (lib : libxc) (b : abasis) (Rh : R) (ru : rule) (fn : functional) (Pa Pb : dmat) (beta : bool)
  : res (dmat * dmat * sums) :=
  bind (di_driver true (fun Nd w => di_fock_polarised w beta Nd) lib b Rh ru fn [Pa; Pb]) (fun o => let '(Nrad, H, s) := o in
  bind (remove_boundaries (ab_sh b) Nrad (H 0%nat)) (fun Ha =>
  bind (remove_boundaries (ab_sh b) Nrad (H 1%nat)) (fun Hb => Ok (Ha, Hb, s)))).
