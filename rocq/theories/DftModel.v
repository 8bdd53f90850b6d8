(** Model of the quadrature of exchange-correlation functionals:
    /repo/src/general/dftfuncs.cpp 333-392 and 603-715,
    /repo/src/general/dftgrid_common.{h,cpp}, /repo/src/atomic/dftgrid.cpp and the
    functions of /repo/src/atomic/TwoDBasis.cpp 1133-1255 it calls.  Scalars are exact
    real numbers; matrices carry their dimensions, and an access outside of an array, an
    operation between matrices of different size and a division by zero (which gives a
    value that is not finite) are [UB].  Printing and the messages of exceptions are left
    out. *)
Require Import Reals ZArith List Bool Arith.
Require Import Verif.Prelude Verif.FEModel Verif.AngModel Verif.JKModel.
Import ListNotations.
Local Open Scope R_scope.

(* ------------------------------------------------------------------ *)
(** * libxc *)

Inductive xcfamily := LDA | GGA | MGGA | OtherFamily.

(** What libxc gives back for one point: the energy per particle and its derivatives;
    see xc_lda_exc_vxc, xc_gga_exc_vxc, xc_mgga_exc_vxc. *)
Record xcout := mkXO { o_exc : R; o_vrho : nat -> R; o_vsigma : nat -> R; o_vlapl : nat -> R; o_vtau : nat -> R }.

(** libxc as an argument.  [xc_known id]: xc_func_init succeeds; the flags are
    XC_FLAGS_NEEDS_TAU, XC_FLAGS_NEEDS_LAPLACIAN and XC_FLAGS_HAVE_EXC.  The
    evaluators take the identifier, whether the calculation is polarised, the density
    threshold, the parameters (empty: those of the functional) and the density, sigma,
    Laplacian and kinetic energy density in one point, and do not look at other points;
    a NULL pointer is None. *)
Record libxc := mkLib {
  xc_known : Z -> bool;
  xc_family : Z -> xcfamily;
  xc_tau : Z -> bool;
  xc_lapl : Z -> bool;
  xc_have_exc : Z -> bool;
  xc_npar : Z -> nat;
  xc_lda : Z -> bool -> R -> list R -> list R -> xcout;
  xc_gga : Z -> bool -> R -> list R -> list R -> list R -> xcout;
  xc_mgga : Z -> bool -> R -> list R -> list R -> list R -> option (list R) -> option (list R) -> xcout }.

(** xc_func_init in every function of dftfuncs.cpp *)
Definition with_func {A} (lib : libxc) (id : Z) (default : A) (f : res A) : res A :=
  if (id <=? 0)%Z then Ok default else if xc_known lib id then f else Throw RuntimeError.

(** dftfuncs.cpp 333-392: is_gga_mgga; the results gga, mgga_t, mgga_l. *)
Definition is_gga_mgga (lib : libxc) (id : Z) : res (bool * bool * bool) :=
  with_func lib id (false, false, false)
    match xc_family lib id with
    | LDA => Ok (false, false, false)
    | GGA => Ok (true, false, false)
    | MGGA => Ok (false, xc_tau lib id, xc_lapl lib id)
    | OtherFamily => Throw RuntimeError
    end.
(** dftfuncs.cpp 603-634 *)
Definition gradient_needed (lib : libxc) (id : Z) : res bool :=
  with_func lib id false (Ok match xc_family lib id with GGA | MGGA => true | _ => false end).
(** dftfuncs.cpp 636-665 *)
Definition tau_needed (lib : libxc) (id : Z) : res bool :=
  with_func lib id false (Ok match xc_family lib id with MGGA => xc_tau lib id | _ => false end).
(** dftfuncs.cpp 667-696 *)
Definition laplacian_needed (lib : libxc) (id : Z) : res bool :=
  with_func lib id false (Ok match xc_family lib id with MGGA => xc_lapl lib id | _ => false end).
(** dftfuncs.cpp 698-715 *)
Definition has_exc (lib : libxc) (id : Z) : res bool :=
  with_func lib id true (Ok (xc_have_exc lib id)).

(* ------------------------------------------------------------------ *)
(** * Arrays *)

(** A(i, j) *)
Definition get (A : dmat) (i j : nat) : res R :=
  if (Nat.ltb i (drows A) && Nat.ltb j (dcols A))%bool then Ok (dent A i j) else UB.
(** x / y *)
Definition rdiv (x y : R) : res R := if Reqb y 0 then UB else Ok (x / y).
(** v[i] *)
Definition vget {A} (l : list A) (i : nat) : res A :=
  match nth_error l i with Some x => Ok x | None => UB end.

(** f(0), ..., f(n-1), in order. *)
Fixpoint collect (n : nat) (f : nat -> res R) : res (list R) :=
  match n with
  | O => Ok []
  | S n' => bind (collect n' f) (fun l => bind (f n') (fun x => Ok (l ++ [x])))
  end.
Fixpoint collect2 (n m : nat) (f : nat -> nat -> res R) : res (list (list R)) :=
  match n with
  | O => Ok []
  | S n' => bind (collect2 n' m f) (fun l => bind (collect m (f n')) (fun x => Ok (l ++ [x])))
  end.
(** An n x m matrix filled entry by entry. *)
Definition tab (n m : nat) (f : nat -> nat -> res R) : res dmat :=
  bind (collect2 n m f) (fun l => Ok (mkD n m (fun i j => nth j (nth i l []) 0))).

(** A.col(p).dot(B.col(p)) *)
Definition coldot (A B : dmat) (p : nat) : res R :=
  if (Nat.eqb (drows A) (drows B) && Nat.ltb p (dcols A) && Nat.ltb p (dcols B))%bool
  then Ok (sum (drows A) (fun i => dent A i p * dent B i p)) else UB.

(** A complex matrix as its real and imaginary part; the code keeps both the complex
    matrix and the two parts and assigns them together (atomic/dftgrid.cpp 565-575). *)
Definition cmat := (dmat * dmat)%type.
(** Columns of a complex matrix times v(j); [P X] for the real matrix P. *)
Definition colscale (A : dmat) (v : nat -> R) : dmat := mkD (drows A) (dcols A) (fun i j => dent A i j * v j).
Definition pprod (P : dmat) (X : cmat) : res cmat :=
  bind (dprod P (fst X)) (fun A => bind (dprod P (snd X)) (fun B => Ok (A, B))).
(** PvA.col(ip).dot(Yre.col(ip)) + PvB.col(ip).dot(Yim.col(ip)) *)
Definition dot2 (Pv Y : cmat) (p : nat) : res R :=
  bind (coldot (fst Pv) (fst Y) p) (fun x => bind (coldot (snd Pv) (snd Y) p) (fun y => Ok (x + y))).

(* ------------------------------------------------------------------ *)
(** * The accumulation routines of dftgrid_common.h *)

(** dftgrid_common.h 128-142: increment_lda_split. *)
Definition increment_lda_split (H : dmat) (n : nat) (v : nat -> R) (f : cmat) : res dmat :=
  if negb (Nat.eqb (dcols (fst f)) n && Nat.eqb (dcols (snd f)) n) then Throw RuntimeError else
  bind (dprod (colscale (fst f) v) (dT (fst f))) (fun X =>
  bind (dadd H X) (fun H =>
  bind (dprod (colscale (snd f) v) (dT (snd f))) (fun Y => dadd H Y))).

(** dftgrid_common.h 150-171: increment_lda for a complex matrix.  The real part of
    fhlp * f^H is fhlp_re f_re^T - fhlp_im (- f_im)^T. *)
Definition increment_lda (H : dmat) (n : nat) (v : nat -> R) (f : cmat) : res dmat :=
  if negb (Nat.eqb (dcols (fst f)) n) then Throw RuntimeError
  else if negb (Nat.eqb (drows H) (drows (fst f)) && Nat.eqb (dcols H) (drows (fst f))) then Throw RuntimeError else
  bind (dprod (colscale (fst f) v) (dT (fst f))) (fun X =>
  bind (dprod (colscale (snd f) v) (dscale (-1) (dT (snd f)))) (fun Y =>
  bind (dadd X (dscale (-1) Y)) (fun Z => dadd H Z))).

(** dftgrid_common.h 207-211: gre.col(j) += gn(j,c)*ga[c]->col(j) for all columns. *)
Definition add_component (G : dmat) (gn : dmat) (c : nat) (A : dmat) : res dmat :=
  tab (drows G) (dcols G) (fun i j =>
    bind (get gn j c) (fun x => bind (get A i j) (fun y => Ok (dent G i j + x * y)))).
Definition add_components (G gn : dmat) (ga : list dmat) : res dmat :=
  fold_res (fun G c => bind (vget ga c) (fun A => add_component G gn c A)) (seq 0 (length ga)) G.
(** dftgrid_common.h 188-218: increment_gga_split; an empty [gb] is a real basis. *)
Definition increment_gga_split (H gn : dmat) (a b : dmat) (ga gb : list dmat) : res dmat :=
  if negb (Nat.eqb (dcols gn) (length ga)) then Throw RuntimeError
  else if (match gb with [] => false | _ => negb (Nat.eqb (length gb) (length ga)) end) then Throw RuntimeError
  else if negb (Nat.eqb (drows H) (drows a) && Nat.eqb (dcols H) (drows a)) then Throw RuntimeError else
  bind (add_components (dzero (drows a) (dcols a)) gn ga) (fun gre =>
  bind (dprod gre (dT a)) (fun X =>
  bind (match gb with
        | [] => Ok X
        | _ => bind (add_components (dzero (drows a) (dcols a)) gn gb) (fun gim =>
               bind (dprod gim (dT b)) (fun Y => dadd X Y))
        end) (fun X =>
  bind (dadd H X) (fun H => dadd H (dT X))))).

(** dftgrid_common.h 226-243: increment_mgga_lapl_split. *)
Definition increment_mgga_lapl_split (H : dmat) (n : nat) (v : nat -> R) (f l : cmat) : res dmat :=
  if negb (Nat.eqb (dcols (fst f)) n) then Throw RuntimeError else
  bind (dprod (colscale (fst f) v) (dT (fst l))) (fun X =>
  bind (dprod (colscale (snd f) v) (dT (snd l))) (fun Y =>
  bind (dadd X Y) (fun X =>
  bind (dadd H X) (fun H => dadd H (dT X))))).

(* ------------------------------------------------------------------ *)
(** * The worker *)

(** dftgrid_common.h 37-43: do_grad, do_tau, do_lapl. *)
Record flags := mkF { f_grad : bool; f_tau : bool; f_lapl : bool }.
(** atomic/dftgrid.h 34-81: the grid and the basis functions in its points.  Components
    0, 1, 2 of the scale factors and of the derivatives are r, theta, phi. *)
Record gridb := mkG {
  g_n : nat;
  g_w : nat -> R;
  g_scale : nat -> nat -> R;
  g_inv2 : nat -> nat -> R;
  g_ind : list nat;
  g_bf : cmat;
  g_df : nat -> cmat;
  g_lf : cmat }.
(** The density and its derivatives. *)
Record densb := mkDn { d_pol : bool; d_rho : dmat; d_grho : dmat; d_sigma : dmat; d_tau : dmat; d_lapl : dmat }.
(** The functional and its derivatives; do_gga, do_mgga_t, do_mgga_l. *)
Record xcb := mkX { x_gga : bool; x_mt : bool; x_ml : bool;
  x_exc : dmat; x_vrho : dmat; x_vsigma : dmat; x_vtau : dmat; x_vlapl : dmat }.
Record worker := mkW { w_fl : flags; w_g : gridb; w_d : densb; w_x : xcb }.

(** dftgrid_common.cpp 40-52: check_grad_tau_lapl. *)
Definition needed (need : Z -> res bool) (x c : Z) : res bool :=
  bind (if (0 <? x)%Z then need x else Ok false) (fun a =>
  if (0 <? c)%Z then (if a then Ok true else need c) else Ok a).
Definition check_grad_tau_lapl (lib : libxc) (x c : Z) : res flags :=
  bind (needed (gradient_needed lib) x c) (fun g =>
  bind (needed (tau_needed lib) x c) (fun t =>
  bind (needed (laplacian_needed lib) x c) (fun l => Ok (mkF g t l)))).

Definition nspin (pol : bool) : nat := if pol then 2 else 1.
Definition nsigma (pol : bool) : nat := if pol then 3 else 1.

(** dftgrid_common.cpp 60-77: init_xc.  Buffers that are not needed keep their old
    content. *)
Definition init_xc (w : worker) : worker :=
  let N := g_n (w_g w) in let s := nspin (d_pol (w_d w)) in let fl := w_fl w in let x := w_x w in
  mkW fl (w_g w) (w_d w)
    (mkX false false false (dzero 1 N) (dzero s N)
       (if f_grad fl then dzero (nsigma (d_pol (w_d w))) N else x_vsigma x)
       (if f_tau fl then dzero s N else x_vtau x)
       (if f_lapl fl then dzero s N else x_vlapl x)).

(** dftgrid_common.cpp 79-83: eval_Exc. *)
Definition fold_sum (n : nat) (f : nat -> res R) : res R :=
  fold_res (fun s ip => bind (f ip) (fun x => Ok (s + x))) (seq 0 n) 0.
Definition total (pol : bool) (A : dmat) (ip : nat) : res R :=
  bind (get A 0 ip) (fun x => if pol then bind (get A 1 ip) (fun y => Ok (x + y)) else Ok x).
Definition eval_Exc (w : worker) : res R :=
  fold_sum (g_n (w_g w)) (fun ip =>
    bind (get (x_exc (w_x w)) 0 ip) (fun e =>
    bind (total (d_pol (w_d w)) (d_rho (w_d w)) ip) (fun n => Ok (g_w (w_g w) ip * e * n)))).
(** dftgrid_common.cpp 85-96: compute_Nel. *)
Definition compute_Nel (w : worker) : res R :=
  fold_sum (g_n (w_g w)) (fun ip =>
    bind (total (d_pol (w_d w)) (d_rho (w_d w)) ip) (fun n => Ok (g_w (w_g w) ip * n))).
(** atomic/dftgrid.cpp 259-272: compute_Ekin. *)
Definition compute_Ekin (w : worker) : res R :=
  if f_tau (w_fl w) then
    fold_sum (g_n (w_g w)) (fun ip =>
      bind (total (d_pol (w_d w)) (d_tau (w_d w)) ip) (fun t => Ok (g_w (w_g w) ip * t)))
  else Ok 0.

(** A buffer of [r] rows for the points, as libxc reads and writes it. *)
Definition sized (A : dmat) (r n : nat) : bool := (Nat.eqb (drows A) r && Nat.eqb (dcols A) n)%bool.
(** The values of one point. *)
Definition column (A : dmat) (ip : nat) : list R := map (fun i => dent A i ip) (seq 0 (drows A)).

(** dftgrid_common.cpp 140-189: the call of libxc, for point ip. *)
Definition call_xc (lib : libxc) (id : Z) (pars : list R) (thr : R) (gga mt ml : bool) (d : densb) (ip : nat) : xcout :=
  if (mt || ml)%bool then
    xc_mgga lib id (d_pol d) thr pars (column (d_rho d) ip) (column (d_sigma d) ip)
      (if ml then Some (column (d_lapl d) ip) else None) (if mt then Some (column (d_tau d) ip) else None)
  else if gga then xc_gga lib id (d_pol d) thr pars (column (d_rho d) ip) (column (d_sigma d) ip)
  else xc_lda lib id (d_pol d) thr pars (column (d_rho d) ip).

(** dftgrid_common.cpp 98-254: compute_xc.  Lines 194-241 read the first rows of the
    potential to look for NaNs, which do not exist if pot is false. *)
Definition compute_xc (lib : libxc) (id : Z) (pars : list R) (thr : R) (pot : bool) (w : worker) : res worker :=
  bind (is_gga_mgga lib id) (fun k => let '(gga, mt, ml) := k in
  let N := g_n (w_g w) in let d := w_d w in let x := w_x w in
  let ns := nspin (d_pol d) in let nsg := nsigma (d_pol d) in
  let any := (gga || mt || ml)%bool in
  bind (has_exc lib id) (fun he =>
  if negb (xc_known lib id) then Throw RuntimeError
  else if (match pars with [] => false | _ => negb (Nat.eqb (length pars) (xc_npar lib id)) end) then Throw LogicError
  else if negb (sized (d_rho d) ns N && implb any (sized (d_sigma d) nsg N) &&
                implb ml (sized (d_lapl d) ns N) && implb mt (sized (d_tau d) ns N)) then UB
  else if (negb pot && Nat.ltb 0 N)%bool then UB
  else if negb (sized (x_exc x) 1 N && sized (x_vrho x) ns N && implb any (sized (x_vsigma x) nsg N) &&
                implb ml (sized (x_vlapl x) ns N) && implb mt (sized (x_vtau x) ns N)) then UB
  else
    let out := call_xc lib id pars thr gga mt ml d in
    let add (c : bool) (A : dmat) (f : xcout -> nat -> R) : dmat :=
      if c then mkD (drows A) (dcols A) (fun i ip => dent A i ip + f (out ip) i) else A in
    Ok (mkW (w_fl w) (w_g w) d
          (mkX (x_gga x || any) (x_mt x || mt) (x_ml x || ml)
             (add he (x_exc x) (fun o _ => o_exc o))
             (add pot (x_vrho x) o_vrho)
             (add (pot && any)%bool (x_vsigma x) o_vsigma)
             (add (pot && mt)%bool (x_vtau x) o_vtau)
             (add (pot && ml)%bool (x_vlapl x) o_vlapl))))).

(* ------------------------------------------------------------------ *)
(** * Density on the grid (atomic) *)

(** P(i,j) = P0(bf_ind[i], bf_ind[j]) *)
Definition slice (ind : list nat) (P0 : dmat) : res dmat :=
  tab (length ind) (length ind) (fun i j =>
    bind (vget ind i) (fun a => bind (vget ind j) (fun b => get P0 a b))).

(** One component of the gradient of the density, as in atomic/dftgrid.cpp 80-82. *)
Definition grad_entry (g : gridb) (Pv : cmat) (c ip : nat) : res R :=
  bind (dot2 Pv (g_df g c) ip) (fun x => rdiv (2 * x) (g_scale g c ip)).
(** One component of the kinetic energy density, as in atomic/dftgrid.cpp 101-103. *)
Definition kin_entry (g : gridb) (Pg : nat -> cmat) (c ip : nat) : res R :=
  bind (dot2 (Pg c) (g_df g c) ip) (fun x => rdiv x (g_scale g c ip ^ 2)).
Definition kin (g : gridb) (Pg : nat -> cmat) (ip : nat) : res R :=
  bind (kin_entry g Pg 0 ip) (fun x => bind (kin_entry g Pg 1 ip) (fun y => bind (kin_entry g Pg 2 ip) (fun z =>
  Ok (x + y + z)))).
(** sigma from rows a, a+1, a+2 and b, b+1, b+2 of the gradient *)
Definition sigma_entry (G : dmat) (a b ip : nat) : res R :=
  bind (get G a ip) (fun a0 => bind (get G b ip) (fun b0 =>
  bind (get G (a + 1) ip) (fun a1 => bind (get G (b + 1) ip) (fun b1 =>
  bind (get G (a + 2) ip) (fun a2 => bind (get G (b + 2) ip) (fun b2 =>
  Ok (a0 * b0 + a1 * b1 + a2 * b2))))))).

(** P*bf_rho, P*bf_theta, P*bf_phi *)
Definition grad_products (P : dmat) (g : gridb) : res (nat -> cmat) :=
  bind (pprod P (g_df g 0%nat)) (fun X0 => bind (pprod P (g_df g 1%nat)) (fun X1 => bind (pprod P (g_df g 2%nat)) (fun X2 =>
  Ok (fun c => match c with 0 => X0 | 1 => X1 | _ => X2 end%nat)))).

(** atomic/dftgrid.cpp 51-128 (one density) and 130-242 (two): update_density.  The
    densities are given as a list of one or two; the two overloads differ in nothing
    else than the number of densities, and [pol] tells them apart. *)
Definition update_density (pol : bool) (w : worker) (Ps : list dmat) : res worker :=
  if existsb (fun P => Nat.eqb (drows P * dcols P) 0) Ps then Throw RuntimeError else
  let g := w_g w in let fl := w_fl w in let N := g_n g in let d := w_d w in
  let ns := nspin pol in
  bind (fold_res (fun l P0 => bind (slice (g_ind g) P0) (fun P => Ok (l ++ [P]))) Ps []) (fun Pm =>
  bind (fold_res (fun l P => bind (pprod P (g_bf g)) (fun X => Ok (l ++ [X]))) Pm []) (fun Pv =>
  bind (tab ns N (fun s ip => bind (vget Pv s) (fun X => dot2 X (g_bf g) ip))) (fun rho =>
  bind (if f_grad fl then
          bind (tab (3 * ns) N (fun k ip => bind (vget Pv (k / 3)) (fun X => grad_entry g X (k mod 3) ip))) (fun grho =>
          bind (tab (nsigma pol) N (fun k ip =>
                  sigma_entry grho (if Nat.eqb k 2 then 3 else 0) (if Nat.eqb k 0 then 0 else 3) ip)) (fun sigma =>
          Ok (grho, sigma)))
        else Ok (d_grho d, d_sigma d)) (fun gs =>
  bind (if (f_tau fl || f_lapl fl)%bool then
          bind (fold_res (fun l P => bind (grad_products P g) (fun X => Ok (l ++ [X]))) Pm []) (fun Pg =>
          bind (tab ns N (fun s ip => bind (vget Pg s) (fun X => bind (kin g X ip) (fun k => Ok (/ 2 * k))))) (fun tau =>
          bind (if f_lapl fl then
                  tab ns N (fun s ip => bind (vget Pg s) (fun X => bind (kin g X ip) (fun k =>
                    bind (vget Pv s) (fun Y => bind (dot2 Y (g_lf g) ip) (fun l => Ok (2 * (k + l)))))))
                else Ok (d_lapl d)) (fun lapl => Ok (tau, lapl))))
        else Ok (d_tau d, d_lapl d)) (fun tl =>
  Ok (mkW fl g (mkDn pol rho (fst gs) (snd gs) (fst tl) (snd tl)) (w_x w))))))).

(* ------------------------------------------------------------------ *)
(** * Fock matrix (atomic) *)

(** A.row(s).transpose(): its entries; a row that does not exist is UB. *)
Definition row (A : dmat) (s n : nat) : res (nat -> R) :=
  if (Nat.ltb s (drows A) && Nat.eqb (dcols A) n)%bool then Ok (fun ip => dent A s ip) else UB.

Definition dcomps (g : gridb) (part : cmat -> dmat) : list dmat := map (fun c => part (g_df g c)) [0; 1; 2]%nat.

(** The three calls of [inc] for the components of the gradient; atomic/dftgrid.cpp
    347-349. *)
Definition increment_kin (inc : dmat -> nat -> (nat -> R) -> cmat -> res dmat) (g : gridb) (v : nat -> R) (H : dmat) : res dmat :=
  fold_res (fun H c => inc H (g_n g) (fun ip => v ip * g_inv2 g c ip) (g_df g c)) [0; 1; 2]%nat H.

(** A local Fock matrix is added to the output entry by entry; an update is (matrix, row,
    column, value). *)
Definition update := (nat * nat * nat * R)%type.
Definition updates (k : nat) (ind : list nat) (H : dmat) (nout : nat) : res (list update) :=
  if (forallb (fun u => Nat.ltb u nout) ind && Nat.leb (length ind) (drows H) && Nat.leb (length ind) (dcols H))%bool
  then Ok (flat_map (fun i => map (fun j => (k, nth i ind 0%nat, nth j ind 0%nat, dent H i j)) (seq 0 (length ind)))
             (seq 0 (length ind)))
  else UB.

(** atomic/dftgrid.cpp 304-359: eval_Fxc for one density; [nout] is the size of Ho. *)
Definition eval_Fxc_restricted (w : worker) (nout : nat) : res (list update) :=
  if d_pol (w_d w) then Throw RuntimeError else
  let g := w_g w in let d := w_d w in let x := w_x w in let N := g_n g in
  let nbf := length (g_ind g) in
  bind (row (x_vrho x) 0 N) (fun vrho =>
  bind (increment_lda_split (dzero nbf nbf) N (fun ip => vrho ip * g_w g ip) (g_bf g)) (fun H =>
  bind (if x_gga x then
          bind (row (x_vsigma x) 0 N) (fun vs =>
          bind (tab N 3 (fun i c => bind (get (d_grho d) c i) (fun y =>
                  bind (rdiv (2 * g_w g i * vs i) (g_scale g c i)) (fun f => Ok (y * f))))) (fun gr =>
          increment_gga_split H gr (fst (g_bf g)) (snd (g_bf g)) (dcomps g fst) (dcomps g snd)))
        else Ok H) (fun H =>
  bind (if (x_mt x || x_ml x)%bool then
          bind (if x_mt x then row (x_vtau x) 0 N else Ok (fun _ => 0)) (fun vt =>
          bind (if x_ml x then row (x_vlapl x) 0 N else Ok (fun _ => 0)) (fun vl =>
          increment_kin increment_lda_split g
            (fun ip => ((if x_mt x then / 2 * vt ip else 0) + (if x_ml x then 2 * vl ip else 0)) * g_w g ip) H))
        else Ok H) (fun H =>
  bind (if x_ml x then
          bind (row (x_vlapl x) 0 N) (fun vl =>
          increment_mgga_lapl_split H N (fun ip => vl ip * g_w g ip) (g_bf g) (g_lf g))
        else Ok H) (fun H =>
  updates 0 (g_ind g) H nout))))).

(** atomic/dftgrid.cpp 399-403 and 410-415: the weighted gradient of one spin; rows
    sp.. of the gradient are the own spin, op.. the other. *)
Definition pol_gradient (w : worker) (vs_own vs_ab : nat -> R) (sp op : nat) : res dmat :=
  let g := w_g w in let G := d_grho (w_d w) in
  tab (g_n g) 3 (fun i c =>
    bind (get G (sp + c) i) (fun a => bind (get G (op + c) i) (fun b =>
    rdiv (g_w g i * (2 * vs_own i * a + vs_ab i * b)) (g_scale g c i)))).
(** One spin channel s of atomic/dftgrid.cpp 361-450; [inc] is the routine that adds the
    gradient products (increment_lda here, increment_lda_split in the diatomic grid). *)
Definition increment := dmat -> nat -> (nat -> R) -> cmat -> res dmat.
Definition pol_channel (inc : increment) (w : worker) (s : nat) : res dmat :=
  let g := w_g w in let x := w_x w in let N := g_n g in let nbf := length (g_ind g) in
  bind (row (x_vrho x) s N) (fun vrho =>
  bind (increment_lda_split (dzero nbf nbf) N (fun ip => vrho ip * g_w g ip) (g_bf g)) (fun H =>
  bind (if x_gga x then
          bind (row (x_vsigma x) (2 * s) N) (fun vs =>
          bind (row (x_vsigma x) 1 N) (fun vs_ab =>
          bind (pol_gradient w vs vs_ab (3 * s) (3 - 3 * s)) (fun gr =>
          increment_gga_split H gr (fst (g_bf g)) (snd (g_bf g)) (dcomps g fst) (dcomps g snd))))
        else Ok H) (fun H =>
  if x_mt x then
    bind (row (x_vtau x) s N) (fun vt =>
    bind (if x_ml x then row (x_vlapl x) s N else Ok (fun _ => 0)) (fun vl =>
    increment_kin inc g (fun ip => (/ 2 * vt ip + (if x_ml x then 2 * vl ip else 0)) * g_w g ip) H))
  else Ok H))).
(** atomic/dftgrid.cpp 361-465: eval_Fxc for two densities.  Hb is empty unless beta, but
    lines 451-456 add to it whenever the functional depends on the Laplacian. *)
Definition eval_Fxc_polarised (inc : increment) (w : worker) (beta : bool) (nouta noutb : nat) : res (list update) :=
  if negb (d_pol (w_d w)) then Throw RuntimeError else
  let g := w_g w in let x := w_x w in let N := g_n g in
  bind (pol_channel inc w 0) (fun Ha =>
  bind (if beta then pol_channel inc w 1 else Ok dempty) (fun Hb =>
  bind (if x_ml x then
          bind (row (x_vlapl x) 0 N) (fun va =>
          bind (row (x_vlapl x) 1 N) (fun vb =>
          bind (increment_mgga_lapl_split Ha N (fun ip => va ip * g_w g ip) (g_bf g) (g_lf g)) (fun Ha =>
          bind (increment_mgga_lapl_split Hb N (fun ip => vb ip * g_w g ip) (g_bf g) (g_lf g)) (fun Hb =>
          Ok (Ha, Hb)))))
        else Ok (Ha, Hb)) (fun HH =>
  bind (updates 0 (g_ind g) (fst HH) nouta) (fun ua =>
  if beta then bind (updates 1 (g_ind g) (snd HH) noutb) (fun ub => Ok (ua ++ ub)) else Ok ua)))).

(* ------------------------------------------------------------------ *)
(** * Basis functions on the grid (atomic) *)

(** What the grid asks the atomic basis: the shells (lval(i), mval(i)), the finite
    elements, radii and weights of the radial quadrature, the matrices get_bf, get_df
    and get_lf of the radial basis (points x functions of the element) and the function
    spherical_harmonics(l, m, cth, phi) as real and imaginary part. *)
Record abasis := mkAB {
  ab_sh : list (Z * Z);
  ab_fe : fe;
  ab_r : nat -> list R;
  ab_wrad : nat -> list R;
  ab_f : nat -> dmat;
  ab_d : nat -> dmat;
  ab_l : nat -> dmat;
  ab_Y : Z -> Z -> R -> R -> R * R }.

(** Complex numbers *)
Definition cadd (x y : R * R) : R * R := (fst x + fst y, snd x + snd y).
Definition cmul (x y : R * R) : R * R := (fst x * fst y - snd x * snd y, fst x * snd y + snd x * fst y).
Definition cscal (c : R) (x : R * R) : R * R := (c * fst x, c * snd x).

(** middleCols(i*rad.cols(), rad.cols()) = fac(i) * rad, for all shells *)
Definition super (n : nat) (fac : nat -> R * R) (rad : dmat) : cmat :=
  let part (p : R * R -> R) := mkD (drows rad) (n * dcols rad)
        (fun ir k => p (cscal (dent rad ir (k mod dcols rad)%nat) (fac (k / dcols rad)%nat))) in
  (part fst, part snd).
Definition shell_Y (b : abasis) (cth phi : R) (i : nat) : R * R :=
  let '(l, m) := shell (ab_sh b) i in ab_Y b l m cth phi.
(** TwoDBasis.cpp 1133-1154: eval_bf. *)
Definition eval_bf (b : abasis) (iel : nat) (cth phi : R) : cmat :=
  super (length (ab_sh b)) (shell_Y b cth phi) (ab_f b iel).
(** TwoDBasis.cpp 1183-1197: the angular factor of the derivative with respect to
    theta. *)
Definition theta_factor (b : abasis) (cth phi : R) (i : nat) : R * R :=
  let '(l, m) := shell (ab_sh b) i in
  let sinth := sqrt (Rmax ((1 - cth) * (1 + cth)) 0) in
  let cotth := if Rltb 0 sinth then cth / sinth else 0 in
  let angfac := cscal (IZR m * cotth) (shell_Y b cth phi i) in
  if (m <? l)%Z
  then cadd angfac (cscal (sqrt (IZR ((l - m) * (l + m + 1)))) (cmul (cos phi, - sin phi) (ab_Y b l (m + 1)%Z cth phi)))
  else angfac.
(** TwoDBasis.cpp 1156-1205: eval_df; dr, dth, dphi are components 0, 1, 2. *)
Definition eval_df (b : abasis) (iel : nat) (cth phi : R) (c : nat) : cmat :=
  let n := length (ab_sh b) in
  match c with
  | 0%nat => super n (shell_Y b cth phi) (ab_d b iel)
  | 1%nat => super n (theta_factor b cth phi) (ab_f b iel)
  | _ => super n (fun i => cmul (0, IZR (snd (shell (ab_sh b) i))) (shell_Y b cth phi i)) (ab_f b iel)
  end.
(** TwoDBasis.cpp 1207-1236: eval_lf. *)
Definition lf_radial (b : abasis) (iel i : nat) (ir k : nat) : R :=
  let r := nth ir (ab_r b iel) 0 in let l := fst (shell (ab_sh b) i) in
  dent (ab_l b iel) ir k + 2 * dent (ab_d b iel) ir k / r - IZR (l * (l + 1)) * dent (ab_f b iel) ir k / (r * r).
Definition eval_lf (b : abasis) (iel : nat) (cth phi : R) : cmat :=
  let f := ab_f b iel in let n := length (ab_sh b) in
  let part (p : R * R -> R) := mkD (drows f) (n * dcols f)
        (fun ir k => p (cscal (lf_radial b iel (k / dcols f) ir (k mod dcols f)%nat) (shell_Y b cth phi (k / dcols f)%nat))) in
  (part fst, part snd).

(** M.block(0, c0, M.rows(), n) = X *)
Definition set_cols (M : dmat) (c0 n : nat) (X : dmat) : res dmat :=
  if (Nat.leb (c0 + n) (dcols M) && Nat.eqb (drows X) (drows M) && Nat.eqb (dcols X) n)%bool
  then Ok (mkD (drows M) (dcols M) (fun i j => if (Nat.leb c0 j && Nat.ltb j (c0 + n))%bool then dent X i (j - c0)%nat else dent M i j))
  else UB.
(** The adjoint of a complex matrix. *)
Definition adjoint (X : cmat) : cmat := (dT (fst X), dscale (-1) (dT (snd X))).
(** The loops over the angular grid of atomic/dftgrid.cpp 513-525, 533-546, 551-562:
    [ev ia] gives the values in angular point ia. *)
Definition fill_points (nbf nrad nang : nat) (ev : nat -> cmat) : res cmat :=
  fold_res (fun M ia =>
    let X := ev ia in
    if negb (Nat.eqb (dcols (fst X)) nbf) then Throw LogicError else
    bind (set_cols (fst M) (ia * nrad) nrad (fst (adjoint X))) (fun A =>
    bind (set_cols (snd M) (ia * nrad) nrad (snd (adjoint X))) (fun B => Ok (A, B))))
    (seq 0 nang) (dzero nbf (nang * nrad), dzero nbf (nang * nrad)).

(** angular grid points (cth, phi, weight) as made by angular_chebyshev *)
Definition rule := list (R * R * R).
Definition a_cth (q : R * R * R) : R := fst (fst q).
Definition a_phi (q : R * R * R) : R := snd (fst q).
Definition a_w (q : R * R * R) : R := snd q.
Definition ang (ru : rule) (ia : nat) : R * R * R := nth ia ru (0, 0, 0).

(** atomic/dftgrid.cpp 475-509: scale factors and weights in point ip = ia*nrad + ir. *)
Definition at_scale (r : list R) (ru : rule) (c ip : nat) : R :=
  let nrad := length r in
  let ri := nth (ip mod nrad) r 0 in let ct := a_cth (ang ru (ip / nrad)) in
  match c with
  | 0%nat => 1
  | 1%nat => ri
  | _ => ri * sqrt (1 - ct * ct)
  end.
Definition at_weight (r wrad : list R) (ru : rule) (ip : nat) : R :=
  let nrad := length r in
  a_w (ang ru (ip / nrad)) * nth (ip mod nrad) wrad 0 * nth (ip mod nrad) r 0 ^ 2.

(** atomic/dftgrid.cpp 470-576: compute_bf; wrad has the size of r. *)
Definition compute_bf (b : abasis) (ru : rule) (iel : nat) (w : worker) : res worker :=
  bind (bf_list_full (ab_fe b) (length (ab_sh b)) iel) (fun ind =>
  let nbf := length ind in
  let r := ab_r b iel in let nrad := length r in let nang := length ru in let fl := w_fl w in let g := w_g w in
  if negb (Nat.eqb (length (ab_wrad b iel)) nrad) then UB else
  let N := (nrad * nang)%nat in
  if existsb (fun ip => (Reqb (at_scale r ru 1 ip) 0 || Reqb (at_scale r ru 2 ip) 0)%bool) (seq 0 N) then UB else
  let ev (f : R -> R -> cmat) := fill_points nbf nrad nang (fun ia => f (a_cth (ang ru ia)) (a_phi (ang ru ia))) in
  bind (ev (eval_bf b iel)) (fun bf =>
  bind (if f_grad fl then
          bind (ev (fun ct ph => eval_df b iel ct ph 0)) (fun d0 =>
          bind (ev (fun ct ph => eval_df b iel ct ph 1)) (fun d1 =>
          bind (ev (fun ct ph => eval_df b iel ct ph 2)) (fun d2 =>
          Ok (fun c => match c with 0 => d0 | 1 => d1 | _ => d2 end%nat))))
        else Ok (g_df g)) (fun df =>
  bind (if f_lapl fl then ev (eval_lf b iel) else Ok (g_lf g)) (fun lf =>
  Ok (mkW fl (mkG N (at_weight r (ab_wrad b iel) ru) (at_scale r ru) (fun c ip => / (at_scale r ru c ip) ^ 2) ind bf df lf)
        (w_d w) (w_x w)))))).

(* ------------------------------------------------------------------ *)
(** * The driver (atomic) *)

(** Exc, Nel, Ekin *)
Definition sums := (R * R * R)%type.
Definition sums_add (a b : sums) : sums :=
  (fst (fst a) + fst (fst b), snd (fst a) + snd (fst b), snd a + snd b).

(** The functional: x_func, x_pars, c_func, c_pars, thr. *)
Record functional := mkFn { fn_x : Z; fn_xp : list R; fn_c : Z; fn_cp : list R; fn_thr : R }.

(** init_xc and the one or two calls of compute_xc of atomic/dftgrid.cpp 617-621 *)
Definition run_xc (lib : libxc) (fn : functional) (w : worker) : res worker :=
  let w := init_xc w in
  bind (if (0 <? fn_x fn)%Z then compute_xc lib (fn_x fn) (fn_xp fn) (fn_thr fn) true w else Ok w) (fun w =>
  if (0 <? fn_c fn)%Z then compute_xc lib (fn_c fn) (fn_cp fn) (fn_thr fn) true w else Ok w).

(** A freshly constructed worker with its flags; atomic/dftgrid.cpp 603-604. *)
Definition new_worker (fl : flags) : worker :=
  mkW fl (mkG 0 (fun _ => 0) (fun _ _ => 0) (fun _ _ => 0) [] (dempty, dempty) (fun _ => (dempty, dempty)) (dempty, dempty))
    (mkDn false dempty dempty dempty dempty dempty)
    (mkX false false false dempty dempty dempty dempty dempty).

(** atomic/dftgrid.cpp 609-625 and 672-687: one iteration; [Ps] holds one density or two,
    [fock] is eval_Fxc. *)
Definition iteration (pol : bool) (fock : worker -> res (list update)) (lib : libxc) (b : abasis) (ru : rule) (fn : functional)
    (Ps : list dmat) (w : worker) (iel : nat) : res (worker * sums * list update) :=
  bind (compute_bf b ru iel w) (fun w =>
  bind (update_density pol w Ps) (fun w =>
  bind (compute_Nel w) (fun nel =>
  bind (compute_Ekin w) (fun ekin =>
  bind (run_xc lib fn w) (fun w =>
  bind (eval_Exc w) (fun exc =>
  bind (fock w) (fun us =>
  Ok (w, (exc, nel, ekin), us)))))))).

(** What one thread does with the iterations [els] it gets in one loop; [W] is the type of
    its worker. *)
Definition thread_loop {W} (it : W -> nat -> res (W * sums * list update)) (w : W) (els : list nat)
  : res (W * sums * list update) :=
  fold_res (fun st iel => let '(w, s, us) := st in
    bind (it w iel) (fun o => let '(w', s', us') := o in Ok (w', sums_add s s', us ++ us'))) els (w, (0, 0, 0), []).

(** Several threads add to the shared matrices: every addition H(i,j) += x is a read of
    the entry followed by a write.  A thread is the value it has read, if any, and its
    remaining updates. *)
Definition shared := nat -> dmat.
Definition set_entry (H : shared) (k i j : nat) (x : R) : shared :=
  fun k' => if Nat.eqb k' k then mkD (drows (H k)) (dcols (H k))
              (fun i' j' => if (Nat.eqb i' i && Nat.eqb j' j)%bool then x else dent (H k) i' j') else H k'.
Definition adder := (option R * list update)%type.
Definition adder_step (H : shared) (a : adder) : shared * adder :=
  match a with
  | (_, []) => (H, a)
  | (None, ((k, i, j, x) :: l) as us) => (H, (Some (dent (H k) i j), us))
  | (Some v, (k, i, j, x) :: l) => (set_entry H k i j (v + x), (None, l))
  end.
Fixpoint set_nth {A} (n : nat) (x : A) (l : list A) : list A :=
  match l, n with
  | [], _ => []
  | _ :: l', O => x :: l'
  | y :: l', S n' => y :: set_nth n' x l'
  end.
(** [sched]: which thread does its next read or write. *)
Fixpoint run_adders (sched : list nat) (H : shared) (ths : list adder) : shared * list adder :=
  match sched with
  | [] => (H, ths)
  | t :: sched' =>
    match nth_error ths t with
    | None => run_adders sched' H ths
    | Some a => let '(H', a') := adder_step H a in run_adders sched' H' (set_nth t a' ths)
    end
  end.
Definition all_done (ths : list adder) : bool := forallb (fun a => match snd a with [] => true | _ => false end) ths.

(** One "omp for": thread t does the iterations [asg t] in this order; an exception that
    leaves the parallel region ends the program (UB).  OutOfFuel: the schedule stops
    before the threads have finished. *)
Fixpoint all_threads {W} (it : W -> nat -> res (W * sums * list update)) (ws : list W) (asg : list (list nat))
  : option (list (W * sums * list update)) :=
  match ws, asg with
  | [], [] => Some []
  | w :: ws', els :: asg' =>
    match thread_loop it w els, all_threads it ws' asg' with
    | Ok o, Some l => Some (o :: l)
    | _, _ => None
    end
  | _, _ => None
  end.
Definition parallel_loop {W} (it : W -> nat -> res (W * sums * list update)) (ws : list W) (asg : list (list nat))
    (sched : list nat) (H : shared) : res (list W * list sums * shared) :=
  match all_threads it ws asg with
  | None => UB
  | Some l =>
    let '(H', ths) := run_adders sched H (map (fun o => (None, snd o)) l) in
    if all_done ths then Ok (map (fun o => fst (fst o)) l, map (fun o => snd (fst o)) l, H') else OutOfFuel
  end.

(** The iterations of the two loops: elements 0, 2, ... and 1, 3, ... *)
Definition even_elements (n : nat) : list nat := filter Nat.even (seq 0 n).
Definition odd_elements (n : nat) : list nat := filter Nat.odd (seq 0 n).

(** How a run is divided over threads: their number, the iterations of each in both
    loops, and the order of their accesses to the shared matrices. *)
Record schedule := mkS { s_even : list (list nat); s_odd : list (list nat); s_acc1 : list nat; s_acc2 : list nat }.

(** atomic/dftgrid.cpp 591-653 and 655-714: DFTGrid::eval_Fxc.  The matrices, Exc, Nel
    and Ekin; [new] makes the worker of a thread. *)
Definition driver {W} (new : flags -> W) (lib : libxc) (fn : functional) (it : W -> nat -> res (W * sums * list update)) (H : shared) (sc : schedule)
  : res (shared * sums) :=
  match check_grad_tau_lapl lib (fn_x fn) (fn_c fn) with
  | Ok fl =>
    let ws := map (fun _ => new fl) (s_even sc) in
    bind (parallel_loop it ws (s_even sc) (s_acc1 sc) H) (fun o => let '(ws, s1, H) := o in
    bind (parallel_loop it ws (s_odd sc) (s_acc2 sc) H) (fun o => let '(_, s2, H) := o in
    Ok (H, fold_left sums_add (s1 ++ s2) (0, 0, 0))))
  | _ => UB
  end.
Definition at_eval_Fxc (lib : libxc) (b : abasis) (ru : rule) (fn : functional) (P : dmat) (sc : schedule) : res (dmat * sums) :=
  bind (driver new_worker lib fn (iteration false (fun w => eval_Fxc_restricted w (drows P)) lib b ru fn [P])
          (fun _ => dzero (drows P) (drows P)) sc) (fun o =>
  Ok (fst o 0%nat, snd o)).
Definition at_eval_Fxc_pol (lib : libxc) (b : abasis) (ru : rule) (fn : functional) (Pa Pb : dmat) (beta : bool) (sc : schedule)
  : res (dmat * dmat * sums) :=
  bind (driver new_worker lib fn (iteration true (fun w => eval_Fxc_polarised increment_lda w beta (drows Pa) (drows Pb)) lib b ru fn [Pa; Pb])
          (fun k => if Nat.eqb k 0 then dzero (drows Pa) (drows Pa) else dzero (drows Pb) (drows Pb)) sc) (fun o =>
  Ok (fst o 0%nat, fst o 1%nat, snd o)).
