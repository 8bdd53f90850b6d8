(** Model of the exchange-correlation screening of spherical atoms:
    /repo/src/sadatom/basis.cpp 1019-1186 (self-consistent atom) and
    /repo/src/general/atomdb.cpp 272-428 (tabulated atom), and of the extraction of
    numerical orbitals, basis.cpp 1183-1213.  Arithmetic is exact.  Arrays of spin or spin
    pair values are functions of their index. *)
Require Import Reals List Arith Bool ZArith.
Require Import Verif.Prelude Verif.FEModel Verif.DftModel.
Require Verif.SadModel.
Import ListNotations.
Local Open Scope R_scope.

(** The polarised evaluators of libxc for one point, as arguments: xc_lda_vxc, xc_gga_vxc
    (vrho and vsigma) and xc_gga_fxc (v2rhosigma and v2sigma2; v2rho2 is not used).  They
    take the identifier, the two densities and the three products of gradients. *)
Record fxc := mkFx {
  fx_lda : Z -> vec -> vec;
  fx_vrho : Z -> vec -> vec -> vec;
  fx_vsigma : Z -> vec -> vec -> vec;
  fx_v2rhosigma : Z -> vec -> vec -> vec;
  fx_v2sigma2 : Z -> vec -> vec -> vec }.

(** basis.cpp 1069-1092, 1098-1121 and atomdb.cpp 281-316: what is asked about one
    functional.  None without a functional (identifier not positive), otherwise the
    identifier and whether it is a GGA.  A functional that is neither is given to
    xc_lda_vxc, which is undefined unless it is an LDA. *)
Definition ask (lib : libxc) (id : Z) : res (option (Z * bool)) :=
  if (id <=? 0)%Z then Ok None else
  bind (is_gga_mgga lib id) (fun k =>
  let '(gga, mt, ml) := k in
  if (mt || ml)%bool then Throw LogicError
  else if negb (xc_known lib id) then Throw LogicError
  else if gga then Ok (Some (id, true))
  else match xc_family lib id with LDA => Ok (Some (id, false)) | _ => UB end).
Definition opt_list {A} (o : option A) : list A := match o with Some a => [a] | None => [] end.
(** The functionals of a calculation, exchange first. *)
Definition ask_both (lib : libxc) (x c : Z) : res (list (Z * bool)) :=
  bind (ask lib x) (fun a => bind (ask lib c) (fun b => Ok (opt_list a ++ opt_list b))).

(** basis.cpp 1051-1125 and atomdb.cpp 357-380: the accumulated
    potential, its derivatives, and whether there was a GGA. *)
Record acc := mkAcc { ac_v : vec; ac_s : vec; ac_rs : vec; ac_ss : vec; ac_gga : bool }.
Definition vplus (u v : vec) : vec := fun i => u i + v i.
Definition acc0 : acc := mkAcc (fun _ => 0) (fun _ => 0) (fun _ => 0) (fun _ => 0) false.
Definition add_func (fx : fxc) (rho sigma : vec) (a : acc) (f : Z * bool) : acc :=
  let (id, gga) := f in
  if gga then mkAcc (vplus (ac_v a) (fx_vrho fx id rho sigma)) (vplus (ac_s a) (fx_vsigma fx id rho sigma))
                    (vplus (ac_rs a) (fx_v2rhosigma fx id rho sigma)) (vplus (ac_ss a) (fx_v2sigma2 fx id rho sigma)) true
  else mkAcc (vplus (ac_v a) (fx_lda fx id rho)) (ac_s a) (ac_rs a) (ac_ss a) (ac_gga a).

(** basis.cpp 1127-1169 and atomdb.cpp 382-418: the GGA correction of spin s; ga and gb
    are the gradients, la and lb what the code calls the Laplacians. *)
Definition correction (r ga gb la lb : R) (vs rs ss : vec) (s : nat) : R :=
  let lg := la * gb + ga * lb in
  let saa := la * ga * ss 0%nat + lg * ss 1%nat + lb * gb * ss 2%nat in
  let sab := la * ga * ss 1%nat + lg * ss 3%nat + lb * gb * ss 4%nat in
  let sbb := la * ga * ss 2%nat + lg * ss 4%nat + lb * gb * ss 5%nat in
  if (s =? 0)%nat then
    2 * (ga * rs 0%nat + gb * rs 3%nat) * ga + (ga * rs 1%nat + gb * rs 4%nat) * gb
    + (4 * saa * ga + 2 * sab * gb)
    + (2 * vs 0%nat * la + vs 1%nat * lb)
    + 2 / r * (2 * vs 0%nat * ga + vs 1%nat * gb)
  else
    2 * (gb * rs 5%nat + ga * rs 2%nat) * gb + (ga * rs 1%nat + gb * rs 4%nat) * ga
    + (4 * sbb * gb + 2 * sab * ga)
    + (vs 1%nat * la + 2 * vs 2%nat * lb)
    + 2 / r * (vs 1%nat * ga + 2 * vs 2%nat * gb).

(** The packing for libxc: basis.cpp 1039-1049, atomdb.cpp 331-355. *)
Definition two (a b : R) : vec := fun i => match i with O => a | _ => b end.
Definition three (a b c : R) : vec := fun i => match i with O => a | S O => b | _ => c end.
(** The potential of spin s at one point with the correction. *)
Definition point_vxc (fx : fxc) (fs : list (Z * bool)) (r na nb ga gb la lb : R) (s : nat) : R :=
  let a := fold_left (add_func fx (two na nb) (three (ga * ga) (ga * gb) (gb * gb))) fs acc0 in
  ac_v a s - (if ac_gga a then correction r ga gb la lb (ac_s a) (ac_rs a) (ac_ss a) s else 0).

Section Grid.
(** The radial basis as in SadModel. *)
Variables (nel npts : nat) (xq : vec) (rad : nat -> R -> R) (first len : nat -> nat).
Variables (bf df lf : nat -> R -> vec).
(** FEMRadialBasis::nuclear_density *)
Variable nuc : mat -> R.
Variables (lib : libxc) (fx : fxc).

(** basis.cpp 1024-1179: entry s, i of the result is spin s at point i; the correction is
    left out at the nucleus (point 0), where the radius is zero. *)
Definition xc_screening (Pa Pb : mat) (x c : Z) : res (nat -> nat -> R) :=
  let ang (v : vec) : vec := fun i => v i / (4 * PI) in
  bind (SadModel.electron_density_all nel npts xq rad first len bf Pa false (nuc Pa)) (fun na =>
  bind (SadModel.electron_density_all nel npts xq rad first len bf Pb false (nuc Pb)) (fun nb =>
  bind (SadModel.electron_density_gradient nel npts xq first len bf df Pa) (fun ga =>
  bind (SadModel.electron_density_gradient nel npts xq first len bf df Pb) (fun gb =>
  bind (SadModel.electron_density_laplacian nel npts xq rad first len bf df lf Pa) (fun la =>
  bind (SadModel.electron_density_laplacian nel npts xq rad first len bf df lf Pb) (fun lb =>
  bind (SadModel.radii nel npts xq rad) (fun r =>
  bind (ask_both lib x c) (fun fs =>
  Ok (fun s i =>
    (if (i =? 0)%nat
     then ac_v (fold_left (add_func fx (two (ang na i) (ang nb i)) (three (ang ga i * ang ga i) (ang ga i * ang gb i) (ang gb i * ang gb i))) fs acc0) s
     else point_vxc fx fs (r i) (ang na i) (ang nb i) (ang ga i) (ang gb i) (ang la i) (ang lb i) s) * r i))))))))).

(** basis.cpp 1019-1022: half of the density for each spin, the average of the two. *)
Definition xc_screening_total (P : mat) (x c : Z) : res vec :=
  let H : mat := fun i j => P i j / 2 in
  bind (xc_screening H H x c) (fun v => Ok (fun i => / 2 * (v 0%nat i + v 1%nat i))).
End Grid.

Section Atom.
(** The tabulated atom as in SadModel, and the functionals. *)
Variables (b : fe) (first len : nat -> nat) (bf df lf : nat -> R -> vec) (P : mat) (nq : nat) (xq wq : vec) (fuel : nat) (t : SadModel.atom).
Variables (lib : libxc) (fx : fxc).

(** atomdb.h: xc_, the handles initialised last; atomdb.cpp 272-281. *)
Definition handles := option (Z * Z * list (Z * bool)).
(** atomdb.cpp 338-339: the handles for a pair, reused if the pair is the same.  If the
    constructor throws, the old ones are kept. *)
Definition get_handles (h : handles) (x c : Z) : handles * res (list (Z * bool)) :=
  let fresh := match ask_both lib x c with
               | Ok fs => (Some (x, c, fs), Ok fs)
               | Throw e => (h, Throw e) | UB => (h, UB) | OutOfFuel => (h, OutOfFuel)
               end in
  match h with
  | Some (x', c', fs) => if ((x' =? x) && (c' =? c))%Z%bool then (h, Ok fs) else fresh
  | None => fresh
  end.
(** atomdb.cpp 327-423: xc_screening; the gradients are computed only if there is a GGA. *)
Definition atom_xc_screening (h : handles) (r : R) (x c : Z) : handles * res R :=
  if (Rleb r 0 || ((x <=? 0) && (c <=? 0))%Z)%bool then (h, Ok 0)
  else match SadModel.density b first len bf P fuel t r with
  | Ok n =>
      if Rleb (/ 2 * n) 0 then (h, Ok 0)
      else
        let (h', fs) := get_handles h x c in
        (h', bind fs (fun fs =>
             if existsb snd fs then
               bind (SadModel.atom_gradient b first len bf df P fuel t r) (fun g =>
               bind (SadModel.atom_laplacian b first len bf df lf P fuel t r) (fun l =>
               let v := point_vxc fx fs r (/ 2 * n) (/ 2 * n) (/ 2 * g) (/ 2 * g) (/ 2 * l) (/ 2 * l) in
               Ok (r * / 2 * (v 0%nat + v 1%nat))))
             else
               let v := point_vxc fx fs r (/ 2 * n) (/ 2 * n) 0 0 0 0 in
               Ok (r * / 2 * (v 0%nat + v 1%nat))))
  | Throw e => (h, Throw e) | UB => (h, UB) | OutOfFuel => (h, OutOfFuel)
  end.
(** atomdb.cpp 425-427: effective_charge. *)
Definition effective_charge (Z_ : R) (h : handles) (r : R) (x c : Z) : handles * res R :=
  let (h', v) := atom_xc_screening h r x c in
  (h', bind (SadModel.hartree_screening b first len bf P nq xq wq fuel t r) (fun s => bind v (fun v => Ok (Z_ - s - v)))).
(** Any sequence of evaluations of one atom: the results. *)
Fixpoint evaluations (h : handles) (calls : list (R * Z * Z)) : list (res R) :=
  match calls with
  | [] => []
  | (r, x, c) :: l => let (h', v) := atom_xc_screening h r x c in v :: evaluations h' l
  end.
End Atom.

(** basis.cpp 1183-1213: extract_naos_per_l; a slice has its number of columns and the
    columns as a list, the basis of an l keeps the columns given here. *)
Fixpoint extract_loop {C} (l : nat) (cube : list (list C)) (keep : list Z) : res (list (nat * list C)) :=
  match cube, keep with
  | Cl :: cube', k :: keep' =>
      if (k =? 0)%Z then extract_loop (S l) cube' keep'
      else if (Z.of_nat (length Cl) <? k)%Z then Throw LogicError
      else bind (extract_loop (S l) cube' keep') (fun rest =>
           Ok ((l, if (k <? 0)%Z then Cl else firstn (Z.to_nat k) Cl) :: rest))
  | _, _ => Ok []
  end.
Definition extract_naos_per_l {C} (cube : list (list C)) (keep : list Z) : res (list (nat * list C)) :=
  if negb (length keep =? length cube)%nat then Throw LogicError else extract_loop 0 cube keep.
