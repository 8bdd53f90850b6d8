(** Model of the density tools of the spherically averaged atom, /repo/src/sadatom/basis.cpp,
    and of the tabulated atoms, /repo/src/general/atomdb.cpp.  Arithmetic is exact; size_t
    indices wrap at 2^64 where the code relies on it.  The radial basis enters through its
    functions: see the section variables. *)
Require Import Reals List Arith Bool ZArith.
Require Import Verif.Prelude Verif.FEModel.
Require Verif.RadModel.
Import ListNotations.
Open Scope R_scope.

(** size_t arithmetic. *)
Definition wrap (z : Z) : Z := (z mod 2 ^ 64)%Z.

(** for(i = n - 1; i < n; i--) if(stop(i)) break; -- the value of i afterwards. *)
Fixpoint scan_down (fuel : nat) (n i : Z) (stop : nat -> bool) : res Z :=
  match fuel with
  | O => OutOfFuel
  | S f => if (i <? n)%Z then
             if stop (Z.to_nat i) then Ok i else scan_down f n (wrap (i - 1)) stop
           else Ok i
  end.

(** Eigen maxCoeff() of n >= 1 values, maxCoeff(&i) and minCoeff(&i); the first of
    several equal entries is taken. *)
Fixpoint max_coeff (n : nat) (v : vec) : R := match n with O => v O | S k => Rmax (max_coeff k v) (v (S k)) end.
Fixpoint arg_max (n : nat) (v : vec) : nat :=
  match n with O => O | S k => if Rltb (v (arg_max k v)) (v (S k)) then S k else arg_max k v end.
Fixpoint arg_min (n : nat) (v : vec) : nat :=
  match n with O => O | S k => if Rltb (v (S k)) (v (arg_min k v)) then S k else arg_min k v end.

Section Basis.
(** The radial basis: number of elements and of quadrature points, the points, the radius
    of a primitive coordinate (get_r), the index range of an element (get_idx) and the
    values of its functions (get_bf, get_df, get_lf). *)
Variables (nel npts : nat) (xq : vec) (rad : nat -> R -> R) (first len : nat -> nat).
Variables (bf df lf : nat -> R -> vec).

(** (u * Psub * v^T) of one point, Psub the block of the element. *)
Definition form (P : mat) (iel : nat) (u v : vec) : R :=
  sum (len iel) (fun a => sum (len iel) (fun b => u a * P (first iel + a)%nat (first iel + b)%nat * v b)).
(** (Psub * M).trace(). *)
Definition trace_with (P : mat) (iel : nat) (M : mat) : R :=
  sum (len iel) (fun a => sum (len iel) (fun b => P (first iel + a)%nat (first iel + b)%nat * M b a)).

(** basis.cpp:684-698: electron_density(x, iel, Prad, rsqweight) at one point. *)
Definition electron_density (P : mat) (rsq : bool) (iel : nat) (x : R) : R :=
  form P iel (bf iel x) (bf iel x) * (if rsq then rad iel x ^ 2 else 1).

(** The arrays over all points: entry 0 belongs to the nucleus, entry 1 + iel npts + ip to
    point ip of element iel.  [segments z f] is Zero(nel npts + 1), the segments assigned
    one after the other; Npts is the size of the first segment (UB without elements). *)
Definition segments (z : R) (f : nat -> nat -> R) : res vec :=
  if (nel =? 0)%nat then UB
  else Ok (fold_left (fun (n : vec) iel => fun i => if ((1 + iel * npts <=? i) && (i <? 1 + iel * npts + npts))%nat%bool
                                            then f iel (i - (1 + iel * npts))%nat else n i)
                     (seq 0 nel) (fun i => if (i =? 0)%nat then z else 0)).

(** basis.cpp:486-499: quadrature_weights; [wrad] is get_wrad. *)
Definition quadrature_weights (wrad : nat -> nat -> R) : res vec := segments 0 wrad.
(** basis.cpp:564-577: radii. *)
Definition radii : res vec := segments 0 (fun iel ip => rad iel (xq ip)).
(** basis.cpp:599-628: orbitals, one column; [nuc] is nuclear_orbital.  630-655 and 657-682:
    orbitals_derivative and orbitals_second_derivative, zero at the nucleus. *)
Definition expand (f : vec) (c : vec) (iel : nat) : R := sum (len iel) (fun a => f a * c (first iel + a)%nat).
Definition orbital (c : vec) (nuc : R) : res vec := segments nuc (fun iel ip => expand (bf iel (xq ip)) c iel).
Definition orbital_derivative (c : vec) : res vec := segments 0 (fun iel ip => expand (df iel (xq ip)) c iel).
Definition orbital_second_derivative (c : vec) : res vec := segments 0 (fun iel ip => expand (lf iel (xq ip)) c iel).
(** basis.cpp:704-718: electron_density(Prad, rsqweight); [nuc] is
    FEMRadialBasis::nuclear_density(Prad), which nuclear_density divides by 4 pi. *)
Definition electron_density_all (P : mat) (rsq : bool) (nuc : R) : res vec :=
  segments (4 * PI * (nuc / (4 * PI))) (fun iel ip => electron_density P rsq iel (xq ip)).
(** basis.cpp:912-938: electron_density_gradient. *)
Definition density_gradient (P : mat) (iel : nat) (x : R) : R := 2 * form P iel (bf iel x) (df iel x).
Definition electron_density_gradient (P : mat) : res vec := segments 0 (fun iel ip => density_gradient P iel (xq ip)).
(** basis.cpp:940-968: electron_density_laplacian. *)
Definition density_laplacian (P : mat) (iel : nat) (x : R) : R :=
  2 * (form P iel (df iel x) (df iel x) + form P iel (bf iel x) (lf iel x))
  + 4 * form P iel (bf iel x) (df iel x) / rad iel x.
Definition electron_density_laplacian (P : mat) : res vec := segments 0 (fun iel ip => density_laplacian P iel (xq ip)).
(** basis.cpp:970-1016: kinetic_energy_density; [nl] is the number of l values. *)
Definition kinetic_density (nl : nat) (Pl0 : nat -> mat) (iel : nat) (x : R) : R :=
  let P : mat := fun i j => sum nl (fun l => Pl0 l i j) in
  let Pl : mat := fun i j => sum nl (fun l => INR (l * (l + 1)) * Pl0 l i j) in
  let term1 := form P iel (df iel x) (df iel x) in
  let term2 := form Pl iel (bf iel x) (bf iel x) / rad iel x ^ 2 in
  1 / 2 * (term1 + Rmax term2 0).
Definition kinetic_energy_density (nl : nat) (Pl0 : nat -> mat) : res vec :=
  if (nl =? 0)%nat then UB else segments 0 (fun iel ip => kinetic_density nl Pl0 iel (xq ip)).

(** basis.cpp:745-760, 819-833: the bracket around point imax; a single point reads
    xq(1). *)
Definition bracket (imax : nat) : res (R * R) :=
  if (imax =? 0)%nat then if (1 <? npts)%nat then Ok (-1, xq 1%nat) else UB
  else if (imax =? npts - 1)%nat then Ok (xq (imax - 1)%nat, 1)
  else Ok (xq (imax - 1)%nat, xq (imax + 1)%nat).

(** basis.cpp:762-775: the golden section search. *)
Definition golden : R := 1 / 2 * (sqrt 5 + 1).
Fixpoint golden_loop (fuel : nat) (rho : R -> R) (eps a b : R) : res (R * R) :=
  match fuel with
  | O => OutOfFuel
  | S f => if Rleb eps (Rabs (a - b)) then
             let c := b - (b - a) / golden in
             let d := a + (b - a) / golden in
             if Rltb (rho d) (rho c) then golden_loop f rho eps a d else golden_loop f rho eps c b
           else Ok (a, b)
  end.
(** basis.cpp:720-785: electron_density_maximum_radius; [deps] is DBL_EPSILON. *)
Definition electron_density_maximum_radius (fuel : nat) (deps : R) (P : mat) (rsq : bool) (eps : R) : res R :=
  if (nel =? 0)%nat then UB
  else if (npts =? 0)%nat then UB
  else
    let den : vec := fun iel => max_coeff (npts - 1) (fun ip => electron_density P rsq iel (xq ip)) in
    let iel := arg_max (nel - 1) den in
    let del : vec := fun ip => electron_density P rsq iel (xq ip) in
    let imax := arg_max (npts - 1) del in
    bind (bracket imax) (fun ab =>
    bind (golden_loop fuel (electron_density P rsq iel) eps (fst ab) (snd ab)) (fun ab =>
    let cen := (fst ab + snd ab) / 2 in
    if Rleb (100 * deps) (del imax - electron_density P rsq iel cen) then Throw LogicError
    else Ok (rad iel cen))).

(** basis.cpp:835-853: the bisection of vdw_radius; [left] iterations remain of 100. *)
Fixpoint vdw_loop (left : nat) (rho : R -> R) (eps a b : R) : res (R * R) :=
  if Rleb eps (Rabs (a - b)) then
    match left with
    | O => OutOfFuel
    | S k =>
        let m := a + (b - a) / 2 in
        let go a b := match k with O => Throw RuntimeError | _ => vdw_loop k rho eps a b end in
        if Rltb (rho m) eps then go a m
        else if Rltb eps (rho m) then go m b
        else Ok (a, b)
    end
  else Ok (a, b).
(** basis.cpp:787-861: vdw_radius.  After an unsuccessful scan iel is SIZE_MAX. *)
Definition vdw_radius (P : mat) (thr eps : R) : res R :=
  let angfac := 1 / (4 * PI) in
  let rho := fun iel x => angfac * electron_density P false iel x in
  if (npts =? 0)%nat then UB
  else
    bind (scan_down (S nel) (Z.of_nat nel) (wrap (Z.of_nat nel - 1))
            (fun iel => Rltb thr (max_coeff (npts - 1) (fun ip => rho iel (xq ip))))) (fun i =>
    if (Z.of_nat nel <? i)%Z then Ok 0
    else
      let iel := Z.to_nat i in
      let imax := arg_min (npts - 1) (fun ip => Rabs (rho iel (xq ip) - thr)) in
      bind (bracket imax) (fun ab =>
      bind (vdw_loop 100 (rho iel) eps (fst ab) (snd ab)) (fun ab =>
      Ok (rad iel ((fst ab + snd ab) / 2))))).

(** basis.cpp:878-886: the search for the element of electron_count_radius. *)
Fixpoint count_down (fuel : nat) (n i : Z) (s : R) (q : nat -> R) : res (Z * R) :=
  match fuel with
  | O => OutOfFuel
  | S f => if (i <? n)%Z then
             if Rltb (q (Z.to_nat i)) s then count_down f n (wrap (i - 1)) (s - q (Z.to_nat i)) q else Ok (i, s)
           else Ok (i, s)
  end.
(** basis.cpp:894-909: its bisection; m is the point returned. *)
Fixpoint count_loop (fuel : nat) (out : R -> R) (s thr a b m : R) : res R :=
  match fuel with
  | O => OutOfFuel
  | S f => if Rleb thr (b - a) then
             let m := a + (b - a) / 2 in
             if Rltb (out m) s then count_loop f out s thr a m m
             else if Rltb s (out m) then count_loop f out s thr m b m
             else Ok m
           else Ok m
  end.
(** basis.cpp:863-910: electron_count_radius; S is overlap(iel), [part iel m] is
    radial_integral(0, iel, m, 1).  get_idx of an element that does not exist reads the
    function list out of range. *)
Definition electron_count_radius (fuel : nat) (S : nat -> mat) (part : nat -> R -> mat) (P : mat) (eps thr : R) : res R :=
  bind (count_down (nel + 1) (Z.of_nat nel) (wrap (Z.of_nat nel - 1)) eps (fun iel => trace_with P iel (S iel))) (fun is =>
  if (fst is <? Z.of_nat nel)%Z then
    let iel := Z.to_nat (fst is) in
    bind (count_loop fuel (fun m => trace_with P iel (part iel m)) (snd is) thr (-1) 1 (-1 + (1 - -1) / 2)) (fun m => Ok (rad iel m))
  else UB).

(** basis.cpp:520-522: zero(iel) += zero(iel-1). *)
Definition upd (v : vec) (i : nat) (x : R) : vec := fun j => if (j =? i)%nat then x else v j.
Definition prefix (z : vec) : vec := fold_left (fun z iel => upd z iel (z iel + z (iel - 1)%nat)) (seq 1 (nel - 1)) z.
(** basis.cpp:524-525: minusone(iel) += minusone(iel+1) from nel - 2 down; for one element
    the counter starts at SIZE_MAX. *)
Fixpoint suffix_loop (fuel : nat) (n i : Z) (v : vec) : res vec :=
  match fuel with
  | O => OutOfFuel
  | S f => if (i <? n)%Z then suffix_loop f n (wrap (i - 1)) (upd v (Z.to_nat i) (v (Z.to_nat i) + v (S (Z.to_nat i))))
           else Ok v
  end.
Definition suffix (v : vec) : res vec := suffix_loop (nel + 1) (Z.of_nat nel) (wrap (Z.of_nat nel - 2)) v.
(** basis.cpp:501-562: coulomb_screening; zm and mo are radial_integral(0) and (-1), pot is
    spherical_potential (point, pair), whose pairs are stored column by column. *)
Definition coulomb_screening (zm mo : nat -> mat) (pot : nat -> nat -> nat -> R) (P : mat) : res vec :=
  bind (suffix (fun iel => trace_with P iel (mo iel))) (fun minusone =>
  let zero := prefix (fun iel => trace_with P iel (zm iel)) in
  segments 0 (fun iel ip =>
    let r := rad iel (xq ip) in
    let v := sum (len iel * len iel) (fun c => pot iel ip c * P (first iel + c mod len iel)%nat (first iel + c / len iel)%nat) in
    let v := if (0 <? iel)%nat then v + zero (iel - 1)%nat / r else v in
    let v := if negb (iel =? nel - 1)%nat then v + minusone (iel + 1)%nat else v in
    v * r)).
End Basis.

(* ------------------------------------------------------------------ *)
(** * Tabulated atoms *)

(** atomdb.cpp:35-48: check, with the limits of the table. *)
Definition check (max_Z lmax Z l : Z) : res unit :=
  if ((Z <? 1) || (max_Z <? Z))%Z%bool then Throw LogicError
  else if ((l <? 0) || (lmax <? l))%Z%bool then Throw LogicError
  else Ok tt.

(** atomdb.cpp:92-98: the density matrix; [norb l] orbitals of angular momentum l with
    coefficients C l and occupations occ l.  An empty channel adds nothing. *)
Definition contract (nl : nat) (norb : nat -> nat) (occ : nat -> vec) (C : nat -> mat) : mat :=
  fun i j => sum nl (fun l => sum (norb l) (fun o => C l i o * occ l o * C l j o)).

Section Atom.
(** The grid, the index ranges and functions of the shared basis, the density matrix and
    the fixed in-element rule. *)
Variables (b : fe) (first len : nat -> nat) (bf df lf : nat -> R -> vec) (P : mat) (nq : nat) (xq wq : vec).

(** The contraction (bf Psub bf^T) at a primitive coordinate. *)
Definition rho4 (iel : nat) (x : R) : R := form first len P iel (bf iel x) (bf iel x).

(** atomdb.cpp:216-247: partial_integral. *)
Definition partial_integral (over_r : bool) (xa xb : R) (iel : nat) : res R :=
  let half := 1 / 2 * (xb - xa) in
  if Rleb half 0 then Ok 0
  else
    bind (element_midpoint b iel) (fun mid =>
    bind (element_length b iel) (fun l =>
    let xi := fun q => 1 / 2 * (xa + xb) + half * xq q in
    let r := fun q => mid + l / 2 * xi q in
    Ok (1 / 2 * l * half * sum nq (fun q => wq q * (rho4 iel (xi q) * r q * (if over_r then 1 else r q)))))).

(** atomdb.cpp:99-124: the constructor: charges below and moments above each element, the
    total charge and the last radius.  The second loop runs from nel - 2 down to 0. *)
Record atom := mkAtom { Qbelow : vec; Mabove : vec; Ntot : R; Rlast : R }.
Definition make_atom : res atom :=
  let nel := get_nelem b in
  bind (RadModel.each (partial_integral false (-1) 1) (seq 0 nel)) (fun qel =>
  bind (RadModel.each (partial_integral true (-1) 1) (seq 0 nel)) (fun mel =>
  bind (element_end b (nel - 1)) (fun rm =>
  Ok (mkAtom (fold_left (fun (v : vec) iel => upd v iel (v (iel - 1)%nat + nth (iel - 1) qel 0)) (seq 1 (nel - 1)) (fun _ => 0))
             (fold_left (fun (v : vec) iel => upd v iel (v (iel + 1)%nat + nth (iel + 1) mel 0)) (rev (seq 0 (nel - 1))) (fun _ => 0))
             (sum nel (fun iel => nth iel qel 0)) rm)))).

(** atomdb.cpp:138-146: locate. *)
Definition locate (fuel : nat) (r : R) : res (nat * R) :=
  bind (find_element b (Fin r) fuel) (fun iel =>
  bind (element_midpoint b iel) (fun mid =>
  bind (element_length b iel) (fun l =>
  Ok (iel, Rmin (Rmax ((r - mid) / (1 / 2 * l)) (-1)) 1)))).

(** atomdb.cpp:148-163: radial_density and density. *)
Definition radial_density (fuel : nat) (t : atom) (r : R) : res R :=
  if (Rleb r 0 || Rltb (Rlast t) r)%bool then Ok 0
  else bind (locate fuel r) (fun ix => Ok (r * r * rho4 (fst ix) (snd ix))).
Definition density (fuel : nat) (t : atom) (r : R) : res R :=
  bind (radial_density fuel t r) (fun rr => Ok (if Rltb 0 r then rr / (4 * PI * r * r) else 0)).
(** atomdb.cpp:165-176: density_gradient. *)
Definition atom_gradient (fuel : nat) (t : atom) (r : R) : res R :=
  if (Rleb r 0 || Rltb (Rlast t) r)%bool then Ok 0
  else bind (locate fuel r) (fun ix =>
       let (iel, x) := (ix : nat * R) in Ok (2 * form first len P iel (bf iel x) (df iel x) / (4 * PI))).
(** atomdb.cpp:178-193: density_laplacian. *)
Definition atom_laplacian (fuel : nat) (t : atom) (r : R) : res R :=
  if (Rleb r 0 || Rltb (Rlast t) r)%bool then Ok 0
  else bind (locate fuel r) (fun ix =>
       let (iel, x) := (ix : nat * R) in
       let d2 := 2 * (form first len P iel (df iel x) (df iel x) + form first len P iel (bf iel x) (lf iel x)) in
       let d1 := 2 * form first len P iel (bf iel x) (df iel x) in
       Ok ((d2 + 2 * d1 / r) / (4 * PI))).

(** atomdb.cpp:249-257: enclosed_charge. *)
Definition enclosed_charge (fuel : nat) (t : atom) (r : R) : res R :=
  if Rleb r 0 then Ok 0
  else if Rleb (Rlast t) r then Ok (Ntot t)
  else bind (locate fuel r) (fun ix =>
       bind (partial_integral false (-1) (snd ix) (fst ix)) (fun p => Ok (Qbelow t (fst ix) + p))).
(** atomdb.cpp:259-270: hartree_screening. *)
Definition hartree_screening (fuel : nat) (t : atom) (r : R) : res R :=
  if Rleb r 0 then Ok 0
  else if Rleb (Rlast t) r then Ok (Ntot t)
  else bind (locate fuel r) (fun ix =>
       bind (partial_integral false (-1) (snd ix) (fst ix)) (fun p =>
       bind (partial_integral true (snd ix) 1 (fst ix)) (fun m =>
       Ok (Qbelow t (fst ix) + p + r * (Mabove t (fst ix) + m))))).
End Atom.
