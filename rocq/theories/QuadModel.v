(** Model of the quadrature code: the adaptive ladders, the splitting of an
    element at break points, the in-element two-electron integrals, the
    projection between two radial bases and the angular product rule.
    Arithmetic is exact; the acceptance tests of the ladders see NaN. *)
Require Import Reals List Arith Bool ZArith.
Require Import Verif.Prelude Verif.FEModel.
Import ListNotations.
Open Scope R_scope.

(* ------------------------------------------------------------------ *)
(** * Adaptive ladders *)

(** a * x and x + b for a finite positive [a]. *)
Definition fscal (a : R) (x : fp) : fp :=
  match x with Fin r => Fin (a * r) | y => y end.
Definition fplus (x : fp) (b : R) : fp :=
  match x with Fin r => Fin (r + b) | y => y end.

Section Ladder.
Variable Blk : Type.
(** (cur - prev).cwiseAbs().maxCoeff() and cur.cwiseAbs().maxCoeff(). *)
Variables (dist : Blk -> Blk -> fp) (scale : Blk -> fp).
(** 8 eps, sqrt(eps), 256 eps. *)
Variables (tol sqrteps floor_rel : R).

(** libhelfem/src/RadialBasis.cpp:124-147 (converge_rule) and
    libhelfem/src/FiniteElementBasis.cpp:517-537 (converge_panel): the three
    acceptance tests, identical in the two functions. *)
Definition rule_stop (cur prev : Blk) (prevdiff prevprevdiff : fp) : bool :=
  let diff := dist cur prev in
  fleb diff (fscal tol (fplus (scale cur) tol))
  || (fleb (Fin 0) prevdiff && fleb diff (fscal sqrteps (fplus (scale cur) tol))
      && fltb (fscal (1 / 2) prevdiff) diff)
  || (fleb (Fin 0) prevprevdiff && fleb diff (fscal sqrteps (fplus (scale cur) tol))
      && fltb (fscal (1 / 8) prevprevdiff) diff).

(** src/diatomic/basis.cpp:158-178 (converge_block). *)
Definition block_stop (cur prev : Blk) (prevdiff : fp) : bool :=
  let diff := dist cur prev in
  fleb diff (fscal tol (fplus (scale cur) tol))
  || (fleb diff (fscal sqrteps (fplus (scale cur) tol))
      && (fleb diff (fscal floor_rel (fplus (scale cur) tol))
          || (fleb (Fin 0) prevdiff && fltb (fscal (1 / 2) prevdiff) diff))).

Variable eval : nat -> Blk.
Variable nmax : nat.

(** RadialBasis.cpp:123-161 and FiniteElementBasis.cpp:515-551: the loop.
    [tried] lists the orders evaluated so far, latest first. *)
Fixpoint rule_loop (fuel n : nat) (prev : option Blk) (prevdiff prevprevdiff : fp) (tried : list nat)
  : res (list nat * Blk) :=
  match fuel with
  | O => OutOfFuel
  | S k =>
      let cur := eval n in
      let tried := n :: tried in
      let stop := match prev with None => false | Some p => rule_stop cur p prevdiff prevprevdiff end in
      if stop then Ok (tried, cur)
      else
        let '(pd, ppd) := match prev with
                          | None => (prevdiff, prevprevdiff)
                          | Some p => (dist cur p, prevdiff)
                          end in
        if (nmax <=? n)%nat then Ok (tried, cur)
        else rule_loop k (Nat.min (2 * n) nmax) (Some cur) pd ppd tried
  end.

(** RadialBasis.cpp:115-162 (converge_rule, nmax = 512) and
    FiniteElementBasis.cpp:501-553 (converge_panel). *)
Definition converge_rule (nstart : Z) : res (list nat * Blk) :=
  let n := Z.to_nat (Z.max nstart 2) in
  rule_loop (S nmax) n None (Fin (-1)) (Fin (-1)) [].

(** src/diatomic/basis.cpp:150-199: the loop of converge_block; the last component
    is what is stored through nconv. *)
Fixpoint block_loop (fallback : bool) (n0 fuel n : nat) (prev : option Blk) (seed : option Blk) (prevdiff : fp)
    (tried : list nat) : res (list nat * Blk * nat) :=
  match fuel with
  | O => OutOfFuel
  | S k =>
      let cur := eval n in
      let tried := n :: tried in
      let seed := match prev with None => cur | Some _ => match seed with Some s => s | None => cur end end in
      let stop := match prev with None => false | Some p => block_stop cur p prevdiff end in
      if stop then Ok (tried, cur, n)
      else
        let pd := match prev with None => prevdiff | Some p => dist cur p end in
        if (nmax <=? n)%nat then
          if fallback then Ok (tried, seed, n0) else Ok (tried, cur, n)
        else block_loop fallback n0 k (Nat.min (2 * n) nmax) (Some cur) (Some seed) pd tried
  end.

(** src/diatomic/basis.cpp:126-201: converge_block (twoe_nmax = 512). *)
Definition converge_block (fallback : bool) (nstart : Z) : res (list nat * Blk * nat) :=
  let n := Z.to_nat (Z.max nstart 2) in
  block_loop fallback n (S nmax) n None None (Fin (-1)) [].
End Ladder.

(** RadialBasis.cpp:80, src/diatomic/basis.cpp:101, FiniteElementBasis.cpp:584. *)
Definition order_cap : nat := 512.

(** RadialBasis.cpp:166-173: twoe_nstart. *)
Definition twoe_nstart (nquad : nat) : nat :=
  let n := if (nquad <? 5)%nat then 5%nat else nquad in
  if (order_cap <? n)%nat then order_cap else n.

(** FiniteElementBasis.cpp:581-587: the starting order of matrix_element_auto. *)
Definition auto_nstart (noverlap nnodes fdeg : Z) : Z :=
  let basisdeg := Z.max 0 (noverlap * nnodes - 1) in
  let deg := (2 * basisdeg + Z.max 0 fdeg)%Z in
  let n := (Z.quot (deg + 4) 2 + 2)%Z in
  let n := if (n <? 5)%Z then 5%Z else n in
  if (512 <? n)%Z then 512%Z else n.

(* ------------------------------------------------------------------ *)
(** * Break points *)

(** FiniteElementBasis.cpp:567-575: the panel boundaries. *)
Definition panel_bounds (mid sf xl xr : R) (bps : list R) : list R :=
  sortR (xl :: filter (fun xp => (Rltb xl xp && Rltb xp xr)%bool) (map (fun bp => (bp - mid) / sf) bps) ++ [xr]).

(** Consecutive pairs: the loop over p with p + 1 < xb.size(). *)
Fixpoint consecutive (l : list R) : list (R * R) :=
  match l with
  | a :: ((b :: _) as r) => (a, b) :: consecutive r
  | _ => []
  end.

(** FiniteElementBasis.cpp:590-592: the panels that are not skipped. *)
Definition panels (mid sf xl xr : R) (bps : list R) : list (R * R) :=
  filter (fun p => Rltb (fst p) (snd p)) (consecutive (panel_bounds mid sf xl xr bps)).

(** FiniteElementBasis.cpp:589-604: the blocks added up; [panel a b] is what
    converge_panel returned for [a, b]. *)
Definition matrix_element_auto (panel : R -> R -> mat) (mid sf xl xr : R) (bps : list R) : mat :=
  match panels mid sf xl xr bps with
  | [] => panel xl xr
  | p :: ps => fold_left (fun total q => madd total (panel (fst q) (snd q))) ps (panel (fst p) (snd p))
  end.

(* ------------------------------------------------------------------ *)
(** * Radial two-electron integrals *)
Section TwoE.
(** The quadrature rule (nq points x, weights w) and the N primitive functions of
    the element as functions of the reference coordinate. *)
Variables (nq : nat) (x w : vec) (N : nat) (bf : R -> nat -> R).

(** libhelfem/src/quadrature.cpp:37-73: twoe_inner_integral_wrk; the result is the
    column-major flattening of the matrix M, entry c = col * N + row. *)
Definition inner_wrk (rmin rmax rmin0 rmax0 : R) (fsmallbig : R -> R -> R) : vec := fun c =>
  let rmid := 1 / 2 * (rmax + rmin) in
  let rlen := 1 / 2 * (rmax - rmin) in
  let rmid0 := 1 / 2 * (rmax0 + rmin0) in
  let rlen0 := 1 / 2 * (rmax0 - rmin0) in
  let r := fun q => rmid + rlen * x q in
  let xpoly := fun q => (r q - rmid0) / rlen0 in
  sum nq (fun q => bf (xpoly q) (c mod N)%nat * (w q * fsmallbig (r q) rmax * rlen) * bf (xpoly q) (c / N)%nat).

(** quadrature.cpp:82-84: the radial points. *)
Definition rpoint (rmin rmax : R) (q : nat) : R := 1 / 2 * (rmax + rmin) + 1 / 2 * (rmax - rmin) * x q.

(** quadrature.cpp:77-115: twoe_inner_integral, row [ip].  Lines 92-98 compute the
    segments, lines 104-108 add the rescaled previous row, in ascending order. *)
Fixpoint inner_row (rmin rmax : R) (fsmallbig : R -> R -> R) (fbig : R -> R) (ip : nat) : vec :=
  let r := rpoint rmin rmax in
  let empty_first := Reqb (r 0%nat) rmin in
  match ip with
  | O => if empty_first then (fun _ => 0) else inner_wrk rmin (r 0%nat) rmin rmax fsmallbig
  | S p =>
      let seg := inner_wrk (r p) (r ip) rmin rmax fsmallbig in
      if ((ip =? 1)%nat && empty_first)%bool then seg
      else fun c => seg c + inner_row rmin rmax fsmallbig fbig p c * (fbig (r ip) / fbig (r p))
  end.

(** quadrature.cpp:118-124: the Coulomb kernel r^L / R^(L+1). *)
Definition coul_sb (L : nat) (r rb : R) : R := (r / rb) ^ L / rb.
Definition coul_big (L : nat) (r : R) : R := / r ^ (L + 1).

(** quadrature.cpp:128-133: make_bfprod, column c = fi * N + fj. *)
Definition bfprod (q c : nat) : R := bf (x q) (c / N)%nat * bf (x q) (c mod N)%nat.

(** quadrature.cpp:137-165: twoe_integral (and yukawa_integral, 182-200) for given
    kernel functions; the sizes of x and wx agree. *)
Definition twoe_integral (rmin rmax : R) (fsmallbig : R -> R -> R) (fbig : R -> R) : mat :=
  let rlen := 1 / 2 * (rmax - rmin) in
  let ints := fun a b => sum nq (fun q => bfprod q a * (w q * rlen) * inner_row rmin rmax fsmallbig fbig q b) in
  fun a b => ints a b + ints b a.

(** quadrature.cpp:252-298: spherical_potential, entry (point ip, pair c). *)
Definition spherical_potential (rmin rmax : R) (ip c : nat) : R :=
  let r := rpoint rmin rmax in
  let zero := fun jp => inner_wrk (match jp with O => rmin | S p => r p end) (r jp) rmin rmax (fun _ rb => 1 / rb) c in
  let minusone := fun jp => inner_wrk (r jp) (if (jp =? nq - 1)%nat then rmax else r (S jp)) rmin rmax (fun r _ => 1 / r) c in
  sum (S ip) (fun jp => zero jp * r jp) / r ip + sum (nq - ip) (fun k => minusone (ip + k)%nat).
End TwoE.

(** quadrature.cpp:203-249: erfc_integral for two elements. *)
Definition erfc_integral (Phi : nat -> R -> R -> R) (L : nat) (mu : R)
    (nqi : nat) (xi wi : vec) (Ni : nat) (bfi : R -> nat -> R) (rmini rmaxi : R)
    (nqk : nat) (xk wk : vec) (Nk : nat) (bfk : R -> nat -> R) (rmink rmaxk : R) : mat :=
  let rleni := 1 / 2 * (rmaxi - rmini) in
  let rlenk := 1 / 2 * (rmaxk - rmink) in
  let Fn := fun i k => Phi L (mu * rpoint xi rmini rmaxi i) (mu * rpoint xk rmink rmaxk k) in
  fun a b => sum nqk (fun k => sum nqi (fun i => bfprod xi Ni bfi i a * (wi i * rleni) * Fn i k)
                               * (bfprod xk Nk bfk k b * (wk k * rlenk))).

(* ------------------------------------------------------------------ *)
(** * Diatomic in-element integrals *)
Section Diatomic.
(** The rule, the primitives, and P_L, Q_L of the run's |M|; [ch], [sh] are cosh
    and sinh. *)
Variables (nq : nat) (x w : vec) (N : nat) (bf : R -> nat -> R).
Variables (P Q : R -> R) (ch sh : R -> R).

(** src/diatomic/quadrature.cpp:34-69: twoe_inner_integral_wrk. *)
Definition d_inner_wrk (mumin mumax mumin0 mumax0 : R) (l : nat) : vec := fun c =>
  let mumid := / 2 * (mumax + mumin) in
  let mulen := / 2 * (mumax - mumin) in
  let mu := fun q => mumid + mulen * x q in
  let mumid0 := / 2 * (mumax0 + mumin0) in
  let mulen0 := / 2 * (mumax0 - mumin0) in
  let wp := fun q => mulen * w q * sh (mu q) * (if (l =? 0)%nat then 1 else ch (mu q) ^ l) * P (ch (mu q)) in
  let xpoly := fun q => (mu q - mumid0) / mulen0 in
  sum nq (fun q => bf (xpoly q) (c mod N)%nat * wp q * bf (xpoly q) (c / N)%nat).

(** src/diatomic/quadrature.cpp:71-87: twoe_inner_integral, row [ip]. *)
Definition d_mu (mumin mumax : R) (q : nat) : R := / 2 * (mumax + mumin) + / 2 * (mumax - mumin) * x q.
Fixpoint d_inner_row (mumin mumax : R) (l ip : nat) : vec :=
  match ip with
  | O => d_inner_wrk mumin (d_mu mumin mumax 0) mumin mumax l
  | S p => fun c => d_inner_row mumin mumax l p c + d_inner_wrk (d_mu mumin mumax p) (d_mu mumin mumax ip) mumin mumax l c
  end.

(** src/diatomic/quadrature.cpp:89-129: twoe_integral_wrk. *)
Definition d_wrk (mumin mumax : R) (k l : nat) : mat := fun a b =>
  let mulen := / 2 * (mumax - mumin) in
  let mu := d_mu mumin mumax in
  let wp := fun q => mulen * w q * sh (mu q) * (if (k =? 0)%nat then 1 else ch (mu q) ^ k) * Q (ch (mu q)) in
  sum nq (fun q => bf (x q) (a / N)%nat * bf (x q) (a mod N)%nat * wp q * d_inner_row mumin mumax l q b).

(** src/diatomic/quadrature.cpp:131-133: twoe_integral. *)
Definition d_twoe (mumin mumax : R) (k l : nat) : mat := fun a b =>
  d_wrk mumin mumax k l a b + d_wrk mumin mumax l k b a.

(** src/diatomic/quadrature.h: Subinterval and TwoElectronElement, the precomputed tables. *)
Record subinterval := mkSub { si_mulen : R; si_chmu : vec; si_shmu : vec; si_bf : nat -> nat -> R }.
Record element := mkEl { el_mulen : R; el_chmu : vec; el_shmu : vec; el_bfprod : nat -> nat -> R; el_sub : nat -> subinterval }.

(** src/diatomic/quadrature.cpp:135-190: twoe_element. *)
Definition d_element (mumin mumax : R) : element :=
  let mumid := / 2 * (mumax + mumin) in
  let mulen := / 2 * (mumax - mumin) in
  let mu := fun q => mumid + mulen * x q in
  mkEl mulen (fun q => ch (mu q)) (fun q => sh (mu q))
       (fun q c => bf (x q) (c / N)%nat * bf (x q) (c mod N)%nat)
       (fun ip =>
          let submin := if (ip =? 0)%nat then mumin else mu (ip - 1)%nat in
          let submax := mu ip in
          let submid := / 2 * (submax + submin) in
          let sublen := / 2 * (submax - submin) in
          let submu := fun q => submid + sublen * x q in
          mkSub sublen (fun q => ch (submu q)) (fun q => sh (submu q))
                (fun q i => bf ((submu q - mumid) / mulen) i)).

(** src/diatomic/quadrature.cpp:211-240: inner_integral, the accumulator after
    subinterval [ip]. *)
Fixpoint c_acc (el : element) (l n : nat) : vec :=
  match n with
  | O => fun _ => 0
  | S ip =>
      let si := el_sub el ip in
      let wp := fun q => si_mulen si * w q * si_shmu si q * (if (l =? 0)%nat then 1 else si_chmu si q ^ l) * P (si_chmu si q) in
      fun c => c_acc el l ip c + sum nq (fun q => si_bf si q (c mod N)%nat * wp q * si_bf si q (c / N)%nat)
  end.

(** src/diatomic/quadrature.cpp:243-260: outer. *)
Definition c_outer (el : element) (k l : nat) : mat := fun a b =>
  let wp := fun q => el_mulen el * w q * el_shmu el q * (if (k =? 0)%nat then 1 else el_chmu el q ^ k) * Q (el_chmu el q) in
  sum nq (fun q => el_bfprod el q a * wp q * c_acc el l (S q) b).

(** src/diatomic/quadrature.cpp:192-266: twoe_integral on the precomputed element. *)
Definition c_twoe (el : element) (k l : nat) : mat := fun a b => c_outer el k l a b + c_outer el l k b a.
End Diatomic.

(* ------------------------------------------------------------------ *)
(** * Two radial bases *)
Section Cross.
(** Element boundaries of the two bases (nA and nB elements), first function and
    number of functions of each element. *)
Variables (nA nB : nat) (a b : vec) (fa ca fb cb : nat -> nat).

(** RadialBasis.cpp:363-372: the pairs of overlapping elements. *)
Definition overlaps (i j : nat) : bool :=
  ((Rleb (a i) (b j) && Rltb (b j) (a (S i))) || (Rleb (b j) (a i) && Rltb (a i) (b (S j))))%bool.
Definition overlap_list (i : nat) : list nat := filter (overlaps i) (seq 0 nB).

(** RadialBasis.cpp:386-389: the common part. *)
Definition int_start (i j : nat) : R := Rmax (a i) (b j).
Definition int_end (i j : nat) : R := Rmin (a (S i)) (b (S j)).

(** RadialBasis.cpp:390-416: the block of a pair: [fi r i], [fj r j] are the values of
    the two elements' functions at the radius r. *)
Definition cross_block (nq : nat) (x w : vec) (wt : R -> R) (fi fj : R -> nat -> R) (i j : nat) : mat :=
  let intmid := 1 / 2 * (int_end i j + int_start i j) in
  let intlen := 1 / 2 * (int_end i j - int_start i j) in
  let r := fun q => Rmin (Rmax (intmid + intlen * x q) (int_start i j)) (int_end i j) in
  fun u v => sum nq (fun q => fi (r q) u * (w q * intlen * wt (r q)) * fj (r q) v).

(** S.block(ifirst, jfirst, Ni, Nj) += B. *)
Definition add_rect (r0 nr c0 nc : nat) (B M : mat) : mat := fun u v =>
  if ((r0 <=? u) && (u <? r0 + nr) && ((c0 <=? v) && (v <? c0 + nc)))%nat%bool
  then M u v + B (u - r0)%nat (v - c0)%nat else M u v.

(** RadialBasis.cpp:380-424: the projection matrix at one order; [B i j] is the block of a pair. *)
Definition cross_matrix (B : nat -> nat -> mat) : mat :=
  fold_left (fun S i =>
    fold_left (fun S j => add_rect (fa i) (ca i) (fb j) (cb j) (B i j) S) (overlap_list i) S)
    (seq 0 nA) mzero.
End Cross.

(* ------------------------------------------------------------------ *)
(** * Angular product rule *)

(** src/general/angular.cpp:21-46: compound_rule for nphi > 0: the arrays cth, phi, w
    after the two loops (each index is written once; before that it is zero). *)
Definition store1 (v : vec) (i : nat) (y : R) : vec := fun k => if (k =? i)%nat then y else v k.
Definition compound_rule (n : nat) (xc wc : vec) (nphi : nat) : vec * vec * vec :=
  let dphi := 2 * PI / INR nphi in
  fold_left (fun st i =>
    fold_left (fun st j =>
      let '(cth, phi, w) := st in
      let idx := (i * nphi + j)%nat in
      (store1 cth idx (xc i), store1 phi idx (INR j * dphi), store1 w idx (wc i * dphi)))
    (seq 0 nphi) st)
  (seq 0 n) ((fun _ => 0), (fun _ => 0), (fun _ => 0)).
