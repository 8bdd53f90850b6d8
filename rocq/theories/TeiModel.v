(** Model of the precomputation of the diatomic two-electron integrals:
    /repo/src/diatomic/basis.cpp 352-395, 739-853, 1334-1547 and the Legendre
    cache of /repo/src/diatomic/quadrature.h 47-84.  Scalars are exact real
    numbers.  Routines that read Legendre values through the cache are programs
    that ask for one value at a time, so that what the cache does in between is
    visible; the OpenMP loops are run under any interleaving of their iterations. *)
Require Import Reals ZArith List Bool Arith.
Require Import Verif.Prelude Verif.AngModel Verif.CholModel Verif.JKModel Verif.LegModel Verif.QuadModel Verif.TwoDModel.
Import ListNotations.
Local Open Scope R_scope.

(* ------------------------------------------------------------------ *)
(** * Programs that ask for Legendre values *)

(** A computation that calls leg.P(L, x) or leg.Q(L, x) and goes on with the
    answer. *)
Inductive prog (A : Type) : Type :=
| Ret (a : A)
| Ask (wantP : bool) (L : Z) (x : R) (k : R -> prog A).
Arguments Ret {A} a.
Arguments Ask {A} wantP L x k.

Fixpoint pbind {A B} (p : prog A) (f : A -> prog B) : prog B :=
  match p with
  | Ret a => f a
  | Ask w L x k => Ask w L x (fun v => pbind (k v) f)
  end.

(* ------------------------------------------------------------------ *)
(** * The cache *)

(** quadrature.h 47-49: the run's |M|, its largest L, and the columns stored so
    far, by point. *)
Record mcache := mkMC {
  mc_M : Z; mc_L : Z;
  mc_P : list (R * (Z -> R)); mc_Q : list (R * (Z -> R)) }.

(** quadrature.h 73 *)
Definition mc_new (M L : Z) : mcache := mkMC M L [] [].
(** quadrature.h 78-80 *)
Definition mc_reset (c : mcache) (M L : Z) : mcache := mkMC M L [] [].

(** unordered_map::find by key; two doubles are the same key if they are equal. *)
Fixpoint key_find (x : R) (t : list (R * (Z -> R))) : option (Z -> R) :=
  match t with
  | [] => None
  | (y, col) :: t' => if Reqb y x then Some col else key_find x t'
  end.

Section Legendre.
(** std::isnormal, and the continued fraction and the starting value of the
    functions of the second kind (Legendre.h). *)
Variable normal : R -> bool.
Variable cf : R -> nat -> nat -> res R.
Variable seed_low : R.

(** quadrature.h 63-66 *)
Definition keep_normal (v : R) : R := if (negb (Reqb v 0) && negb (normal v))%bool then 0 else v.

(** quadrature.h 51-70: fetch. *)
Definition fetch (c : mcache) (wantP : bool) (x : R) : res ((Z -> R) * mcache) :=
  let tab := if wantP then mc_P c else mc_Q c in
  match key_find x tab with
  | Some col => Ok (col, c)
  | None =>
    bind (if wantP then plm (mc_L c) (mc_M c) x else qlm cf seed_low (mc_L c) (mc_M c) x) (fun full =>
    let col := fun L => keep_normal (full (Z.to_nat (L + mc_M c * (mc_L c + 1)))) in
    Ok (col, if wantP then mkMC (mc_M c) (mc_L c) ((x, col) :: mc_P c) (mc_Q c)
             else mkMC (mc_M c) (mc_L c) (mc_P c) ((x, col) :: mc_Q c)))
  end.

(** quadrature.h 82-83: P and Q; an index outside of the column is undefined. *)
Definition ask_cache (c : mcache) (wantP : bool) (L : Z) (x : R) : res (R * mcache) :=
  if (negb wantP && Reqb x 1)%bool then Ok (0, c) else
  bind (fetch c wantP x) (fun r =>
  if ((0 <=? L) && (L <=? mc_L c))%bool%Z then Ok (fst r L, snd r) else UB).

(** A program run with the cache. *)
Fixpoint run_cached {A} (p : prog A) (c : mcache) : res (A * mcache) :=
  match p with
  | Ret a => Ok (a, c)
  | Ask w L x k => bind (ask_cache c w L x) (fun r => run_cached (k (fst r)) (snd r))
  end.

(* ------------------------------------------------------------------ *)
(** * The radial integrals *)

(** What the two-electron code reads of the radial basis: Nel(), element_begin,
    element_end, the number of primitives and their values in an element, the
    Gauss-Chebyshev rule of every order and get_nquad(). *)
Record dradial := mkDR {
  d_Nel : nat;
  d_lo : nat -> R; d_hi : nat -> R;
  d_n : nat -> nat; d_bf : nat -> R -> nat -> R;
  d_rule : nat -> vec * vec;
  d_nquad : Z;
  (** max |cur - prev| and max |cur| of blocks, and 8 eps, sqrt(eps), 256 eps *)
  d_dist : dmat -> dmat -> fp; d_scale : dmat -> fp;
  d_tol : R; d_sqrteps : R; d_floor : R }.

(** v(i) = tab.P(L, x(i)) for i = 0 ... n-1, in order. *)
Fixpoint ask_vec (wantP : bool) (L : Z) (n : nat) (xs : vec) : prog vec :=
  match n with
  | O => Ret (fun _ => 0)
  | S n' => pbind (ask_vec wantP L n' xs) (fun v =>
            Ask wantP L (xs n') (fun y => Ret (fun i => if Nat.eqb i n' then y else v i)))
  end.

(** basis.cpp 150-199: converge_block with a block that is itself computed by a
    program; the second component is what is stored through nconv. *)
Fixpoint block_prog (rb : dradial) (eval : nat -> prog dmat) (fallback : bool) (n0 fuel n : nat)
    (prev seed : option dmat) (prevdiff : fp) : prog (res (dmat * nat)) :=
  match fuel with
  | O => Ret OutOfFuel
  | S k =>
    pbind (eval n) (fun cur =>
      let seed := match prev with None => cur | Some _ => match seed with Some s => s | None => cur end end in
      let stop := match prev with
                  | None => false
                  | Some p => block_stop dmat (d_dist rb) (d_scale rb) (d_tol rb) (d_sqrteps rb) (d_floor rb) cur p prevdiff
                  end in
      if stop then Ret (Ok (cur, n))
      else
        let pd := match prev with None => prevdiff | Some p => d_dist rb cur p end in
        if (order_cap <=? n)%nat then
          if fallback then Ret (Ok (seed, n0)) else Ret (Ok (cur, n))
        else block_prog rb eval fallback n0 k (Nat.min (2 * n) order_cap) (Some cur) (Some seed) pd)
  end.
Definition converge_prog (rb : dradial) (eval : nat -> prog dmat) (fallback : bool) (nstart : Z) : prog (res (dmat * nat)) :=
  let n := Z.to_nat (Z.max nstart 2) in
  block_prog rb eval fallback n (S order_cap) n None None (Fin (-1)).

(** basis.cpp 352-395 with FiniteElementBasis.cpp 441-495: the element matrix of
    sinh(mu) cosh(mu)^k P_L(cosh mu), or Q_L, with the rule of order n. *)
Definition disjoint_eval (rb : dradial) (wantP : bool) (k : nat) (iel : nat) (L : Z) (n : nat) : prog dmat :=
  let '(x, w) := d_rule rb n in
  let len := / 2 * (d_hi rb iel - d_lo rb iel) in
  let mu := fun q => / 2 * (d_hi rb iel + d_lo rb iel) + len * x q in
  pbind (ask_vec wantP L n (fun q => cosh (mu q))) (fun leg =>
  Ret (mkD (d_n rb iel) (d_n rb iel) (fun i j =>
    sum n (fun q => d_bf rb iel (x q) i *
      (w q * len * (sinh (mu q) * (if Nat.eqb k 0 then 1 else cosh (mu q) ^ k) * leg q)) *
      d_bf rb iel (x q) j)))).

(** basis.cpp 352-395: Plm_integral and Qlm_integral. *)
Definition disjoint_integral (rb : dradial) (wantP : bool) (k : nat) (iel : nat) (L : Z) : prog (res (dmat * nat)) :=
  converge_prog rb (disjoint_eval rb wantP k iel L) true (Z.max (d_nquad rb) 5).

(** basis.cpp 427-436: twoe_element(iel, n). *)
Definition twoe_el (rb : dradial) (iel n : nat) : element :=
  d_element (fst (d_rule rb n)) (d_n rb iel) (d_bf rb iel) cosh sinh (d_lo rb iel) (d_hi rb iel).

(** quadrature.cpp 205-236: inner_integral; the rows filled so far. *)
Fixpoint inner_prog (nq : nat) (w : vec) (N : nat) (el : element) (l : nat) (L : Z) (ip : nat) : prog (nat -> vec) :=
  match ip with
  | O => Ret (fun _ _ => 0)
  | S p =>
    pbind (inner_prog nq w N el l L p) (fun inner =>
    let si := el_sub el p in
    pbind (ask_vec true L nq (si_chmu si)) (fun leg =>
    Ret (fun r => if Nat.eqb r p
      then fun c => (match p with O => 0 | S p' => inner p' c end) +
        sum nq (fun q => si_bf si q (c mod N)%nat *
          (si_mulen si * w q * si_shmu si q * (if (l =? 0)%nat then 1 else si_chmu si q ^ l) * leg q) *
          si_bf si q (c / N)%nat)
      else inner r)))
  end.

(** quadrature.cpp 239-255: outer. *)
Definition outer_prog (nq : nat) (w : vec) (N : nat) (el : element) (k l : nat) (L : Z) : prog mat :=
  pbind (inner_prog nq w N el l L nq) (fun inner =>
  pbind (ask_vec false L nq (el_chmu el)) (fun leg =>
  Ret (fun a b => sum nq (fun q => el_bfprod el q a *
    (el_mulen el * w q * el_shmu el q * (if (k =? 0)%nat then 1 else el_chmu el q ^ k) * leg q) * inner q b)))).

(** quadrature.cpp 188-261: twoe_integral on the precomputed element. *)
Definition twoe_prog (nq : nat) (w : vec) (N : nat) (el : element) (k l : nat) (L : Z) : prog mat :=
  pbind (outer_prog nq w N el k l L) (fun t1 =>
  pbind (outer_prog nq w N el l k L) (fun t2 => Ret (fun a b => t1 a b + t2 b a))).

(** basis.cpp 1364-1377 and 1480-1490: the two-channel kernel of an element. *)
Definition kernel_prog (rb : dradial) (iel n : nat) (L : Z) : prog dmat :=
  let N := d_n rb iel in let w := snd (d_rule rb n) in let el := twoe_el rb iel n in
  pbind (twoe_prog n w N el 0 0 L) (fun T00 =>
  pbind (twoe_prog n w N el 0 2 L) (fun T02 =>
  pbind (twoe_prog n w N el 2 2 L) (fun T22 =>
  Ret (mkD (2 * (N * N)) (2 * (N * N)) (two_channel (N * N) T00 T02 T22))))).

(* ------------------------------------------------------------------ *)
(** * The order of the in-element integrals *)

(** basis.cpp 1357-1362: the entry with the largest L, and the largest M among
    those. *)
Definition hardest (lm : list (Z * Z)) : option (Z * Z) :=
  match lm with
  | [] => None
  | e0 :: _ => Some (fold_left (fun b e =>
      if ((fst e >? fst b) || ((fst e =? fst b) && (snd e >? snd b)))%bool%Z then e else b) lm e0)
  end.

(** basis.cpp 150-199 without seed fallback, as called from
    converged_twoe_order: only the order is kept. *)
Fixpoint order_loop (rb : dradial) (probe : nat -> res dmat) (fuel n : nat) (prev : option dmat) (prevdiff : fp) : res nat :=
  match fuel with
  | O => OutOfFuel
  | S k =>
    bind (probe n) (fun cur =>
    let stop := match prev with
                | None => false
                | Some p => block_stop dmat (d_dist rb) (d_scale rb) (d_tol rb) (d_sqrteps rb) (d_floor rb) cur p prevdiff
                end in
    if stop then Ok n
    else
      let pd := match prev with None => prevdiff | Some p => d_dist rb cur p end in
      if (order_cap <=? n)%nat then Ok n
      else order_loop rb probe k (Nat.min (2 * n) order_cap) (Some cur) pd)
  end.

(** basis.cpp 1334-1382: converged_twoe_order. *)
Definition converged_twoe_order (rb : dradial) (lm : list (Z * Z)) (iel : nat) : res nat :=
  let nstart := if (d_nquad rb <? 5)%Z then 5%Z else d_nquad rb in
  let nstart := if (512 <? nstart)%Z then 512%Z else nstart in
  match hardest lm with
  | None => Ok (Z.to_nat nstart)
  | Some (L, M) =>
    (** every probe has its own cache *)
    order_loop rb (fun n => bind (run_cached (kernel_prog rb iel n L) (mc_new (Z.abs M) L)) (fun r => Ok (fst r)))
      (S order_cap) (Z.to_nat (Z.max nstart 2)) None (Fin (-1))
  end.

(* ------------------------------------------------------------------ *)
(** * Parallel loops *)

(** An iteration of a parallel loop: its private variables, and the stores into
    shared arrays it still has to make, (array, index) with the computation of
    the value stored. *)
Definition cell : Type := (nat * nat)%type.
Record thread (Loc : Type) := mkTh { th_loc : Loc; th_todo : list (cell * (Loc -> res (dmat * Loc))) }.
Arguments mkTh {Loc} _ _.
Arguments th_loc {Loc} _.
Arguments th_todo {Loc} _.

(** Shared memory: arrays of matrices, all of the same size. *)
Definition memory := nat -> nat -> dmat.
Definition mem_put (m : memory) (c : cell) (v : dmat) : memory := fun a i =>
  if (Nat.eqb a (fst c) && Nat.eqb i (snd c))%bool then v else m a i.

Fixpoint set_nth {A} (l : list A) (i : nat) (x : A) : list A :=
  match l, i with
  | [], _ => []
  | _ :: l', O => x :: l'
  | y :: l', S i' => y :: set_nth l' i' x
  end.

(** The next store of iteration t; nothing happens if it has finished or does not
    exist.  A store outside of the array is undefined. *)
Definition par_step {Loc} (size : nat) (s : list (thread Loc) * memory) (t : nat) : res (list (thread Loc) * memory) :=
  match nth_error (fst s) t with
  | None => Ok s
  | Some th =>
    match th_todo th with
    | [] => Ok s
    | (c, act) :: todo =>
      bind (act (th_loc th)) (fun r =>
      if (snd c <? size)%nat
      then Ok (set_nth (fst s) t (mkTh (snd r) todo), mem_put (snd s) c (fst r)) else UB)
    end
  end.

(** Any interleaving: the list says which iteration moves. *)
Definition par_run {Loc} (size : nat) (schedule : list nat) (s : list (thread Loc) * memory)
    : res (list (thread Loc) * memory) := fold_res (par_step size) schedule s.

(** All iterations are done. *)
Definition finished {Loc} (s : list (thread Loc) * memory) : Prop := forall th, In th (fst s) -> th_todo th = [].

(* ------------------------------------------------------------------ *)
(** * compute_tei *)

(** basis.cpp 1397-1399: the end of the run of entries with the same second
    component that starts at i. *)
Fixpoint run_end (fuel : nat) (lm : list (Z * Z)) (M : Z) (j : nat) : nat :=
  match fuel with
  | O => j
  | S f => match nth_error lm j with
           | Some (_, M') => if (M' =? M)%Z then run_end f lm M (S j) else j
           | None => j
           end
  end.
(** basis.cpp 1396-1402: mruns. *)
Fixpoint mruns_from (fuel : nat) (lm : list (Z * Z)) (i : nat) : res (list (nat * nat)) :=
  match fuel with
  | O => OutOfFuel
  | S f =>
    match nth_error lm i with
    | None => Ok []
    | Some (_, M) =>
      let j := run_end (length lm) lm M i in
      bind (mruns_from f lm j) (fun r => Ok ((i, j) :: r))
    end
  end.
Definition mruns (lm : list (Z * Z)) : res (list (nat * nat)) := mruns_from (S (length lm)) lm 0.

(** basis.cpp 1403-1407: the (run, element) pairs. *)
Definition tasks (runs : list (nat * nat)) (Nel : nat) : list (nat * nat) :=
  flat_map (fun g => map (fun iel => (g, iel)) (seq 0 Nel)) (seq 0 (length runs)).

(** basis.cpp 1417-1419, 1474-1476: the largest L of a range of entries. *)
Definition largest_L (lm : list (Z * Z)) (is : list nat) : Z :=
  fold_left (fun m i => Z.max m (fst (nth i lm (0, 0)%Z))) is 0%Z.

(** One assignment disjoint_..[ilm*Nel+iel] = integral(...). *)
Definition store_integral (p : prog (res (dmat * nat))) (c : mcache) : res (dmat * mcache) :=
  bind (run_cached p c) (fun r => bind (fst r) (fun v => Ok (fst v, snd r))).

(** basis.cpp 1412-1429: the body of the loop over tasks.  Arrays 0 to 3 are
    disjoint_P0, disjoint_P2, disjoint_Q0 and disjoint_Q2. *)
Definition disjoint_thread (rb : dradial) (lm : list (Z * Z)) (runs : list (nat * nat)) (t : nat * nat) : thread mcache :=
  let '(g, iel) := t in
  let '(lo, hi) := nth g runs (0, 0)%nat in
  let M := snd (nth lo lm (0, 0)%Z) in
  let is := seq lo (hi - lo) in
  mkTh (mc_new M (largest_L lm is))
    (flat_map (fun ilm =>
       let L := fst (nth ilm lm (0, 0)%Z) in
       let at_ := (ilm * d_Nel rb + iel)%nat in
       [((0, at_)%nat, store_integral (disjoint_integral rb true 0 iel L));
        ((1, at_)%nat, store_integral (disjoint_integral rb true 2 iel L));
        ((2, at_)%nat, store_integral (disjoint_integral rb false 0 iel L));
        ((3, at_)%nat, store_integral (disjoint_integral rb false 2 iel L))]) is).

(** basis.cpp 1536-1543: the columns and the signs as matrices. *)
Definition factor_B (N : nat) (f : list (R * vec)) : dmat :=
  mkD N (length f) (fun i p => snd (nth p f (0, fun _ => 0)) i).
Definition factor_sigma (f : list (R * vec)) : dmat :=
  mkD (length f) 1 (fun p _ => fst (nth p f (0, fun _ => 0))).

(** basis.cpp 1463-1466: the private variables of one element: the cache, curM
    (INT_MIN is None) and the factor computed last. *)
Record eloc := mkEloc { el_cache : mcache; el_curM : option Z; el_factor : list (R * vec) }.

(** basis.cpp 1469-1478: point the cache at the run that starts here. *)
Definition repoint (lm : list (Z * Z)) (ilm : nat) (s : eloc) : eloc :=
  let M := snd (nth ilm lm (0, 0)%Z) in
  if match el_curM s with Some m => (m =? M)%Z | None => false end then s
  else
    let j := run_end (length lm) lm M ilm in
    mkEloc (mc_reset (el_cache s) M (largest_L lm (seq ilm (j - ilm)))) (Some M) (el_factor s).

(** basis.cpp 1467-1545: the two stores for entry ilm. *)
Definition factor_B_step (rb : dradial) (lm : list (Z * Z)) (thresh : R) (iel n ilm : nat) (s : eloc) : res (dmat * eloc) :=
  let s := repoint lm ilm s in
  bind (run_cached (kernel_prog rb iel n (fst (nth ilm lm (0, 0)%Z))) (el_cache s)) (fun r =>
  let W := fst r in
  let f := signed_cholesky (drows W) (dent W) thresh in
  Ok (factor_B (drows W) f, mkEloc (snd r) (el_curM s) f)).
Definition factor_sigma_step (s : eloc) : res (dmat * eloc) := Ok (factor_sigma (el_factor s), s).

(** basis.cpp 1457-1547: the body of the loop over elements at order n.  Arrays 4
    and 5 are cd_B and cd_sigma. *)
Definition factor_thread (rb : dradial) (lm : list (Z * Z)) (thresh : R) (iel n : nat) : thread eloc :=
  mkTh (mkEloc (mc_new 0 0) None [])
    (flat_map (fun ilm =>
       [((4, ilm * d_Nel rb + iel)%nat, factor_B_step rb lm thresh iel n ilm);
        ((5, ilm * d_Nel rb + iel)%nat, factor_sigma_step)]) (seq 0 (length lm))).

(** The iterations that start by looking for the order: if it does not exist the
    element's loop body fails. *)
Definition orders (rb : dradial) (lm : list (Z * Z)) : res (list nat) :=
  fold_res (fun l iel => bind (converged_twoe_order rb lm iel) (fun n => Ok (l ++ [n]))) (seq 0 (d_Nel rb)) [].

(** basis.cpp 1384-1555: compute_tei under given schedules of its two parallel
    loops, which are separated by a barrier.  The result is the shared memory and
    whether all iterations were run to the end. *)
Definition compute_tei_di (rb : dradial) (lm : list (Z * Z)) (thresh : R) (sched1 sched2 : list nat) (mem : memory)
    : res (list (thread mcache) * list (thread eloc) * memory) :=
  let size := (d_Nel rb * length lm)%nat in
  bind (mruns lm) (fun runs =>
  bind (par_run size sched1 (map (disjoint_thread rb lm runs) (tasks runs (d_Nel rb)), mem)) (fun s1 =>
  (** assign: all entries empty *)
  let mem := fun a i => if (Nat.eqb a 4 || Nat.eqb a 5)%bool then dempty else snd s1 a i in
  bind (orders rb lm) (fun ns =>
  bind (par_run size sched2 (map (fun iel => factor_thread rb lm thresh iel (nth iel ns 0%nat)) (seq 0 (d_Nel rb)), mem)) (fun s2 =>
  Ok (fst s1, fst s2, snd s2))))).

(* ------------------------------------------------------------------ *)
(** * Diagnostics *)

(** basis.cpp 739-757: in_element_kernel. *)
Definition in_element_kernel (rb : dradial) (lm : list (Z * Z)) (iel : nat) (L M : Z) : res dmat :=
  bind (converged_twoe_order rb lm iel) (fun n =>
  bind (run_cached (kernel_prog rb iel n L) (mc_new (Z.abs M) L)) (fun r => Ok (fst r))).
End Legendre.
Arguments mkTh {Loc} _ _.
Arguments th_loc {Loc} _.
Arguments th_todo {Loc} _.
