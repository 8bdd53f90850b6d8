(** Model of the evaluation of finite element functions and of the radial basis:
    /repo/libhelfem/src/FiniteElementBasis.cpp (continuity check, eval_dnf,
    eval_over_r, the element matrices) and /repo/libhelfem/src/RadialBasis.cpp
    (radial functions, caches, orbitals, values at the nucleus, one-electron and
    confinement matrices).  Arithmetic is exact. *)
Require Import Reals List Arith Bool ZArith.
Require Import Verif.Prelude Verif.FEModel Verif.ShapeModel Verif.QuadModel.
Import ListNotations.
Open Scope R_scope.

(* ------------------------------------------------------------------ *)
(** * Evaluation in an element *)

(** FiniteElementBasis.cpp:341-354: eval_dnf(x, n, iel) at one point; [x0] are the
    nodes of the primitive basis. *)
Definition fe_dnf (b : fe) (x0 : vec) (n iel : nat) (x : R) : res (list R) :=
  bind (basis_indices b iel) (fun en =>
  bind (scaling_factor b iel) (fun s =>
  eval_dnf (fe_fam b) (fe_n b) x0 en n s x)).

(** FiniteElementBasis.cpp:357-368: eval_over_r(x, n, iel); the tolerance is 1e-14. *)
Definition fe_over_r (b : fe) (x0 : vec) (n iel : nat) (x : R) : res (list R) :=
  bind (element_begin b iel) (fun s0 =>
  if Rltb (1 / 10 ^ 14) (Rabs s0) then Throw LogicError
  else bind (basis_indices b iel) (fun en =>
       bind (scaling_factor b iel) (fun s =>
       eval_over_r (fe_fam b) (fe_n b) x0 en n s x))).

(** Eigen tail and head; more entries than there are is out of bounds. *)
Definition tail_ (n : nat) (l : list R) : res (list R) :=
  if (n <=? length l)%nat then Ok (skipn (length l - n) l) else UB.
Definition head_ (n : nat) (l : list R) : res (list R) :=
  if (n <=? length l)%nat then Ok (firstn n l) else UB.

(** Run over a list, stop at the first failure. *)
Fixpoint each {A B} (f : A -> res B) (l : list A) : res (list B) :=
  match l with
  | [] => Ok []
  | a :: l' => bind (f a) (fun v => bind (each f l') (fun r => Ok (v :: r)))
  end.

(** Square of the Frobenius norm of a difference of two lists of columns. *)
Definition diff2 (lh rh : list (list R)) : R :=
  lsum (combine lh rh) (fun c => lsum (combine (fst c) (snd c)) (fun p => (fst p - snd p) ^ 2)).

(** FiniteElementBasis.cpp:73-136: one pass of the loop of check_bf_continuity; the
    result is dnorm(iel).  [eps] is DBL_EPSILON. *)
Definition border_norm (eps : R) (b : fe) (x0 : vec) (iel : nat) : res R :=
  bind (eval_coord b 1 iel) (fun rl =>
  bind (eval_coord b (-1) (S iel)) (fun rr =>
  if Rltb (10 * eps * (1 + Rabs rl)) (Rabs (rl - rr)) then Throw LogicError
  else
    let nov := noverlap (fe_fam b) in
    bind (each (fun k => bind (fe_dnf b x0 k iel 1) (tail_ nov)) (seq 0 nov)) (fun lh =>
    bind (each (fun k => bind (fe_dnf b x0 k (S iel) (-1)) (head_ nov)) (seq 0 nov)) (fun rh =>
    Ok (sqrt (diff2 lh rh)))))).

(** FiniteElementBasis.cpp:67-155: check_bf_continuity (called by the constructor,
    line 44). *)
Definition check_bf_continuity (eps : R) (b : fe) (x0 : vec) : res unit :=
  if (get_nelem b =? 1)%nat then Ok tt
  else bind (each (border_norm eps b x0) (seq 0 (get_nelem b - 1))) (fun d =>
       if existsb (fun v => Rltb (sqrt eps) v) d then Throw LogicError else Ok tt).

(* ------------------------------------------------------------------ *)
(** * Radial functions *)

(** The members of FEMRadialBasisT that determine its behaviour: the finite element
    basis, its nodes and the quadrature rule (libhelfem/include/RadialBasis.h:72-78). *)
Record rad := mkRad { rb_fe : fe; rb_x0 : vec; rb_xq : list R; rb_wq : list R }.

(** RadialBasis.cpp:868-877: get_bf(x, iel) at one point. *)
Definition get_bf (rb : rad) (iel : nat) (x : R) : res (list R) :=
  if (iel =? 0)%nat then fe_over_r (rb_fe rb) (rb_x0 rb) 0 iel x
  else bind (fe_dnf (rb_fe rb) (rb_x0 rb) 0 iel x) (fun val =>
       bind (eval_coord (rb_fe rb) x iel) (fun r =>
       Ok (map (fun v => v / r) val))).

(** RadialBasis.cpp:887-901: get_df(x, iel). *)
Definition get_df (rb : rad) (iel : nat) (x : R) : res (list R) :=
  if (iel =? 0)%nat then fe_over_r (rb_fe rb) (rb_x0 rb) 1 iel x
  else bind (fe_dnf (rb_fe rb) (rb_x0 rb) 0 iel x) (fun f =>
       bind (fe_dnf (rb_fe rb) (rb_x0 rb) 1 iel x) (fun d =>
       bind (eval_coord (rb_fe rb) x iel) (fun r =>
       let invr := 1 / r in
       Ok (map (fun p => (- fst p * invr + snd p) * invr) (combine f d))))).

(** RadialBasis.cpp:911-928: get_lf(x, iel). *)
Definition get_lf (rb : rad) (iel : nat) (x : R) : res (list R) :=
  if (iel =? 0)%nat then fe_over_r (rb_fe rb) (rb_x0 rb) 2 iel x
  else bind (fe_dnf (rb_fe rb) (rb_x0 rb) 0 iel x) (fun f =>
       bind (fe_dnf (rb_fe rb) (rb_x0 rb) 1 iel x) (fun d =>
       bind (fe_dnf (rb_fe rb) (rb_x0 rb) 2 iel x) (fun l =>
       bind (eval_coord (rb_fe rb) x iel) (fun r =>
       let invr := 1 / r in
       Ok (map (fun p => ((2 * fst p * invr - 2 * fst (snd p)) * invr + snd (snd p)) * invr)
               (combine f (combine d l))))))).

(** RadialBasis.cpp:930-953: get_wrad(iel), get_r(iel). *)
Definition get_wrad (rb : rad) (iel : nat) : res (list R) :=
  bind (scaling_factor (rb_fe rb) iel) (fun s => Ok (map (fun w => s * w) (rb_wq rb))).
Definition get_r (rb : rad) (iel : nat) : res (list R) :=
  each (fun x => eval_coord (rb_fe rb) x iel) (rb_xq rb).

(* ------------------------------------------------------------------ *)
(** * Caches *)

(** A matrix of values at the quadrature points, by rows. *)
Notation table := (list (list R)).
(** size() != 0. *)
Definition sized (m : table) : bool := existsb (fun r => negb (length r =? 0)%nat) m.

(** The evaluators at all quadrature points (get_bf(xq, iel) etc.). *)
Definition bf_table (rb : rad) (iel : nat) : res table := each (get_bf rb iel) (rb_xq rb).
Definition df_table (rb : rad) (iel : nat) : res table := each (get_df rb iel) (rb_xq rb).
Definition lf_table (rb : rad) (iel : nat) : res table := each (get_lf rb iel) (rb_xq rb).

(** RadialBasis.h:86-95: bfq_cache, dfq_cache, lfq_cache. *)
Record cache := mkCache { bfq : list table; dfq : list table; lfq : list table }.

(** RadialBasis.cpp:826-828: assign(Nel, empty) unless the size fits. *)
Definition resized (nel : nat) (c : list table) : list table :=
  if (length c =? nel)%nat then c else repeat [] nel.

(** c[i] = m. *)
Definition put (c : list table) (i : nat) (m : table) : list table :=
  map (fun j => if (j =? i)%nat then m else nth j c []) (seq 0 (length c)).

(** One of the three statements of the loop body (lines 830-832): an exception leaves
    what was stored before it. *)
Definition fill1 (need : bool) (ev : res table) (c : list table) (iel : nat) : list table * res unit :=
  if (need && negb (sized (nth iel c [])))%bool then
    match ev with
    | Ok m => (put c iel m, Ok tt)
    | Throw e => (c, Throw e)
    | UB => (c, UB)
    | OutOfFuel => (c, OutOfFuel)
    end
  else (c, Ok tt).

(** RadialBasis.cpp:829-833: the loop. *)
Fixpoint fill_loop (rb : rad) (need_df need_lf : bool) (els : list nat) (c : cache) : cache * res unit :=
  match els with
  | [] => (c, Ok tt)
  | iel :: els' =>
      let '(b1, o1) := fill1 true (bf_table rb iel) (bfq c) iel in
      match o1 with
      | Ok _ =>
          let '(d1, o2) := fill1 need_df (df_table rb iel) (dfq c) iel in
          match o2 with
          | Ok _ =>
              let '(l1, o3) := fill1 need_lf (lf_table rb iel) (lfq c) iel in
              match o3 with
              | Ok _ => fill_loop rb need_df need_lf els' (mkCache b1 d1 l1)
              | _ => (mkCache b1 d1 l1, o3)
              end
          | _ => (mkCache b1 d1 (lfq c), o2)
          end
      | _ => (mkCache b1 (dfq c) (lfq c), o1)
      end
  end.

(** RadialBasis.cpp:823-834: fill_quadrature_cache. *)
Definition fill_quadrature_cache (rb : rad) (need_df need_lf : bool) (c : cache) : cache * res unit :=
  let nel := get_nelem (rb_fe rb) in
  fill_loop rb need_df need_lf (seq 0 nel) (mkCache (resized nel (bfq c)) (resized nel (dfq c)) (resized nel (lfq c))).

(** RadialBasis.cpp:837-841, 880-884, 904-908: get_bf(iel), get_df(iel), get_lf(iel). *)
Definition from_cache (c : list table) (iel : nat) (ev : res table) : res table :=
  if ((iel <? length c)%nat && sized (nth iel c []))%bool then Ok (nth iel c []) else ev.
Definition get_bf_q (rb : rad) (c : cache) (iel : nat) : res table := from_cache (bfq c) iel (bf_table rb iel).
Definition get_df_q (rb : rad) (c : cache) (iel : nat) : res table := from_cache (dfq c) iel (df_table rb iel).
Definition get_lf_q (rb : rad) (c : cache) (iel : nat) : res table := from_cache (lfq c) iel (lf_table rb iel).

(** What can happen to a basis object: a fill, or the assignment of a new basis (the
    implicit copy assignment also copies the caches, which are empty after construction). *)
Inductive event := Fill (need_df need_lf : bool) | Replace (rb : rad).
Definition step (s : rad * cache) (e : event) : rad * cache :=
  match e with
  | Fill nd nl => (fst s, fst (fill_quadrature_cache (fst s) nd nl (snd s)))
  | Replace rb => (rb, mkCache [] [] [])
  end.
Definition run (rb : rad) (es : list event) : rad * cache := fold_left step es (rb, mkCache [] [] []).

(* ------------------------------------------------------------------ *)
(** * Orbitals *)

(** val * C.block(ifirst, 0, n, ncol), one column. *)
Definition column (C : mat) (ifirst : nat) (val : list R) (j : nat) : R :=
  sum (length val) (fun k => nth k val 0 * C (ifirst + k)%nat j).

(** RadialBasis.cpp:846-866: eval_orbs(C, r) for a finite r. *)
Definition eval_orbs (rb : rad) (C : mat) (ncol : nat) (r : R) (fuel : nat) : res (list R) :=
  let b := rb_fe rb in
  bind (element_end b (get_nelem b - 1)) (fun rmax =>
  if Rltb rmax r then Ok (repeat 0 ncol)
  else
    bind (find_element b (Fin r) fuel) (fun iel =>
    bind (eval_prim b r iel) (fun x =>
    bind (get_bf rb iel x) (fun val =>
    bind (get_idx b iel) (fun fl =>
    Ok (map (column C (Z.to_nat (fst fl)) val) (seq 0 ncol))))))).

(** RadialBasis.cpp:966-984: nuclear_density(Prad); rows and cols are its dimensions. *)
Definition nuclear_density (rb : rad) (P : mat) (rows cols : nat) : res R :=
  let b := rb_fe rb in
  bind (get_nbf b) (fun nbf =>
  if negb (Z.of_nat rows =? nbf)%Z || negb (Z.of_nat cols =? nbf)%Z then Throw LogicError
  else
    bind (fe_dnf b (rb_x0 rb) 1 0 (-1)) (fun der =>
    bind (get_idx b 0) (fun fl =>
    let f := Z.to_nat (fst fl) in
    Ok (sum (length der) (fun u => sum (length der) (fun v =>
          nth u der 0 * P (f + u)%nat (f + v)%nat * nth v der 0)))))).

(** RadialBasis.cpp:986-1001: nuclear_density_gradient. *)
Definition nuclear_density_gradient (rb : rad) (P : mat) (rows cols : nat) : res R :=
  let b := rb_fe rb in
  bind (get_nbf b) (fun nbf =>
  if negb (Z.of_nat rows =? nbf)%Z || negb (Z.of_nat cols =? nbf)%Z then Throw LogicError
  else
    bind (fe_dnf b (rb_x0 rb) 1 0 (-1)) (fun der =>
    bind (fe_dnf b (rb_x0 rb) 2 0 (-1)) (fun lapl =>
    bind (get_idx b 0) (fun fl =>
    let f := Z.to_nat (fst fl) in
    Ok (sum (length der) (fun u => sum (length der) (fun v =>
          nth u der 0 * P (f + u)%nat (f + v)%nat * nth v lapl 0))))))).

(** RadialBasis.cpp:1003-1012: nuclear_orbital(C). *)
Definition nuclear_orbital (rb : rad) (C : mat) (ncol : nat) : res (list R) :=
  bind (fe_dnf (rb_fe rb) (rb_x0 rb) 1 0 (-1)) (fun der =>
  bind (get_idx (rb_fe rb) 0) (fun fl =>
  Ok (map (column C (Z.to_nat (fst fl)) der) (seq 0 ncol)))).

(* ------------------------------------------------------------------ *)
(** * Matrices *)

(** RadialBasis.h: BasisKind. *)
Inductive kind := B0 | B1 | B2 | R0 | R1 | R2.

(** RadialBasis.cpp:259-284: make_evaluator. *)
Definition kind_eval (rb : rad) (k : kind) (iel : nat) (x : R) : res (list R) :=
  match k with
  | B0 => fe_dnf (rb_fe rb) (rb_x0 rb) 0 iel x
  | B1 => fe_dnf (rb_fe rb) (rb_x0 rb) 1 iel x
  | B2 => fe_dnf (rb_fe rb) (rb_x0 rb) 2 iel x
  | R0 => get_bf rb iel x
  | R1 => get_df rb iel x
  | R2 => get_lf rb iel x
  end.

(** Column [i] of an evaluated row. *)
Definition col (o : res (list R)) (i : nat) : R := match o with Ok l => nth i l 0 | _ => 0 end.

Section Matrices.
(** lobatto_compute(n, x, w). *)
Variables (lobx lobw : nat -> vec).
(** cwiseAbs().maxCoeff() of a difference and of a block, 8 eps, sqrt(eps). *)
Variables (dist : mat -> mat -> fp) (scale : mat -> fp) (tol sqrteps : R).

(** FiniteElementBasis.cpp:501-553: converge_panel. *)
Definition panel (rb : rad) (iel : nat) (bra ket : kind) (f : R -> option R) (mid sf : R) (nstart : Z)
    (a b : R) : mat :=
  match converge_rule mat dist scale tol sqrteps
          (fun n => element_block mid sf a b n (lobx n) (lobw n) f
                      (fun x i => col (kind_eval rb bra iel x) i) (fun x i => col (kind_eval rb ket iel x) i))
          order_cap nstart with
  | Ok (_, B) => B
  | _ => mzero
  end.

(** RadialBasis.cpp:287-296, 310-320 and FiniteElementBasis.cpp:556-605: matrix_element
    of one element.  Whether an evaluation throws does not depend on the point: it is
    decided here at the first Lobatto node. *)
Definition me_range (rb : rad) (iel : nat) (bra ket : kind) (f : R -> option R) (bps : list R) (deg : Z)
    (xl xr : R) : res mat :=
  let b := rb_fe rb in
  bind (element_midpoint b iel) (fun mid =>
  bind (scaling_factor b iel) (fun sf =>
  bind (kind_eval rb bra iel xl) (fun _ =>
  bind (kind_eval rb ket iel xl) (fun _ =>
  let nstart := auto_nstart (Z.of_nat (noverlap (fe_fam b))) (Z.of_nat (fe_n b)) deg in
  Ok (matrix_element_auto (panel rb iel bra ket f mid sf nstart) mid sf xl xr bps))))).
Definition me (rb : rad) (iel : nat) (bra ket : kind) (f : R -> option R) (bps : list R) (deg : Z) : res mat :=
  me_range rb iel bra ket f bps deg (-1) 1.

(** The blocks of all elements, computed in a parallel loop: an exception that leaves
    the loop ends the program ([UB] here). *)
Definition par (o : res (list mat)) : res (list mat) := match o with Ok l => Ok l | _ => UB end.

(** FiniteElementBasis.cpp:608-633: the sum over the elements. *)
Definition me_all (rb : rad) (bra ket : kind) (f : R -> option R) (bps : list R) (deg : Z) : res mat :=
  let b := rb_fe rb in
  bind (par (each (fun iel => me rb iel bra ket f bps deg) (seq 0 (get_nelem b)))) (fun blk =>
  Ok (matrix_element b (fun iel => nth iel blk mzero))).

(** No weight function. *)
Definition no_weight : R -> option R := fun _ => Some 1.
Definition r_weight : R -> option R := fun r => Some r.

Definition scaled (s : R) (o : res mat) : res mat := bind o (fun M => Ok (mscal s M)).

(** RadialBasis.cpp:480-498: overlap, kinetic, kinetic_l, nuclear. *)
Definition overlap (rb : rad) : res mat := me_all rb B0 B0 no_weight [] 0.
Definition kinetic (rb : rad) : res mat := scaled (1 / 2) (me_all rb B1 B1 no_weight [] 0).
Definition kinetic_l (rb : rad) : res mat := scaled (1 / 2) (me_all rb R0 R0 no_weight [] (-1)).
Definition nuclear (rb : rad) : res mat := scaled (-1) (me_all rb R0 R0 r_weight [] (-1)).

(** RadialBasis.cpp:243-256: radial_integral(Rexp, iel). *)
Definition radial_integral (rb : rad) (e : Z) (iel : nat) : res mat :=
  me_range rb iel R0 R0 (fun r => if (Reqb r 0 && (e + 2 <? 0)%Z)%bool then None else Some (powerRZ r (e + 2))) [] (-1) (-1) 1.

(** RadialBasis.cpp:501-511: polynomial_confinement. *)
Definition polynomial_confinement (rb : rad) (iel : nat) (N : Z) (shift : R) : res mat :=
  me rb iel R0 R0
     (fun r => if Rltb r shift then Some 0
               else if (Reqb r shift && (N + 2 <? 0)%Z)%bool then None
               else Some (powerRZ (r - shift) (N + 2))) [shift] (-1).

(** RadialBasis.cpp:518-531: the weight of exponential_confinement; the loop over k
    carries (V, fact, r_ratio^k). *)
Fixpoint exp_loop (n : nat) (x : R) : R * R * R :=
  match n with
  | O => (0, 1, 1)
  | S k => let '(v, fact, p) := exp_loop k x in (v - p / fact, fact * (INR k + 1), p * x)
  end.
Definition exp_weight (N : nat) (r0 shift r : R) : R :=
  if Rltb r shift then 0
  else let x := (r - shift) / r0 in
       let '(v, fact, _) := exp_loop N x in (v + exp x) * fact.
Definition exponential_confinement (rb : rad) (iel : nat) (N : nat) (r0 shift : R) : res mat :=
  me rb iel B0 B0 (fun r => Some (exp_weight N r0 shift r)) [shift] (-1).

(** RadialBasis.cpp:536-543: barrier_confinement. *)
Definition barrier_confinement (rb : rad) (iel : nat) (V shift : R) : res mat :=
  me rb iel B0 B0 (fun r => Some (if Rltb r shift then 0 else V)) [shift] (-1).

(** RadialBasis.cpp:546-556: junq_confinement.  At r = shift the exponential is
    exp(-inf) = 0; at r = r_c the quotient is infinite. *)
Definition junq_confinement (rb : rad) (iel : nat) (N : nat) (V0 rc shift : R) : res mat :=
  me rb iel B0 B0
     (fun r => if Rltb r shift then Some 0
               else if Reqb r rc then None
               else if Reqb r shift then Some 0
               else Some (V0 * exp (- (rc - shift) / (r - shift)) / (rc - r) ^ N)) [shift] (-1).

(** RadialBasis.cpp:559-607: confinement_potential; get_bval().maxCoeff() is the largest
    boundary. *)
Definition bmax (b : fe) : R := fold_left Rmax (fe_bval b) (hd 0 (fe_bval b)).
Definition confinement_potential (rb : rad) (iel : nat) (N : Z) (r0 : R) (iconf : Z) (V shift : R) : res mat :=
  let sign := if Rltb r0 0 then -1 else 1 in
  let r0 := Rabs r0 in
  if (iconf =? 1)%Z then
    if (N <? 0)%Z then
      if negb (Reqb shift 0) then Throw LogicError
      else scaled (sign * powerRZ r0 N) (polynomial_confinement rb iel N shift)
    else scaled (sign * powerRZ r0 (- N)) (polynomial_confinement rb iel N shift)
  else if (iconf =? 2)%Z then
    if (N <? 0)%Z then Throw LogicError
    else if (N =? 0)%Z then Throw LogicError
    else exponential_confinement rb iel (Z.to_nat N) r0 shift
  else if (iconf =? 3)%Z then
    if Rltb V 0 then Throw LogicError else barrier_confinement rb iel V shift
  else if (iconf =? 4)%Z then
    if (N <=? 0)%Z then Throw LogicError
    else if Rleb V 0 then Throw LogicError
    else junq_confinement rb iel (Z.to_nat N) V (bmax (rb_fe rb)) shift
  else Throw LogicError.

(** RadialBasis.cpp:629-651: nuclear_offcenter(iel, Rhalf, L). *)
Definition nuclear_offcenter (rb : rad) (iel : nat) (Rhalf : R) (L : nat) : res mat :=
  bind (element_begin (rb_fe rb) iel) (fun s =>
  if Rleb Rhalf s then
    scaled (- sqrt (4 * PI / INR (2 * L + 1)) * Rhalf ^ L) (radial_integral rb (- Z.of_nat L - 1) iel)
  else bind (element_end (rb_fe rb) iel) (fun e =>
  if Rleb e Rhalf then
    scaled (- sqrt (4 * PI / INR (2 * L + 1)) * powerRZ Rhalf (- Z.of_nat L - 1)) (radial_integral rb (Z.of_nat L) iel)
  else Throw LogicError)).
End Matrices.
