(** Model of the associated Legendre functions, /repo/src/legendre/Legendre.h, over
    exact arithmetic.  The output is the flat array the caller passes; it has room for
    (lmax + 1) (mmax + 1) entries and accesses beyond them are [UB].  Integer overflow
    is not modelled. *)
Require Import Reals List Arith Bool ZArith Rtrigo_def.
Require Import Verif.Prelude.
Import ListNotations.
Open Scope R_scope.

(** T* with its size. *)
Definition rd (size : nat) (a : vec) (i : nat) : res R := if (i <? size)%nat then Ok (a i) else UB.
Definition wr (size : nat) (a : vec) (i : nat) (v : R) : res vec :=
  if (i <? size)%nat then Ok (fun j => if (j =? i)%nat then v else a j) else UB.
(** A loop over the indices [ks]. *)
Fixpoint for_ (ks : list nat) (body : nat -> vec -> res vec) (a : vec) : res vec :=
  match ks with
  | [] => Ok a
  | k :: r => bind (body k a) (for_ r body)
  end.

(** Legendre.h:57-60: idx. *)
Definition idx (l m lmax : nat) : nat := (m * (lmax + 1) + l)%nat.
(** Legendre.h:73-77: sign_factor. *)
Definition sign_factor (x : R) : R := if Rleb (Rabs x) 1 then 1 else -1.
(** Legendre.h:79-84: sqrt_clamped. *)
Definition sqrt_clamped (y : R) : R := sqrt (Rmax y 0).
(** w as it is computed in every function. *)
Definition w_of (x : R) : R := sqrt_clamped (sign_factor x * (1 - x * x)).
(** Legendre.h:87-90: q00. *)
Definition q00 (x : R) : R := 1 / 2 * (ln (Rabs (x + 1)) - ln (Rabs (x - 1))).

Section Tables.
Variables (lmax mmax : nat).
Definition size : nat := ((lmax + 1) * (mmax + 1))%nat.
Notation ix l m := (idx l m lmax).

(** Legendre.h:96-109: seed_plm; the second loop is empty for lmax = 0. *)
Definition seed_plm (x : R) (a : vec) : res vec :=
  let s := sign_factor x in
  let w := w_of x in
  bind (wr size a (ix 0 0) 1) (fun a =>
  bind (for_ (seq 1 (Nat.min mmax lmax)) (fun m a =>
          bind (rd size a (ix (m - 1) (m - 1))) (fun p =>
          wr size a (ix m m) (- s * INR (2 * m - 1) * w * p))) a) (fun a =>
  for_ (seq 0 (Nat.min (mmax + 1) lmax)) (fun m a =>
    bind (rd size a (ix m m)) (fun p =>
    wr size a (ix (m + 1) m) (INR (2 * m + 1) * x * p))) a)).

(** The three-term step of recur_plm_in_l and recur_qlm_in_l_up. *)
Definition up_step (m : nat) (x : R) (l : nat) (a : vec) : res vec :=
  bind (rd size a (ix l m)) (fun p =>
  bind (rd size a (ix (l - 1) m)) (fun q =>
  wr size a (ix (l + 1) m) ((INR (2 * l + 1) * x * p - INR (l + m) * q) / (INR l + 1 - INR m)))).

(** Legendre.h:112-121: recur_plm_in_l: l from m + 1 to lmax - 1. *)
Definition recur_plm_in_l (m : nat) (x : R) (a : vec) : res vec :=
  for_ (seq (m + 1) (lmax - (m + 1))) (up_step m x) a.

(** Legendre.h:123-131: compute_plm. *)
Definition compute_plm (x : R) : res vec :=
  bind (seed_plm x (fun _ => 0)) (fun a =>
  for_ (seq 0 (Nat.min mmax lmax + 1)) (fun m => recur_plm_in_l m x) a).

(** Legendre.h:134-158: seed_qlm.  The branch w == 0 stores infinities and is reached
    for x = 1, -1 only, which qlm rejects: it is left as [UB] here. *)
Definition seed_qlm (x : R) (a : vec) : res vec :=
  let s := sign_factor x in
  let w := w_of x in
  let Q00 := q00 x in
  bind (wr size a (ix 0 0) Q00) (fun a =>
  bind (if (1 <=? lmax)%nat then wr size a (ix 1 0) (x * Q00 - 1) else Ok a) (fun a =>
  if (1 <=? mmax)%nat then
    if Reqb w 0 then UB
    else
      bind (wr size a (ix 0 1) (-1 / w)) (fun a =>
      if (1 <=? lmax)%nat then wr size a (ix 1 1) (- s * w * (Q00 + x / (1 - x * x))) else Ok a)
  else Ok a)).

(** Legendre.h:205-214: recur_qlm_in_l_up: l from 1 to lmax - 1. *)
Definition recur_qlm_in_l_up (m : nat) (x : R) (a : vec) : res vec :=
  for_ (seq 1 (lmax - 1)) (up_step m x) a.

(** Legendre.h:218-227: recur_qlm_in_l_down: l from lmax - 1 down to 1. *)
Definition recur_qlm_in_l_down (m : nat) (x : R) (a : vec) : res vec :=
  for_ (rev (seq 1 (lmax - 1))) (fun l a =>
    bind (rd size a (ix l m)) (fun p =>
    bind (rd size a (ix (l + 1) m)) (fun q =>
    wr size a (ix (l - 1) m) ((INR (2 * l + 1) * x * p - (INR l + 1 - INR m) * q) / INR (l + m))))) a.

(** Legendre.h:230-250: recur_qlm_in_m_up. *)
Definition recur_qlm_in_m_up (x : R) (a : vec) : res vec :=
  if (mmax <? 2)%nat then Ok a
  else
    let s := sign_factor x in
    let w := w_of x in
    if Reqb w 0 then Throw DomainError
    else
      for_ (seq 0 (lmax + 1)) (fun l =>
        for_ (seq 1 (mmax - 1)) (fun m a =>
          bind (rd size a (ix l m)) (fun p =>
          bind (rd size a (ix l (m - 1))) (fun q =>
          wr size a (ix l (m + 1))
             (- INR (2 * m) * x / w * p - s * INR (l + m) * (INR l - INR m + 1) * q))))) a.

(** Legendre.h:254-259: compute_qlm_upward. *)
Definition compute_qlm_upward (x : R) (a : vec) : res vec :=
  bind (if (2 <=? lmax)%nat then recur_qlm_in_l_up 0 x a else Ok a) (fun a =>
  bind (if ((1 <=? mmax) && (2 <=? lmax))%nat%bool then recur_qlm_in_l_up 1 x a else Ok a) (fun a =>
  recur_qlm_in_m_up x a)).

(** Legendre.h:272-299: the four local vectors of compute_qlm_christoffel: entries n and
    n + 1 of P, W, P', W'. *)
Record four := mkFour { fP : R; fW : R; fPp : R; fWp : R }.
Fixpoint christ (x : R) (n : nat) : four * four :=
  match n with
  | O => (mkFour 1 0 0 0, mkFour x 1 1 0)
  | S k =>
      let '(u, v) := christ x k in
      let n := INR (S k) in
      let inv := 1 / (n + 1) in
      let a := 2 * n + 1 in
      (v, mkFour ((a * x * fP v - n * fP u) * inv)
                 ((a * x * fW v - n * fW u) * inv)
                 ((a * (fP v + x * fPp v) - n * fPp u) * inv)
                 ((a * (fW v + x * fWp v) - n * fWp u) * inv))
  end.
Definition christ_at (x : R) (l : nat) : four := fst (christ x l).

(** Legendre.h:272-319: compute_qlm_christoffel; its w is computed without the sign. *)
Definition compute_qlm_christoffel (x : R) (a : vec) : res vec :=
  let Q00 := q00 x in
  bind (for_ (seq 0 (lmax + 1)) (fun l a =>
          wr size a (ix l 0) (fP (christ_at x l) * Q00 - fW (christ_at x l))) a) (fun a =>
  bind (if (1 <=? mmax)%nat then
          let w := sqrt (Rmax (x * x - 1) 0) in
          bind (wr size a (ix 0 1) (-1 / w)) (fun a =>
          for_ (seq 1 lmax) (fun l a =>
            wr size a (ix l 1)
               (w * fPp (christ_at x l) * Q00 - fP (christ_at x l) / w - w * fWp (christ_at x l))) a)
        else Ok a) (fun a =>
  recur_qlm_in_m_up x a)).

(** Legendre.h:323-347: compute_qlm_miller.  [cf x l m] is cf_legendre_ratio (lines
    163-202), a continued fraction summed to rounding accuracy; [seed_low] is the small
    starting value. *)
Variables (cf : R -> nat -> nat -> res R) (seed_low : R).
Definition miller_column (m : nat) (x low0 : R) (a : vec) : res vec :=
  bind (cf x lmax m) (fun ratio =>
  bind (wr size a (ix (lmax - 1) m) seed_low) (fun a =>
  bind (wr size a (ix lmax m) (seed_low * ratio)) (fun a =>
  bind (recur_qlm_in_l_down m x a) (fun a =>
  bind (rd size a (ix 0 m)) (fun q0 =>
  let scale := low0 / q0 in
  for_ (seq 0 (lmax + 1)) (fun l a =>
    bind (rd size a (ix l m)) (fun q => wr size a (ix l m) (q * scale))) a))))).
Definition compute_qlm_miller (x : R) (a : vec) : res vec :=
  bind (if (1 <=? lmax)%nat then miller_column 0 x (q00 x) a else Ok a) (fun a =>
  bind (if ((1 <=? mmax) && (1 <=? lmax))%nat%bool then miller_column 1 x (-1 / w_of x) a else Ok a) (fun a =>
  recur_qlm_in_m_up x a)).

(** Legendre.h:388-394: the radius of the second regime, infinite for lmax = 0. *)
Definition below_xmax (x : R) : bool :=
  if (0 <? lmax)%nat then Rltb (Rabs x) (cosh (ln 1000 / INR (2 * lmax))) else true.

(** Legendre.h:361-399: qlm for nonnegative limits. *)
Definition compute_qlm (x : R) : res vec :=
  if Reqb (Rabs x) 1 then Throw DomainError
  else
    bind (seed_qlm x (fun _ => 0)) (fun a =>
    if Rleb (Rabs x) 1 then compute_qlm_upward x a
    else if below_xmax x then compute_qlm_christoffel x a
    else compute_qlm_miller x a).
End Tables.

(** Legendre.h:353-359, 361-365: plm and qlm, with the test of the limits. *)
Definition plm (lmax mmax : Z) (x : R) : res vec :=
  if ((lmax <? 0) || (mmax <? 0))%Z then Throw InvalidArgument
  else compute_plm (Z.to_nat lmax) (Z.to_nat mmax) x.
Definition qlm (cf : R -> nat -> nat -> res R) (seed_low : R) (lmax mmax : Z) (x : R) : res vec :=
  if ((lmax <? 0) || (mmax <? 0))%Z then Throw InvalidArgument
  else compute_qlm (Z.to_nat lmax) (Z.to_nat mmax) cf seed_low x.
