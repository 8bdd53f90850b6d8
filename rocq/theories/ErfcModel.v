(** Model of /repo/libhelfem/src/erfc_expn.cpp: the Legendre expansion of the complementary
    error function kernel.  Arithmetic is exact; std::erfc and the machine epsilon are
    arguments. *)
Require Import Reals List Arith Bool ZArith.
Require Import Verif.Prelude.
Import ListNotations.
Open Scope R_scope.

(** erfc_expn.cpp:48-53: double_factorial. *)
Fixpoint double_factorial (n : nat) : R :=
  match n with S (S m) => INR n * double_factorial m | _ => 1 end.
(** erfc_expn.cpp:55-60: factorial. *)
Definition factorial (n : nat) : R := fold_left (fun v k => v * INR k) (seq 2 (n - 1)) 1.

(** erfc_expn.cpp:85-91: the product of choose. *)
Definition product (n k : Z) : R := fold_left (fun v i => v * (IZR (n - Z.of_nat i) / IZR (Z.of_nat i + 1))) (seq 0 (Z.to_nat k)) 1.
(** erfc_expn.cpp:62-93: choose; each recursive call takes one unit of fuel. *)
Fixpoint choose (fuel : nat) (n m : Z) : res R :=
  match fuel with
  | O => OutOfFuel
  | S f =>
      if (n =? -1)%Z then Ok (powerRZ (-1) m)
      else if (n =? 0)%Z then Ok (if (m =? 0)%Z then 1 else 0)
      else if (m =? 0)%Z then Ok 1
      else if (m =? 1)%Z then Ok (IZR n)
      else if ((0 <? n) && (0 <? m) && (n <? m))%Z%bool then Ok 0
      else if (n <? 0)%Z then bind (choose f (n + m - 1) m) (fun c => Ok (c * powerRZ (-1) m))
      else Ok (product n (Z.min m (n - m)))
  end.

Section Erfc.
Variables (eps : R) (erfc : R -> R).

(** erfc_expn.cpp:95-112: Fn, for nonzero arguments. *)
Definition Fn (n : nat) (Xi xi : R) : R :=
  let explus := exp (- (Xi + xi) ^ 2) in
  let exminus := exp (- (Xi - xi) ^ 2) in
  let prefac := - 1 / (4 * Xi * xi) in
  2 / sqrt PI * sum (S n) (fun p => prefac ^ (p + 1) * (factorial (n + p) / (factorial p * factorial (n - p))) * ((-1) ^ (n - p) * explus - exminus)).

(** erfc_expn.cpp:115-124: Hn, for nonzero arguments. *)
Definition Hn (n : nat) (Xi xi : R) : res R :=
  if Rltb Xi xi then Throw LogicError
  else
    let Xi2np1 := Xi ^ (2 * n + 1) in
    let xi2np1 := xi ^ (2 * n + 1) in
    Ok (((Xi2np1 + xi2np1) * erfc (Xi + xi) - (Xi2np1 - xi2np1) * erfc (Xi - xi)) / (2 * (xi * Xi) ^ (n + 1))).

(** erfc_expn.cpp:127-144: Phi_general. *)
Definition Phi_general (n : nat) (Xi xi : R) : res R :=
  let '(Xi, xi) := if Rltb Xi xi then (xi, Xi) else (Xi, xi) in
  let total := sum n (fun i => let m := S i in Fn (n - m) Xi xi * ((Xi ^ m * Xi ^ m + xi ^ m * xi ^ m) / (Xi ^ m * xi ^ m))) in
  bind (Hn n Xi xi) (fun h => Ok (Fn n Xi xi + total + h)).

(** erfc_expn.cpp:160-163: the sum of choose(m-k-1,m-1) (2 Xi^2)^(k-m) / (2(n+k-m)+1)!!. *)
Definition Dnk_sum (n k : nat) (Xi : R) : res R :=
  fold_left (fun acc m => bind acc (fun s =>
      bind (choose (S (S k)) (Z.of_nat m - Z.of_nat k - 1) (Z.of_nat m - 1)) (fun c =>
      Ok (s + c * (2 * Xi * Xi) ^ (k - m) / double_factorial (2 * (n + k - m) + 1)))))
    (seq 1 k) (Ok 0).
(** erfc_expn.cpp:147-169: Dnk. *)
Definition Dnk (n k : nat) (Xi : R) : res R :=
  let prefac := exp (- Xi ^ 2) / sqrt PI * 2 ^ (n + 1) * Xi ^ (2 * n + 1) in
  if (k =? 0)%nat then
    Ok (erfc Xi + prefac * sum n (fun i => let m := S i in 1 / (double_factorial (2 * (n - m) + 1) * (2 * Xi * Xi) ^ m)))
  else
    bind (Dnk_sum n k Xi) (fun s =>
    Ok (prefac * (2 * INR n + 1) / (factorial k * (2 * INR (n + k) + 1)) * s)).

(** erfc_expn.cpp:191-202: the loop of Phi_short; [fuel] passes remain before the cap. *)
Fixpoint short_loop (n : nat) (Xi xi : R) (fuel k : nat) (Phi : R) : res R :=
  match fuel with
  | O => Throw RuntimeError
  | S f =>
      bind (Dnk n k Xi) (fun d0 =>
      bind (Dnk n (k + 1) Xi) (fun d1 =>
      let dPhi := d0 * xi ^ (n + 2 * k) + d1 * xi ^ (n + 2 * (k + 1)) in
      let Phi := Phi + dPhi in
      if Rltb (Rabs dPhi) (eps * Rmax (Rabs Phi) 1) then Ok Phi
      else short_loop n Xi xi f (k + 2) Phi))
  end.
(** erfc_expn.cpp:172-214: Phi_short; k takes the 101 values 0, 2, ..., 200. *)
Definition Phi_short (n : nat) (Xi xi : R) : res R :=
  let '(Xi, xi) := if Rltb Xi xi then (xi, Xi) else (Xi, xi) in
  if (Reqb xi 0 && (0 <? n)%nat)%bool then Ok 0
  else if ((n =? 0)%nat && Reqb xi 0 && Reqb Xi 0)%bool then Ok 1
  else bind (short_loop n Xi xi 101 0 0) (fun Phi => Ok (Phi / Xi ^ (n + 1))).

(** erfc_expn.cpp:217-231: Phi. *)
Definition Phi (n : nat) (Xi xi : R) : res R :=
  let '(Xi, xi) := if Rltb Xi xi then (xi, Xi) else (Xi, xi) in
  if (Rltb xi (4 / 10) || (Rltb Xi (5 / 10) && Rltb xi (2 * Xi)))%bool then Phi_short n Xi xi
  else Phi_general n Xi xi.
End Erfc.
