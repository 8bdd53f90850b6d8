(** Model of /repo/src/general/timer.cpp: the timer and its printed times.  Readings of the
    clock are timespec pairs of seconds and nanoseconds; sums of times are exact rationals. *)
Require Import ZArith QArith Qround String Ascii List Bool DecimalString.
Require Import Verif.Prelude.
Import ListNotations.
Open Scope string_scope.
Open Scope Z_scope.

Definition timespec := (Z * Z)%type.
(** timer.cpp 54, 98: (a.tv_sec - b.tv_sec) + (a.tv_nsec - b.tv_nsec) * 1e-9. *)
Definition ts_diff (a b : timespec) : Q :=
  (inject_Z (fst a - fst b) + inject_Z (snd a - snd b) * (1 # 1000000000))%Q.
(** timer.h 38-42. *)
Record timer := mkTimer { tstart : timespec; elapsd : Q }.
(** timer.cpp 30-32, 61-65: the constructor and set(). *)
Definition t_set (now : timespec) : timer := mkTimer now 0%Q.
(** timer.cpp 51-55: stop(). *)
Definition t_stop (now : timespec) (t : timer) : timer := mkTimer (tstart t) (elapsd t + ts_diff now (tstart t))%Q.
(** timer.cpp 57-59: cont(). *)
Definition t_cont (now : timespec) (t : timer) : timer := mkTimer now (elapsd t).
(** timer.cpp 94-99: get(). *)
Definition t_get (now : timespec) (t : timer) : Q := (elapsd t + ts_diff now (tstart t))%Q.

(** trunc, and the cast to a 64-bit size_t, undefined outside its range. *)
Definition q_trunc (q : Q) : Z := if Qle_bool 0 q then Qfloor q else - Qfloor (- q).
Definition to_size (q : Q) : res Z :=
  let z := q_trunc q in if (0 <=? z) && (z <? 2 ^ 64) then Ok z else UB.
(** Printing an unsigned number in decimal. *)
Definition dec (n : Z) : string := NilZero.string_of_uint (N.to_uint (Z.to_N n)).
Definition digit_char (d : Z) : ascii := ascii_of_nat (48 + Z.to_nat d).
(** The last character; timer.cpp 129-131, 141-144, 149-152: a blank unless the text is empty
    or ends in one. *)
Fixpoint last_char (s : string) : option ascii :=
  match s with EmptyString => None | String c EmptyString => Some c | String _ t => last_char t end.
Definition blank (s : string) : string :=
  match last_char s with None => s | Some c => if Ascii.eqb c " "%char then s else s ++ " " end.
(** timer.cpp 115-147: days, hours and minutes; there is nothing to separate from before days.
    The product of two size_t wraps. *)
Definition take (len : Z) (label : string) (st : Q * string) : res (Q * string) :=
  let '(telapsed, ret) := st in
  bind (to_size (telapsed / inject_Z len)) (fun n =>
  if n =? 0 then Ok (telapsed, ret)
  else Ok ((telapsed - inject_Z ((n * len) mod 2 ^ 64))%Q, blank ret ++ dec n ++ label)).
(** sprintf "%.2f": the nearest hundredth, even on a tie. *)
Definition round_even (q : Q) : Z :=
  let f := Qfloor q in
  match Qcompare (q - inject_Z f) (1 # 2) with Lt => f | Gt => f + 1 | Eq => if Z.even f then f else f + 1 end.
Definition fixed2 (t : Q) : string :=
  let neg := negb (Qle_bool 0 t) in
  let h := round_even (100 * (if neg then - t else t)) in
  (if neg then "-" else "") ++ dec (h / 100) ++ "." ++ String (digit_char (h / 10 mod 10)) (String (digit_char (h mod 10)) EmptyString).
(** timer.cpp 105-159: parse.  Seconds are below sixty in size, so the buffer of 80 suffices. *)
Definition parse (telapsed : Q) : res string :=
  bind (take 86400 " d" (telapsed, "")) (fun st =>
  bind (take 3600 " h" st) (fun st =>
  bind (take 60 " min" st) (fun st =>
  Ok (blank (snd st) ++ fixed2 (fst st) ++ " s")))).
(** timer.cpp 101-103: elapsed(). *)
Definition t_elapsed (now : timespec) (t : timer) : res string := parse (t_get now t).
