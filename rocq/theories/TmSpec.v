(** Vocabulary for timers: a stopwatch, and times in words. *)
Require Import ZArith QArith String Ascii List Bool.
Require Import Verif.Prelude Verif.TmModel.
Import ListNotations.
Open Scope string_scope.
Open Scope Z_scope.

Inductive event := ESet | EStop | ECont.
(** What the timer does with events at given readings of the clock. *)
Definition act (t : timer) (e : event * timespec) : timer :=
  match fst e with ESet => t_set (snd e) | EStop => t_stop (snd e) t | ECont => t_cont (snd e) t end.
Definition after (t : timer) (es : list (event * timespec)) : timer := fold_left act es t.

(** The time of a reading. *)
Definition instant (a : timespec) : Q := (inject_Z (fst a) + inject_Z (snd a) * (1 # 1000000000))%Q.
(** A stopwatch: a total, and the start of the current run if it runs. *)
Inductive watch := Running (total since : Q) | Paused (total : Q).
Definition wact (w : watch) (e : event * timespec) : watch :=
  match fst e, w with
  | ESet, _ => Running 0 (instant (snd e))
  | EStop, Running a s => Paused (a + (instant (snd e) - s))
  | EStop, Paused a => Paused a
  | ECont, Running a s => Running a s
  | ECont, Paused a => Running a (instant (snd e))
  end.
Definition wafter (w : watch) (es : list (event * timespec)) : watch := fold_left wact es w.
Definition shows (w : watch) (now : timespec) : Q :=
  match w with Running a s => (a + (instant now - s))%Q | Paused a => a end.
(** Stop only while running, continue only while paused. *)
Fixpoint proper (w : watch) (es : list (event * timespec)) : Prop :=
  match es with
  | [] => True
  | e :: es => (match fst e, w with EStop, Paused _ => False | ECont, Running _ _ => False | _, _ => True end) /\ proper (wact w e) es
  end.
Definition running (w : watch) : Prop := match w with Running _ _ => True | Paused _ => False end.
(** Readings that never go back, from reading a on. *)
Fixpoint ascending (a : timespec) (es : list (event * timespec)) (now : timespec) : Prop :=
  match es with
  | [] => (instant a <= instant now)%Q
  | e :: es => (instant a <= instant (snd e))%Q /\ ascending (snd e) es now
  end.

(** Days, hours, minutes and hundredths of a second in words; parts that are zero are left
    out, except the seconds. *)
Definition part (n : Z) (label : string) : list string := if n =? 0 then [] else [dec n ++ label].
Definition two_digits (n : Z) : string := String (digit_char (n / 10)) (String (digit_char (n mod 10)) EmptyString).
Definition seconds_text (c : Z) : string := dec (c / 100) ++ "." ++ two_digits (c mod 100) ++ " s".
Definition time_text (d h m c : Z) : string :=
  String.concat " " (part d " d" ++ part h " h" ++ part m " min" ++ [seconds_text c])%list.
