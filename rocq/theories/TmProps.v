(** Statements about timers, and cases that meet their hypotheses. *)
Require Import ZArith QArith String Ascii List Bool Lia Lqa DecimalString.
Require Import Verif.Prelude Verif.TmModel Verif.TmSpec Verif.TmProofs.
Import ListNotations.
Open Scope string_scope.
Open Scope Z_scope.

(** C139 *)
Theorem C139_stopwatch : forall a es now, proper (Running 0 (instant a)) es -> running (wafter (Running 0 (instant a)) es) ->
  (t_get now (after (t_set a) es) == shows (wafter (Running 0 (instant a)) es) now)%Q.
Proof. exact stopwatch. Qed.
Example C139_stopwatch_ex : let es := [(EStop, (10, 0)); (ECont, (20, 500000000))] in
  proper (Running 0%Q (instant (5, 0))) es /\ running (wafter (Running 0%Q (instant (5, 0))) es) /\ Qeq (t_get (30, 750000000) (after (t_set (5, 0)) es)) (61 # 4).
Proof. cbn. repeat split. Qed.
Theorem C139_paused : forall a es x s b now, proper (Running 0 (instant a)) es -> wafter (Running 0 (instant a)) es = Running x s ->
  (t_get now (after (t_set a) (es ++ [(EStop, b)])%list) == shows (wafter (Running 0 (instant a)) (es ++ [(EStop, b)])%list) now + (instant now - s))%Q.
Proof. exact paused. Qed.
Example C139_paused_ex : Qeq (t_get (15, 0) (after (t_set (5, 0)) [(EStop, (10, 0))])) 15%Q /\ Qeq (shows (wafter (Running 0%Q (instant (5, 0))) [(EStop, (10, 0))]) (15, 0)) 5%Q.
Proof. split; reflexivity. Qed.
Theorem C139_nonnegative : forall es t a now, (0 <= elapsd t)%Q -> (instant (tstart t) <= instant a)%Q -> ascending a es now ->
  (0 <= t_get now (after t es))%Q.
Proof. exact nonneg. Qed.
Example C139_nonnegative_ex : ascending (5, 999999999) [(EStop, (6, 0)); (EStop, (6, 0)); (ECont, (7, 3))] (8, 0).
Proof. cbn. repeat split; vm_compute; discriminate. Qed.
Theorem C139_stop_refuted : ~ (forall a es now, ascending a es now -> (t_get now (after (t_set a) es) == shows (wafter (Running 0 (instant a)) es) now)%Q).
Proof. exact stop_counts_twice. Qed.
Theorem C139_cont_refuted : ~ (forall a es now, ascending a es now -> ~ In EStop (map fst es) -> (t_get now (after (t_set a) es) == shows (wafter (Running 0 (instant a)) es) now)%Q).
Proof. exact cont_forgets. Qed.

(** C140 *)
Theorem C140_text : forall t, (0 <= t)%Q -> (t < inject_Z (2 ^ 64))%Q -> exists d h m c,
  parse t = Ok (time_text d h m c) /\ 0 <= d /\ 0 <= h < 24 /\ 0 <= m < 60 /\ 0 <= c <= 6000 /\
  (- (1 # 200) <= inject_Z (d * 86400 + h * 3600 + m * 60) + inject_Z c * (1 # 100) - t)%Q /\
  (inject_Z (d * 86400 + h * 3600 + m * 60) + inject_Z c * (1 # 100) - t <= 1 # 200)%Q.
Proof. exact parse_ok. Qed.
Example C140_text_ex : parse (9374125 # 100)%Q = Ok "1 d 2 h 2 min 21.25 s" /\ parse (725 # 1000)%Q = Ok "0.72 s" /\ parse 86401%Q = Ok "1 d 1.00 s".
Proof. repeat split; vm_compute; reflexivity. Qed.
Theorem C140_decimal : forall n, 0 <= n -> exists u, NilZero.uint_of_string (dec n) = Some u /\ Z.of_N (N.of_uint u) = n.
Proof. exact dec_reads. Qed.
Example C140_decimal_ex : dec 1042 = "1042" /\ dec 0 = "0".
Proof. split; reflexivity. Qed.
Theorem C140_sixty_refuted : ~ (forall t d h m c, (0 <= t)%Q -> parse t = Ok (time_text d h m c) -> 0 <= c -> c < 6000).
Proof. exact sixty_seconds. Qed.
Example C140_sixty_ex : parse (59999 # 1000)%Q = Ok "60.00 s".
Proof. vm_compute. reflexivity. Qed.
Theorem C140_clock_refuted : ~ (forall a now, exists s, t_elapsed now (t_set a) = Ok s).
Proof. exact clock_back. Qed.
Example C140_clock_ex : t_elapsed (940, 0) (t_set (1000, 0)) = UB /\ t_elapsed (970, 0) (t_set (1000, 0)) = Ok "-30.00 s".
Proof. split; vm_compute; reflexivity. Qed.

Print Assumptions C139_stopwatch.
Print Assumptions C139_paused.
Print Assumptions C139_nonnegative.
Print Assumptions C139_stop_refuted.
Print Assumptions C139_cont_refuted.
Print Assumptions C140_text.
Print Assumptions C140_decimal.
Print Assumptions C140_sixty_refuted.
Print Assumptions C140_clock_refuted.
