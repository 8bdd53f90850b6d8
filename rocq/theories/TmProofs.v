(** Proofs about timers. *)
Require Import ZArith QArith Qround String Ascii List Bool Lia Lqa DecimalString DecimalN.
Require Import Verif.Prelude Verif.TmModel Verif.TmSpec.
Import ListNotations.
Open Scope string_scope.
Open Scope Z_scope.

Lemma diff_instant a b : (ts_diff a b == instant a - instant b)%Q.
Proof. unfold ts_diff, instant. rewrite !inject_Z_minus || (unfold Z.sub; rewrite !inject_Z_plus, !inject_Z_opp). ring. Qed.
(** The timer agrees with the watch. *)
Definition agrees (t : timer) (w : watch) : Prop :=
  match w with
  | Running a s => (elapsd t == a)%Q /\ (instant (tstart t) == s)%Q
  | Paused a => (elapsd t == a)%Q
  end.
Lemma agree_after es : forall t w, agrees t w -> proper w es -> agrees (after t es) (wafter w es).
Proof.
  induction es as [|[e a] es IH]; intros t w A P; [exact A|]. cbn [after wafter fold_left proper] in *. destruct P as [P1 P2].
  apply IH; [|exact P2]. clear IH P2.
  destruct e, w as [x s|x]; cbn [fst snd] in P1; cbn [agrees act wact fst snd t_set t_stop t_cont elapsd tstart] in *; try contradiction.
  - split; reflexivity.
  - split; reflexivity.
  - destruct A as [A1 A2]. rewrite diff_instant, A1, A2. reflexivity.
  - split; [exact A | reflexivity].
Qed.
Lemma stopwatch a es now : proper (Running 0 (instant a)) es -> running (wafter (Running 0 (instant a)) es) ->
  (t_get now (after (t_set a) es) == shows (wafter (Running 0 (instant a)) es) now)%Q.
Proof.
  intros P Rn. assert (A : agrees (after (t_set a) es) (wafter (Running 0 (instant a)) es)) by (apply agree_after; [split; reflexivity | exact P]).
  destruct (wafter _ es) as [x s|x]; cbn [running] in Rn; [|contradiction]. destruct A as [A1 A2]. unfold t_get. cbn [shows]. rewrite diff_instant, A1, A2. reflexivity.
Qed.
Lemma after_app t es e : after t (es ++ [e])%list = act (after t es) e.
Proof. unfold after. rewrite fold_left_app. reflexivity. Qed.
Lemma wafter_app w es e : wafter w (es ++ [e])%list = wact (wafter w es) e.
Proof. unfold wafter. rewrite fold_left_app. reflexivity. Qed.
Lemma paused a es x s b now : proper (Running 0 (instant a)) es -> wafter (Running 0 (instant a)) es = Running x s ->
  (t_get now (after (t_set a) (es ++ [(EStop, b)])%list) == shows (wafter (Running 0 (instant a)) (es ++ [(EStop, b)])%list) now + (instant now - s))%Q.
Proof.
  intros P E. assert (A : agrees (after (t_set a) es) (wafter (Running 0 (instant a)) es)) by (apply agree_after; [split; reflexivity | exact P]).
  rewrite after_app, wafter_app. rewrite E in *. destruct A as [A1 A2]. cbn [act wact fst snd shows]. unfold t_get, t_stop; cbn [elapsd tstart].
  rewrite !diff_instant, A1, A2. ring.
Qed.
Lemma nonneg es : forall t a now, (0 <= elapsd t)%Q -> (instant (tstart t) <= instant a)%Q -> ascending a es now ->
  (0 <= t_get now (after t es))%Q.
Proof.
  induction es as [|[e b] es IH]; intros t a now H1 H2 H3; cbn [ascending after fold_left] in *.
  - unfold t_get. rewrite diff_instant. lra.
  - destruct H3 as [H3 H4]. cbn [snd] in *. apply (IH (act t (e, b)) b now); [| |exact H4]; destruct e; cbn [act fst snd t_set t_stop t_cont elapsd tstart]; try lra.
    rewrite diff_instant. lra.
Qed.

(** Printed times. *)
Lemma app_assoc3 (a b c : string) : (a ++ b) ++ c = a ++ b ++ c.
Proof. induction a as [|x a IH]; cbn; [reflexivity | rewrite IH; reflexivity]. Qed.
Lemma app_empty (a : string) : a ++ "" = a.
Proof. induction a as [|x a IH]; cbn; [reflexivity | rewrite IH; reflexivity]. Qed.
Lemma last_char_app s t : t <> "" -> last_char (s ++ t) = last_char t.
Proof.
  intros H. induction s as [|c s IH]; [reflexivity|]. cbn [append last_char]. rewrite <- IH.
  destruct s as [|d s]; cbn [append]; [destruct t; [contradiction | reflexivity] | reflexivity].
Qed.
Lemma blank_app s t c : t <> "" -> last_char t = Some c -> c <> " "%char -> blank (s ++ t) = s ++ t ++ " ".
Proof.
  intros H1 H2 H3. unfold blank. rewrite (last_char_app s t H1), H2. destruct (Ascii.eqb_spec c " "%char); [contradiction|]. apply app_assoc3.
Qed.
Lemma trunc_floor q : (0 <= q)%Q -> q_trunc q = Qfloor q.
Proof. intros H. unfold q_trunc. rewrite (proj2 (Qle_bool_iff 0 q) H). reflexivity. Qed.
Lemma floor_range q : (inject_Z (Qfloor q) <= q)%Q /\ (q < inject_Z (Qfloor q) + 1)%Q.
Proof. split; [apply Qfloor_le|]. pose proof (Qlt_floor q) as H. rewrite inject_Z_plus in H. exact H. Qed.
Lemma floor_nonneg q : (0 <= q)%Q -> 0 <= Qfloor q.
Proof. intros H. apply (Qfloor_resp_le 0 q H). Qed.
Lemma take_ok len label t ret : 0 < len -> (0 <= t)%Q -> (t < inject_Z (2 ^ 64))%Q ->
  exists n, let t' := (t - inject_Z (n * len))%Q in 0 <= n /\ (0 <= t')%Q /\ (t' < inject_Z len)%Q /\
  exists t2, (t2 == t')%Q /\ take len label (t, ret) = Ok (t2, if n =? 0 then ret else blank ret ++ dec n ++ label).
Proof.
  intros HL H0 H1. assert (HLq : (0 < inject_Z len)%Q) by (change 0%Q with (inject_Z 0); rewrite <- Zlt_Qlt; exact HL).
  assert (Hd : (0 <= t / inject_Z len)%Q) by (apply Qle_shift_div_l; [exact HLq | rewrite Qmult_0_l; exact H0]).
  exists (Qfloor (t / inject_Z len)). set (n := Qfloor (t / inject_Z len)). pose proof (floor_nonneg _ Hd) as Hn. fold n in Hn.
  destruct (floor_range (t / inject_Z len)) as [F1 F2]. fold n in F1, F2.
  assert (ET : (t / inject_Z len * inject_Z len == t)%Q) by (field; lra).
  assert (M1 : (inject_Z n * inject_Z len <= t)%Q).
  { apply (Qle_trans _ (t / inject_Z len * inject_Z len)%Q); [|lra]. apply Qmult_le_compat_r; [exact F1 | lra]. }
  assert (M2 : (t < (inject_Z n + 1) * inject_Z len)%Q).
  { apply (Qle_lt_trans _ (t / inject_Z len * inject_Z len)%Q); [lra|]. apply Qmult_lt_compat_r; [exact HLq | exact F2]. }
  rewrite <- inject_Z_mult in M1. assert (EM : ((inject_Z n + 1) * inject_Z len == inject_Z (n * len) + inject_Z len)%Q) by (rewrite inject_Z_mult; ring).
  rewrite EM in M2. cbv zeta. split; [exact Hn|]. split; [lra|]. split; [lra|].
  assert (B1 : n * len < 2 ^ 64) by (rewrite Zlt_Qlt; lra).
  assert (B2 : n < 2 ^ 64) by nia.
  unfold take, to_size. rewrite (trunc_floor _ Hd). fold n. cbv zeta. rewrite (proj2 (Z.leb_le 0 n) Hn), (proj2 (Z.ltb_lt n _) B2). cbn [andb bind].
  rewrite Z.mod_small by (split; [nia | exact B1]). destruct (Z.eqb_spec n 0) as [E|E]; eexists; (split; [|reflexivity]).
  - rewrite E. cbn. ring.
  - reflexivity.
Qed.
Lemma round_close q : (0 <= q)%Q -> 0 <= round_even q /\ (- (1 # 2) <= inject_Z (round_even q) - q)%Q /\ (inject_Z (round_even q) - q <= 1 # 2)%Q.
Proof.
  intros H. pose proof (floor_nonneg q H) as F0. destruct (floor_range q) as [F1 F2]. unfold round_even. cbv zeta. set (f := Qfloor q) in *.
  destruct (Qcompare_spec (q - inject_Z f) (1 # 2)) as [E|E|E].
  - destruct (Z.even f); rewrite ?inject_Z_plus; change (inject_Z 1) with 1%Q; (split; [lia|]); lra.
  - split; [lia|]. lra.
  - rewrite inject_Z_plus; change (inject_Z 1) with 1%Q. split; [lia|]. lra.
Qed.
Lemma digits_mod c : 0 <= c -> c / 10 mod 10 = (c mod 100) / 10 /\ c mod 10 = (c mod 100) mod 10.
Proof.
  intros H. pose proof (Z.div_mod c 100 ltac:(lia)) as D. pose proof (Z.mod_pos_bound c 100 ltac:(lia)) as B.
  set (q := c / 100) in *. set (r := c mod 100) in *. rewrite D. split.
  - replace (100 * q + r) with (r + (10 * q) * 10) by ring. rewrite Z.div_add by lia.
    replace (r / 10 + 10 * q) with (r / 10 + q * 10) by ring. rewrite Z.mod_add by lia. apply Z.mod_small. split; [apply Z.div_pos; lia | apply Z.div_lt_upper_bound; lia].
  - replace (100 * q + r) with (r + (10 * q) * 10) by ring. apply Z.mod_add. lia.
Qed.
Lemma fixed2_ok t : (0 <= t)%Q -> let c := round_even (100 * t) in fixed2 t = dec (c / 100) ++ "." ++ two_digits (c mod 100).
Proof.
  intros H c. unfold fixed2. rewrite (proj2 (Qle_bool_iff 0 t) H). cbn [negb append]. fold c.
  assert (C : 0 <= c) by (apply round_close; lra). destruct (digits_mod c C) as [-> ->]. reflexivity.
Qed.
Lemma parse_ok t : (0 <= t)%Q -> (t < inject_Z (2 ^ 64))%Q -> exists d h m c,
  parse t = Ok (time_text d h m c) /\ 0 <= d /\ 0 <= h < 24 /\ 0 <= m < 60 /\ 0 <= c <= 6000 /\
  (- (1 # 200) <= inject_Z (d * 86400 + h * 3600 + m * 60) + inject_Z c * (1 # 100) - t)%Q /\
  (inject_Z (d * 86400 + h * 3600 + m * 60) + inject_Z c * (1 # 100) - t <= 1 # 200)%Q.
Proof.
  intros H0 H1. unfold parse.
  destruct (take_ok 86400 " d" t "" ltac:(lia) H0 H1) as (d & D0 & D1 & D2 & t1 & D3 & D4). rewrite D4. cbn [bind].
  assert (B1 : (t1 < inject_Z (2 ^ 64))%Q).
  { apply (Qlt_trans _ (inject_Z 86400)); [lra | rewrite <- Zlt_Qlt; reflexivity]. }
  set (r1 := if d =? 0 then "" else _).
  destruct (take_ok 3600 " h" t1 r1 ltac:(lia) ltac:(lra) B1) as (h & E0 & E1 & E2 & t2 & E3 & E4). rewrite E4. cbn [bind].
  assert (B2 : (t2 < inject_Z (2 ^ 64))%Q).
  { apply (Qlt_trans _ (inject_Z 3600)); [lra | rewrite <- Zlt_Qlt; reflexivity]. }
  set (r2 := if h =? 0 then r1 else _).
  destruct (take_ok 60 " min" t2 r2 ltac:(lia) ltac:(lra) B2) as (m & F0 & F1 & F2 & t3 & F3 & F4). rewrite F4. cbn [bind fst snd].
  set (r3 := if m =? 0 then r2 else _). assert (P3 : (0 <= t3)%Q) by lra.
  rewrite (fixed2_ok t3 P3). set (c := round_even (100 * t3)). destruct (round_close (100 * t3)%Q ltac:(lra)) as (G0 & G1 & G2). fold c in G0, G1, G2.
  exists d, h, m, c. split; [|split; [exact D0|]].
  - f_equal. unfold time_text, part, seconds_text. subst r3 r2 r1. set (sec := dec (c / 100) ++ "." ++ two_digits (c mod 100)).
    assert (TS : dec (c / 100) ++ "." ++ two_digits (c mod 100) ++ " s" = sec ++ " s") by (unfold sec; rewrite !app_assoc3; reflexivity).
    rewrite TS. clear TS.
    assert (BD : forall s n, blank (s ++ dec n ++ " d") = s ++ dec n ++ " d ").
    { intros s n. rewrite <- app_assoc3, (blank_app _ " d" "d"%char) by (reflexivity || discriminate). rewrite app_assoc3. reflexivity. }
    assert (BH : forall s n, blank (s ++ dec n ++ " h") = s ++ dec n ++ " h ").
    { intros s n. rewrite <- app_assoc3, (blank_app _ " h" "h"%char) by (reflexivity || discriminate). rewrite app_assoc3. reflexivity. }
    assert (BM : forall s n, blank (s ++ dec n ++ " min") = s ++ dec n ++ " min ").
    { intros s n. rewrite <- app_assoc3, (blank_app _ " min" "n"%char) by (reflexivity || discriminate). rewrite app_assoc3. reflexivity. }
    change (blank "") with "". 
    destruct (d =? 0); destruct (h =? 0); destruct (m =? 0); rewrite ?BM, ?BH, ?BD; change (blank "") with ""; cbn [List.app String.concat append]; rewrite ?app_assoc3; cbn [append]; reflexivity.
  - assert (HH : h < 24).
    { assert (inject_Z (h * 3600) < inject_Z 86400)%Q as L by lra. rewrite <- Zlt_Qlt in L. lia. }
    assert (HM : m < 60).
    { assert (inject_Z (m * 60) < inject_Z 3600)%Q as L by lra. rewrite <- Zlt_Qlt in L. lia. }
    assert (HC : c <= 6000).
    { change (inject_Z 60) with 60%Q in F2. assert (inject_Z c < inject_Z 6001)%Q as L by (change (inject_Z 6001) with 6001%Q; lra). rewrite <- Zlt_Qlt in L. lia. }
    split; [lia|]. split; [lia|]. split; [lia|]. rewrite !inject_Z_plus. split; lra.
Qed.
Lemma dec_reads n : 0 <= n -> exists u, NilZero.uint_of_string (dec n) = Some u /\ Z.of_N (N.of_uint u) = n.
Proof.
  intros H. unfold dec. exists (N.to_uint (Z.to_N n)). split.
  - apply NilZero.usu. destruct (Z.to_N n) as [|p]; [discriminate|]. apply DecimalPos.Unsigned.to_uint_nonnil.
  - rewrite DecimalN.Unsigned.of_to. apply Z2N.id. exact H.
Qed.
(** Uses that a stopwatch would survive. *)
Lemma stop_counts_twice : ~ (forall a es now, ascending a es now -> (t_get now (after (t_set a) es) == shows (wafter (Running 0 (instant a)) es) now)%Q).
Proof.
  intros H. specialize (H (0, 0) [(EStop, (10, 0))] (10, 0)). cbn in H. unfold instant in H; cbn in H.
  specialize (H ltac:(split; vm_compute; discriminate)). vm_compute in H. discriminate.
Qed.
Lemma cont_forgets : ~ (forall a es now, ascending a es now -> ~ In EStop (map fst es) -> (t_get now (after (t_set a) es) == shows (wafter (Running 0 (instant a)) es) now)%Q).
Proof.
  intros H. specialize (H (0, 0) [(ECont, (7, 0))] (10, 0)).
  specialize (H ltac:(split; vm_compute; discriminate) ltac:(cbn; intros [E|[]]; discriminate)). vm_compute in H. discriminate.
Qed.
Lemma sixty_seconds : ~ (forall t d h m c, (0 <= t)%Q -> parse t = Ok (time_text d h m c) -> 0 <= c -> c < 6000).
Proof.
  intros H. specialize (H (59999 # 1000)%Q 0 0 0 6000). specialize (H ltac:(discriminate) ltac:(vm_compute; reflexivity) ltac:(lia)). lia.
Qed.
Lemma clock_back : ~ (forall a now, exists s, t_elapsed now (t_set a) = Ok s).
Proof. intros H. destruct (H (1000, 0) (940, 0)) as [s E]. vm_compute in E. discriminate. Qed.
