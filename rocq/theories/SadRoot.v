(** The radius searches: bisection for a density or a charge, golden section for a maximum. *)
Require Import Reals Lra Lia List Arith Bool ZArith ZifyBool ZifyNat Ranalysis5.
Require Import Verif.Prelude Verif.FEModel Verif.SadModel Verif.SadSpec Verif.SadProofs.
Import ListNotations.
Open Scope R_scope.

Lemma ivt_down f a b s : continuous_on f a b -> a <= b -> f b <= s <= f a -> exists y, a <= y <= b /\ f y = s.
Proof.
  intros Hc Hab [H1 H2].
  destruct (Req_dec (f a) s) as [Ea|Na]; [exists a; split; [lra|exact Ea]|].
  destruct (Req_dec (f b) s) as [Eb|Nb]; [exists b; split; [lra|exact Eb]|].
  assert (a <> b) by (intros ->; lra).
  destruct (IVT_interv (fun x => s - f x) a b) as (z & Hz & E); try lra.
  - intros x Hx. apply continuity_pt_minus; [apply continuity_pt_const; intros u v; reflexivity|apply Hc; lra].
  - exists z. split; [lra|lra].
Qed.
Lemma continuous_sub f a b c d : continuous_on f a b -> a <= c -> d <= b -> continuous_on f c d.
Proof. intros H H1 H2 x Hx. apply H. lra. Qed.

Lemma pow_small q e : 0 <= q < 1 -> 0 < e -> exists n, q ^ n < e.
Proof.
  intros Hq He. destruct (pow_lt_1_zero q ltac:(rewrite Rabs_right; lra) e He) as (N & HN).
  exists N. specialize (HN N ltac:(lia)). rewrite Rabs_right in HN; [exact HN|]. apply Rle_ge, pow_le. lra.
Qed.

(* ------------------------------------------------------------------ *)
(** * Electron count radius *)
Lemma count_down_spec n q i fuel s : small n -> (i <= n)%nat -> (i < fuel)%nat -> 0 < s ->
  (exists j, (j < i)%nat /\ count_down fuel (Z.of_nat n) (wrap (Z.of_nat i - 1)) s q
                              = Ok (Z.of_nat j, s - sum (i - S j) (fun k => q (S j + k)%nat)) /\
     0 < s - sum (i - S j) (fun k => q (S j + k)%nat) <= q j) \/
  (count_down fuel (Z.of_nat n) (wrap (Z.of_nat i - 1)) s q = Ok ((2 ^ 64 - 1)%Z, s - sum i q) /\ sum i q < s).
Proof.
  intros Hn. revert fuel s. induction i as [|i IH]; intros fuel s Hi Hf Hs.
  - right. destruct fuel as [|fuel]; [lia|]. cbn [count_down sum].
    change (wrap (Z.of_nat 0 - 1)) with (2 ^ 64 - 1)%Z. unfold small in Hn.
    destruct (2 ^ 64 - 1 <? Z.of_nat n)%Z eqn:E; [lia|]. split; [do 2 f_equal; ring|exact Hs].
  - destruct fuel as [|fuel]; [lia|]. cbn [count_down].
    rewrite (wrap_pred n (S i)) by (auto; lia). replace (S i - 1)%nat with i by lia.
    destruct (Z.of_nat i <? Z.of_nat n)%Z eqn:E; [|lia]. rewrite Nat2Z.id.
    destruct (Rltb_spec (q i) s) as [Hq|Hq].
    + destruct (IH fuel (s - q i)) as [(j & Hj & Eq & Hr)|(Eq & Hr)]; try lia; try lra.
      * left. exists j. split; [lia|]. rewrite Eq.
        assert (Es : sum (S i - S j) (fun k => q (S j + k)%nat) = sum (i - S j) (fun k => q (S j + k)%nat) + q i).
        { replace (S i - S j)%nat with (S (i - S j)) by lia. cbn [sum]. do 2 f_equal. lia. }
        rewrite Es. split; [do 2 f_equal; ring|lra].
      * right. rewrite Eq. cbn [sum]. split; [do 2 f_equal; ring|lra].
    + left. exists i. split; [lia|]. replace (S i - S i)%nat with 0%nat by lia. cbn [sum].
      split; [do 2 f_equal; ring|lra].
Qed.

Lemma count_loop_ok out s thr n : 0 < thr -> forall a b m, a < b -> a <= m <= b ->
  (b - a) / 2 ^ n < thr -> continuous_on out a b -> out b <= s <= out a ->
  exists r y, a <= r <= b /\ a <= y <= b /\ Rabs (y - r) < thr /\ out y = s /\
    forall fuel, (n < fuel)%nat -> count_loop fuel out s thr a b m = Ok r.
Proof.
  intros Ht. induction n as [|n IH]; intros a b m Hab Hm Hn Hc Hs.
  - destruct (ivt_down out a b s Hc ltac:(lra) Hs) as (y & Hy & E). exists m, y. cbn [pow] in Hn.
    split; [lra|]. split; [lra|]. split; [unfold Rabs; destruct (Rcase_abs (y - m)); lra|]. split; [exact E|].
    intros fuel Hf. destruct fuel as [|fuel]; [lia|]. cbn [count_loop].
    destruct (Rleb_spec thr (b - a)) as [H|H]; [lra|reflexivity].
  - destruct (Rleb_spec thr (b - a)) as [H|H].
    + set (c := a + (b - a) / 2). assert (Hc' : a < c < b) by (unfold c; lra).
      assert (Hp : 0 < 2 ^ n) by (apply pow_lt; lra).
      assert (Hw : (b - a) / 2 / 2 ^ n < thr).
      { apply Rle_lt_trans with (2 := Hn). cbn [pow]. right. field. lra. }
      assert (Hc1 : (c - a) / 2 ^ n < thr) by (replace (c - a) with ((b - a) / 2) by (unfold c; field); exact Hw).
      assert (Hc2 : (b - c) / 2 ^ n < thr) by (replace (b - c) with ((b - a) / 2) by (unfold c; field); exact Hw).
      assert (Hstep : forall fuel, (S n < fuel)%nat -> exists f, fuel = S f /\ (n < f)%nat).
      { intros fuel Hf. exists (fuel - 1)%nat. lia. }
      destruct (Rltb_spec (out c) s) as [H1|H1].
      * destruct (IH a c c) as (r & y & R1 & R2 & R3 & R4 & E); try lra.
        { apply (continuous_sub out a b); [exact Hc|lra|lra]. }
        exists r, y. split; [lra|]. split; [lra|]. split; [exact R3|]. split; [exact R4|].
        intros fuel Hf. destruct (Hstep fuel Hf) as (f & -> & Hf'). cbn [count_loop].
        destruct (Rleb_spec thr (b - a)) as [_|]; [|lra]. fold c.
        destruct (Rltb_spec (out c) s) as [_|]; [|lra]. apply E. exact Hf'.
      * destruct (Rltb_spec s (out c)) as [H2|H2].
        -- destruct (IH c b c) as (r & y & R1 & R2 & R3 & R4 & E); try lra.
           { apply (continuous_sub out a b); [exact Hc|lra|lra]. }
           exists r, y. split; [lra|]. split; [lra|]. split; [exact R3|]. split; [exact R4|].
           intros fuel Hf. destruct (Hstep fuel Hf) as (f & -> & Hf'). cbn [count_loop].
           destruct (Rleb_spec thr (b - a)) as [_|]; [|lra]. fold c.
           destruct (Rltb_spec (out c) s) as [|_]; [lra|].
           destruct (Rltb_spec s (out c)) as [_|]; [|lra]. apply E. exact Hf'.
        -- exists c, c. split; [lra|]. split; [lra|].
           split; [replace (c - c) with 0 by ring; rewrite Rabs_R0; exact Ht|]. split; [lra|].
           intros fuel Hf. destruct (Hstep fuel Hf) as (f & -> & Hf'). cbn [count_loop].
           destruct (Rleb_spec thr (b - a)) as [_|]; [|lra]. fold c.
           destruct (Rltb_spec (out c) s) as [|_]; [lra|].
           destruct (Rltb_spec s (out c)) as [|_]; [lra|reflexivity].
    + destruct (ivt_down out a b s Hc ltac:(lra) Hs) as (y & Hy & E). exists m, y.
      split; [lra|]. split; [lra|]. split; [unfold Rabs; destruct (Rcase_abs (y - m)); lra|]. split; [exact E|].
      intros fuel Hf. destruct fuel as [|fuel]; [lia|]. cbn [count_loop].
      destruct (Rleb_spec thr (b - a)) as [H'|H']; [lra|reflexivity].
Qed.

Lemma above_total nel q e : (e < nel)%nat -> sum nel q = sum e q + (q e + above nel q e).
Proof.
  intros H. unfold above. replace nel with (e + S (nel - S e))%nat at 1 by lia. rewrite sum_split, sum_shift.
  rewrite Nat.add_0_r. do 2 f_equal. apply sum_ext. intros k _. f_equal. lia.
Qed.

Section Count.
Variables (nel : nat) (rad : nat -> R -> R) (first len : nat -> nat) (S : nat -> mat) (part : nat -> R -> mat) (P : mat).
Notation q := (fun e => block_trace (first e) (len e) P (S e)).
Notation out := (fun e m => block_trace (first e) (len e) P (part e m)).

Lemma count_ok eps thr : small nel -> 0 < eps <= sum nel q -> 0 < thr ->
  (forall e, (e < nel)%nat -> continuous_on (out e) (-1) 1 /\ out e (-1) = q e /\ out e 1 = 0) ->
  exists n0 e m y, (e < nel)%nat /\ -1 <= m <= 1 /\ -1 <= y <= 1 /\ Rabs (y - m) < thr /\ out e y + above nel q e = eps /\
    forall fuel, (n0 <= fuel)%nat -> electron_count_radius nel rad first len fuel S part P eps thr = Ok (rad e m).
Proof.
  intros Hn He Ht Ho. destruct (pow_small (1 / 2) (thr / 2)) as (n & Hp); try lra.
  destruct (count_down_spec nel q nel (nel + 1) eps Hn) as [(j & Hj & E & Hs)|(E & Hs)]; try lia; try lra.
  destruct (Ho j Hj) as (Hc & O1 & O2). cbv beta in Hs, O1, O2.
  destruct (count_loop_ok (out j) (eps - above nel q j) thr n Ht (-1) 1 (-1 + (1 - -1) / 2))
    as (r & y & R1 & R2 & R3 & R4 & EL); try lra.
  - assert (Hpp : 0 < 2 ^ n) by (apply pow_lt; lra).
    assert (E2 : (1 / 2) ^ n = / 2 ^ n) by (unfold Rdiv; rewrite !Rmult_1_l; apply pow_inv).
    replace ((1 - -1) / 2 ^ n) with (2 * (1 / 2) ^ n) by (rewrite E2; field; lra). lra.
  - exact Hc.
  - cbv beta. rewrite O1, O2. unfold above. cbv beta. split; [|apply Hs]. apply Rlt_le, Hs.
  - exists (Datatypes.S n), j, r, y. split; [exact Hj|]. split; [exact R1|]. split; [exact R2|]. split; [exact R3|].
    split; [cbv beta in R4 |- *; lra|].
    intros fuel Hf. unfold electron_count_radius. cbv beta.
    change (fun iel => trace_with first len P iel (S iel)) with q. rewrite E. cbn [bind fst snd].
    destruct (Z.of_nat j <? Z.of_nat nel)%Z eqn:El; [|lia]. rewrite Nat2Z.id.
    change (fun m => trace_with first len P j (part j m)) with (out j).
    change (eps - sum (nel - Datatypes.S j) (fun k => q (Datatypes.S j + k)%nat)) with (eps - above nel q j).
    rewrite EL by lia. reflexivity.
Qed.

(** Beyond the total charge no element is found. *)
Lemma count_beyond eps thr fuel : small nel -> (forall e, (e < nel)%nat -> 0 <= q e) -> 0 < eps -> sum nel q < eps ->
  electron_count_radius nel rad first len fuel S part P eps thr = UB.
Proof.
  intros Hn Hq He Hs. unfold electron_count_radius. change (fun iel => trace_with first len P iel (S iel)) with q.
  destruct (count_down_spec nel q nel (nel + 1) eps Hn) as [(j & Hj & E & Hr)|(E & Hr)]; try lia; try lra.
  - exfalso. rewrite (above_total nel q j Hj) in Hs. unfold above in Hs.
    assert (0 <= sum j q) by (apply sum_nonneg; intros i Hi; apply Hq; lia). cbv beta in *. lra.
  - rewrite E. cbn [bind fst]. unfold small in Hn.
    destruct (2 ^ 64 - 1 <? Z.of_nat nel)%Z eqn:El; [lia|reflexivity].
Qed.
End Count.

(* ------------------------------------------------------------------ *)
(** * Van der Waals radius *)
Lemma vdw_loop_ok rho eps left a b a' b' : a <= b -> vdw_loop left rho eps a b = Ok (a', b') ->
  a <= a' /\ a' <= b' /\ b' <= b /\ (b' - a' < eps \/ rho ((a' + b') / 2) = eps) /\
  (eps <= rho a -> eps <= rho a') /\ (rho b <= eps -> rho b' <= eps) /\
  ((forall x, a <= x <= b -> eps < rho x) -> b' = b).
Proof.
  revert a b. induction left as [|k IH]; intros a b Hab E; cbn [vdw_loop] in E.
  - destruct (Rleb_spec eps (Rabs (a - b))) as [H|H]; [discriminate|].
    injection E as <- <-. rewrite Rabs_left1 in H by lra. repeat split; try lra.
  - destruct (Rleb_spec eps (Rabs (a - b))) as [H|H].
    + set (m := a + (b - a) / 2) in *. assert (Hm : a <= m <= b) by (unfold m; lra).
      destruct (Rltb_spec (rho m) eps) as [H1|H1].
      * destruct k; [discriminate|]. destruct (IH a m ltac:(lra) E) as (I1 & I2 & I3 & I4 & I5 & I6 & I7).
        split; [lra|]. split; [lra|]. split; [lra|]. split; [exact I4|]. split; [exact I5|]. split; [intros _; apply I6; lra|].
        intros Ha. specialize (Ha m Hm). lra.
      * destruct (Rltb_spec eps (rho m)) as [H2|H2].
        -- destruct k; [discriminate|]. destruct (IH m b ltac:(lra) E) as (I1 & I2 & I3 & I4 & I5 & I6 & I7).
           split; [lra|]. split; [lra|]. split; [lra|]. split; [exact I4|]. split; [intros _; apply I5; lra|]. split; [exact I6|].
           intros Ha. apply I7. intros x Hx. apply Ha. lra.
        -- injection E as <- <-. repeat split; try lra; try tauto. right. replace ((a + b) / 2) with m by (unfold m; field). lra.
    + injection E as <- <-. rewrite Rabs_left1 in H by lra. repeat split; try lra.
Qed.
Lemma vdw_loop_returns rho eps n : 0 < eps -> forall left a b, a <= b -> (b - a) / 2 ^ n < eps -> (n < left)%nat ->
  exists ab, vdw_loop left rho eps a b = Ok ab.
Proof.
  intros He. induction n as [|n IH]; intros left a b Hab Hn Hl.
  - destruct left as [|k]; [lia|]. cbn [vdw_loop pow] in *.
    destruct (Rleb_spec eps (Rabs (a - b))) as [H|H]; [rewrite Rabs_left1 in H by lra; lra|eauto].
  - destruct left as [|k]; [lia|]. cbn [vdw_loop].
    destruct (Rleb_spec eps (Rabs (a - b))) as [H|H]; [|eauto].
    assert (Hp : 0 < 2 ^ n) by (apply pow_lt; lra).
    assert (Hw : (b - a) / 2 / 2 ^ n < eps).
    { apply Rle_lt_trans with (2 := Hn). cbn [pow]. right. field. lra. }
    destruct k as [|k]; [lia|].
    destruct (Rltb_spec (rho (a + (b - a) / 2)) eps) as [H1|H1].
    + apply IH; [lra| |lia]. replace (a + (b - a) / 2 - a) with ((b - a) / 2) by field. exact Hw.
    + destruct (Rltb_spec eps (rho (a + (b - a) / 2))) as [H2|H2]; [|eauto].
      apply IH; [lra| |lia]. replace (b - (a + (b - a) / 2)) with ((b - a) / 2) by field. exact Hw.
Qed.

Lemma bracket_ok npts xq i : (2 <= npts)%nat -> (i < npts)%nat ->
  exists a b, bracket npts xq i = Ok (a, b) /\ neighbours npts xq i a b.
Proof.
  intros H Hi. unfold bracket, neighbours.
  destruct (Nat.eqb_spec i 0) as [->|Hne].
  - destruct (Nat.ltb_spec 1 npts); [|lia]. do 2 eexists. split; [reflexivity|]. split; [reflexivity|].
    destruct (Nat.eqb_spec 0 (npts - 1)); [lia|reflexivity].
  - destruct (Nat.eqb_spec i (npts - 1)); do 2 eexists; (split; [reflexivity|]); split; reflexivity.
Qed.
Lemma neighbours_order npts xq i a b : points_ok npts xq -> (2 <= npts)%nat -> (i < npts)%nat ->
  neighbours npts xq i a b -> -1 <= a /\ a <= xq i /\ xq i <= b /\ b <= 1.
Proof.
  intros [Hp Ho] H Hi [-> ->]. pose proof (Hp i Hi) as Hpi.
  destruct (Nat.eqb_spec i 0) as [Ei|Ni]; destruct (Nat.eqb_spec i (npts - 1)) as [El|Nl]; try lia.
  - pose proof (Hp (i + 1)%nat ltac:(lia)). pose proof (Ho i (i + 1)%nat ltac:(lia) ltac:(lia)). lra.
  - pose proof (Hp (i - 1)%nat ltac:(lia)). pose proof (Ho (i - 1)%nat i ltac:(lia) ltac:(lia)). lra.
  - pose proof (Hp (i + 1)%nat ltac:(lia)). pose proof (Ho i (i + 1)%nat ltac:(lia) ltac:(lia)).
    pose proof (Hp (i - 1)%nat ltac:(lia)). pose proof (Ho (i - 1)%nat i ltac:(lia) ltac:(lia)). lra.
Qed.

Section Vdw.
Variables (nel npts : nat) (xq : vec) (rad : nat -> R -> R) (first len : nat -> nat) (bf : nat -> R -> vec) (P : mat).
Notation dens := (point_density first len bf P).
Notation above_somewhere thr e := (exists i, (i < npts)%nat /\ thr < dens e (xq i)).

Lemma rho_dens e x : 1 / (4 * PI) * electron_density rad first len bf P false e x = dens e x.
Proof. unfold electron_density, point_density, form, pairing. cbv iota. field. apply PI_neq0. Qed.

Lemma test_dens thr e : (1 <= npts)%nat ->
  Rltb thr (max_coeff (npts - 1) (fun ip => 1 / (4 * PI) * electron_density rad first len bf P false e (xq ip))) = true <-> above_somewhere thr e.
Proof.
  intros H. destruct (Rltb_spec thr (max_coeff (npts - 1) (fun ip => 1 / (4 * PI) * electron_density rad first len bf P false e (xq ip)))) as [Ht|Ht].
  - split; [|reflexivity]. intros _. apply max_coeff_above in Ht. destruct Ht as (i & Hi & Hl). exists i. split; [lia|].
    rewrite <- rho_dens. exact Hl.
  - split; [discriminate|]. intros (i & Hi & Hl). exfalso. apply Ht. apply max_coeff_above. exists i. split; [lia|].
    rewrite rho_dens. exact Hl.
Qed.

Lemma vdw_none thr eps : small nel -> (1 <= npts)%nat ->
  (forall e i, (e < nel)%nat -> (i < npts)%nat -> dens e (xq i) <= thr) -> vdw_radius nel npts xq rad first len bf P thr eps = Ok 0.
Proof.
  intros Hn Hp Ha. unfold vdw_radius. destruct (Nat.eqb_spec npts 0); [lia|].
  match goal with |- bind (scan_down _ _ _ ?st) _ = _ => destruct (scan_down_spec nel st nel (S nel) Hn) as [(j & Hj & E & Hs & _)|(E & _)] end; try lia.
  - exfalso. apply test_dens in Hs; [|exact Hp]. destruct Hs as (i & Hi & Hl). specialize (Ha j i Hj Hi). lra.
  - rewrite E. cbn [bind]. unfold small in Hn. destruct (Z.of_nat nel <? 2 ^ 64 - 1)%Z eqn:El; [reflexivity|lia].
Qed.

(** What is returned otherwise. *)
Lemma vdw_some thr eps r : small nel -> (2 <= npts)%nat -> points_ok npts xq ->
  (exists e, (e < nel)%nat /\ above_somewhere thr e) ->
  vdw_radius nel npts xq rad first len bf P thr eps = Ok r ->
  exists e i a b x, (e < nel)%nat /\ above_somewhere thr e /\ (forall k, (e < k)%nat -> (k < nel)%nat -> ~ above_somewhere thr k) /\
    (i < npts)%nat /\ (forall k, (k < npts)%nat -> Rabs (dens e (xq i) - thr) <= Rabs (dens e (xq k) - thr)) /\
    (forall k, (k < i)%nat -> Rabs (dens e (xq i) - thr) < Rabs (dens e (xq k) - thr)) /\
    neighbours npts xq i a b /\ a <= x <= b /\ r = rad e x /\
    (0 < eps -> continuous_on (dens e) (-1) 1 -> dens e b <= eps <= dens e a -> exists y, a <= y <= b /\ Rabs (y - x) <= eps / 2 /\ dens e y = eps) /\
    ((forall z, a <= z <= b -> eps < dens e z) -> b - x < eps / 2).
Proof.
  intros Hn Hp Hx (e0 & He0 & Ha0). unfold vdw_radius. destruct (Nat.eqb_spec npts 0); [lia|].
  match goal with |- bind (scan_down _ _ _ ?st) _ = _ -> _ => destruct (scan_down_spec nel st nel (S nel) Hn) as [(e & He & E & Hs & Hrest)|(E & Hrest)] end; try lia.
  2: { exfalso. specialize (Hrest e0 He0). apply (test_dens thr e0) in Ha0; [|lia]. congruence. }
  rewrite E. cbn [bind]. unfold small in Hn. destruct (Z.of_nat nel <? Z.of_nat e)%Z eqn:El; [lia|].
  rewrite Nat2Z.id. apply test_dens in Hs; [|lia].
  match goal with |- context [arg_min ?n ?v] => destruct (arg_min_spec n v) as (M1 & M2 & M3); set (i := arg_min n v) in * end.
  assert (Hi : (i < npts)%nat) by lia.
  destruct (bracket_ok npts xq i Hp Hi) as (a & b & Eb & Hnb). rewrite Eb. cbn [bind fst snd].
  pose proof (neighbours_order npts xq i a b Hx Hp Hi Hnb) as Ho.
  destruct (vdw_loop 100 _ eps a b) as [[a' b']| | |] eqn:EL; cbn [bind fst snd]; try discriminate. intros Er. injection Er as <-.
  apply vdw_loop_ok in EL; [|lra]. destruct EL as (L1 & L2 & L3 & L4 & L5 & L6 & L7). rewrite !rho_dens in *.
  exists e, i, a, b, ((a' + b') / 2). split; [exact He|]. split; [exact Hs|].
  split. { intros k K1 K2 Hk. apply (test_dens thr k) in Hk; [|lia]. rewrite Hrest in Hk by lia. discriminate. }
  split; [exact Hi|].
  split. { intros k Hk. specialize (M2 k ltac:(lia)). cbv beta in M2. rewrite !rho_dens in M2. exact M2. }
  split. { intros k Hk. specialize (M3 k Hk). cbv beta in M3. rewrite !rho_dens in M3. exact M3. }
  split; [exact Hnb|]. split; [lra|]. split; [reflexivity|].
  split.
  2: { intros Hall. assert (b' = b) as -> by (apply L7; intros z Hz; rewrite rho_dens; apply Hall; exact Hz).
       destruct L4 as [L4|L4]; [lra|]. specialize (Hall ((a' + b) / 2) ltac:(lra)). lra. }
  intros Heps Hc [Hb Ha].
  destruct (ivt_down (dens e) a' b' eps) as (y & Hy & Ey).
  { apply (continuous_sub _ (-1) 1); [exact Hc|lra|lra]. }
  { lra. }
  { split; [apply L6; exact Hb|apply L5; exact Ha]. }
  destruct L4 as [L4|L4].
  - exists y. split; [lra|]. split; [unfold Rabs; destruct (Rcase_abs (y - (a' + b') / 2)); lra|exact Ey].
  - exists ((a' + b') / 2). split; [lra|]. split; [|exact L4].
    replace ((a' + b') / 2 - (a' + b') / 2) with 0 by ring. rewrite Rabs_R0.
    lra.
Qed.

(** With the threshold as tolerance the crossing is found. *)
Lemma vdw_equal thr r : small nel -> (2 <= npts)%nat -> points_ok npts xq -> 0 < thr ->
  (exists e, (e < nel)%nat /\ above_somewhere thr e) ->
  (forall e, (e < nel)%nat -> continuous_on (dens e) (-1) 1 /\ decreasing_on (dens e) (-1) 1) ->
  (forall e, (e < nel)%nat -> (forall k, (e < k)%nat -> (k < nel)%nat -> ~ above_somewhere thr k) -> dens e 1 <= thr) ->
  vdw_radius nel npts xq rad first len bf P thr thr = Ok r ->
  exists e x y, (e < nel)%nat /\ -1 <= x <= 1 /\ -1 <= y <= 1 /\ r = rad e x /\ Rabs (y - x) <= thr / 2 /\ dens e y = thr.
Proof.
  intros Hn Hp Hx Ht Hex Hd Hend Er.
  destruct (vdw_some thr thr r Hn Hp Hx Hex Er) as (e & i & a & b & x & He & (p & Hpp & Hpd) & Hout & Hi & Hmin & Hfirst & Hnb & Hab & -> & Hcross & _).
  destruct (Hd e He) as [Hc Hdec]. pose proof (neighbours_order npts xq i a b Hx Hp Hi Hnb) as Ho.
  destruct Hx as [Hx1 Hx2]. destruct Hnb as [Ea Eb].
  assert (Hda : forall k l, (k < l)%nat -> (l < npts)%nat -> dens e (xq l) < dens e (xq k)).
  { intros k l K1 K2. apply Hdec; [apply Hx1; lia|apply Hx2; lia|apply Hx1; lia]. }
  destruct Hcross as (y & Hy & Hyx & Ey); [exact Ht|exact Hc| |].
  - split.
    + (* right neighbour *)
      destruct (Nat.eqb_spec i (npts - 1)) as [El|Nl].
      * rewrite Eb. apply Hend; [exact He|exact Hout].
      * rewrite Eb. destruct (Rle_dec (dens e (xq (i + 1)%nat)) thr) as [H|H]; [exact H|exfalso].
        pose proof (Hda i (i + 1)%nat ltac:(lia) ltac:(lia)) as H1. pose proof (Hmin (i + 1)%nat ltac:(lia)) as H2.
        rewrite !Rabs_right in H2 by lra. lra.
    + destruct (Nat.eqb_spec i 0) as [E0|N0].
      * rewrite Ea. assert (H1 : dens e (xq p) <= dens e (xq 0%nat)).
        { destruct (Nat.eq_dec p 0) as [->|]; [lra|]. apply Rlt_le, Hda; lia. }
        assert (H2 : dens e (xq 0%nat) <= dens e (-1)); [|lra].
        destruct (Req_dec (xq 0%nat) (-1)) as [->|]; [lra|]. pose proof (Hx1 0%nat ltac:(lia)). apply Rlt_le, Hdec; lra.
      * rewrite Ea. destruct (Rle_dec thr (dens e (xq (i - 1)%nat))) as [H|H]; [exact H|exfalso].
        pose proof (Hda (i - 1)%nat i ltac:(lia) ltac:(lia)) as H1. pose proof (Hmin (i - 1)%nat ltac:(lia)) as H2.
        rewrite !Rabs_left in H2 by lra. lra.
  - exists e, x, y. repeat split; try lra. exact He.
Qed.

(** The limit of 100 iterations is never reached for tolerances above 2^-98. *)
Lemma vdw_returns thr eps : small nel -> (2 <= npts)%nat -> points_ok npts xq -> / 2 ^ 98 < eps ->
  exists r, vdw_radius nel npts xq rad first len bf P thr eps = Ok r.
Proof.
  intros Hn Hp Hx Heps. unfold vdw_radius. destruct (Nat.eqb_spec npts 0); [lia|].
  assert (Hpow : forall k, 0 < 2 ^ k) by (intros k; apply pow_lt; lra).
  assert (H0 : 0 < / 2 ^ 98) by (apply Rinv_0_lt_compat, Hpow).
  match goal with |- exists r, bind (scan_down _ _ _ ?st) _ = _ => destruct (scan_down_spec nel st nel (S nel) Hn) as [(e & He & E & Hs & Hrest)|(E & Hrest)] end; try lia.
  - rewrite E. cbn [bind]. destruct (Z.of_nat nel <? Z.of_nat e)%Z eqn:El; [eauto|]. rewrite Nat2Z.id.
    match goal with |- context [arg_min ?n ?v] => destruct (arg_min_spec n v) as (M1 & M2 & M3); set (i := arg_min n v) in * end.
    assert (Hi : (i < npts)%nat) by lia.
    destruct (bracket_ok npts xq i Hp Hi) as (a & b & Eb & Hnb). rewrite Eb. cbn [bind fst snd].
    pose proof (neighbours_order npts xq i a b Hx Hp Hi Hnb) as Ho.
    match goal with |- context [vdw_loop 100 ?f eps a b] => destruct (vdw_loop_returns f eps 99 ltac:(lra) 100 a b) as (ab & EL) end; try lra; try lia.
    rewrite EL. cbn [bind]. eauto.
  - rewrite E. cbn [bind]. unfold small in Hn. destruct (Z.of_nat nel <? 2 ^ 64 - 1)%Z eqn:El; [eauto|lia].
Qed.
End Vdw.

(* ------------------------------------------------------------------ *)
(** * Density maximum *)
Lemma golden_range : 1 < golden < 2.
Proof.
  unfold golden. assert (H1 : 1 < sqrt 5) by (rewrite <- sqrt_1 at 1; apply sqrt_lt_1; lra).
  assert (H2 : sqrt 5 < 3). { replace 3 with (sqrt (3 * 3)) by (apply sqrt_square; lra). apply sqrt_lt_1; lra. }
  lra.
Qed.
Lemma golden_loop_ok rho eps p n : 0 < eps -> forall a b, peak rho a b p -> (b - a) / golden ^ n < eps ->
  exists a' b', a <= a' /\ a' <= p <= b' /\ b' <= b /\ b' - a' < eps /\
    forall fuel, (n < fuel)%nat -> golden_loop fuel rho eps a b = Ok (a', b').
Proof.
  intros He. pose proof golden_range as Hg. induction n as [|n IH]; intros a b (Hp & Hi & Hd) Hn.
  - exists a, b. cbn [pow] in Hn. repeat split; try lra. intros fuel Hf. destruct fuel as [|f]; [lia|]. cbn [golden_loop].
    rewrite Rabs_left1 by lra. destruct (Rleb_spec eps (- (a - b))); [lra|reflexivity].
  - destruct (Rlt_dec (b - a) eps) as [Hs|Hs].
    + exists a, b. repeat split; try lra. intros fuel Hf. destruct fuel as [|f]; [lia|]. cbn [golden_loop].
      rewrite Rabs_left1 by lra. destruct (Rleb_spec eps (- (a - b))); [lra|reflexivity].
    + set (L := (b - a) / golden). assert (HL0 : (b - a) / 2 < L).
      { unfold L, Rdiv. apply Rmult_lt_compat_l; [lra|]. apply Rinv_lt_contravar; [nra|lra]. }
      assert (HL1 : L < b - a).
      { unfold L, Rdiv. rewrite <- (Rmult_1_r (b - a)) at 2. apply Rmult_lt_compat_l; [lra|].
        rewrite <- Rinv_1. apply Rinv_lt_contravar; lra. }
      assert (Hw : L / golden ^ n < eps).
      { apply Rle_lt_trans with (2 := Hn). unfold L. cbn [pow]. right. field. split; [apply pow_nonzero; lra|lra]. }
      assert (Hstep : forall fuel, (S n < fuel)%nat -> exists f, fuel = S f /\ (n < f)%nat).
      { intros fuel Hf. exists (fuel - 1)%nat. lia. }
      destruct (Rltb_spec (rho (a + L)) (rho (b - L))) as [H|H].
      * assert (Hpd : p <= a + L).
        { destruct (Rle_dec p (a + L)) as [|Hc]; [assumption|exfalso].
          pose proof (Hi (b - L) (a + L) ltac:(lra) ltac:(lra) ltac:(lra)). lra. }
        destruct (IH a (a + L)) as (a' & b' & I1 & I2 & I3 & I4 & E).
        { split; [lra|]. split; [exact Hi|]. intros s t S1 S2 S3. apply Hd; lra. }
        { replace (a + L - a) with L by ring. exact Hw. }
        exists a', b'. repeat split; try lra. intros fuel Hf. destruct (Hstep fuel Hf) as (f & -> & Hf').
        cbn [golden_loop]. fold L. rewrite Rabs_left1 by lra. destruct (Rleb_spec eps (- (a - b))) as [_|]; [|lra].
        destruct (Rltb_spec (rho (a + L)) (rho (b - L))) as [_|]; [|lra]. apply E. exact Hf'.
      * assert (Hpc : b - L <= p).
        { destruct (Rle_dec (b - L) p) as [|Hc]; [assumption|exfalso].
          pose proof (Hd (b - L) (a + L) ltac:(lra) ltac:(lra) ltac:(lra)). lra. }
        destruct (IH (b - L) b) as (a' & b' & I1 & I2 & I3 & I4 & E).
        { split; [lra|]. split; [|exact Hd]. intros s t S1 S2 S3. apply Hi; lra. }
        { replace (b - (b - L)) with L by ring. exact Hw. }
        exists a', b'. repeat split; try lra. intros fuel Hf. destruct (Hstep fuel Hf) as (f & -> & Hf').
        cbn [golden_loop]. fold L. rewrite Rabs_left1 by lra. destruct (Rleb_spec eps (- (a - b))) as [_|]; [|lra].
        destruct (Rltb_spec (rho (a + L)) (rho (b - L))) as [|_]; [lra|]. apply E. exact Hf'.
Qed.
Lemma golden_loop_range rho eps fuel : forall a b a' b', a <= b -> golden_loop fuel rho eps a b = Ok (a', b') ->
  a <= a' /\ a' <= b' /\ b' <= b.
Proof.
  pose proof golden_range as Hg. induction fuel as [|f IH]; intros a b a' b' Hab E; cbn [golden_loop] in E; [discriminate|].
  destruct (Rleb_spec eps (Rabs (a - b))) as [H|H]; [|injection E as <- <-; lra].
  set (L := (b - a) / golden) in *. assert (HL : 0 <= L <= b - a).
  { unfold L, Rdiv. assert (Hi : 0 < / golden < 1).
    { split; [apply Rinv_0_lt_compat; lra|]. rewrite <- Rinv_1. apply Rinv_lt_contravar; lra. }
    split; [apply Rmult_le_pos; lra|]. rewrite <- (Rmult_1_r (b - a)) at 2. apply Rmult_le_compat_l; lra. }
  destruct (Rltb_spec (rho (a + L)) (rho (b - L))).
  - destruct (IH a (a + L) a' b' ltac:(lra) E). lra.
  - destruct (IH (b - L) b a' b' ltac:(lra) E). lra.
Qed.

Section Maximum.
Variables (nel npts : nat) (xq : vec) (rad : nat -> R -> R) (first len : nat -> nat) (bf : nat -> R -> vec) (P : mat) (rsq : bool).
(** The density, times r^2 if asked for. *)
Notation dens := (fun e x => pairing (first e) (len e) P (bf e x) (bf e x) * (if rsq then rad e x ^ 2 else 1)).

Lemma max_guard fuel deps eps r : points_ok npts xq ->
  electron_density_maximum_radius nel npts xq rad first len bf fuel deps P rsq eps = Ok r ->
  exists e x, (e < nel)%nat /\ -1 <= x <= 1 /\ r = rad e x /\
    forall k i, (k < nel)%nat -> (i < npts)%nat -> dens k (xq i) < dens e x + 100 * deps.
Proof.
  intros Hx. unfold electron_density_maximum_radius.
  destruct (Nat.eqb_spec nel 0) as [|Hn]; [discriminate|]. destruct (Nat.eqb_spec npts 0) as [|Hp]; [discriminate|].
  cbv zeta.
  match goal with |- context [arg_max (nel - 1) ?v] => destruct (arg_max_spec (nel - 1) v) as (E1 & E2 & _); set (e := arg_max (nel - 1) v) in * end.
  match goal with |- context [arg_max (npts - 1) ?v] => destruct (arg_max_spec (npts - 1) v) as (M1 & M2 & _); set (i := arg_max (npts - 1) v) in * end.
  destruct (bracket npts xq i) as [[a b]| | |] eqn:Eb; cbn [bind fst snd]; try discriminate.
  assert (Hp2 : (2 <= npts)%nat).
  { destruct (Nat.eq_dec npts 1) as [->|]; [|lia]. exfalso. replace i with 0%nat in Eb by lia. discriminate Eb. }
  destruct (bracket_ok npts xq i Hp2 ltac:(lia)) as (a0 & b0 & Eb0 & Hnb). rewrite Eb in Eb0. injection Eb0 as <- <-.
  pose proof (neighbours_order npts xq i a b Hx Hp2 ltac:(lia) Hnb) as Ho.
  destruct (golden_loop fuel _ eps a b) as [[a' b']| | |] eqn:EL; cbn [bind fst snd]; try discriminate.
  apply golden_loop_range in EL; [|lra].
  match goal with |- context [Rleb ?u ?v] => destruct (Rleb_spec u v) as [H|H] end; [discriminate|]. intros Er. injection Er as <-.
  exists e, ((a' + b') / 2). split; [lia|]. split; [lra|]. split; [reflexivity|].
  intros k j Hk Hj.
  assert (Hkj : electron_density rad first len bf P rsq k (xq j) <= electron_density rad first len bf P rsq e (xq i)).
  { apply Rle_trans with (max_coeff (npts - 1) (fun ip => electron_density rad first len bf P rsq k (xq ip))).
    - apply (max_coeff_ge (npts - 1) (fun ip => electron_density rad first len bf P rsq k (xq ip))). lia.
    - apply Rle_trans with (1 := E2 k ltac:(lia)). cbv beta.
      destruct (max_coeff_in (npts - 1) (fun ip => electron_density rad first len bf P rsq e (xq ip))) as (l & Hl & ->). apply (M2 l Hl). }
  unfold electron_density, form in H, Hkj. unfold pairing. lra.
Qed.

Lemma max_peak deps eps e i p a b : points_ok npts xq -> (2 <= npts)%nat -> (e < nel)%nat -> (i < npts)%nat -> 0 < eps ->
  (forall k j, (k < nel)%nat -> (j < npts)%nat -> (k, j) <> (e, i) -> dens k (xq j) < dens e (xq i)) ->
  neighbours npts xq i a b -> peak (dens e) a b p ->
  exists n0 x, a <= x <= b /\ Rabs (x - p) <= eps / 2 /\ forall fuel, (n0 <= fuel)%nat ->
    electron_density_maximum_radius nel npts xq rad first len bf fuel deps P rsq eps
      = if Rleb (100 * deps) (dens e (xq i) - dens e x) then Throw LogicError else Ok (rad e x).
Proof.
  intros Hx Hp He Hi Heps Hmax Hnb Hpk.
  pose proof golden_range as Hg.
  assert (Hq : 0 <= / golden < 1).
  { split; [apply Rlt_le, Rinv_0_lt_compat; lra|]. rewrite <- Rinv_1. apply Rinv_lt_contravar; lra. }
  pose proof (neighbours_order npts xq i a b Hx Hp Hi Hnb) as Ho.
  destruct (pow_small (/ golden) (eps / 3) Hq ltac:(lra)) as (n & Hn).
  destruct (golden_loop_ok (dens e) eps p n Heps a b Hpk) as (a' & b' & L1 & L2 & L3 & L4 & EL).
  { assert (Hgp : 0 < golden ^ n) by (apply pow_lt; lra). rewrite pow_inv in Hn.
    apply Rle_lt_trans with (2 * / golden ^ n); [|lra]. unfold Rdiv. apply Rmult_le_compat_r; [|lra].
    apply Rlt_le, Rinv_0_lt_compat. exact Hgp. }
  exists (S n), ((a' + b') / 2). split; [lra|]. split.
  { unfold Rabs. destruct (Rcase_abs ((a' + b') / 2 - p)); lra. }
  intros fuel Hf. unfold electron_density_maximum_radius.
  destruct (Nat.eqb_spec nel 0); [lia|]. destruct (Nat.eqb_spec npts 0); [lia|]. cbv zeta.
  match goal with |- context [arg_max (nel - 1) ?v] => destruct (arg_max_spec (nel - 1) v) as (E1 & E2 & _); set (e' := arg_max (nel - 1) v) in * end.
  assert (Ee : e' = e).
  { destruct (Nat.eq_dec e' e) as [|Hne]; [assumption|exfalso]. specialize (E2 e ltac:(lia)). cbv beta in E2.
    destruct (max_coeff_in (npts - 1) (fun ip => electron_density rad first len bf P rsq e' (xq ip))) as (l & Hl & El). rewrite El in E2.
    pose proof (max_coeff_ge (npts - 1) (fun ip => electron_density rad first len bf P rsq e (xq ip)) i ltac:(lia)) as H1.
    assert (H2 : dens e' (xq l) < dens e (xq i)) by (apply Hmax; [lia|lia|congruence]). cbv beta in H1, H2.
    change (electron_density rad first len bf P rsq e (xq i)) with (dens e (xq i)) in H1.
    change (electron_density rad first len bf P rsq e' (xq l)) with (dens e' (xq l)) in E2. cbv beta in E2, H1. lra. }
  clearbody e'. subst e'.
  match goal with |- context [arg_max (npts - 1) ?v] => destruct (arg_max_spec (npts - 1) v) as (M1 & M2 & _); set (i' := arg_max (npts - 1) v) in * end.
  assert (Ei : i' = i).
  { destruct (Nat.eq_dec i' i) as [|Hne]; [assumption|exfalso]. specialize (M2 i ltac:(lia)). cbv beta in M2.
    assert (H2 : dens e (xq i') < dens e (xq i)) by (apply Hmax; [lia|lia|congruence]). change (dens e (xq i) <= dens e (xq i')) in M2. cbv beta in M2, H2. lra. }
  clearbody i'. subst i'.
  destruct (bracket_ok npts xq i Hp Hi) as (a0 & b0 & Eb0 & Hnb0). rewrite Eb0. cbn [bind fst snd].
  destruct Hnb as [-> ->]. destruct Hnb0 as [-> ->].
  change (electron_density rad first len bf P rsq e) with (dens e) at 1. rewrite EL by lia. cbn [bind fst snd]. reflexivity.
Qed.
End Maximum.
