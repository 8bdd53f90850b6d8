(** The functions of the second kind and their slopes do not vanish outside the cut. *)
Require Import Reals List Arith Bool ZArith Lia Lra.
Require Import Verif.Prelude Verif.LegModel Verif.LegSpec Verif.LegMath Verif.LegProofs Verif.LegWit.
Open Scope R_scope.

Lemma P_at0 x : Pfam 0 0 x = 1. Proof. reflexivity. Qed.
Lemma P_at1 x : Pfam 0 1 x = x. Proof. reflexivity. Qed.
Lemma P_step k x : (INR k + 2) * Pfam 0 (S (S k)) x = (2 * INR k + 3) * x * Pfam 0 (S k) x - (INR k + 1) * Pfam 0 k x.
Proof. exact (fam_bonnet anywhere P0 P1 k x I). Qed.

(** Growth of the first kind. *)
Lemma P_grow k x : 1 <= x -> 1 <= Pfam 0 k x /\ x * Pfam 0 k x <= Pfam 0 (S k) x.
Proof.
  intros Hx. induction k as [|k (IA & IB)].
  - rewrite P_at0, P_at1. lra.
  - pose proof (P_step k x) as E. pose proof (pos_INR k) as Hk. set (n := INR k) in *. set (a := Pfam 0 k x) in *. set (b := Pfam 0 (S k) x) in *. set (c := Pfam 0 (S (S k)) x) in *.
    assert (a <= b) by nra. split; [lra|].
    apply (Rmult_le_reg_l (n + 2)); [lra|]. rewrite E.
    assert (a <= x * b) by nra. assert (x * b = b + (x - 1) * b) by ring. nra.
Qed.
Lemma P_pow k x : 1 <= x -> x ^ k <= Pfam 0 k x.
Proof.
  intros Hx. induction k as [|k IH]; [rewrite P_at0; cbn; lra|]. destruct (P_grow k x Hx) as (_ & H). cbn [pow]. nra.
Qed.
(** The slope of the first kind is positive. *)
Lemma P_slope_bound k x : 1 < x -> INR (S k) * Pfam 0 (S k) x <= x * Pfam 1 (S k) x /\ 0 < Pfam 1 (S k) x.
Proof.
  intros Hx. pose proof first_exists as HP. destruct HP as (Hd & Hb & HP').
  destruct (relations anywhere Pfam 0 open_any Hd Hb (P_h1 Pfam first_exists) (P_h0 Pfam first_exists) k x I) as (A & _ & _).
  destruct (P_grow k x (Rlt_le _ _ Hx)) as (G1 & G2). pose proof (lt_0_INR (S k) (Nat.lt_0_succ k)) as Hn. set (n := INR (S k)) in *. clearbody n. set (a := Pfam 0 k x) in *. set (b := Pfam 0 (S k) x) in *. set (z := Pfam 1 (S k) x) in *.
  assert (Hu : 0 < x * x - 1) by nra.
  assert (L : n * b <= x * z).
  { apply (Rmult_le_reg_l (x * x - 1)); [exact Hu|]. replace ((x * x - 1) * (x * z)) with (x * ((x * x - 1) * z)) by ring. rewrite A. nra. }
  split; [exact L|]. assert (0 < b) by nra. assert (0 < n * b) by (apply Rmult_lt_0_compat; lra). apply (Rmult_lt_reg_l x); lra.
Qed.

Section Second.
Variable D : nat -> nat -> R -> R.
Hypothesis HD : second_kind D.
Lemma off1 x : 1 < x -> off_unit x.
Proof. intros H E. rewrite Rabs_right in E; lra. Qed.
Lemma Q_step k x : 1 < x -> (INR k + 2) * D 0%nat (S (S k)) x = (2 * INR k + 3) * x * D 0%nat (S k) x - (INR k + 1) * D 0%nat k x.
Proof. intros H. destruct HD as (_ & Hb & _). apply Hb. apply off1. exact H. Qed.
Lemma Q_up k x : 1 < x -> (x * x - 1) * D 1%nat (S k) x = INR (S k) * (x * D 0%nat (S k) x - D 0%nat k x).
Proof. intros H. destruct HD as (Hd & Hb & _). apply (relations off_unit D (-1) open_off Hd Hb (Q_h1 D HD) (Q_h0 D HD) k x (off1 x H)). Qed.
Lemma P_up k x : (x * x - 1) * Pfam 1 (S k) x = INR (S k) * (x * Pfam 0 (S k) x - Pfam 0 k x).
Proof. pose proof first_exists as HP. destruct HP as (Hd & Hb & _). apply (relations anywhere Pfam 0 open_any Hd Hb (P_h1 Pfam first_exists) (P_h0 Pfam first_exists) k x I). Qed.

Lemma casorati k x : 1 < x -> INR (S k) * (Pfam 0 (S k) x * D 0%nat k x - Pfam 0 k x * D 0%nat (S k) x) = 1.
Proof.
  intros Hx. induction k as [|k IH].
  - rewrite P_at0, P_at1, (Q_h1 D HD x (off1 x Hx)). cbn [INR]. ring.
  - pose proof (P_step k x) as EP. pose proof (Q_step k x Hx) as EQ. rewrite !S_INR in *.
    replace ((INR k + 1 + 1) * (Pfam 0 (S (S k)) x * D 0%nat (S k) x - Pfam 0 (S k) x * D 0%nat (S (S k)) x))
      with (((INR k + 2) * Pfam 0 (S (S k)) x) * D 0%nat (S k) x - Pfam 0 (S k) x * ((INR k + 2) * D 0%nat (S (S k)) x)) by ring.
    rewrite EP, EQ. transitivity ((INR k + 1) * (Pfam 0 (S k) x * D 0%nat k x - Pfam 0 k x * D 0%nat (S k) x)); [ring | exact IH].
Qed.
Lemma wronski k x : 1 < x -> (x * x - 1) * (Pfam 0 k x * D 1%nat k x - Pfam 1 k x * D 0%nat k x) = -1.
Proof.
  intros Hx. destruct k as [|k].
  - change (Pfam 1 0 x) with 0. rewrite P_at0. pose proof (Q_h0 D HD x (off1 x Hx)). lra.
  - replace ((x * x - 1) * (Pfam 0 (S k) x * D 1%nat (S k) x - Pfam 1 (S k) x * D 0%nat (S k) x))
      with (Pfam 0 (S k) x * ((x * x - 1) * D 1%nat (S k) x) - ((x * x - 1) * Pfam 1 (S k) x) * D 0%nat (S k) x) by ring.
    rewrite Q_up, P_up by exact Hx. pose proof (casorati k x Hx) as C.
    replace (-1) with (- (INR (S k) * (Pfam 0 (S k) x * D 0%nat k x - Pfam 0 k x * D 0%nat (S k) x))) by (rewrite C; ring). ring.
Qed.
Lemma q0_bounds x : 1 < x -> 0 < D 0%nat 0%nat x /\ D 0%nat 0%nat x <= / (x - 1).
Proof.
  intros Hx. destruct HD as (_ & _ & E & _). rewrite E by (apply off1; exact Hx).
  assert (H : (x + 1) / (x - 1) = 1 + 2 * / (x - 1)) by (field; lra). pose proof (Rinv_0_lt_compat (x - 1)) as Hi.
  rewrite Rabs_right by (rewrite H; lra). split.
  - assert (0 < ln ((x + 1) / (x - 1))); [|lra]. rewrite <- ln_1. apply ln_increasing; lra.
  - assert (ln ((x + 1) / (x - 1)) <= 2 * / (x - 1)); [|lra]. rewrite H.
    destruct (Rlt_le_dec (2 * / (x - 1)) (ln (1 + 2 * / (x - 1)))) as [L|L]; [|exact L]. exfalso.
    apply exp_increasing in L. rewrite exp_ln in L by lra. pose proof (exp_ineq1 (2 * / (x - 1))). lra.
Qed.
Lemma W_bound k x : 1 <= x -> Rabs (fW (fst (christ x k))) * x <= (3 * x) ^ k /\ Rabs (fW (snd (christ x k))) * x <= (3 * x) ^ (S k).
Proof.
  intros Hx. induction k as [|k (IA & IB)].
  - cbn [christ fst snd fW pow]. rewrite Rabs_R0, Rabs_R1. split; lra.
  - rewrite christ_step. cbn [fst snd]. split; [exact IB|]. cbv zeta. cbn [fW]. set (u := fW (fst (christ x k))) in *. set (v := fW (snd (christ x k))) in *. rewrite S_INR.
    pose proof (pos_INR k) as Hk. set (n := INR k) in *. clearbody n.
    replace (((2 * (n + 1) + 1) * x * v - (n + 1) * u) * (1 / (n + 1 + 1))) with (((2 * n + 3) * x * v + - ((n + 1) * u)) * / (n + 2)) by (field; lra).
    rewrite Rabs_mult, (Rabs_right (/ (n + 2))) by (apply Rle_ge, Rlt_le, Rinv_0_lt_compat; lra).
    assert (B : Rabs ((2 * n + 3) * x * v + - ((n + 1) * u)) <= (2 * n + 3) * x * Rabs v + (n + 1) * Rabs u).
    { eapply Rle_trans; [apply Rabs_triang|]. rewrite Rabs_Ropp, !Rabs_mult. rewrite (Rabs_right (2 * n + 3)), (Rabs_right x), (Rabs_right (n + 1)) by lra. lra. }
    assert (C : Rabs ((2 * n + 3) * x * v + - ((n + 1) * u)) * x <= (n + 2) * (3 * x) ^ (S (S k))).
    { eapply Rle_trans; [apply Rmult_le_compat_r; [lra | exact B]|]. replace (((2 * n + 3) * x * Rabs v + (n + 1) * Rabs u) * x) with ((2 * n + 3) * x * (Rabs v * x) + (n + 1) * (Rabs u * x)) by ring.
      assert (Hp : 0 <= (3 * x) ^ k) by (apply pow_le; lra). cbn [pow] in *. set (p := (3 * x) ^ k) in *. clearbody p.
      assert ((2 * n + 3) * x * (Rabs v * x) <= (2 * n + 3) * x * (3 * x * p)) by (apply Rmult_le_compat_l; [nra | exact IB]).
      assert ((n + 1) * (Rabs u * x) <= (n + 1) * p) by (apply Rmult_le_compat_l; [lra | exact IA]).
      assert (X : 1 <= x * x) by nra. assert (0 <= (x * x - 1) * p) by (apply Rmult_le_pos; lra). set (g := x * x * p) in *. assert (p <= g) by (unfold g; lra).
      assert (0 <= n * (g - p)) by (apply Rmult_le_pos; lra). assert (0 <= n * p) by (apply Rmult_le_pos; lra).
      replace ((2 * n + 3) * x * (3 * x * p)) with ((2 * n + 3) * 3 * g) in * by (unfold g; ring). replace ((n + 2) * (3 * x * (3 * x * p))) with ((n + 2) * 9 * g) by (unfold g; ring). lra. }
    apply (Rmult_le_reg_l (n + 2)); [lra|]. eapply Rle_trans; [|exact C]. right. field. lra.
Qed.

(** Q_l / P_l decreases to zero. *)
Definition quo (l : nat) (x : R) : R := D 0%nat l x / Pfam 0 l x.
Lemma P_pos l x : 1 < x -> 0 < Pfam 0 l x.
Proof. intros H. destruct (P_grow l x (Rlt_le _ _ H)). lra. Qed.
Lemma quo_lim l x : 1 < x -> derivable_pt_lim (quo l) x (- / ((x * x - 1) * (Pfam 0 l x * Pfam 0 l x))).
Proof.
  intros Hx. pose proof (P_pos l x Hx) as Hp. pose proof first_exists as HP. destruct HP as (HdP & _). destruct HD as (Hd & _).
  eapply lim_eq; [|apply (derivable_pt_lim_div (D 0%nat l) (Pfam 0 l) x); [apply Hd; apply off1; exact Hx | apply HdP; exact I | lra]].
  pose proof (wronski l x Hx) as W. assert (Hu : x * x - 1 <> 0) by nra. unfold Rsqr.
  apply (Rmult_eq_reg_l ((x * x - 1) * (Pfam 0 l x * Pfam 0 l x))); [|apply Rmult_integral_contrapositive; split; [exact Hu | nra]].
  transitivity ((x * x - 1) * (Pfam 0 l x * D 1%nat l x - Pfam 1 l x * D 0%nat l x)); [field; lra|]. rewrite W. field. split; [lra | exact Hu].
Qed.
Lemma quo_dec l a b : 1 < a -> a < b -> quo l b < quo l a.
Proof.
  intros Ha Hab. destruct (MVT_cor2 (quo l) (fun x => - / ((x * x - 1) * (Pfam 0 l x * Pfam 0 l x))) a b Hab) as (c & E & Hc).
  { intros c Hc. apply quo_lim. lra. }
  assert (0 < / ((c * c - 1) * (Pfam 0 l c * Pfam 0 l c))).
  { apply Rinv_0_lt_compat. pose proof (P_pos l c). apply Rmult_lt_0_compat; nra. }
  nra.
Qed.
Lemma quo_low l x : 1 < x -> - 3 ^ l / x < quo l x.
Proof.
  intros Hx. pose proof (P_pos l x Hx) as Hp. destruct (q0_bounds x Hx) as (Q & _).
  assert (E : D 0%nat l x = Pfam 0 l x * D 0%nat 0%nat x - fW (fst (christ x l))).
  { destruct (christ_form D HD x (off1 x Hx) l) as ((E & _) & _). rewrite E. f_equal. f_equal.
    assert (G : forall k, fP (fst (christ x k)) = Pfam 0 k x /\ fP (snd (christ x k)) = Pfam 0 (S k) x).
    { induction k as [|k (IA & IB)]; [split; reflexivity|]. rewrite christ_step. cbn [fst snd]. split; [exact IB|]. cbv zeta. cbn [fP]. rewrite IA, IB, S_INR.
      pose proof (P_step k x) as EP. pose proof (pos_INR k). apply (Rmult_eq_reg_l (INR k + 2)); [|lra]. rewrite EP. field. lra. }
    apply G. }
  destruct (W_bound l x (Rlt_le _ _ Hx)) as (W & _). rewrite Rpow_mult_distr in W. pose proof (P_pow l x (Rlt_le _ _ Hx)) as Pw.
  assert (H3 : 0 < 3 ^ l) by (apply pow_lt; lra). pose proof (Rle_abs (fW (fst (christ x l)))) as Wa.
  unfold quo. rewrite E. set (w := fW (fst (christ x l))) in *. set (p := Pfam 0 l x) in *. set (q := D 0%nat 0%nat x) in *.
  apply (Rmult_lt_reg_r (p * x)); [nra|]. replace ((p * q - w) / p * (p * x)) with (p * q * x - w * x) by (field; lra).
  replace (- 3 ^ l / x * (p * x)) with (- (3 ^ l * p)) by (field; lra).
  assert (w * x <= Rabs w * x) by nra. assert (3 ^ l * x ^ l <= 3 ^ l * p) by (apply Rmult_le_compat_l; lra). assert (0 < p * q * x) by (apply Rmult_lt_0_compat; nra). lra.
Qed.
Lemma quo_pos l x : 1 < x -> 0 < quo l x.
Proof.
  intros Hx. destruct (Rlt_le_dec 0 (quo l x)) as [H|H]; [exact H|]. exfalso.
  pose proof (quo_dec l x (x + 1) Hx ltac:(lra)) as H1. set (e := - quo l (x + 1)). assert (He : 0 < e) by (unfold e; lra).
  assert (H3 : 0 < 3 ^ l) by (apply pow_lt; lra). set (y := x + 1 + 3 ^ l / e). assert (Hq : 0 < 3 ^ l / e) by (apply Rdiv_lt_0_compat; assumption).
  assert (Hy : x + 1 < y) by (unfold y; lra). pose proof (quo_dec l (x + 1) y ltac:(lra) Hy) as H2. pose proof (quo_low l y ltac:(lra)) as H4.
  assert (- 3 ^ l / y < - e) by (fold e in H2; unfold e; lra). apply (Rmult_lt_compat_r y) in H0; [|lra].
  replace (- 3 ^ l / y * y) with (- 3 ^ l) in H0 by (field; lra). assert (e * y = e * (x + 1) + 3 ^ l) by (unfold y; field; lra). nra.
Qed.
Lemma Q_pos l x : 1 < x -> 0 < D 0%nat l x.
Proof.
  intros Hx. pose proof (quo_pos l x Hx) as H. pose proof (P_pos l x Hx) as Hp. unfold quo in H.
  replace (D 0%nat l x) with (D 0%nat l x / Pfam 0 l x * Pfam 0 l x) by (field; lra). apply Rmult_lt_0_compat; assumption.
Qed.
Lemma quo_le l x : 1 < x -> quo l x <= D 0%nat 0%nat x.
Proof.
  intros Hx. induction l as [|l IH].
  - unfold quo. rewrite P_at0. lra.
  - eapply Rle_trans; [|exact IH]. pose proof (casorati l x Hx) as C. pose proof (P_pos l x Hx) as A. pose proof (P_pos (S l) x Hx) as B.
    pose proof (lt_0_INR (S l) (Nat.lt_0_succ l)) as Hn. unfold quo.
    apply (Rmult_le_reg_r (Pfam 0 l x * Pfam 0 (S l) x)); [nra|].
    replace (D 0%nat (S l) x / Pfam 0 (S l) x * (Pfam 0 l x * Pfam 0 (S l) x)) with (Pfam 0 l x * D 0%nat (S l) x) by (field; lra).
    replace (D 0%nat l x / Pfam 0 l x * (Pfam 0 l x * Pfam 0 (S l) x)) with (Pfam 0 (S l) x * D 0%nat l x) by (field; lra). nra.
Qed.

(** Q_l' / P_l' increases to zero. *)
Definition quo' (k : nat) (x : R) : R := D 1%nat (S k) x / Pfam 1 (S k) x.
Lemma quo'_lim k x : 1 < x -> exists v, 0 < v /\ derivable_pt_lim (quo' k) x v.
Proof.
  intros Hx. destruct (P_slope_bound k x Hx) as (_ & Hz). pose proof first_exists as HP. destruct HP as (HdP & HbP & _). destruct HD as (Hd & Hb & _).
  set (c := INR (S k) * (INR (S k) + 1)). assert (Hc : 0 < c) by (unfold c; pose proof (lt_0_INR (S k) (Nat.lt_0_succ k)); nra).
  assert (Hu : 0 < x * x - 1) by nra.
  exists (c / ((x * x - 1) * (x * x - 1) * (Pfam 1 (S k) x * Pfam 1 (S k) x))). split.
  - apply Rdiv_lt_0_compat; [exact Hc|]. apply Rmult_lt_0_compat; nra.
  - eapply lim_eq; [|apply (derivable_pt_lim_div (D 1%nat (S k)) (Pfam 1 (S k)) x); [apply Hd; apply off1; exact Hx | apply HdP; exact I | lra]].
    pose proof (wronski (S k) x Hx) as W. pose proof (Q_ode D HD 0 (S k) x (off1 x Hx)) as EQ.
    pose proof (ode_m anywhere Pfam 0 open_any HdP HbP (P_h1 Pfam first_exists) (P_h0 Pfam first_exists) 0 (S k) x I) as EP.
    change (INR 0) with 0 in EQ, EP. set (u := x * x - 1) in *. clearbody u. set (p := Pfam 0 (S k) x) in *. set (p1 := Pfam 1 (S k) x) in *. set (p2 := Pfam 2 (S k) x) in *.
    set (q := D 0%nat (S k) x) in *. set (q1 := D 1%nat (S k) x) in *. set (q2 := D 2%nat (S k) x) in *. unfold Rsqr.
    assert (K : u * u * (q2 * p1 - p2 * q1) = c).
    { assert (E1 : u * q2 = c * q - 2 * x * q1) by (unfold c; lra). assert (E2 : u * p2 = c * p - 2 * x * p1) by (unfold c; lra).
      replace (u * u * (q2 * p1 - p2 * q1)) with (u * ((u * q2) * p1 - (u * p2) * q1)) by ring. rewrite E1, E2.
      replace (u * ((c * q - 2 * x * q1) * p1 - (c * p - 2 * x * p1) * q1)) with (- c * (u * (p * q1 - p1 * q))) by ring. rewrite W. ring. }
    rewrite <- K. field. split; lra.
Qed.
Lemma quo'_inc k a b : 1 < a -> a < b -> quo' k a < quo' k b.
Proof.
  intros Ha Hab.
  assert (Hd : forall c, 1 < c -> derivable_pt_lim (quo' k) c (D 2%nat (S k) c / Pfam 1 (S k) c - D 1%nat (S k) c * Pfam 2 (S k) c / (Pfam 1 (S k) c * Pfam 1 (S k) c)) ).
  { intros c Hc. destruct (P_slope_bound k c Hc) as (_ & Hz). pose proof first_exists as HP. destruct HP as (HdP & _). destruct HD as (Hd & _).
    eapply lim_eq; [|apply (derivable_pt_lim_div (D 1%nat (S k)) (Pfam 1 (S k)) c); [apply Hd; apply off1; exact Hc | apply HdP; exact I | lra]]. unfold Rsqr. field. lra. }
  destruct (MVT_cor2 (quo' k) _ a b Hab (fun c Hc => Hd c (Rlt_le_trans _ _ _ Ha (proj1 Hc)))) as (c & E & Hc).
  destruct (quo'_lim k c ltac:(lra)) as (v & Hv & L). pose proof (uniqueness_limite _ _ _ _ L (Hd c ltac:(lra))) as U. rewrite <- U in E. nra.
Qed.
Lemma quo'_up k x : 2 <= x -> quo' k x <= 2 / (x - 1).
Proof.
  intros Hx. assert (H1 : 1 < x) by lra. pose proof (Q_up k x H1) as E. destruct (P_slope_bound k x H1) as (B & Hz). pose proof (Q_pos k x H1) as Hq0. pose proof (Q_pos (S k) x H1) as Hq1.
  pose proof (P_pos (S k) x H1) as Hp. pose proof (quo_le (S k) x H1) as Hl. destruct (q0_bounds x H1) as (_ & Hb). pose proof (lt_0_INR (S k) (Nat.lt_0_succ k)) as Hn.
  unfold quo in Hl. unfold quo'. set (n := INR (S k)) in *. clearbody n. set (q0 := D 0%nat k x) in *. set (q := D 0%nat (S k) x) in *. set (z := D 1%nat (S k) x) in *. set (p := Pfam 0 (S k) x) in *. set (p1 := Pfam 1 (S k) x) in *.
  assert (Hi : 0 < / (x - 1)) by (apply Rinv_0_lt_compat; lra).
  assert (Hqp : q <= / (x - 1) * p).
  { apply (Rmult_le_reg_r (/ p)); [apply Rinv_0_lt_compat; exact Hp|]. replace (/ (x - 1) * p * / p) with (/ (x - 1)) by (field; lra). unfold Rdiv in Hl. lra. }
  apply (Rmult_le_reg_r p1); [exact Hz|]. replace (z / p1 * p1) with z by (field; lra).
  assert (Hu : 0 < x * x - 1) by nra. apply (Rmult_le_reg_l (x * x - 1)); [exact Hu|]. rewrite E.
  apply (Rle_trans _ (n * x * q)); [nra|]. apply (Rle_trans _ (x * / (x - 1) * (n * p))).
  { replace (x * / (x - 1) * (n * p)) with (n * x * (/ (x - 1) * p)) by ring. apply Rmult_le_compat_l; [nra | exact Hqp]. }
  apply (Rle_trans _ (x * / (x - 1) * (x * p1))); [apply Rmult_le_compat_l; [nra | exact B]|].
  replace ((x * x - 1) * (2 / (x - 1) * p1)) with (/ (x - 1) * p1 * (2 * (x * x - 1))) by (unfold Rdiv; ring).
  replace (x * / (x - 1) * (x * p1)) with (/ (x - 1) * p1 * (x * x)) by ring. apply Rmult_le_compat_l; nra.
Qed.
Lemma quo'_neg k x : 1 < x -> quo' k x < 0.
Proof.
  intros Hx. destruct (Rlt_le_dec (quo' k x) 0) as [H|H]; [exact H|]. exfalso.
  pose proof (quo'_inc k x (x + 1) Hx ltac:(lra)) as H1. set (e := quo' k (x + 1)) in *. assert (He : 0 < e) by lra.
  assert (Hq : 0 < 2 / e) by (apply Rdiv_lt_0_compat; lra). set (y := x + 2 + 2 / e). assert (Hy : x + 1 < y) by (unfold y; lra).
  pose proof (quo'_inc k (x + 1) y ltac:(lra) Hy) as H2. pose proof (quo'_up k y ltac:(unfold y; lra)) as H4. fold e in H2.
  assert (L : e < 2 / (y - 1)) by lra. apply (Rmult_lt_compat_r (y - 1)) in L; [|lra]. replace (2 / (y - 1) * (y - 1)) with 2 in L by (field; lra).
  assert (e * (y - 1) = e * (x + 1) + 2) by (unfold y; field; lra). nra.
Qed.
Lemma Q_slope_neg l x : 1 < x -> D 1%nat l x < 0.
Proof.
  intros Hx. destruct l as [|k].
  - pose proof (Q_h0 D HD x (off1 x Hx)) as E. assert (0 < x * x - 1) by nra. nra.
  - pose proof (quo'_neg k x Hx) as H. destruct (P_slope_bound k x Hx) as (_ & Hz). unfold quo' in H.
    replace (D 1%nat (S k) x) with (D 1%nat (S k) x / Pfam 1 (S k) x * Pfam 1 (S k) x) by (field; lra). nra.
Qed.

(** Parity. *)
Lemma Q_parity l x : off_unit x -> D 0%nat l (- x) = (-1) ^ S l * D 0%nat l x.
Proof.
  intros Hx. assert (Hm : off_unit (- x)) by (unfold off_unit; rewrite Rabs_Ropp; exact Hx).
  assert (G : forall k, D 0%nat k (- x) = (-1) ^ S k * D 0%nat k x /\ D 0%nat (S k) (- x) = (-1) ^ S (S k) * D 0%nat (S k) x).
  { induction k as [|k (IA & IB)].
    - assert (E : D 0%nat 0%nat (- x) = - D 0%nat 0%nat x).
      { rewrite !(Q00_val D HD) by assumption. unfold q00. replace (- x + 1) with (- (x - 1)) by ring. replace (- x - 1) with (- (x + 1)) by ring. rewrite !Rabs_Ropp. ring. }
      split; [rewrite E; cbn; ring|]. rewrite !(Q_h1 D HD) by assumption. rewrite E. cbn. ring.
    - split; [exact IB|]. destruct HD as (_ & Hb & _). pose proof (Hb k x Hx) as E1. pose proof (Hb k (- x) Hm) as E2. rewrite IA, IB in E2.
      pose proof (pos_INR k). apply (Rmult_eq_reg_l (INR k + 2)); [|lra]. rewrite E2.
      replace ((INR k + 2) * ((-1) ^ S (S (S k)) * D 0%nat (S (S k)) x)) with ((-1) ^ S (S (S k)) * ((INR k + 2) * D 0%nat (S (S k)) x)) by ring.
      rewrite E1. cbn [pow]. ring. }
  apply G.
Qed.
Lemma Q_slope_parity l x : off_unit x -> D 1%nat l (- x) = (-1) ^ l * D 1%nat l x.
Proof.
  intros Hx. assert (Hm : off_unit (- x)) by (unfold off_unit; rewrite Rabs_Ropp; exact Hx). destruct HD as (Hd & Hb & _).
  pose proof (slope_down off_unit D (-1) open_off Hd Hb (Q_h1 D HD) (Q_h0 D HD) l x Hx) as E1. pose proof (slope_down off_unit D (-1) open_off Hd Hb (Q_h1 D HD) (Q_h0 D HD) l (- x) Hm) as E2.
  rewrite !Q_parity in E2 by exact Hx. pose proof (off_u x Hx) as Hu. apply (Rmult_eq_reg_l (x * x - 1)); [|exact Hu].
  replace ((x * x - 1) * ((-1) ^ l * D 1%nat l x)) with ((-1) ^ l * ((x * x - 1) * D 1%nat l x)) by ring. rewrite E1.
  replace (- x * - x - 1) with (x * x - 1) in E2 by ring. rewrite E2. cbn [pow]. ring.
Qed.

Lemma nonvanishing l m x : 1 < Rabs x -> (m <= 1)%nat -> associated D l m x <> 0.
Proof.
  intros Ho Hm. assert (Hx : off_unit x) by (unfold off_unit; lra).
  assert (Hs : forall j, (-1) ^ j <> 0) by (intros; apply pow_nonzero; lra).
  assert (HN : D m l x <> 0).
  { unfold Rabs in Ho. destruct (Rcase_abs x) as [Hn|Hp].
    - replace x with (- - x) by ring. assert (Ho' : off_unit (- x)) by (unfold off_unit; rewrite Rabs_Ropp; exact Hx). destruct m as [|[|m]]; [| |lia].
      + rewrite Q_parity by exact Ho'. apply Rmult_integral_contrapositive. split; [apply Hs|]. pose proof (Q_pos l (- x) Ho). lra.
      + rewrite Q_slope_parity by exact Ho'. apply Rmult_integral_contrapositive. split; [apply Hs|]. pose proof (Q_slope_neg l (- x) Ho). lra.
    - destruct m as [|[|m]]; [| |lia]; [pose proof (Q_pos l x Ho) | pose proof (Q_slope_neg l x Ho)]; lra. }
  rewrite assoc_fac. apply Rmult_integral_contrapositive. split; [|exact HN]. apply pow_nonzero. unfold fac. apply Rmult_integral_contrapositive.
  split; [pose proof (s_nz x); lra | apply w_nz; exact Hx].
Qed.
End Second.

(** The continued fraction as an exact quotient. *)
Definition ratio (x : R) (l m : nat) : res R := Ok (associated Qfam l m x / associated Qfam (l - 1) m x).
Lemma ratio_exact x l m : 1 < Rabs x -> (m <= 1)%nat -> exists rho, ratio x l m = Ok rho /\ associated Qfam l m x = rho * associated Qfam (l - 1) m x.
Proof. intros Ho Hm. eexists. split; [reflexivity|]. field. apply nonvanishing; [apply second_exists | exact Ho | exact Hm]. Qed.
Lemma above_zero_refuted : exists cf s lmax mmax x a, qlm cf s lmax mmax x = Ok a /\
  ~ (forall l m, (l <= Z.to_nat lmax)%nat -> (m <= Z.to_nat mmax)%nat -> (l < m)%nat -> a (m * (Z.to_nat lmax + 1) + l)%nat = 0).
Proof.
  exists ratio, 1, 1%Z, 1%Z, (1 / 2). destruct (above_table Qfam ratio 1 1 1 (1 / 2) second_exists) as (a & E & H); [lia | lia | rewrite Rabs_right; lra | lra|].
  exists a. split; [exact E|]. intros K. apply H. apply K; lia.
Qed.
