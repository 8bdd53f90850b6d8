(** The screening of tabulated atoms against Riemann integrals. *)
Require Import Reals Lra Lia List Arith Bool ZArith.
Require Import Verif.Prelude Verif.FEModel Verif.FESpec Verif.FEProofs Verif.LegMath.
Require Import Verif.SadModel Verif.SadSpec Verif.SadProofs Verif.SadField.
Require Verif.RadModel.
Import ListNotations.
Open Scope R_scope.

(* ------------------------------------------------------------------ *)
(** * Integrals *)
Lemma int_unique g a b v w : is_int g a b v -> is_int g a b w -> v = w.
Proof. intros (p & <-) (q & <-). apply RiemannInt_P5. Qed.
Lemma int_point g a : is_int g a a 0.
Proof. exists (RiemannInt_P7 g a). apply RiemannInt_P9. Qed.
Lemma int_sub g a b c d v : is_int g a b v -> a <= c -> c <= d -> d <= b -> exists w, is_int g c d w.
Proof.
  intros (p & _) H1 H2 H3.
  assert (p1 : Riemann_integrable g c b) by (apply (RiemannInt_P23 p); lra).
  assert (p2 : Riemann_integrable g c d) by (apply (RiemannInt_P22 p1); lra).
  exists (RiemannInt p2), p2. reflexivity.
Qed.
Lemma int_join g a b c v w : a <= b -> b <= c -> is_int g a b v -> is_int g b c w -> is_int g a c (v + w).
Proof.
  intros H1 H2 (p & <-) (q & <-). exists (RiemannInt_P21 H1 H2 p q). symmetry. apply RiemannInt_P26.
Qed.
Lemma int_le f g a b v w : a <= b -> (forall x, a < x < b -> f x <= g x) -> is_int f a b v -> is_int g a b w -> v <= w.
Proof. intros H1 H2 (p & <-) (q & <-). apply RiemannInt_P19; assumption. Qed.
Lemma int_lin f g a b c v w : is_int f a b v -> is_int g a b w -> is_int (fun x => f x + c * g x) a b (v + c * w).
Proof. intros (p & <-) (q & <-). exists (RiemannInt_P10 c p q). apply RiemannInt_P13. Qed.
Lemma int_pos g a b v : a <= b -> (forall x, a < x < b -> 0 <= g x) -> is_int g a b v -> 0 <= v.
Proof.
  intros H1 H2 H. apply (int_le (fct_cte 0) g a b 0 v H1 H2); [|exact H].
  exists (RiemannInt_P14 a b 0). rewrite RiemannInt_P15. ring.
Qed.

(* ------------------------------------------------------------------ *)
Lemma each_ok {A} (f : A -> res R) l : (forall a, In a l -> exists v, f a = Ok v) ->
  exists vs, RadModel.each f l = Ok vs /\ length vs = length l /\
    forall i d, (i < length l)%nat -> f (nth i l d) = Ok (nth i vs 0).
Proof.
  induction l as [|a l IH]; intros H; cbn [RadModel.each].
  - exists []. split; [reflexivity|]. split; [reflexivity|]. cbn [length]. lia.
  - destruct (H a (or_introl eq_refl)) as (v & Ev). rewrite Ev. cbn [bind].
    destruct IH as (vs & -> & El & Hv); [intros b Hb; apply H; right; exact Hb|]. cbn [bind].
    exists (v :: vs). split; [reflexivity|]. split; [cbn [length]; lia|].
    intros [|i] d Hi; cbn [nth length] in *; [exact Ev|apply Hv; lia].
Qed.

Section Atom.
Variable (b : fe).
Hypothesis Hv : valid_fe b.
Notation nel := (get_nelem b).

Lemma nel_pos : (1 <= nel)%nat.
Proof. destruct Hv as (_ & H & _). unfold get_nelem. lia. Qed.
Lemma ends_lt e : (e < nel)%nat -> left_end b e < right_end b e.
Proof. intros He. destruct Hv as (_ & H & Hi). unfold left_end, right_end. apply Hi; unfold get_nelem in He; lia. Qed.
Lemma ends_le i j : (i <= j)%nat -> (j <= nel)%nat -> nth i (fe_bval b) 0 <= nth j (fe_bval b) 0.
Proof. intros Hij Hj. destruct Hv as (_ & H & Hi). apply increasing_le; auto. unfold get_nelem in Hj. lia. Qed.
Lemma mid_ok e : (e < nel)%nat -> element_midpoint b e = Ok ((left_end b e + right_end b e) / 2).
Proof. intros He. unfold element_midpoint. rewrite begin_ok, end_ok by exact He. cbn [bind]. unfold left_end, right_end. f_equal. field. Qed.
Lemma len_ok e : (e < nel)%nat -> element_length b e = Ok (right_end b e - left_end b e).
Proof.
  intros He. unfold element_length. destruct (Nat.leb_spec nel e); [lia|].
  assert (Hl : (e + 1 < length (fe_bval b))%nat) by (unfold get_nelem in He; lia).
  rewrite (at_nth _ (e + 1) 0) by lia. rewrite (at_nth _ e 0) by lia. reflexivity.
Qed.
Lemma radius_ends e : radius_of b e (-1) = left_end b e /\ radius_of b e 1 = right_end b e.
Proof. unfold radius_of. split; field. Qed.

Lemma locate_ok fuel r : (nel <= fuel)%nat -> nth 0 (fe_bval b) 0 <= r <= last_end b ->
  exists e x, locate b fuel r = Ok (e, x) /\ (e < nel)%nat /\ -1 <= x <= 1 /\ radius_of b e x = r /\ left_end b e <= r <= right_end b e.
Proof.
  intros Hf Hr. unfold locate. destruct (find_element_finite b r fuel Hv Hf) as (e & E & He & _ & _ & Hin).
  specialize (Hin Hr). unfold in_element in Hin. fold (left_end b e) (right_end b e) in Hin.
  rewrite E. cbn [bind]. rewrite mid_ok, len_ok by exact He. cbn [bind].
  pose proof (ends_lt e He) as Hl. set (x := (r - (left_end b e + right_end b e) / 2) / (1 / 2 * (right_end b e - left_end b e))).
  assert (Hx : -1 <= x <= 1).
  { set (h := 1 / 2 * (right_end b e - left_end b e)) in *. assert (Hh : 0 < h) by (unfold h; lra).
    assert (Ex : x * h = r - (left_end b e + right_end b e) / 2) by (unfold x; field; lra).
    split; apply Rmult_le_reg_r with h; try exact Hh; rewrite Ex; unfold h; lra. }
  exists e, x. rewrite Rmax_left by lra. rewrite Rmin_left by lra.
  split; [reflexivity|]. split; [exact He|]. split; [exact Hx|]. split; [|exact Hin].
  unfold radius_of, x. field. lra.
Qed.

Section Rule.
Variables (first len : nat -> nat) (bf : nat -> R -> vec) (P : mat) (nq : nat) (xq wq : vec).
Notation rho := (rho4 first len bf P).
Notation part := (partial_integral b first len bf P nq xq wq).
Variables (d : R -> R) (err : R).
Hypothesis Hd : represents b rho d.
Hypothesis Hx : forall q, (q < nq)%nat -> -1 <= xq q <= 1.
Hypothesis He0 : 0 <= err.
Hypothesis Hc : rule_error b nq xq wq (charge d) err.
Hypothesis Hm : rule_error b nq xq wq (moment d) err.

Lemma part_ok (over : bool) e xa xb v : (e < nel)%nat -> -1 <= xa -> xa <= xb -> xb <= 1 ->
  is_int (if over then moment d else charge d) (radius_of b e xa) (radius_of b e xb) v ->
  exists p, part over xa xb e = Ok p /\ Rabs (p - v) <= err.
Proof.
  intros He H1 H2 H3 Hi. unfold partial_integral.
  destruct (Rleb_spec (1 / 2 * (xb - xa)) 0) as [H|H].
  - assert (xa = xb) as <- by lra. exists 0. split; [reflexivity|].
    rewrite (int_unique _ _ _ _ _ Hi (int_point _ _)). replace (0 - 0) with 0 by ring. rewrite Rabs_R0. exact He0.
  - rewrite mid_ok, len_ok by exact He. cbn [bind]. eexists. split; [reflexivity|].
    pose proof (ends_lt e He) as Hl. pose proof (radius_ends e) as [R1 R2].
    set (s := radius_of b e xa) in *. set (t := radius_of b e xb) in *.
    assert (Est : t - s = (right_end b e - left_end b e) / 2 * (xb - xa)) by (unfold s, t, radius_of; ring).
    assert (Hst : s < t) by nra.
    assert (Hs : left_end b e <= s) by (rewrite <- R1; unfold s, radius_of; nra).
    assert (Ht : t <= right_end b e) by (rewrite <- R2; unfold t, radius_of; nra).
    assert (HE : Rabs ((t - s) / 2 * sum nq (fun q => wq q * (if over then moment d else charge d) ((s + t) / 2 + (t - s) / 2 * xq q)) - v) <= err).
    { destruct over; [apply (Hm e s t v)|apply (Hc e s t v)]; assumption. }
    match goal with |- Rabs (?A - v) <= err => replace A with ((t - s) / 2 * sum nq (fun q => wq q * (if over then moment d else charge d) ((s + t) / 2 + (t - s) / 2 * xq q))) end; [exact HE|].
    rewrite Est. replace ((right_end b e - left_end b e) / 2 * (xb - xa) / 2) with (1 / 2 * (right_end b e - left_end b e) * (1 / 2 * (xb - xa))) by field.
    f_equal. apply sum_ext. intros q Hq. f_equal.
    assert (Er : (s + t) / 2 + 1 / 2 * (right_end b e - left_end b e) * (1 / 2 * (xb - xa)) * xq q
               = (left_end b e + right_end b e) / 2 + (right_end b e - left_end b e) / 2 * (1 / 2 * (xa + xb) + 1 / 2 * (xb - xa) * xq q)).
    { unfold s, t, radius_of. field. }
    rewrite Er. rewrite (Hd e) by (try exact He; pose proof (Hx q Hq); split; nra).
    unfold radius_of, moment, charge. destruct over; ring.
Qed.

Section Total.
Variables (N M : R).
Hypothesis HN : is_int (charge d) (nth 0 (fe_bval b) 0) (last_end b) N.
Hypothesis HM : is_int (moment d) (nth 0 (fe_bval b) 0) (last_end b) M.

Lemma whole_ok (over : bool) : exists vs, RadModel.each (part over (-1) 1) (seq 0 nel) = Ok vs /\
  forall e, (e < nel)%nat -> forall v, is_int (if over then moment d else charge d) (left_end b e) (right_end b e) v -> Rabs (nth e vs 0 - v) <= err.
Proof.
  assert (Hint : forall e, (e < nel)%nat -> exists v, is_int (if over then moment d else charge d) (left_end b e) (right_end b e) v).
  { intros e He. pose proof (ends_lt e He). pose proof (ends_le 0 e ltac:(lia) ltac:(lia)). pose proof (ends_le (e + 1) nel ltac:(lia) ltac:(lia)).
    unfold left_end, right_end in *.
    destruct over; [apply (int_sub _ _ _ _ _ _ HM)|apply (int_sub _ _ _ _ _ _ HN)]; unfold last_end; lra. }
  assert (Hp : forall e, (e < nel)%nat -> forall v, is_int (if over then moment d else charge d) (left_end b e) (right_end b e) v ->
     exists p, part over (-1) 1 e = Ok p /\ Rabs (p - v) <= err).
  { intros e He v Hi. destruct (radius_ends e) as [R1 R2]. apply part_ok; try lra; try exact He. rewrite R1, R2. exact Hi. }
  destruct (each_ok (part over (-1) 1) (seq 0 nel)) as (vs & E & El & Hvs).
  - intros e He. apply in_seq in He. destruct (Hint e ltac:(lia)) as (v & Hi). destruct (Hp e ltac:(lia) v Hi) as (p & Ep & _). eauto.
  - exists vs. split; [exact E|]. intros e He v Hi. destruct (Hp e He v Hi) as (p & Ep & Hr).
    specialize (Hvs e 0%nat). rewrite seq_length, seq_nth in Hvs by exact He. specialize (Hvs He). cbn [Nat.add] in Hvs. congruence.
Qed.

(** Charges below. *)
Lemma below_sum vs : (forall e, (e < nel)%nat -> forall v, is_int (charge d) (left_end b e) (right_end b e) v -> Rabs (nth e vs 0 - v) <= err) ->
  forall e, (e <= nel)%nat -> exists v, is_int (charge d) (nth 0 (fe_bval b) 0) (nth e (fe_bval b) 0) v /\ Rabs (sum e (fun j => nth j vs 0) - v) <= INR e * err.
Proof.
  intros Hvs. induction e as [|e IH]; intros He.
  - exists 0. split; [apply int_point|]. cbn [sum INR]. replace (0 - 0) with 0 by ring. rewrite Rabs_R0. lra.
  - destruct IH as (v & Hi & Hr); [lia|].
    destruct (int_sub (charge d) _ _ (left_end b e) (right_end b e) N HN) as (w & Hw).
    { apply (ends_le 0 e); lia. } { apply Rlt_le, ends_lt. lia. } { unfold right_end. apply (ends_le (e + 1) nel); lia. }
    exists (v + w). split.
    + replace (S e) with (e + 1)%nat by lia. apply int_join with (nth e (fe_bval b) 0); [apply ends_le; lia|apply Rlt_le, ends_lt; lia|exact Hi|exact Hw].
    + cbn [sum]. rewrite S_INR. specialize (Hvs e ltac:(lia) w Hw).
      replace (sum e (fun j => nth j vs 0) + nth e vs 0 - (v + w)) with ((sum e (fun j => nth j vs 0) - v) + (nth e vs 0 - w)) by ring.
      apply Rle_trans with (1 := Rabs_triang _ _). lra.
Qed.
(** Moments above. *)
Lemma above_sum vs : (forall e, (e < nel)%nat -> forall v, is_int (moment d) (left_end b e) (right_end b e) v -> Rabs (nth e vs 0 - v) <= err) ->
  forall k, (k <= nel)%nat -> exists v, is_int (moment d) (nth (nel - k) (fe_bval b) 0) (last_end b) v /\
    Rabs (tail_sum nel (fun j => nth j vs 0) (nel - k) - v) <= INR k * err.
Proof.
  intros Hvs. induction k as [|k IH]; intros Hk.
  - rewrite Nat.sub_0_r. exists 0. split; [apply int_point|]. unfold tail_sum. rewrite Nat.sub_diag. cbn [sum INR].
    replace (0 - 0) with 0 by ring. rewrite Rabs_R0. lra.
  - destruct IH as (v & Hi & Hr); [lia|]. set (e := (nel - S k)%nat).
    replace (nel - k)%nat with (e + 1)%nat in Hi, Hr by (unfold e; lia).
    assert (He : (e < nel)%nat) by (unfold e; lia).
    destruct (int_sub (moment d) _ _ (left_end b e) (right_end b e) M HM) as (w & Hw).
    { apply (ends_le 0 e); lia. } { apply Rlt_le, ends_lt. lia. } { unfold right_end. apply (ends_le (e + 1) nel); lia. }
    exists (w + v). split.
    + apply int_join with (right_end b e); [apply Rlt_le, (ends_lt e He)|apply (ends_le (e + 1) nel); lia|exact Hw|exact Hi].
    + rewrite (tail_sum_step nel _ e He), S_INR. specialize (Hvs e He w Hw). cbv beta.
      replace (e + 1)%nat with (S e) in Hr by lia.
      replace (nth e vs 0 + tail_sum nel (fun j => nth j vs 0) (S e) - (w + v))
        with ((tail_sum nel (fun j => nth j vs 0) (S e) - v) + (nth e vs 0 - w)) by ring.
      apply Rle_trans with (1 := Rabs_triang _ _). lra.
Qed.

Lemma below_fold (q : vec) m : let v := fold_left (fun (v : vec) e => upd v e (v (e - 1)%nat + q (e - 1)%nat)) (seq 1 m) (fun _ => 0) in
  forall i, (i <= m)%nat -> v i = sum i q.
Proof.
  induction m as [|m IH]; intros v i Hi; subst v.
  - replace i with 0%nat by lia. reflexivity.
  - rewrite seq_S, fold_left_app. cbn [fold_left]. cbv zeta in IH. replace (1 + m)%nat with (S m) by lia.
    destruct (Nat.eq_dec i (S m)) as [->|Hne].
    + rewrite upd_same. replace (S m - 1)%nat with m by lia. rewrite IH by lia. reflexivity.
    + rewrite upd_other by exact Hne. apply IH. lia.
Qed.
Lemma above_fold n (q : vec) m : (m < n)%nat -> forall v : vec, (forall i, (m <= i)%nat -> (i < n)%nat -> v i = tail_sum n q (S i)) ->
  forall i, (i < n)%nat -> fold_left (fun (v : vec) e => upd v e (v (e + 1)%nat + q (e + 1)%nat)) (rev (seq 0 m)) v i = tail_sum n q (S i).
Proof.
  induction m as [|m IH]; intros Hm0 v Hv' i Hi; [apply Hv'; lia|].
  rewrite seq_S, rev_app_distr. cbn [rev app fold_left]. rewrite Nat.add_0_l. apply IH; [lia| |exact Hi].
  intros j H1 H2. destruct (Nat.eq_dec j m) as [->|Hne].
  - rewrite upd_same. replace (m + 1)%nat with (S m) by lia. rewrite Hv' by lia. rewrite (tail_sum_step n q (S m)) by lia. ring.
  - rewrite upd_other by exact Hne. apply Hv'; lia.
Qed.

Lemma Rabs_plus2 a a' c c' x y : Rabs (a - a') <= x -> Rabs (c - c') <= y -> Rabs (a + c - (a' + c')) <= x + y.
Proof.
  intros H1 H2. replace (a + c - (a' + c')) with ((a - a') + (c - c')) by ring. apply Rle_trans with (1 := Rabs_triang _ _). lra.
Qed.

Lemma atom_ok : exists t, make_atom b first len bf P nq xq wq = Ok t /\ Rlast t = last_end b /\ Rabs (Ntot t - N) <= INR nel * err /\
  forall fuel r, (nel <= fuel)%nat -> nth 0 (fe_bval b) 0 <= r -> 0 < r -> r < last_end b ->
    exists q m ve vh, is_int (charge d) (nth 0 (fe_bval b) 0) r q /\ is_int (moment d) r (last_end b) m /\
      enclosed_charge b first len bf P nq xq wq fuel t r = Ok ve /\ hartree_screening b first len bf P nq xq wq fuel t r = Ok vh /\
      Rabs (ve - q) <= INR nel * err /\ Rabs (vh - (q + r * m)) <= INR nel * err * (1 + r).
Proof.
  pose proof nel_pos as Hnp.
  destruct (whole_ok false) as (qs & Eq & Hq). destruct (whole_ok true) as (ms & Em & Hms). cbv iota in Hq, Hms.
  unfold make_atom. cbv zeta. rewrite Eq, Em. cbn [bind]. rewrite end_ok by lia. cbn [bind].
  eexists. split; [reflexivity|]. cbn [Rlast Ntot Qbelow Mabove]. split; [unfold last_end; f_equal; lia|].
  pose proof (below_sum qs Hq) as Hb. pose proof (above_sum ms Hms) as Ha.
  split.
  { destruct (Hb nel ltac:(lia)) as (v & Hi & Hr). rewrite (int_unique _ _ _ _ _ HN Hi). exact Hr. }
  intros fuel r Hf Hr0 Hr1 Hr2.
  unfold enclosed_charge, hartree_screening. cbn [Rlast Ntot Qbelow Mabove].
  replace (nth (nel - 1 + 1) (fe_bval b) 0) with (last_end b) by (unfold last_end; f_equal; lia).
  destruct (Rleb_spec r 0) as [H|_]; [lra|]. destruct (Rleb_spec (last_end b) r) as [H|_]; [lra|].
  destruct (locate_ok fuel r Hf ltac:(lra)) as (e & x & El & He & Hxx & Hrx & Hin). rewrite El. cbn [bind fst snd].
  pose proof (radius_ends e) as [R1 R2]. pose proof (ends_lt e He) as Hlt.
  destruct (int_sub (charge d) _ _ (left_end b e) r N HN) as (q1 & Hq1); [apply (ends_le 0 e); lia|lra|lra|].
  destruct (int_sub (moment d) _ _ r (right_end b e) M HM) as (m1 & Hm1); [exact Hr0|lra|apply (ends_le (e + 1) nel); lia|].
  destruct (part_ok false e (-1) x q1) as (p & -> & Hp); try lra; try exact He. { rewrite R1, Hrx. exact Hq1. }
  destruct (part_ok true e x 1 m1) as (p' & -> & Hp'); try lra; try exact He. { rewrite R2, Hrx. exact Hm1. }
  cbn [bind].
  destruct (Hb e ltac:(lia)) as (q0 & Hq0 & Hqe). destruct (Ha (nel - S e)%nat ltac:(lia)) as (m0 & Hm0 & Hme).
  replace (nel - (nel - S e))%nat with (S e) in Hm0, Hme by lia.
  rewrite (below_fold (fun j => nth j qs 0) (nel - 1) e) by lia.
  rewrite (above_fold nel (fun j => nth j ms 0) (nel - 1)) by
    (try lia; intros i I1 I2; unfold tail_sum; replace (nel - S i)%nat with 0%nat by lia; reflexivity).
  assert (Hne : INR e * err + err <= INR nel * err).
  { replace (INR e * err + err) with (INR (S e) * err) by (rewrite S_INR; ring). apply Rmult_le_compat_r; [exact He0|]. apply le_INR. lia. }
  assert (Hnm : INR (nel - S e) * err + err <= INR nel * err).
  { replace (INR (nel - S e) * err + err) with (INR (S (nel - S e)) * err) by (rewrite S_INR; ring). apply Rmult_le_compat_r; [exact He0|]. apply le_INR. lia. }
  exists (q0 + q1), (m0 + m1). do 2 eexists. split; [|split; [|split; [reflexivity|split; [reflexivity|split]]]].
  - apply int_join with (left_end b e); [apply (ends_le 0 e); lia|lra|exact Hq0|exact Hq1].
  - replace (m0 + m1) with (m1 + m0) by ring. replace (S e) with (e + 1)%nat in Hm0 by lia.
    apply int_join with (right_end b e); [lra|apply (ends_le (e + 1) nel); lia|exact Hm1|exact Hm0].
  - apply Rle_trans with (INR e * err + err); [|exact Hne]. apply Rabs_plus2; assumption.
  - pose proof (Rabs_plus2 _ _ _ _ _ _ Hqe Hp) as Hin1. pose proof (Rabs_plus2 _ _ _ _ _ _ Hme Hp') as Hin2.
    assert (Hin3 : Rabs (r * (tail_sum nel (fun j => nth j ms 0) (S e) + p') - r * (m0 + m1)) <= INR nel * err * r).
    { rewrite <- Rmult_minus_distr_l, Rabs_mult, (Rabs_right r) by lra. rewrite (Rmult_comm (INR nel * err)). apply Rmult_le_compat_l; lra. }
    apply Rle_trans with (INR nel * err + INR nel * err * r); [|right; ring].
    apply Rabs_plus2; [lra|exact Hin3].
Qed.
End Total.
End Rule.
End Atom.
