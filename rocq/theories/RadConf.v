(** Proofs about the confinement potentials and the off-centre nuclei. *)
Require Import Reals List Arith Bool ZArith Lia Lra.
Require Import Verif.Prelude Verif.FEModel Verif.FESpec Verif.FEProofs.
Require Import Verif.ShapeModel Verif.ShapeSpec Verif.ShapePoly Verif.ShapeProofs.
Require Import Verif.QuadModel Verif.QuadSpec Verif.QuadProofs Verif.QuadInt.
Require Import Verif.RadModel Verif.RadSpec Verif.RadProofs Verif.RadFun Verif.RadMat Verif.RadExact.
Import ListNotations.
Open Scope R_scope.

Lemma exp_loop_value n x : exp_loop n x = (- taylor n x, INR (fact n), x ^ n).
Proof.
  induction n as [|n IH]; cbn [exp_loop].
  - unfold taylor. cbn [sum fact pow]. change (INR 1) with 1. f_equal. f_equal. ring.
  - rewrite IH. unfold taylor. cbn [sum]. f_equal; [f_equal|].
    + unfold Rdiv. ring.
    + rewrite fact_simpl, mult_INR, S_INR. ring.
    + cbn [pow]. ring.
Qed.
Lemma exp_weight_value N r0 shift r : exp_weight N r0 shift r = conf_exp N r0 shift r.
Proof.
  unfold exp_weight, conf_exp. destruct (Rltb r shift); [reflexivity|]. cbv zeta. rewrite exp_loop_value. ring.
Qed.

Lemma taylor_below n x : 0 <= x -> taylor n x <= exp x.
Proof.
  intros Hx. unfold exp. destruct (exist_exp x) as (l & Hl). cbn. unfold exp_in, infinite_sum in Hl.
  apply Rnot_lt_le. intros Hc. destruct (Hl (taylor n x - l) ltac:(lra)) as (M & HM). specialize (HM (Nat.max M n) ltac:(lia)).
  assert (G : forall m, sum_f_R0 (fun i => / INR (fact i) * x ^ i) m = taylor (S m) x).
  { induction m as [|m IH]; [unfold taylor; cbn; field|]. cbn [sum_f_R0]. rewrite IH. unfold taylor. cbn [sum]. unfold Rdiv. ring. }
  assert (Mo : forall k m, taylor m x <= taylor (m + k) x).
  { induction k as [|k IH]; intros m; [rewrite Nat.add_0_r; lra|]. replace (m + S k)%nat with (S (m + k)) by lia.
    specialize (IH m). assert (T : taylor (S (m + k)) x = taylor (m + k) x + x ^ (m + k) / INR (fact (m + k))) by reflexivity.
    assert (0 <= x ^ (m + k) / INR (fact (m + k))).
    { apply Rmult_le_pos; [apply pow_le; exact Hx|]. apply Rlt_le, Rinv_0_lt_compat, INR_fact_lt_0. }
    lra. }
  rewrite G in HM. pose proof (Mo (S (Nat.max M n) - n)%nat n) as Q. replace (n + (S (Nat.max M n) - n))%nat with (S (Nat.max M n)) in Q by lia.
  unfold R_dist in HM. rewrite Rabs_right in HM by lra. lra.
Qed.
Lemma conf_exp_nonneg N r0 shift r : 0 < r0 -> 0 <= conf_exp N r0 shift r.
Proof.
  intros H. unfold conf_exp. destruct (Rltb_spec r shift) as [|Hr]; [lra|].
  assert (0 <= (r - shift) / r0) by (apply Rmult_le_pos; [lra | apply Rlt_le, Rinv_0_lt_compat; exact H]).
  pose proof (taylor_below N _ H0). pose proof (pos_INR (fact N)). apply Rmult_le_pos; lra.
Qed.

Section Conf.
Variable rb : rad.
Hypothesis Hok : radial_ok rb.
Notation b := (rb_fe rb).
Notation x0 := (rb_x0 rb).
Variables (lobx lobw : nat -> vec) (dist : mat -> mat -> fp) (scale : mat -> fp) (tol sqrteps : R).
Notation me := (me lobx lobw dist scale tol sqrteps).
Notation confinement := (confinement_potential lobx lobw dist scale tol sqrteps).

Lemma bb_matrix e f bps deg : (e < get_nelem b)%nat ->
  exists (n : R * R -> nat) B, me rb e B0 B0 f bps deg = Ok B /\ (forall p, (5 <= n p <= 512)%nat) /\ matrix_of rb lobx lobw n bps e (wt f) B.
Proof.
  intros He. destruct (me_range_entries rb Hok lobx lobw dist scale tol sqrteps e B0 B0 f bps deg (-1) 1 He ltac:(lra)) as (n & B & E & Hn & HB).
  exists n, B. split; [exact E|]. split; [|exact HB]. intros p. destruct (Hn p) as [A [_ C]].
  unfold start in A. pose proof (auto_nstart_ok (Z.of_nat (noverlap (fe_fam b))) (Z.of_nat (fe_n b)) deg) as [D _]. lia.
Qed.

(** r R = B in an element. *)
Lemma rr_bb e x i : (e < get_nelem b)%nat -> (e = 0%nat \/ radius b e x <> 0) ->
  radius b e x * entry (get_bf rb e x) i = entry (fe_dnf b x0 0 e x) i.
Proof.
  intros He Hr. pose proof (half_pos b e (proj1 Hok) He) as Hh.
  assert (X : xi b e (radius b e x) = x) by (unfold xi, radius; field; lra).
  destruct (lt_dec i (count b e)) as [Hi|Hi].
  - destruct (radial_functions rb Hok e (radius b e x) i He Hr Hi) as (_ & V & _). rewrite X in V. exact V.
  - destruct (kind_total rb Hok R0 e x He) as (v & E & L). destruct (kind_total rb Hok B0 e x He) as (w & E' & L'). cbn [kind_eval] in *.
    rewrite E, E'. cbn [entry]. rewrite !nth_overflow by lia. ring.
Qed.

Lemma rr_matrix e f V bps deg : (e < get_nelem b)%nat -> 
  exists (n : R * R -> nat) B, me rb e R0 R0 f bps deg = Ok B /\ (forall p, (5 <= n p <= 512)%nat) /\
   ((forall p q, In p (panels ((lo b e + hi b e) / 2) (half b e) (-1) 1 bps) -> (q < n p)%nat ->
      let r := radius b e ((snd p + fst p) / 2 + (snd p - fst p) / 2 * lobx (n p) q) in
      (e = 0%nat \/ r <> 0) /\ wt f r = V r * (r * r)) ->
    matrix_of rb lobx lobw n bps e V B).
Proof.
  intros He. destruct (me_range_entries rb Hok lobx lobw dist scale tol sqrteps e R0 R0 f bps deg (-1) 1 He ltac:(lra)) as (n & B & E & Hn & HB).
  exists n, B. split; [exact E|]. split.
  - intros p. destruct (Hn p) as [A [_ C]].
    unfold start in A. pose proof (auto_nstart_ok (Z.of_nat (noverlap (fe_fam b))) (Z.of_nat (fe_n b)) deg) as [D _]. lia.
  - intros HV i j. rewrite HB. apply lsum_ext. intros p Hp. unfold quad. apply sum_ext. intros q Hq. specialize (HV p q Hp Hq). cbv zeta in HV.
    set (x := (snd p + fst p) / 2 + (snd p - fst p) / 2 * lobx (n p) q) in *. destruct HV as [Hr Hw]. rewrite Hw.
    rewrite <- (rr_bb e x i He Hr), <- (rr_bb e x j He Hr). cbn [kind_eval]. ring.
Qed.

Lemma matrix_of_scaled n bps e V M c : matrix_of rb lobx lobw n bps e V M -> matrix_of rb lobx lobw n bps e (fun r => c * V r) (mscal c M).
Proof.
  intros H i j. unfold mscal. rewrite H. rewrite <- lsum_scal. apply lsum_ext. intros p _. unfold quad. rewrite <- sum_scal. apply sum_ext. intros q _. ring.
Qed.
Lemma matrix_of_ext n bps e V W M : (forall r, V r = W r) -> matrix_of rb lobx lobw n bps e V M -> matrix_of rb lobx lobw n bps e W M.
Proof.
  intros H HM i j. rewrite HM. apply lsum_ext. intros p _. unfold quad. apply sum_ext. intros q _. rewrite H. reflexivity.
Qed.

Lemma pow_zpow x n : powerRZ x (Z.of_nat n) = x ^ n.
Proof. symmetry. apply pow_powerRZ. Qed.

Lemma pow_zneg x n : powerRZ x (- Z.of_nat n) = / x ^ n.
Proof. rewrite powerRZ_neg', pow_zpow. reflexivity. Qed.

Lemma conf_decides e N r0 iconf V shift : (e < get_nelem b)%nat ->
  (conf_ok iconf N V shift -> exists B, confinement rb e N r0 iconf V shift = Ok B) /\
  (~ conf_ok iconf N V shift -> confinement rb e N r0 iconf V shift = Throw LogicError).
Proof.
  intros He. unfold confinement_potential, conf_ok, scaled, polynomial_confinement, exponential_confinement, barrier_confinement, junq_confinement.
  assert (G : forall k1 k2 f bps deg, exists B, me rb e k1 k2 f bps deg = Ok B).
  { intros. destruct (me_range_entries rb Hok lobx lobw dist scale tol sqrteps e k1 k2 f bps deg (-1) 1 He ltac:(lra)) as (n & B & E & _). exists B. exact E. }
  assert (S : forall s k1 k2 f bps deg, exists B, bind (me rb e k1 k2 f bps deg) (fun M => Ok (mscal s M)) = Ok B).
  { intros. destruct (G k1 k2 f bps deg) as (B & ->). eexists. reflexivity. }
  destruct (Z.eqb_spec iconf 1) as [->|H1].
  { destruct (Z.ltb_spec N 0).
    - destruct (Reqb_spec shift 0) as [->|Hs]; cbn [negb].
      + split; [intros _; apply S | intros Hn; exfalso; apply Hn; left; split; [reflexivity | right; reflexivity]].
      + split; [|reflexivity]. intros [(_ & [A|A])|[(A & _)|[(A & _)|(A & _)]]]; try lia; contradiction.
    - split; [intros _; apply S | intros Hn; exfalso; apply Hn; left; split; [reflexivity | left; lia]]. }
  destruct (Z.eqb_spec iconf 2) as [->|H2].
  { destruct (Z.ltb_spec N 0); [|destruct (Z.eqb_spec N 0)].
    - split; [|reflexivity]. intros [(A & _)|[(_ & A)|[(A & _)|(A & _)]]]; lia.
    - split; [|reflexivity]. intros [(A & _)|[(_ & A)|[(A & _)|(A & _)]]]; lia.
    - split; [intros _; apply G | intros Hn; exfalso; apply Hn; right; left; split; [reflexivity | lia]]. }
  destruct (Z.eqb_spec iconf 3) as [->|H3].
  { destruct (Rltb_spec V 0).
    - split; [|reflexivity]. intros [(A & _)|[(A & _)|[(_ & A)|(A & _)]]]; try lia. lra.
    - split; [intros _; apply G | intros Hn; exfalso; apply Hn; right; right; left; split; [reflexivity | lra]]. }
  destruct (Z.eqb_spec iconf 4) as [->|H4].
  { destruct (Z.leb_spec N 0); [|destruct (Rleb_spec V 0)].
    - split; [|reflexivity]. intros [(A & _)|[(A & _)|[(A & _)|(_ & A & _)]]]; lia.
    - split; [|reflexivity]. intros [(A & _)|[(A & _)|[(A & _)|(_ & _ & A)]]]; try lia. lra.
    - split; [intros _; apply G | intros Hn; exfalso; apply Hn; right; right; right; split; [reflexivity | split; [lia | lra]]]. }
  split; [|reflexivity]. intros [(A & _)|[(A & _)|[(A & _)|(A & _)]]]; lia.
Qed.

Lemma conf_exp_matrix e N r0 V shift : (e < get_nelem b)%nat -> (1 <= N)%nat ->
  exists n B, confinement rb e (Z.of_nat N) r0 2 V shift = Ok B /\ (forall p, (5 <= n p <= 512)%nat) /\
    matrix_of rb lobx lobw n [shift] e (conf_exp N (Rabs r0) shift) B.
Proof.
  intros He HN. unfold confinement_potential. cbn [Z.eqb Pos.eqb]. destruct (Z.ltb_spec (Z.of_nat N) 0); [lia|].
  destruct (Z.eqb_spec (Z.of_nat N) 0) as [|_]; [lia|]. unfold exponential_confinement. rewrite Nat2Z.id.
  destruct (bb_matrix e (fun r => Some (exp_weight N (Rabs r0) shift r)) [shift] (-1) He) as (n & B & E & Hn & HB).
  exists n, B. split; [exact E|]. split; [exact Hn|]. eapply matrix_of_ext; [|exact HB]. intros r. apply exp_weight_value.
Qed.
Lemma conf_barrier_matrix e N r0 V shift : (e < get_nelem b)%nat -> 0 <= V ->
  exists n B, confinement rb e N r0 3 V shift = Ok B /\ (forall p, (5 <= n p <= 512)%nat) /\
    matrix_of rb lobx lobw n [shift] e (conf_barrier V shift) B.
Proof.
  intros He HV. unfold confinement_potential. cbn [Z.eqb Pos.eqb]. destruct (Rltb_spec V 0); [lra|]. unfold barrier_confinement.
  apply (bb_matrix e (fun r => Some (if Rltb r shift then 0 else V)) [shift] (-1) He).
Qed.

Lemma bmax_last : bmax b = hi b (get_nelem b - 1).
Proof.
  pose proof (proj1 Hok) as (_ & Hl & Hi). unfold bmax, hi, get_nelem.
  assert (G : forall l m, (forall i, (i < length l)%nat -> m <= nth i l 0) ->
    (forall i j, (i <= j < length l)%nat -> nth i l 0 <= nth j l 0) -> fold_left Rmax l m = last l m).
  { induction l as [|a l IH]; intros m H1 H2; [reflexivity|]. cbn [fold_left].
    rewrite (Rmax_right m a) by (apply (H1 0%nat); cbn; lia). destruct l as [|c l]; [reflexivity|].
    rewrite IH.
    - change (last (a :: c :: l) m) with (last (c :: l) m). clear. revert c. induction l as [|d l IHl]; intros c; [reflexivity|]. apply (IHl d).
    - intros i Hi'. apply (H2 0%nat (S i)). cbn [length] in *. lia.
    - intros i j Hij. apply (H2 (S i) (S j)). cbn [length] in *. lia. }
  assert (Mono : forall i j, (i <= j < length (fe_bval b))%nat -> nth i (fe_bval b) 0 <= nth j (fe_bval b) 0).
  { intros i j Hij. apply increasing_le; [exact Hi | lia | lia]. }
  assert (Hh : hd 0 (fe_bval b) = nth 0 (fe_bval b) 0) by (destruct (fe_bval b); reflexivity).
  rewrite G; [|intros i Hi'; rewrite Hh; apply Mono; lia | exact Mono].
  replace (length (fe_bval b) - 1 - 1 + 1)%nat with (length (fe_bval b) - 1)%nat by lia.
  assert (fe_bval b <> []) by (intros Q; rewrite Q in Hl; cbn in Hl; lia).
  clear -H. revert H. generalize (hd 0 (fe_bval b)). induction (fe_bval b) as [|a l IH]; intros d H; [congruence|].
  destruct l as [|c l]; [reflexivity|]. change (last (a :: c :: l) d) with (last (c :: l) d).
  rewrite IH by discriminate. cbn [length]. replace (S (S (length l)) - 1)%nat with (S (S (length l) - 1)) by lia. reflexivity.
Qed.

Lemma conf_junq_matrix e N r0 V shift : (e < get_nelem b)%nat -> (1 <= N)%nat -> 0 < V ->
  exists n B, confinement rb e (Z.of_nat N) r0 4 V shift = Ok B /\ (forall p, (5 <= n p <= 512)%nat) /\
    matrix_of rb lobx lobw n [shift] e
      (fun r => if Reqb r (hi b (get_nelem b - 1)) then 0 else conf_junq N V (hi b (get_nelem b - 1)) shift r) B.
Proof.
  intros He HN HV. unfold confinement_potential. cbn [Z.eqb Pos.eqb]. destruct (Z.leb_spec (Z.of_nat N) 0) as [|_]; [lia|].
  destruct (Rleb_spec V 0) as [|_]; [lra|]. unfold junq_confinement. rewrite Nat2Z.id, bmax_last. set (rc := hi b (get_nelem b - 1)).
  match goal with |- exists n B, RadModel.me _ _ _ _ _ _ _ _ _ _ ?f _ _ = _ /\ _ => destruct (bb_matrix e f [shift] (-1) He) as (n & B & E & Hn & HB) end.
  exists n, B. split; [exact E|]. split; [exact Hn|]. eapply matrix_of_ext; [|exact HB]. intros r. unfold wt, conf_junq.
  destruct (Rltb_spec r shift) as [A|A].
  - destruct (Reqb_spec r rc); [reflexivity|]. destruct (Rleb_spec r shift); [reflexivity | lra].
  - destruct (Reqb_spec r rc); [reflexivity|]. destruct (Reqb_spec r shift) as [->|C]; destruct (Rleb_spec r shift) || destruct (Rleb_spec shift shift); try reflexivity; try lra.
    f_equal. f_equal. f_equal. unfold Rdiv. ring.
Qed.

(** Points of a positive rule lie in the element. *)
Lemma node_in e bps p q n : positive_rule lobx lobw -> (e < get_nelem b)%nat -> (2 <= n)%nat ->
  In p (panels ((lo b e + hi b e) / 2) (half b e) (-1) 1 bps) -> (q < n)%nat ->
  lo b e <= radius b e ((snd p + fst p) / 2 + (snd p - fst p) / 2 * lobx n q) <= hi b e.
Proof.
  intros Hp He Hn Hin Hq. pose proof (half_pos b e (proj1 Hok) He) as Hh.
  assert (E : -1 <= fst p /\ fst p < snd p /\ snd p <= 1) by (eapply panels_ends; [| | exact Hin]; lra).
  destruct (Hp n q Hn Hq) as [_ X]. set (x := (snd p + fst p) / 2 + (snd p - fst p) / 2 * lobx n q).
  assert (-1 <= x <= 1) by (unfold x; split; nra). unfold radius. unfold half in *. split; nra.
Qed.
Lemma lo_pos e : (e < get_nelem b)%nat -> e <> 0%nat -> 0 < lo b e.
Proof.
  intros He Hn. pose proof Hok as (Hv & _ & H0 & _). rewrite <- H0. unfold lo. pose proof Hv as (_ & _ & Hi).
  apply Hi; unfold get_nelem in He; lia.
Qed.

(** Polynomial: what is computed for any shift, and the potential it is without one. *)
Definition sgn (r0 : R) : R := if Rltb r0 0 then -1 else 1.
Lemma conf_poly_matrix e N r0 V shift : (e < get_nelem b)%nat -> r0 <> 0 -> positive_rule lobx lobw ->
  e <> 0%nat \/ shift = 0 ->
  exists n B, confinement rb e (Z.of_nat N) r0 1 V shift = Ok B /\ (forall p, (5 <= n p <= 512)%nat) /\
    matrix_of rb lobx lobw n [shift] e
      (fun r => (if Rltb r0 0 then -1 else 1) * (conf_poly N (Rabs r0) shift r * (if Reqb shift 0 then 1 else ((r - shift) / r) ^ 2))) B.
Proof.
  intros He Hr0 Hp Hs. unfold confinement_potential. cbn [Z.eqb Pos.eqb]. destruct (Z.ltb_spec (Z.of_nat N) 0); [lia|].
  unfold polynomial_confinement.
  match goal with |- exists n B, scaled ?s0 (RadModel.me _ _ _ _ _ _ _ _ _ _ ?f _ _) = _ /\ _ => set (F := f); set (c := s0) end.
  destruct (rr_matrix e F (fun r => (if Rltb r shift then 0 else (r - shift) ^ N) * (if Reqb shift 0 then 1 else ((r - shift) / r) ^ 2)) [shift] (-1) He) as (n & B & E & Hn & HB).
  exists n, (mscal c B). split; [unfold scaled; rewrite E; reflexivity|]. split; [exact Hn|].
  eapply matrix_of_ext; [|apply matrix_of_scaled; apply HB].
  - intros r. cbv beta. unfold conf_poly, c. assert (Rabs r0 <> 0) by (apply Rabs_no_R0; exact Hr0).
    rewrite <- Rmult_assoc. rewrite <- (Rmult_assoc (if Rltb r0 0 then -1 else 1)). f_equal.
    destruct (Rltb r shift); [ring|]. rewrite pow_zneg. unfold Rdiv. rewrite Rpow_mult_distr.
    rewrite pow_inv. ring.
  - intros p q Hin Hq. cbv zeta. set (r := radius b e _).
    assert (Hr : lo b e <= r <= hi b e) by (apply (node_in e [shift] p q (n p)); [exact Hp | exact He | specialize (Hn p); lia | exact Hin | exact Hq]).
    assert (Hr0' : e = 0%nat \/ r <> 0).
    { destruct (Nat.eq_dec e 0) as [|Ne]; [left; assumption | right]. pose proof (lo_pos e He Ne). lra. }
    split; [exact Hr0'|]. unfold wt, F. destruct (Rltb_spec r shift) as [A|A]; [ring|].
    destruct (Z.ltb_spec (Z.of_nat N + 2) 0); [lia|]. rewrite andb_false_r.
    replace (Z.of_nat N + 2)%Z with (Z.of_nat (N + 2)) by lia. rewrite pow_zpow, pow_add.
    destruct (Reqb_spec shift 0) as [->|Ns]; [rewrite Rminus_0_r; ring|].
    destruct Hr0' as [->|Nr]; [destruct Hs; congruence|]. field. exact Nr.
Qed.

Lemma conf_inverse_matrix e N r0 V : (e < get_nelem b)%nat -> r0 <> 0 -> positive_rule lobx lobw -> (1 <= N)%nat -> e <> 0%nat ->
  exists n B, confinement rb e (- Z.of_nat N) r0 1 V 0 = Ok B /\ (forall p, (5 <= n p <= 512)%nat) /\
    matrix_of rb lobx lobw n [0] e (fun r => (if Rltb r0 0 then -1 else 1) * (1 / (Rabs r0 * r)) ^ N) B.
Proof.
  intros He Hr0 Hp HN Hs. unfold confinement_potential. cbn [Z.eqb Pos.eqb]. destruct (Z.ltb_spec (- Z.of_nat N) 0); [|lia].
  destruct (Reqb_spec 0 0) as [_|]; [|congruence]. cbn [negb].
  unfold polynomial_confinement.
  match goal with |- exists n B, scaled ?s0 (RadModel.me _ _ _ _ _ _ _ _ _ _ ?f _ _) = _ /\ _ => set (F := f); set (c := s0) end.
  destruct (rr_matrix e F (fun r => (1 / r) ^ N) [0] (-1) He) as (n & B & E & Hn & HB).
  exists n, (mscal c B). split; [unfold scaled; rewrite E; reflexivity|]. split; [exact Hn|].
  eapply matrix_of_ext; [|apply matrix_of_scaled; apply HB].
  - intros r. cbv beta. unfold c. assert (Rabs r0 <> 0) by (apply Rabs_no_R0; exact Hr0).
    rewrite Rmult_assoc. f_equal. rewrite pow_zneg. unfold Rdiv. rewrite !Rmult_1_l.
    rewrite Rinv_mult, Rpow_mult_distr, !pow_inv. reflexivity.
  - intros p q Hin Hq. cbv zeta. set (r := radius b e _).
    assert (Hr : lo b e <= r <= hi b e) by (apply (node_in e [0] p q (n p)); [exact Hp | exact He | specialize (Hn p); lia | exact Hin | exact Hq]).
    pose proof (lo_pos e He Hs). split; [right; lra|]. unfold wt, F. destruct (Rltb_spec r 0) as [A|A]; [lra|].
    destruct (Reqb_spec r 0); [lra|]. cbn [andb]. rewrite Rminus_0_r. rewrite powerRZ_add by lra. rewrite pow_zneg.
    unfold Rdiv. rewrite Rmult_1_l, pow_inv. change 2%Z with (Z.of_nat 2). rewrite pow_zpow. ring.
Qed.

(** Multipole of an off-centre nucleus. *)
Lemma offcenter_matrix e Rh L : (e < get_nelem b)%nat -> 0 < Rh -> positive_rule lobx lobw ->
  (lo b e < Rh < hi b e -> nuclear_offcenter lobx lobw dist scale tol sqrteps rb e Rh L = Throw LogicError) /\
  (~ (lo b e < Rh < hi b e) -> exists n B, nuclear_offcenter lobx lobw dist scale tol sqrteps rb e Rh L = Ok B /\
    (forall p, (5 <= n p <= 512)%nat) /\
    matrix_of rb lobx lobw n [] e (fun r => - sqrt (4 * PI / INR (2 * L + 1)) * (Rmin r Rh ^ L / Rmax r Rh ^ (L + 1))) B).
Proof.
  intros He HR Hp. unfold nuclear_offcenter. rewrite begin_ok, end_ok by exact He. cbn [bind]. fold (lo b e) (hi b e).
  split.
  - intros [A1 A2]. destruct (Rleb_spec Rh (lo b e)); [lra|]. destruct (Rleb_spec (hi b e) Rh); [lra|]. reflexivity.
  - intros Hn. set (C := sqrt (4 * PI / INR (2 * L + 1))). unfold radial_integral.
    assert (Same : forall f, me_range lobx lobw dist scale tol sqrteps rb e R0 R0 f [] (-1) (-1) 1 = me rb e R0 R0 f [] (-1)) by reflexivity.
    destruct (Rleb_spec Rh (lo b e)) as [A|A].
    + rewrite Same. match goal with |- exists n B, scaled ?s0 (RadModel.me _ _ _ _ _ _ _ _ _ _ ?f _ _) = _ /\ _ => set (F := f); set (c := s0) end.
      destruct (rr_matrix e F (fun r => if Rltb r (lo b e) then 0 else if Rltb (hi b e) r then 0 else 1 / r ^ (L + 1)) [] (-1) He) as (n & B & E & Hn' & HB).
      exists n, (mscal c B). split; [unfold scaled; rewrite E; reflexivity|]. split; [exact Hn'|].
      assert (HB' : matrix_of rb lobx lobw n [] e (fun r => if Rltb r (lo b e) then 0 else if Rltb (hi b e) r then 0 else 1 / r ^ (L + 1)) B).
      { apply HB. intros p q Hin Hq. cbv zeta. set (r := radius b e _).
        assert (Hr : lo b e <= r <= hi b e) by (apply (node_in e [] p q (n p)); [exact Hp | exact He | specialize (Hn' p); lia | exact Hin | exact Hq]).
        split; [right; lra|]. unfold wt, F. destruct (Reqb_spec r 0); [lra|]. cbn [andb]. destruct (Rltb_spec r (lo b e)); [lra|]. destruct (Rltb_spec (hi b e) r); [lra|].
        replace (- Z.of_nat L - 1 + 2)%Z with (- Z.of_nat (L + 1) + 2)%Z by lia.
        rewrite powerRZ_add by lra. rewrite pow_zneg. unfold Rdiv. rewrite Rmult_1_l.
        change 2%Z with (Z.of_nat 2). rewrite pow_zpow. ring. }
      intros i j. unfold mscal. rewrite HB'. rewrite <- lsum_scal. apply lsum_ext. intros p Hin. unfold quad. rewrite <- sum_scal. apply sum_ext. intros q Hq.
      set (r := radius b e _).
      assert (Hr : lo b e <= r <= hi b e) by (apply (node_in e [] p q (n p)); [exact Hp | exact He | specialize (Hn' p); lia | exact Hin | exact Hq]).
      destruct (Rltb_spec r (lo b e)); [lra|]. destruct (Rltb_spec (hi b e) r); [lra|]. rewrite Rmin_right, Rmax_left by lra. unfold c, Rdiv. ring.
    + destruct (Rleb_spec (hi b e) Rh) as [A'|A']; [|exfalso; apply Hn; split; lra].
      rewrite Same. match goal with |- exists n B, scaled ?s0 (RadModel.me _ _ _ _ _ _ _ _ _ _ ?f _ _) = _ /\ _ => set (F := f); set (c := s0) end.
      destruct (rr_matrix e F (fun r => r ^ L) [] (-1) He) as (n & B & E & Hn' & HB).
      exists n, (mscal c B). split; [unfold scaled; rewrite E; reflexivity|]. split; [exact Hn'|].
      assert (HB' : matrix_of rb lobx lobw n [] e (fun r => r ^ L) B).
      { apply HB. intros p q Hin Hq. cbv zeta. set (r := radius b e _).
        assert (Hr : lo b e <= r <= hi b e) by (apply (node_in e [] p q (n p)); [exact Hp | exact He | specialize (Hn' p); lia | exact Hin | exact Hq]).
        split. { destruct (Nat.eq_dec e 0) as [|Ne]; [left; assumption | right]. pose proof (lo_pos e He Ne). lra. }
        unfold wt, F. destruct (Z.ltb_spec (Z.of_nat L + 2) 0); [lia|]. rewrite andb_false_r.
        replace (Z.of_nat L + 2)%Z with (Z.of_nat (L + 2)) by lia. rewrite pow_zpow, pow_add. ring. }
      intros i j. unfold mscal. rewrite HB'. rewrite <- lsum_scal. apply lsum_ext. intros p Hin. unfold quad. rewrite <- sum_scal. apply sum_ext. intros q Hq.
      set (r := radius b e _).
      assert (Hr : lo b e <= r <= hi b e) by (apply (node_in e [] p q (n p)); [exact Hp | exact He | specialize (Hn' p); lia | exact Hin | exact Hq]).
      rewrite Rmin_left, Rmax_right by lra. unfold c. replace (- Z.of_nat L - 1)%Z with (- Z.of_nat (L + 1))%Z by lia.
      rewrite pow_zneg. unfold Rdiv. ring.
Qed.
End Conf.
