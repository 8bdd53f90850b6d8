(** The search for the exponent of the regularized nucleus. *)
Require Import Reals Lra Lia List Arith Bool ZArith.
Require Import Verif.Prelude Verif.SadSpec Verif.LegMath Verif.PotModel Verif.PotSpec Verif.PotNuc Verif.PotReg.
Import ListNotations.
Open Scope R_scope.

Lemma argmin_S d n : argmin d (S (S n)) = if Rltb (d (S n)) (d (argmin d (S n))) then S n else argmin d (S n).
Proof. reflexivity. Qed.
Lemma argmin_lt d : forall n, (0 < n)%nat -> (argmin d n < n)%nat.
Proof.
  induction n as [|n IH]; intros H; [lia|]. destruct n as [|n]; [cbn; lia|]. rewrite argmin_S.
  specialize (IH ltac:(lia)). destruct (Rltb _ _); lia.
Qed.
Lemma argmin_min d : forall n i, (i < n)%nat -> d (argmin d n) <= d i.
Proof.
  induction n as [|n IH]; intros i H; [lia|]. destruct n as [|n]; [replace i with O by lia; cbn; lra|].
  rewrite argmin_S. destruct (Rltb_spec (d (S n)) (d (argmin d (S n)))) as [L|L]; destruct (Nat.eq_dec i (S n)) as [->|Hi]; try lra.
  - specialize (IH i ltac:(lia)). lra.
  - apply IH. lia.
Qed.
Lemma b_grid_pos i : 0 < b_grid i.
Proof. apply exp_pos. Qed.
Lemma ln10 : 0 < ln 10.
Proof. rewrite <- ln_1. apply ln_increasing; lra. Qed.
Lemma b_grid_lt i j : (i < j)%nat -> b_grid i < b_grid j.
Proof.
  intros H. unfold b_grid. apply exp_increasing. apply Rmult_lt_compat_r; [apply ln10|]. apply lt_INR in H.
  assert (0 < 4 / INR (npts - 1)). { apply Rdiv_lt_0_compat; [lra|]. apply lt_0_INR. apply Nat.ltb_lt. reflexivity. } nra.
Qed.

Section Find.
Variables (eps : R) (nrm : R -> R).
Lemma loop_sound : forall fuel l r m, 0 < l < r -> nrm r <= 1 <= nrm l -> b_loop eps nrm fuel l r = Ok m ->
  exists l' r', l <= l' < r' /\ r' <= r /\ m = (l' + r') / 2 /\ nrm r' <= 1 <= nrm l' /\ (nrm m = 1 \/ r' - l' <= 10 * eps * m).
Proof.
  induction fuel as [|fuel IH]; intros l r m H N E; [discriminate|]. cbn [b_loop] in E. cbv zeta in E.
  destruct (Reqb_spec (nrm ((l + r) / 2)) 1) as [E1|E1]; cbn [orb] in E.
  - injection E as <-. exists l, r. repeat split; try lra.
  - destruct (Rleb_spec (Rabs (r - l)) (10 * eps * ((l + r) / 2))) as [E2|E2].
    + injection E as <-. exists l, r. rewrite Rabs_pos_eq in E2 by lra. repeat split; try lra.
    + destruct (Rltb_spec 1 (nrm ((l + r) / 2))) as [E3|E3].
      * destruct (IH ((l + r) / 2) r m ltac:(lra) ltac:(lra) E) as (l' & r' & A & B & C). exists l', r'. split; [lra|]. split; [exact B|exact C].
      * destruct (IH l ((l + r) / 2) m ltac:(lra) ltac:(lra) E) as (l' & r' & A & B & C). exists l', r'. split; [lra|]. split; [lra|exact C].
Qed.
Lemma loop_ends w : 0 < eps -> 0 < w -> forall n l r, w <= l < r -> (r - l) / 2 ^ n <= 10 * eps * w ->
  forall fuel, (n < fuel)%nat -> exists m, b_loop eps nrm fuel l r = Ok m.
Proof.
  intros He Hw. induction n as [|n IH]; intros l r H B fuel Hf; (destruct fuel as [|fuel]; [lia|]); cbn [b_loop]; cbv zeta.
  - destruct (Reqb_spec (nrm ((l + r) / 2)) 1); cbn [orb]; [eexists; reflexivity|]. destruct (Rleb_spec (Rabs (r - l)) (10 * eps * ((l + r) / 2))) as [E|E]; [eexists; reflexivity|].
    exfalso. rewrite Rabs_pos_eq in E by lra. cbn [pow] in B. assert (10 * eps * w <= 10 * eps * ((l + r) / 2)) by (apply Rmult_le_compat_l; lra). lra.
  - destruct (Reqb (nrm ((l + r) / 2)) 1 || Rleb (Rabs (r - l)) (10 * eps * ((l + r) / 2)))%bool; [eexists; reflexivity|].
    assert (B' : (r - l) / 2 / 2 ^ n <= 10 * eps * w).
    { eapply Rle_trans; [right|exact B]. cbn [pow]. field. apply pow_nonzero. lra. }
    destruct (Rltb 1 (nrm ((l + r) / 2))); (apply IH; [lra| |lia]).
    + replace (r - (l + r) / 2) with ((r - l) / 2) by field. exact B'.
    + replace ((l + r) / 2 - l) with ((r - l) / 2) by field. exact B'.
Qed.
Lemma halving x c : 0 < c -> exists n, x / 2 ^ n <= c.
Proof.
  intros Hc. destruct (archimed (x / c)) as [Ha _]. set (n := Z.to_nat (Z.max 0 (up (x / c)))). assert (Hn : x / c < INR n).
  { unfold n. rewrite INR_IZR_INZ, Z2Nat.id by lia. eapply Rlt_le_trans; [exact Ha|]. apply IZR_le. lia. }
  clearbody n. exists n.
  assert (P : INR n < 2 ^ n). { pose proof (Nat.pow_gt_lin_r 2 n ltac:(lia)) as Q. apply lt_INR in Q. rewrite pow_INR in Q. exact Q. }
  assert (0 < 2 ^ n) by (apply pow_lt; lra). apply Rmult_le_reg_r with (2 ^ n); [assumption|]. unfold Rdiv. rewrite Rmult_assoc, Rinv_l, Rmult_1_r by lra.
  assert (x = x / c * c) by (field; lra). rewrite H0. rewrite (Rmult_comm c). apply Rmult_le_compat_r; lra.
Qed.
Notation near1 := (argmin (fun ip => Rabs (nrm (b_grid ip) - 1)) npts).
Lemma near1_lt : (near1 < npts)%nat.
Proof. apply argmin_lt. apply Nat.ltb_lt. reflexivity. Qed.
Lemma near1_min i : (i < npts)%nat -> Rabs (nrm (b_grid near1) - 1) <= Rabs (nrm (b_grid i) - 1).
Proof. intros H. apply (argmin_min (fun ip => Rabs (nrm (b_grid ip) - 1)) npts i H). Qed.

(** The outcome in terms of the grid point closest to the target. *)
Lemma entry i : b_entry i = if (0 <=? i)%Z then if (i <? Z.of_nat npts)%Z then Ok (b_grid (Z.to_nat i)) else UB else UB.
Proof. unfold b_entry. destruct (0 <=? i)%Z, (i <? Z.of_nat npts)%Z; reflexivity. Qed.
Lemma find_cases fuel : find_b eps nrm fuel =
  if (S near1 <? npts)%nat then
    if Rltb 1 (nrm (b_grid (S near1))) then Throw LogicError
    else match near1 with O => UB | S j => if Rltb (nrm (b_grid j)) 1 then Throw LogicError else b_loop eps nrm fuel (b_grid j) (b_grid (S near1)) end
  else UB.
Proof.
  unfold find_b. cbv zeta. generalize near1. intros i. rewrite !entry.
  replace (0 <=? Z.of_nat i + 1)%Z with true by (symmetry; apply Z.leb_le; lia).
  replace (Z.of_nat i + 1 <? Z.of_nat npts)%Z with (S i <? npts)%nat.
  2: { apply Bool.eq_true_iff_eq. rewrite Nat.ltb_lt, Z.ltb_lt. lia. }
  destruct (Nat.ltb_spec (S i) npts) as [Hi|Hi]; [|reflexivity]. cbn [bind]. replace (Z.to_nat (Z.of_nat i + 1)) with (S i) by lia.
  destruct (Rltb _ _); [reflexivity|]. destruct i as [|j]; [reflexivity|].
  replace (0 <=? Z.of_nat (S j) - 1)%Z with true by (symmetry; apply Z.leb_le; lia).
  replace (Z.of_nat (S j) - 1 <? Z.of_nat npts)%Z with true by (symmetry; apply Z.ltb_lt; lia).
  cbn [bind]. replace (Z.to_nat (Z.of_nat (S j) - 1)) with j by lia. reflexivity.
Qed.
Lemma find_sound fuel b : find_b eps nrm fuel = Ok b ->
  exists l r, b_grid 0 <= l < r /\ r <= b_grid (npts - 1) /\ b = (l + r) / 2 /\ nrm r <= 1 <= nrm l /\ (nrm b = 1 \/ r - l <= 10 * eps * b).
Proof.
  rewrite find_cases. pose proof near1_lt as H. destruct (Nat.ltb_spec (S near1) npts) as [Hi|Hi]; [|discriminate].
  destruct (Rltb_spec 1 (nrm (b_grid (S near1)))) as [R1|R1]; [discriminate|]. destruct near1 as [|j]; [discriminate|].
  destruct (Rltb_spec (nrm (b_grid j)) 1) as [R2|R2]; [discriminate|]. intros E.
  pose proof (b_grid_pos j). pose proof (b_grid_lt j (S (S j)) ltac:(lia)).
  destruct (loop_sound fuel (b_grid j) (b_grid (S (S j))) b ltac:(lra) ltac:(lra) E) as (l & r & A & B & C). exists l, r.
  assert (G0 : b_grid 0 <= b_grid j) by (destruct j; [lra|left; apply b_grid_lt; lia]).
  assert (G1 : b_grid (S (S j)) <= b_grid (npts - 1)).
  { destruct (Nat.eq_dec (S (S j)) (npts - 1)) as [->|Hn]; [lra|]. left. apply b_grid_lt. lia. }
  split; [lra|]. split; [lra|exact C].
Qed.
(** A crossing lies within the tolerance of the result. *)
Lemma find_crossing fuel b : 0 < eps -> continuity nrm -> find_b eps nrm fuel = Ok b -> exists b0, nrm b0 = 1 /\ Rabs (b0 - b) <= 5 * eps * b.
Proof.
  intros He Hc E. destruct (find_sound fuel b E) as (l & r & A & B & Em & N & T). pose proof (b_grid_pos 0).
  destruct T as [T|T]; [exists b; split; [exact T|]; rewrite Rminus_diag_eq, Rabs_R0 by reflexivity; assert (0 < eps * b) by (apply Rmult_lt_0_compat; lra); lra|].
  assert (CD : continuity (fun x => 1 - nrm x)) by (intros x; apply (continuity_pt_minus (fun _ => 1) nrm x); [apply const_cont|apply Hc]).
  destruct (IVT_cor (fun x => 1 - nrm x) l r CD ltac:(lra)) as (z & Hz & Ez); [nra|]. exists z. split; [lra|].
  apply Rabs_le. split; lra.
Qed.
(** With a strictly decreasing norm the search succeeds unless the closest grid point is an
    end of the grid; then the code reads outside the grid. *)
Lemma find_total : 0 < eps -> (forall x y, 0 < x < y -> nrm y < nrm x) -> (0 < near1 < npts - 1)%nat ->
  exists n0, forall fuel, (n0 <= fuel)%nat -> exists b, find_b eps nrm fuel = Ok b.
Proof.
  intros He Hd Hi. pose proof near1_lt as HL. pose proof near1_min as HM. revert Hi HL HM. assert (F := find_cases). revert F. generalize near1. intros i F Hi HL HM.
  assert (R1 : nrm (b_grid (S i)) <= 1).
  { destruct (Rle_lt_dec (nrm (b_grid (S i))) 1) as [Q|Q]; [exact Q|]. exfalso. pose proof (b_grid_pos i). pose proof (Hd (b_grid i) (b_grid (S i)) (conj (b_grid_pos i) (b_grid_lt i (S i) ltac:(lia)))) as D.
    specialize (HM (S i) ltac:(lia)). rewrite !Rabs_pos_eq in HM by lra. lra. }
  destruct i as [|j]; [lia|].
  assert (R2 : 1 <= nrm (b_grid j)).
  { destruct (Rle_lt_dec 1 (nrm (b_grid j))) as [Q|Q]; [exact Q|]. exfalso. pose proof (Hd (b_grid j) (b_grid (S j)) (conj (b_grid_pos j) (b_grid_lt j (S j) ltac:(lia)))) as D.
    specialize (HM j ltac:(lia)). rewrite !Rabs_left in HM by lra. lra. }
  pose proof (b_grid_pos j) as Hp. destruct (halving (b_grid (S (S j)) - b_grid j) (10 * eps * b_grid j)) as (n & Hn); [apply Rmult_lt_0_compat; lra|].
  exists (S n). intros fuel Hf. rewrite F. destruct (Nat.ltb_spec (S (S j)) npts) as [_|Q]; [|lia].
  destruct (Rltb_spec 1 (nrm (b_grid (S (S j))))); [lra|]. destruct (Rltb_spec (nrm (b_grid j)) 1); [lra|].
  apply (loop_ends (b_grid j) He Hp n); [split; [lra|apply b_grid_lt; lia]|exact Hn|lia].
Qed.
Lemma find_low fuel : (forall x y, 0 < x < y -> nrm y < nrm x) -> nrm (b_grid 0) <= 1 -> find_b eps nrm fuel = UB.
Proof.
  intros Hd H0. pose proof near1_lt as HL. pose proof (near1_min 0%nat ltac:(apply Nat.ltb_lt; reflexivity)) as HM. rewrite find_cases. revert HL HM. generalize near1. intros i HL HM.
  destruct i as [|i].
  - replace (1 <? npts)%nat with true by reflexivity. pose proof (Hd (b_grid 0) (b_grid 1) (conj (b_grid_pos 0) (b_grid_lt 0 1 ltac:(lia)))) as D. destruct (Rltb_spec 1 (nrm (b_grid 1))); [lra|reflexivity].
  - exfalso. pose proof (Hd (b_grid 0) (b_grid (S i)) (conj (b_grid_pos 0) (b_grid_lt 0 (S i) ltac:(lia)))) as D. rewrite Rabs_left in HM by lra. destruct H0 as [H0|H0]; [rewrite Rabs_left in HM by lra; lra|rewrite H0 in HM; replace (1 - 1) with 0 in HM by ring; rewrite Rabs_R0 in HM; lra].
Qed.
Lemma find_high fuel : (forall x y, 0 < x < y -> nrm y < nrm x) -> 1 <= nrm (b_grid (npts - 1)) -> find_b eps nrm fuel = UB.
Proof.
  intros Hd H0. pose proof near1_lt as HL. pose proof (near1_min (npts - 1)%nat ltac:(apply Nat.ltb_lt; reflexivity)) as HM. rewrite find_cases. revert HL HM. generalize near1. intros i HL HM.
  destruct (Nat.ltb_spec (S i) npts) as [Q|Q]; [|reflexivity]. exfalso.
  pose proof (Hd (b_grid i) (b_grid (npts - 1)) (conj (b_grid_pos i) (b_grid_lt i (npts - 1) ltac:(lia)))) as D. rewrite !Rabs_pos_eq in HM by lra. lra.
Qed.
End Find.

(** The norm of the code is continuous and strictly decreasing in b. *)
Section Norm.
Variables (erf : R -> R) (N : nat) (rad wgt : vec) (a : R).
Lemma phi_b_derive r b : derivable_pt_lim (fun b => phi erf a b r) b (- exp (- (a * r) ^ 2) * phi erf a b r).
Proof.
  unfold phi. cbv zeta. set (c := - r * erf (a * r)). set (E := exp (- (a * r) ^ 2)).
  apply (lim_ext (fun b => / sqrt PI * exp (c - E * b))).
  { intros y. unfold Rdiv. rewrite Rmult_comm. f_equal. f_equal. ring. }
  eapply lim_eq; [|apply lim_scal, (lim_exp (fun b => c - E * b)); apply lim_minus; [apply lim_const|apply lim_scal, lim_id]]. cbv beta. rewrite (Rmult_comm E b). unfold Rdiv. ring.
Qed.
Lemma sum_cont : forall n (f : nat -> R -> R), (forall i, continuity (f i)) -> continuity (fun x => sum n (fun i => f i x)).
Proof.
  induction n as [|n IH]; intros f H x; [exact (const_cont 0 x)|]. apply (continuity_pt_plus (fun x => sum n (fun i => f i x)) (f n) x); [apply IH; exact H|apply H].
Qed.
Lemma norm_cont : continuity (phi_normalization erf N rad wgt a).
Proof.
  unfold phi_normalization. intros x. apply (continuity_pt_mult (fun _ => 4 * PI) (fun b => sum N (fun i => (rad i * phi erf a b (rad i)) * (rad i * phi erf a b (rad i)) * wgt i)) x); [apply const_cont|].
  apply sum_cont. intros i y. assert (C : continuity_pt (fun b => phi erf a b (rad i)) y) by (apply derivable_continuous_pt; eexists; apply phi_b_derive).
  assert (C1 : continuity_pt (fun b => rad i * phi erf a b (rad i)) y) by (apply (continuity_pt_mult (fun _ => rad i) (fun b => phi erf a b (rad i))); [apply const_cont|exact C]).
  apply (continuity_pt_mult (fun b => rad i * phi erf a b (rad i) * (rad i * phi erf a b (rad i))) (fun _ => wgt i)); [|apply const_cont].
  apply (continuity_pt_mult (fun b => rad i * phi erf a b (rad i)) (fun b => rad i * phi erf a b (rad i))); exact C1.
Qed.
Lemma phi_b_lt r x y : x < y -> phi erf a y r < phi erf a x r.
Proof.
  intros H. unfold phi. cbv zeta. apply Rmult_lt_compat_r; [apply Rinv_0_lt_compat, sqrtpi|]. apply exp_increasing. pose proof (exp_pos (- (a * r) ^ 2)). nra.
Qed.
Lemma sum_lt : forall n f g, (0 < n)%nat -> (forall i, (i < n)%nat -> f i < g i) -> sum n f < sum n g.
Proof.
  induction n as [|n IH]; intros f g H Hf; [lia|]. cbn [sum]. destruct n as [|n].
  - cbn [sum]. specialize (Hf 0%nat ltac:(lia)). lra.
  - specialize (IH f g ltac:(lia) (fun i Hi => Hf i ltac:(lia))). specialize (Hf (S n) ltac:(lia)). lra.
Qed.
Lemma norm_decreasing : (0 < N)%nat -> (forall i, (i < N)%nat -> 0 < rad i /\ 0 < wgt i) ->
  forall x y, x < y -> phi_normalization erf N rad wgt a y < phi_normalization erf N rad wgt a x.
Proof.
  intros HN Hp x y Hxy. unfold phi_normalization. apply Rmult_lt_compat_l; [pose proof PI_RGT_0; lra|]. apply sum_lt; [exact HN|]. intros i Hi.
  destruct (Hp i Hi) as [Hr Hw]. apply Rmult_lt_compat_r; [exact Hw|]. pose proof (phi_b_lt (rad i) x y Hxy) as L.
  assert (P : 0 < phi erf a y (rad i)) by apply phi_pos.
  assert (rad i * phi erf a y (rad i) < rad i * phi erf a x (rad i)) by (apply Rmult_lt_compat_l; assumption). assert (0 < rad i * phi erf a y (rad i)) by (apply Rmult_lt_0_compat; assumption). nra.
Qed.
End Norm.
