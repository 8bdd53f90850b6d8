(** The two-dimensional quadrature. *)
Require Import Reals ZArith List Bool Arith Lia Lra Psatz.
Require Import Verif.Prelude Verif.FEModel Verif.FESpec Verif.FEProofs Verif.AngModel Verif.AngSpec Verif.AngProofs Verif.JKModel Verif.JKProofs Verif.DftModel Verif.DftSpec Verif.DftProofs Verif.DftXc Verif.DftFock Verif.DftFockR Verif.DftAtom Verif.DdfModel Verif.DdfSpec Verif.DdfProofs Verif.DdfDrv Verif.PmModel Verif.PmSpec Verif.PmProofs Verif.PmDens Verif.PmXc Verif.PmBf Verif.PmDrv Verif.PotModel Verif.CbModel Verif.CbProofs Verif.TqModel Verif.TqSpec.
Import ListNotations.
Local Open Scope R_scope.

(** * Places *)
Lemma ch_sq mu : cosh mu * cosh mu = 1 + sinh mu * sinh mu.
Proof. unfold cosh, sinh. assert (E : exp mu * exp (- mu) = 1) by (rewrite <- exp_plus; replace (mu + - mu) with 0 by ring; apply exp_0). nra. Qed.
Lemma ch_gt mu : 0 < sinh mu -> 1 < cosh mu.
Proof.
  intros H. assert (E := ch_sq mu). assert (C : 0 < cosh mu) by (unfold cosh; assert (A := exp_pos mu); assert (B := exp_pos (- mu)); lra). nra.
Qed.
Lemma spot_sq Rh mu c z : -1 < c < 1 -> fst (spot Rh mu c) * fst (spot Rh mu c) + (snd (spot Rh mu c) - z) * (snd (spot Rh mu c) - z)
  = Rh * Rh * (cosh mu * cosh mu + c * c - 1) - 2 * Rh * cosh mu * c * z + z * z.
Proof.
  intros Hc. cbn [spot fst snd].
  assert (S : sqrt (1 - c * c) * sqrt (1 - c * c) = 1 - c * c) by (apply sqrt_sqrt; nra).
  transitivity (Rh * Rh * (sinh mu * sinh mu) * (sqrt (1 - c * c) * sqrt (1 - c * c)) + (Rh * cosh mu * c - z) * (Rh * cosh mu * c - z)); [ring|].
  rewrite S. replace (sinh mu * sinh mu) with (cosh mu * cosh mu - 1) by (rewrite ch_sq; ring). ring.
Qed.
Section Place.
Variables (Rh mu c : R).
Hypothesis HR : 0 < Rh.
Hypothesis Hm : 0 < sinh mu.
Hypothesis Hc : -1 < c < 1.
Let s := spot Rh mu c.
Lemma from_left : from (- Rh) s = Rh * (cosh mu + c).
Proof.
  unfold from, s. rewrite spot_sq by exact Hc. assert (G := ch_gt mu Hm).
  replace (Rh * Rh * (cosh mu * cosh mu + c * c - 1) - 2 * Rh * cosh mu * c * - Rh + - Rh * - Rh) with ((Rh * (cosh mu + c)) * (Rh * (cosh mu + c))) by ring.
  apply sqrt_square. apply Rmult_le_pos; lra.
Qed.
Lemma from_right : from Rh s = Rh * (cosh mu - c).
Proof.
  unfold from, s. rewrite spot_sq by exact Hc. assert (G := ch_gt mu Hm).
  replace (Rh * Rh * (cosh mu * cosh mu + c * c - 1) - 2 * Rh * cosh mu * c * Rh + Rh * Rh) with ((Rh * (cosh mu - c)) * (Rh * (cosh mu - c))) by ring.
  apply sqrt_square. apply Rmult_le_pos; lra.
Qed.
Lemma from_middle : from 0 s = Rh * sqrt (cosh mu * cosh mu + c * c - 1).
Proof.
  unfold from, s. rewrite spot_sq by exact Hc. assert (G := ch_gt mu Hm).
  replace (Rh * Rh * (cosh mu * cosh mu + c * c - 1) - 2 * Rh * cosh mu * c * 0 + 0 * 0) with (Rh * Rh * (cosh mu * cosh mu + c * c - 1)) by ring.
  rewrite sqrt_mult by nra. rewrite sqrt_square by lra. reflexivity.
Qed.
Lemma radius_ok p : tq_radius p Rh mu c = from (centre Rh p) s.
Proof.
  assert (G := ch_gt mu Hm). destruct p; cbn [tq_radius centre]; [rewrite from_left|rewrite from_middle|rewrite from_right]; try reflexivity.
  rewrite Rmax_left by nra. reflexivity.
Qed.
Lemma cos_ok p : p <> PROBE_MIDDLE -> clamp1 (tq_cos p mu c) = axis p * (snd s - centre Rh p) / from (centre Rh p) s.
Proof.
  intros Hp. assert (G := ch_gt mu Hm).
  assert (C : forall x, -1 <= x <= 1 -> clamp1 x = x).
  { intros x Hx. unfold clamp1. destruct (Rltb_spec x (-1)); [lra|]. destruct (Rltb_spec 1 x); [lra|reflexivity]. }
  assert (D : forall a d, 0 < d -> - d <= a <= d -> -1 <= a / d <= 1).
  { intros a d Hd Ha. assert (I := Rinv_0_lt_compat d Hd). assert (E : d * / d = 1) by (apply Rinv_r; lra). unfold Rdiv. nra. }
  destruct p; [|contradiction|]; cbn [tq_cos axis centre]; rewrite ?from_left, ?from_right; rewrite C by (apply D; nra); unfold s, spot; cbn [snd]; field; lra.
Qed.
End Place.

(** * The rule *)
Lemma cheb_len lang : length (cheb_rule lang) = lang.
Proof. unfold cheb_rule. rewrite map_length, seq_length. reflexivity. Qed.
Lemma cheb_in lang q : In q (cheb_rule lang) -> -1 < fst q < 1 /\ 0 < snd q.
Proof. unfold cheb_rule. intros H. apply in_map_iff in H. destruct H as (j & <- & Hj). apply in_seq in Hj. apply (cheb_inside lang). lia. Qed.
Lemma any_rule b Rh ru : di_basis_ok b Rh -> (forall q, In q ru -> -1 < fst q < 1) -> pm_grid_ok b Rh ru.
Proof.
  intros [((H1 & H2 & H3 & _ & H5) & H6 & _) HH] Hr. split; [|split; [exact H6|intros q Hq; apply HH, Hr, Hq]].
  split; [exact H1|]. split; [exact H2|split; [exact H3|split; [|exact H5]]].
  intros ia Hi. rewrite len_plane in Hi. rewrite ang_plane by exact Hi. cbn [a_cth fst snd]. apply Hr. apply nth_In. exact Hi.
Qed.
Lemma cheb_grid b Rh lang : di_basis_ok b Rh -> pm_grid_ok b Rh (cheb_rule lang).
Proof. intros H. apply any_rule; [exact H|]. intros q Hq. apply (cheb_in lang q Hq). Qed.

(** * Adding to a part of a matrix *)
Lemma pick l n (G : nat -> R) i : NoDup l -> (forall x, In x l -> (x < n)%nat) -> (i < n)%nat -> (~ In i l -> G i = 0) ->
  sum (length l) (fun a => if Nat.eqb (nth a l 0%nat) i then G (nth a l 0%nat) else 0) = G i.
Proof.
  intros Hn Hl Hi Ho.
  rewrite (sum_local n l (fun x => if Nat.eqb x i then G x else 0) Hn Hl).
  - rewrite (sum_single n i); [rewrite Nat.eqb_refl; reflexivity|exact Hi|]. intros j _ Hj. destruct (Nat.eqb_spec j i); [contradiction|reflexivity].
  - intros x _ Hx. destruct (Nat.eqb_spec x i) as [->|]; [apply Ho; exact Hx|reflexivity].
Qed.
Lemma add_at_ok V rows cols X n k v F : is_mat V n k v -> NoDup rows -> NoDup cols -> (forall i, In i rows -> (i < n)%nat) -> (forall j, In j cols -> (j < k)%nat) ->
  is_mat X (length rows) (length cols) (fun a c => F (nth a rows 0%nat) (nth c cols 0%nat)) ->
  (forall i j, (i < n)%nat -> (j < k)%nat -> ~ In i rows \/ ~ In j cols -> F i j = 0) ->
  exists V', add_at V rows cols X = Ok V' /\ is_mat V' n k (fun i j => v i j + F i j).
Proof.
  intros (V1 & V2 & V3) Nr Nc Lr Lc (X1 & X2 & X3) Ho. unfold add_at. rewrite X1, X2, !Nat.eqb_refl, V1, V2.
  assert (A : forall l m, (forall i, In i l -> (i < m)%nat) -> forallb (fun i => Nat.ltb i m) l = true).
  { intros l m H. apply forallb_forall. intros x Hx. apply Nat.ltb_lt. apply H. exact Hx. }
  rewrite (A rows n Lr), (A cols k Lc). cbn [andb]. eexists. split; [reflexivity|]. split; [reflexivity|split; [reflexivity|]].
  intros i j Hi Hj. cbn [dent]. rewrite V3 by auto. f_equal.
  transitivity (sum (length rows) (fun a => if Nat.eqb (nth a rows 0%nat) i then (fun x => F x j) (nth a rows 0%nat) else 0)).
  - apply sum_ext. intros a Ha. assert (La := Lr _ (nth_In rows 0%nat Ha)).
    destruct (Nat.eqb_spec (nth a rows 0%nat) i) as [E|E]; cbn [andb].
    + rewrite <- (pick cols k (fun c => F (nth a rows 0%nat) c) j Nc Lc Hj) by (intros H; apply Ho; auto).
      apply sum_ext. intros c Hc. destruct (Nat.eqb (nth c cols 0%nat) j); [|reflexivity]. apply X3; assumption.
    + apply sum_zero'. intros; reflexivity.
  - apply (pick rows n (fun x => F x j) i Nr Lr Hi). intros H. apply Ho; auto.
Qed.
Lemma weighted_ok A n m a w : is_mat A n m a -> is_mat (weighted A w) n m (fun i j => a i j * w j).
Proof. intros (H1 & H2 & H3). repeat split; auto. intros i j Hi Hj. cbn [weighted dent]. rewrite H3 by auto. reflexivity. Qed.
Lemma columns_ok {T} (f : T -> list R) n (l : list T) d : (forall x, In x l -> length (f x) = n) ->
  exists M, from_columns n (map f l) = Ok M /\ is_mat M n (length l) (fun i j => nth i (f (nth j l d)) 0).
Proof.
  intros H. unfold from_columns.
  replace (forallb _ _) with true.
  - eexists. split; [reflexivity|]. split; [reflexivity|split; [apply map_length|]]. intros i j Hi Hj. cbn [dent].
    rewrite (nth_indep _ [] (f d)) by (rewrite map_length; exact Hj). rewrite map_nth. reflexivity.
  - symmetry. apply forallb_forall. intros c Hc. apply in_map_iff in Hc. destruct Hc as (x & <- & Hx). apply Nat.eqb_eq. apply H. exact Hx.
Qed.

(** * One radius *)
Section Step.
Variables (b : abasis) (Rh : R) (ru : list (R * R)).
Hypothesis HB : pm_grid_ok b Rh ru.
Let n := at_nbf b.
Section Elem.
Variables (iel irad : nat).
Hypothesis Hiel : (iel < get_nelem (ab_fe b))%nat.
Hypothesis Hir : (irad < length (ab_r b iel))%nat.
Let mu := nth irad (ab_r b iel) 0.
Let P ia := di_raw_point b Rh (plane ru) iel irad ia.
Let S ia := spot Rh mu (fst (nth ia ru (0, 0))).
Let ind m := bind_m b iel m.

Lemma P_w ia : (ia < length ru)%nat -> p_w (P ia) = tq_weight Rh mu (nth irad (ab_wrad b iel) 0) ru ia.
Proof.
  intros H. assert (E := at_w b Rh ru iel irad HB ia H). rewrite (row_pt b Rh ru iel irad ia H) in E. unfold P. rewrite E.
  unfold pm_weight, tq_weight, mu. assert (Q := pm_sin_eq b Rh ru HB ia H). cbv beta in Q. rewrite Q. ring.
Qed.
Lemma P_f ia i : (ia < length ru)%nat -> p_f (P ia) i = cscal (radial_value b (ab_f b) iel irad (raw_k b i)) (ab_Y b (raw_l b i) (raw_m b i) (fst (nu ru ia)) 0).
Proof. intros H. assert (E := at_f b Rh ru iel irad ia i H). rewrite (row_pt b Rh ru iel irad ia H) in E. exact E. Qed.
Lemma P_snd ia i : (ia < length ru)%nat -> (i < n)%nat -> snd (p_f (P ia) i) = 0.
Proof.
  intros H Hi. rewrite P_f by exact H. unfold cscal. cbn [snd].
  rewrite (snd_Y b Rh ru HB _ _ ia H (raw_range b Rh ru iel irad HB Hiel Hir i Hi)). ring.
Qed.
Lemma P_out ia i : (ia < length ru)%nat -> (i < n)%nat -> ~ In i (ind (raw_m b i)) -> fst (p_f (P ia) i) = 0.
Proof.
  intros H Hi Ho.
  assert (N : ~ In i (el_ind b iel)) by (intros Hi'; apply Ho; apply (bind_m_in b Rh ru iel irad HB Hiel Hir); auto).
  destruct (absent_ok b Rh ru iel irad HB Hiel ia i H Hi N) as (A & _). rewrite (row_pt b Rh ru iel irad ia H) in A. unfold P. rewrite A. reflexivity.
Qed.

Definition filled (m : Z) (w : tqw) : Prop :=
  q_mu w = mu /\ (forall ia, (ia < length ru)%nat -> q_w w ia = p_w (P ia)) /\ q_ind w = ind m /\
  is_mat (q_bf w) (length (ind m)) (length ru) (fun a ia => fst (p_f (P ia) (nth a (ind m) 0%nat))).
Lemma ind_lt m i : In i (ind m) -> (i < n)%nat /\ raw_m b i = m.
Proof.
  intros H. apply (bind_m_in b Rh ru iel irad HB Hiel Hir) in H. destruct H as [H1 H2]. split; [|exact H2].
  apply (ind_in b (plane ru) iel (HA b Rh ru HB) Hiel) in H1. destruct H1 as [H1 H3].
  destruct (range_le b (plane ru) iel (HA b Rh ru HB) Hiel) as [Hle _].
  assert (N0 : at_nr b <> 0%nat) by lia. assert (D := Nat.div_mod i (at_nr b) N0). assert (M := Nat.mod_upper_bound i (at_nr b) N0).
  unfold n, at_nbf. nia.
Qed.
Lemma compute_bf_ok m w : exists w', tq_compute_bf b Rh ru iel irad m w = Ok w' /\ filled m w'.
Proof.
  unfold tq_compute_bf. destruct (bind_m_ok b Rh ru iel HB Hiel m) as (E & Nd & Hle). rewrite E. cbn [bind].
  rewrite (vget_ok _ irad 0) by exact Hir. cbn [bind].
  destruct (HA b Rh ru HB) as (_ & _ & _ & HT). destruct (HT iel Hiel) as (_ & Hw & HM). destruct (HM (ab_f b iel) (or_introl eq_refl)) as [D1 D2].
  rewrite (vget_ok _ irad 0) by (rewrite Hw; exact Hir). cbn [bind].
  set (f := fun q : R * R => flat_map (fun l => map (fun j => pm_Y b l m (fst q) * dent (ab_f b iel) irad j) (seq 0 (dcols (ab_f b iel)))) (l_list (ab_sh b) m)).
  rewrite (PmDens.each_ok _ f).
  2:{ intros q _. unfold tq_eval_bf. rewrite D1. destruct (Nat.ltb_spec irad (length (ab_r b iel))); [reflexivity|lia]. }
  cbn [bind].
  assert (Lf : forall q, length (f q) = length (bind_m b iel m)).
  { intros q. unfold f. rewrite (flat_map_nth _ (l_list (ab_sh b) m) 0%Z). rewrite (length_flat_map_seq (fun i j => pm_Y b (nth i (l_list (ab_sh b) m) 0%Z) m (fst q) * dent (ab_f b iel) irad j)).
    rewrite (bind_m_len b iel m), (sp_l b m), map_length, D2. reflexivity. }
  destruct (columns_ok f (length (bind_m b iel m)) ru (0, 0) (fun q _ => Lf q)) as (M & EM & HMM). rewrite EM. cbn [bind].
  eexists. split; [reflexivity|]. split; [reflexivity|]. split; [intros ia Hia; cbn [q_w]; symmetry; apply P_w; exact Hia|]. split; [reflexivity|].
  cbn [q_bf]. apply (is_mat_ext _ _ _ _ _ HMM). intros a ia Ha Hia. unfold f, ind.
  destruct (bind_m_facts b Rh ru iel irad HB Hiel Hir m a Ha) as ((F1 & F2 & F3 & F4) & F5 & F6).
  rewrite P_f by exact Hia. unfold cscal. cbn [fst]. rewrite (fr_in b Rh ru iel irad HB Hiel Hir m a (ab_f b) Ha). rewrite F5, F6.
  rewrite (flat_map_nth _ (l_list (ab_sh b) m) 0%Z).
  assert (La : (a < length (l_list (ab_sh b) m) * snd (elem_range (ab_fe b) iel))%nat)
    by (rewrite (sp_l b m), map_length; rewrite (bind_m_len b iel m) in Ha; exact Ha).
  rewrite D2. rewrite (nth_flat_map_seq (fun i j => pm_Y b (nth i (l_list (ab_sh b) m) 0%Z) m (fst (nth ia ru (0,0))) * dent (ab_f b iel) irad j)) by exact La.
  unfold pm_Y, nu. ring.
Qed.
End Elem.
End Step.
