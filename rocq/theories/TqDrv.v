(** The loops of the two-dimensional quadrature. *)
Require Import Reals ZArith List Bool Arith Lia Lra Psatz.
Require Import Verif.Prelude Verif.FEModel Verif.FESpec Verif.FEProofs Verif.AngModel Verif.AngSpec Verif.AngProofs Verif.JKModel Verif.JKProofs Verif.DftModel Verif.DftSpec Verif.DftProofs Verif.DftAtom Verif.DdfModel Verif.DdfSpec Verif.DdfProofs Verif.DdfDrv Verif.PmModel Verif.PmSpec Verif.PmDens Verif.PmBf Verif.PmDrv Verif.PotModel Verif.CbModel Verif.CbProofs Verif.TqModel Verif.TqSpec Verif.TqProofs.
Import ListNotations.
Local Open Scope R_scope.

Lemma fold_acc {X} (step : tqw * dmat -> X -> res (tqw * dmat)) l n k (F : X -> mat) :
  (forall st x v, In x l -> is_mat (snd st) n k v -> exists st', step st x = Ok st' /\ is_mat (snd st') n k (fun i j => v i j + F x i j)) ->
  forall st v, is_mat (snd st) n k v -> exists st', fold_res step l st = Ok st' /\ is_mat (snd st') n k (fun i j => v i j + lsum l (fun x => F x i j)).
Proof.
  induction l as [|x l IH]; intros Hs st v Hv; cbn [fold_res lsum].
  - exists st. split; [reflexivity|]. apply (is_mat_ext _ _ _ _ _ Hv). intros. ring.
  - destruct (Hs st x v (or_introl eq_refl) Hv) as (s1 & E1 & H1). rewrite E1. cbn [bind].
    destruct (IH (fun st x v Hx => Hs st x v (or_intror Hx)) s1 _ H1) as (s2 & E2 & H2). exists s2. split; [exact E2|].
    apply (is_mat_ext _ _ _ _ _ H2). intros. ring.
Qed.
Definition lsum2 (b : abasis) (G : nat -> nat -> R) : R :=
  lsum (seq 0 (get_nelem (ab_fe b))) (fun iel => lsum (seq 0 (length (ab_r b iel))) (fun ir => G iel ir)).
Lemma loops_acc b step n k (F : nat -> nat -> mat) :
  (forall iel ir st v, (iel < get_nelem (ab_fe b))%nat -> (ir < length (ab_r b iel))%nat -> is_mat (snd st) n k v ->
     exists st', step iel ir st = Ok st' /\ is_mat (snd st') n k (fun i j => v i j + F iel ir i j)) ->
  forall st v, is_mat (snd st) n k v -> exists st', tq_loops b step st = Ok st' /\ is_mat (snd st') n k (fun i j => v i j + lsum2 b (fun iel ir => F iel ir i j)).
Proof.
  intros Hs. unfold tq_loops, lsum2.
  apply (fold_acc _ _ n k (fun iel i j => lsum (seq 0 (length (ab_r b iel))) (fun ir => F iel ir i j))).
  intros st iel v Hi Hv. apply in_seq in Hi. apply (fold_acc _ _ n k (fun ir => F iel ir)); [|exact Hv].
  intros st' ir v' Hr Hv'. apply in_seq in Hr. apply Hs; [lia|lia|exact Hv'].
Qed.
Lemma lsum2_ext b G G' : (forall iel ir, (iel < get_nelem (ab_fe b))%nat -> (ir < length (ab_r b iel))%nat -> G iel ir = G' iel ir) -> lsum2 b G = lsum2 b G'.
Proof. intros H. apply lsum_ext. intros iel Hi. apply in_seq in Hi. apply lsum_ext. intros ir Hr. apply in_seq in Hr. apply H; lia. Qed.
Lemma lsum2_zero b : lsum2 b (fun _ _ => 0) = 0.
Proof. apply lsum_zero. intros. apply lsum_zero. auto. Qed.

Section Drv.
Variables (b : abasis) (Rh : R) (ru : list (R * R)).
Hypothesis HB : pm_grid_ok b Rh ru.
Let n := at_nbf b.
Let P iel ir ia := di_raw_point b Rh (plane ru) iel ir ia.
Let S iel ir ia := spot Rh (nth ir (ab_r b iel) 0) (fst (nth ia ru (0, 0))).
Let Sum iel ir (F : gpoint -> R * R -> R) := sum (length ru) (fun ia => F (P iel ir ia) (S iel ir ia)).

Lemma gsum_eq F : gsum b Rh ru F = lsum2 b (fun iel ir => Sum iel ir F).
Proof. apply lsum2_ext. intros. rewrite lsum_seq0. reflexivity. Qed.

Lemma place_ok iel ir ia : (iel < get_nelem (ab_fe b))%nat -> (ir < length (ab_r b iel))%nat -> (ia < length ru)%nat ->
  0 < Rh /\ 0 < sinh (nth ir (ab_r b iel) 0) /\ -1 < fst (nth ia ru (0, 0)) < 1.
Proof.
  intros H1 H2 H3. split; [exact (Rh_pos b Rh ru HB)|]. split; [exact (sinh_mu b Rh ru iel ir HB H1 H2)|]. exact (c_range b Rh ru HB ia H3).
Qed.

(** * The potential *)
Section Pot.
Variables (p1 p2 : R -> fp).
Definition pot_at (s : R * R) : R := finite (p1 (from (- Rh) s)) + finite (p2 (from Rh s)).
Lemma pot_step m iel ir st v : (iel < get_nelem (ab_fe b))%nat -> (ir < length (ab_r b iel))%nat -> is_mat (snd st) n n v ->
  exists st', bind (tq_compute_bf b Rh ru iel ir m (fst st)) (fun w => let w := tq_potential Rh ru p1 p2 w in bind (tq_eval_pot w (snd st)) (fun H => Ok (w, H))) = Ok st' /\
    is_mat (snd st') n n (fun i j => v i j + (if ((raw_m b i =? m) && (raw_m b j =? m))%Z%bool then Sum iel ir (fun q s => p_w q * pot_at s * reprod (p_f q i) (p_f q j)) else 0)).
Proof.
  intros H1 H2 Hv. destruct (compute_bf_ok b Rh ru HB iel ir H1 H2 m (fst st)) as (w & E & F1 & F2 & F3 & F4). rewrite E. cbn [bind]. cbv zeta.
  unfold tq_eval_pot. cbn [tq_potential q_itg drows dcols q_bf q_ind q_w]. cbn [Nat.eqb negb]. rewrite (proj1 (proj2 F4)), Nat.eqb_refl. cbn [negb].
  destruct (dprod_ok _ _ _ _ _ _ _ (weighted_ok _ _ _ _ (fun ia => dent (mkD 1 (length ru) (fun _ ia => normal_part (p1 (Rh * (cosh (q_mu w) + fst (nu ru ia)))) + normal_part (p2 (Rh * (cosh (q_mu w) - fst (nu ru ia)))))) 0%nat ia * q_w w ia) F4) (dT_ok _ _ _ _ F4)) as (X & EX & HX).
  rewrite EX. cbn [bind]. rewrite F3.
  set (G := fun i j => if ((raw_m b i =? m) && (raw_m b j =? m))%Z%bool then Sum iel ir (fun q s => p_w q * pot_at s * reprod (p_f q i) (p_f q j)) else 0).
  assert (IL := ind_lt b Rh ru HB iel ir H1 H2 m).
  destruct (bind_m_ok b Rh ru iel HB H1 m) as (_ & Nd & _).
  destruct (add_at_ok (snd st) (bind_m b iel m) (bind_m b iel m) X n n v G Hv Nd Nd) as (V & EV & HV).
  - intros i Hi. apply (IL i Hi).
  - intros i Hi. apply (IL i Hi).
  - apply (is_mat_ext _ _ _ _ _ HX). intros a c Ha Hc. unfold G.
    destruct (IL _ (nth_In _ 0%nat Ha)) as [La Ma]. destruct (IL _ (nth_In _ 0%nat Hc)) as [Lc Mc]. rewrite Ma, Mc, Z.eqb_refl. cbn [andb].
    unfold Sum. apply sum_ext. intros ia Hia. cbn [dent]. rewrite F1, F2 by exact Hia. unfold reprod, P.
    rewrite (P_snd b Rh ru HB iel ir H1 H2 ia _ Hia La). unfold pot_at, S.
    destruct (place_ok iel ir ia H1 H2 Hia) as (R1 & R2 & R3). rewrite from_left, from_right by assumption. unfold nu, finite, normal_part. ring.
  - intros i j Hi Hj Ho. unfold G. destruct ((raw_m b i =? m) && (raw_m b j =? m))%Z%bool eqn:Em; [|reflexivity].
    apply andb_true_iff in Em. destruct Em as [Mi Mj]. apply Z.eqb_eq in Mi. apply Z.eqb_eq in Mj.
    unfold Sum. apply sum_zero'. intros ia Hia. unfold reprod, P. rewrite (P_snd b Rh ru HB iel ir H1 H2 ia i Hia Hi).
    destruct Ho as [Ho|Ho]; [rewrite <- Mi in Ho; rewrite (P_out b Rh ru HB iel ir H1 H2 ia i Hia Hi Ho)|rewrite <- Mj in Ho; rewrite (P_out b Rh ru HB iel ir H1 H2 ia j Hia Hj Ho)]; ring.
  - rewrite EV. cbn [bind]. eexists. split; [reflexivity|]. exact HV.
Qed.
End Pot.

(** * Projections *)
Section Proj.
Variables (Y : nat -> nat -> R -> R) (g : nat -> R -> R) (k : nat) (ao : R -> res (list R)) (l : nat) (m : Z) (p : probe).
Hypothesis Hao : forall r, ao r = Ok (map (fun a => g a r) (seq 0 k)).
(** The angle the code uses, for the centre in the middle that of nu *)
Definition code_angle (s : R * R) (c : R) : R := match p with PROBE_MIDDLE => acos (clamp1 c) | _ => polar Rh p s end.
Definition gval (a : nat) (s : R * R) (c : R) : R := g a (from (centre Rh p) s) * Y l (Z.abs_nat m) (code_angle s c).
Let gv iel ir a ia := gval a (S iel ir ia) (fst (nth ia ru (0, 0))).
Definition prepared iel ir (w : tqw) : Prop := filled b Rh ru iel ir m w /\ is_mat (q_itg w) k (length ru) (fun a ia => gv iel ir a ia).
Lemma ao_step iel ir w0 : (iel < get_nelem (ab_fe b))%nat -> (ir < length (ab_r b iel))%nat ->
  exists w1 w2, tq_compute_bf b Rh ru iel ir m w0 = Ok w1 /\ tq_ao Rh ru ao p w1 = Ok w2 /\ prepared iel ir (tq_multiply Y ru l m p w2).
Proof.
  intros H1 H2. destruct (compute_bf_ok b Rh ru HB iel ir H1 H2 m w0) as (w & E & F1 & F2 & F3 & F4). exists w.
  set (f := fun q : R * R => map (fun a => g a (tq_radius p Rh (q_mu w) (fst q))) (seq 0 k)).
  destruct (columns_ok f k ru (0, 0)) as (M & EM & HM); [intros; unfold f; rewrite map_length, seq_length; reflexivity|].
  exists (mkTQ (q_mu w) (q_w w) (q_ind w) (q_bf w) M). split; [exact E|]. split.
  - unfold tq_ao. rewrite Hao. cbn [bind]. rewrite (PmDens.each_ok _ f) by (intros; apply Hao). cbn [bind]. rewrite map_length, seq_length, EM. reflexivity.
  - split; [split; [exact F1|split; [exact F2|split; [exact F3|exact F4]]]|]. cbn [tq_multiply q_itg q_mu].
    destruct HM as (M1 & M2 & M3). split; [exact M1|split; [exact M2|]]. intros a ia Ha Hia. cbn [dent]. rewrite M3 by auto. unfold f.
    rewrite nth_map_seq by exact Ha. unfold gv, gval. destruct (place_ok iel ir ia H1 H2 Hia) as (R1 & R2 & R3).
    rewrite F1. rewrite radius_ok by assumption. unfold S. f_equal. f_equal. unfold code_angle, polar, nu.
    destruct p; try reflexivity; f_equal; apply cos_ok; auto; discriminate.
Qed.
Lemma proj_step iel ir st v : (iel < get_nelem (ab_fe b))%nat -> (ir < length (ab_r b iel))%nat -> is_mat (snd st) k n v ->
  exists st', bind (tq_compute_bf b Rh ru iel ir m (fst st)) (fun w => bind (tq_ao Rh ru ao p w) (fun w => let w := tq_multiply Y ru l m p w in
      bind (tq_eval_proj w (snd st)) (fun S => Ok (w, S)))) = Ok st' /\
    is_mat (snd st') k n (fun a j => v a j + (if (raw_m b j =? m)%Z then sum (length ru) (fun ia => p_w (P iel ir ia) * gv iel ir a ia * fst (p_f (P iel ir ia) j)) else 0)).
Proof.
  intros H1 H2 Hv. destruct (ao_step iel ir (fst st) H1 H2) as (w1 & w2 & E1 & E2 & (F1 & F2 & F3 & F4) & HG). rewrite E1. cbn [bind]. rewrite E2. cbn [bind]. cbv zeta.
  set (w := tq_multiply Y ru l m p w2) in *. unfold tq_eval_proj.
  destruct (dprod_ok _ _ _ _ _ _ _ (weighted_ok _ _ _ _ (q_w w) HG) (dT_ok _ _ _ _ F4)) as (X & EX & HX). rewrite EX. cbn [bind]. rewrite F3, (proj1 Hv).
  set (G := fun a j => if (raw_m b j =? m)%Z then sum (length ru) (fun ia => p_w (P iel ir ia) * gv iel ir a ia * fst (p_f (P iel ir ia) j)) else 0).
  assert (IL := ind_lt b Rh ru HB iel ir H1 H2 m).
  destruct (bind_m_ok b Rh ru iel HB H1 m) as (_ & Nd & _).
  destruct (add_at_ok (snd st) (seq 0 k) (bind_m b iel m) X k n v G Hv (seq_NoDup k 0) Nd) as (V & EV & HV).
  - intros i Hi. apply in_seq in Hi. lia.
  - intros i Hi. apply (IL i Hi).
  - rewrite seq_length. apply (is_mat_ext _ _ _ _ _ HX). intros a c Ha Hc. unfold G. rewrite seq_nth by exact Ha. cbn [Nat.add].
    destruct (IL _ (nth_In _ 0%nat Hc)) as [Lc Mc]. rewrite Mc, Z.eqb_refl. apply sum_ext. intros ia Hia. rewrite F2 by exact Hia. unfold P. ring.
  - intros a j Ha Hj Ho. unfold G. destruct (Z.eqb_spec (raw_m b j) m) as [Mj|]; [|reflexivity].
    destruct Ho as [Ho|Ho]; [exfalso; apply Ho, in_seq; lia|]. rewrite <- Mj in Ho.
    apply sum_zero'. intros ia Hia. unfold P. rewrite (P_out b Rh ru HB iel ir H1 H2 ia j Hia Hj Ho). ring.
  - rewrite EV. cbn [bind]. eexists. split; [reflexivity|]. exact HV.
Qed.
Lemma over_step iel ir st v : (iel < get_nelem (ab_fe b))%nat -> (ir < length (ab_r b iel))%nat -> is_mat (snd st) k k v ->
  exists st', bind (tq_compute_bf b Rh ru iel ir m (fst st)) (fun w => bind (tq_ao Rh ru ao p w) (fun w => let w := tq_multiply Y ru l m p w in
      bind (tq_eval_overlap w (snd st)) (fun S => Ok (w, S)))) = Ok st' /\
    is_mat (snd st') k k (fun a c => v a c + sum (length ru) (fun ia => p_w (P iel ir ia) * gv iel ir a ia * gv iel ir c ia)).
Proof.
  intros H1 H2 Hv. destruct (ao_step iel ir (fst st) H1 H2) as (w1 & w2 & E1 & E2 & (F1 & F2 & F3 & F4) & HG). rewrite E1. cbn [bind]. rewrite E2. cbn [bind]. cbv zeta.
  set (w := tq_multiply Y ru l m p w2) in *. unfold tq_eval_overlap.
  destruct (dprod_ok _ _ _ _ _ _ _ (weighted_ok _ _ _ _ (q_w w) HG) (dT_ok _ _ _ _ HG)) as (X & EX & HX). rewrite EX. cbn [bind].
  destruct (dadd_ok _ _ _ _ _ _ Hv HX) as (V & EV & HV). rewrite EV. cbn [bind]. eexists. split; [reflexivity|]. cbn [snd].
  apply (is_mat_ext _ _ _ _ _ HV). intros a c Ha Hc. f_equal. apply sum_ext. intros ia Hia. rewrite F2 by exact Hia. unfold P. ring.
Qed.
End Proj.
End Drv.

(** * The matrices *)
Section Mats.
Variables (b : abasis) (Rh : R) (lang : nat).
Hypothesis HB0 : di_basis_ok b Rh.
Let ru := cheb_rule lang.
Let HB : pm_grid_ok b Rh ru := cheb_grid b Rh lang HB0.
Let n := at_nbf b.
Let nbf := di_nbf b.

Lemma once m0 l X : NoDup l -> In m0 l -> lsum l (fun m => if (m0 =? m)%Z then X else 0) = X.
Proof.
  induction l as [|x l IH]; intros Hn Hi; [contradiction|]. cbn [lsum]. apply NoDup_cons_iff in Hn. destruct Hn as [Hx Hn].
  destruct Hi as [->|Hi].
  - rewrite Z.eqb_refl. rewrite lsum_zero; [ring|]. intros a Ha. destruct (Z.eqb_spec m0 a) as [->|]; [contradiction|reflexivity].
  - destruct (Z.eqb_spec m0 x) as [->|]; [contradiction|]. rewrite IH by assumption. ring.
Qed.
Lemma raw_m_in i : (i < n)%nat -> In (raw_m b i) (m_list (ab_sh b)).
Proof.
  intros Hi. apply (m_list_ok (ab_sh b)). unfold n, at_nbf in Hi. unfold raw_m, shell. apply in_map. apply nth_In.
  apply Nat.div_lt_upper_bound; [intros E; rewrite E in Hi; lia|lia].
Qed.

Lemma potential_ok p1 p2 : exists V, tq_model_potential b Rh lang p1 p2 = Ok V /\
  is_mat V nbf nbf (fun i j => if (fn_m b i =? fn_m b j)%Z then
     gsum b Rh ru (fun q s => p_w q * (finite (p1 (from (- Rh) s)) + finite (p2 (from Rh s))) * reprod (p_f q (di_fn b i)) (p_f q (di_fn b j))) else 0).
Proof.
  unfold tq_model_potential. destruct (nr_ok b Rh (plane ru) (proj1 HB)) as (nb & Enb & Enr). rewrite Enb. cbn [bind]. rewrite Enr. fold ru.
  change (di_Ndummy (ab_sh b) (at_nr b)) with n. cbv zeta.
  set (T := fun iel ir i j => sum (length ru) (fun ia => (fun q s => p_w q * pot_at Rh p1 p2 s * reprod (p_f q i) (p_f q j)) (di_raw_point b Rh (plane ru) iel ir ia) (spot Rh (nth ir (ab_r b iel) 0) (fst (nth ia ru (0, 0)))))).
  destruct (fold_acc (fun st m => tq_loops b (fun iel irad st0 => bind (tq_compute_bf b Rh ru iel irad m (fst st0)) (fun w =>
      bind (tq_eval_pot (tq_potential Rh ru p1 p2 w) (snd st0)) (fun H => Ok (tq_potential Rh ru p1 p2 w, H)))) st) (m_list (ab_sh b)) n n
      (fun m i j => lsum2 b (fun iel ir => if ((raw_m b i =? m) && (raw_m b j =? m))%Z%bool then T iel ir i j else 0))) with (st := (tq_new, dzero n n)) (v := fun _ _ : nat => 0) as (st & E & HM).
  - intros st m v _ Hv. refine (loops_acc b _ n n (fun iel ir i j => if ((raw_m b i =? m) && (raw_m b j =? m))%Z%bool then T iel ir i j else 0) _ st v Hv).
    intros iel ir st' v' H1 H2 Hv'. exact (pot_step b Rh ru HB p1 p2 m iel ir st' v' H1 H2 Hv').
  - apply dzero_ok.
  - rewrite E. cbn [bind].
    destruct (remove_ok (ab_sh b) (at_nr b) (snd st)) as (V & EV & D1 & D2 & D3); [exact (proj1 HM)|exact (proj1 (proj2 HM))|].
    exists V. split; [exact EV|]. split; [exact D1|split; [exact D2|]]. intros i j Hi Hj. rewrite D3.
    change (nth i (positions survives (all_functions (ab_sh b) (at_nr b))) 0%nat) with (di_fn b i).
    change (nth j (positions survives (all_functions (ab_sh b) (at_nr b))) 0%nat) with (di_fn b j).
    assert (Li := di_fn_lt b i Hi). assert (Lj := di_fn_lt b j Hj). rewrite (proj2 (proj2 HM)) by assumption. rewrite Rplus_0_l.
    rewrite gsum_eq. unfold fn_m.
    transitivity (lsum (m_list (ab_sh b)) (fun m => if (raw_m b (di_fn b i) =? m)%Z then (if (raw_m b (di_fn b i) =? raw_m b (di_fn b j))%Z then lsum2 b (fun iel ir => T iel ir (di_fn b i) (di_fn b j)) else 0) else 0)).
    + apply lsum_ext. intros m _. destruct (Z.eqb_spec (raw_m b (di_fn b i)) m) as [<-|]; cbn [andb]; [|apply lsum2_zero].
      rewrite (Z.eqb_sym (raw_m b (di_fn b j))). destruct (_ =? _)%Z; [reflexivity|apply lsum2_zero].
    + rewrite once; [|apply m_list_ok|apply raw_m_in; exact Li]. reflexivity.
Qed.

Section Proj.
Variables (Y : nat -> nat -> R -> R) (g : nat -> R -> R) (k : nat) (ao : R -> res (list R)) (l : nat) (m : Z) (p : probe).
Hypothesis Hao : forall r, ao r = Ok (map (fun a => g a r) (seq 0 k)).
Let gv iel ir ia a := gval Rh Y g l m p a (spot Rh (nth ir (ab_r b iel) 0) (fst (nth ia ru (0, 0)))) (fst (nth ia ru (0, 0))).
Lemma projection_ok : exists S, tq_projection b Rh lang Y k ao l m p = Ok S /\
  is_mat S k nbf (fun a j => if (fn_m b j =? m)%Z then lsum2 b (fun iel ir => sum (length ru) (fun ia => p_w (di_raw_point b Rh (plane ru) iel ir ia) * gv iel ir ia a * fst (p_f (di_raw_point b Rh (plane ru) iel ir ia) (di_fn b j)))) else 0).
Proof.
  unfold tq_projection. destruct (nr_ok b Rh (plane ru) (proj1 HB)) as (nb & Enb & Enr). rewrite Enb. cbn [bind]. rewrite Enr. fold ru.
  change (di_Ndummy (ab_sh b) (at_nr b)) with n. cbv zeta.
  destruct (loops_acc b (fun iel irad st => bind (tq_compute_bf b Rh ru iel irad m (fst st)) (fun w => bind (tq_ao Rh ru ao p w) (fun w => 
      bind (tq_eval_proj (tq_multiply Y ru l m p w) (snd st)) (fun S => Ok (tq_multiply Y ru l m p w, S))))) k n
     (fun iel ir a j => if (raw_m b j =? m)%Z then sum (length ru) (fun ia => p_w (di_raw_point b Rh (plane ru) iel ir ia) * gv iel ir ia a * fst (p_f (di_raw_point b Rh (plane ru) iel ir ia) j)) else 0)) with (st := (tq_new, dzero k n)) (v := fun _ _ : nat => 0) as (st & E & HM).
  - intros iel ir st' v' H1 H2 Hv'. exact (proj_step b Rh ru HB Y g k ao l m p Hao iel ir st' v' H1 H2 Hv').
  - apply dzero_ok.
  - rewrite E. cbn [bind]. eexists. split; [reflexivity|]. unfold pure_columns. rewrite pure_indices_positions. split; [exact (proj1 HM)|]. split; [reflexivity|].
    intros a j Ha Hj. cbn [dent]. change (nth j (positions survives (all_functions (ab_sh b) (at_nr b))) 0%nat) with (di_fn b j).
    rewrite (proj2 (proj2 HM)) by (try assumption; apply di_fn_lt; exact Hj). rewrite Rplus_0_l. unfold fn_m.
    destruct (_ =? _)%Z; [reflexivity|apply lsum2_zero].
Qed.
Lemma overlap_ok : exists S, tq_overlap b Rh lang Y k ao l m p = Ok S /\
  is_mat S k k (fun a c => lsum2 b (fun iel ir => sum (length ru) (fun ia => p_w (di_raw_point b Rh (plane ru) iel ir ia) * gv iel ir ia a * gv iel ir ia c))).
Proof.
  unfold tq_overlap. fold ru. cbv zeta.
  destruct (loops_acc b (fun iel irad st => bind (tq_compute_bf b Rh ru iel irad m (fst st)) (fun w => bind (tq_ao Rh ru ao p w) (fun w => 
      bind (tq_eval_overlap (tq_multiply Y ru l m p w) (snd st)) (fun S => Ok (tq_multiply Y ru l m p w, S))))) k k
     (fun iel ir a c => sum (length ru) (fun ia => p_w (di_raw_point b Rh (plane ru) iel ir ia) * gv iel ir ia a * gv iel ir ia c))) with (st := (tq_new, dzero k k)) (v := fun _ _ : nat => 0) as (st & E & HM).
  - intros iel ir st' v' H1 H2 Hv'. exact (over_step b Rh ru HB Y g k ao l m p Hao iel ir st' v' H1 H2 Hv').
  - apply dzero_ok.
  - rewrite E. cbn [bind]. eexists. split; [reflexivity|]. apply (is_mat_ext _ _ _ _ _ HM). intros. ring.
Qed.
End Proj.
End Mats.
