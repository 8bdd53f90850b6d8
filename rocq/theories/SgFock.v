(** The Fock matrices from the points of one element. *)
Require Import Reals ZArith List Bool Arith Lia Lra.
Require Import Verif.Prelude Verif.FEModel Verif.FESpec Verif.AngModel Verif.AngProofs Verif.JKModel Verif.DftModel Verif.DftSpec Verif.DftProofs Verif.DftXc Verif.DftFock Verif.DftFockR Verif.PmModel Verif.PmDens Verif.PmFock Verif.SgModel Verif.SgSpec Verif.SgXc Verif.SgProofs.
Import ListNotations.
Local Open Scope R_scope.

Lemma gga_one_ok H gn f A0 n N h gam k a0 : is_mat H n n h -> is_mat gn N 1 gam -> is_mat f n N k -> is_mat A0 n N a0 ->
  exists H', increment_gga_split H gn f dempty [A0] [] = Ok H' /\
    is_mat H' n n (fun i j => h i j + sum N (fun ip => gam ip 0%nat * (a0 i ip * k j ip + a0 j ip * k i ip))).
Proof.
  intros HH Hgn HK HA0. unfold increment_gga_split. rewrite (proj1 (proj2 Hgn)), (proj1 HH), (proj1 (proj2 HH)), (proj1 HK), (proj1 (proj2 HK)).
  cbn [length]. rewrite !Nat.eqb_refl. cbn [negb andb]. unfold add_components. cbn [length seq fold_res].
  change (vget [A0] 0) with (Ok A0). cbn [bind].
  destruct (add_component_ok _ gn _ 0 n N 1 _ gam _ (dzero_ok n N) Hgn ltac:(lia) HA0) as (G1 & E1 & H1). rewrite E1. cbn [bind].
  destruct (dprod_ok _ _ _ _ _ _ _ H1 (dT_ok _ _ _ _ HK)) as (X & EX & HX). rewrite EX. cbn [bind].
  destruct (dadd_ok _ _ _ _ _ _ HH HX) as (H3 & E3 & HH3). rewrite E3. cbn [bind].
  destruct (dadd_ok _ _ _ _ _ _ HH3 (dT_ok _ _ _ _ HX)) as (H4 & E4 & HH4). rewrite E4.
  eexists; split; [reflexivity|]. apply (is_mat_ext _ _ _ _ _ HH4). intros i j Hi Hj.
  rewrite Rplus_assoc, <- sum_plus. f_equal. apply sum_ext. intros ip Hip. ring.
Qed.

Section Fock.
Variables (lib : libxc) (fn : functional) (n : nat) (pts : list rpoint).
Let fl := fn_flags lib fn.
Hypothesis HF : flags_ok fl.
Variables (w : sgworker) (pol : bool) (Ps : list (list dmat)) (d : densb) (x : xcb).
Hypothesis HW : sg_rep fl n pts w.
Hypothesis HD : sg_dens fl n pts pol Ps d.
Let N := length pts.
Let A ip := rargs n pol Ps (rp pts ip).
Hypothesis HX : sx_rep lib fl N pol A (fn_thr fn) (parts fn) x.
Let NF := length (sg_ind w).
Let ix i := nth i (sg_ind w) 0%nat.
Let wx := sg_base w (mkW fl (w_g (sg_w w)) d x).

Definition rgam (s : nat) (q : rpoint) : R :=
  if pol then e_vsigma lib true fn (rargs n pol Ps q) (2 * s) * 2 * rgrad n (cube Ps s) q + e_vsigma lib true fn (rargs n pol Ps q) 1 * rgrad n (cube Ps (1 - s)) q
  else e_vsigma lib false fn (rargs n pol Ps q) 0 * 2 * rgrad n (cube Ps 0) q.
(** The Fock matrix of spin s and angular momentum l in a point *)
Definition rfock_at (s : nat) (q : rpoint) (l i j : nat) : R :=
  e_vrho lib pol fn (rargs n pol Ps q) s * r_n q i j + rgam s q * r_g q i j
  + e_vtau lib pol fn (rargs n pol Ps q) s * (/ 2 * (r_k q i j + r_a q l i j)) + e_vlapl lib pol fn (rargs n pol Ps q) s * r_l q i j.

Lemma sg_gradient_ok s : (s < nspin pol)%nat -> uses fn (is_gga lib) = true ->
  exists gr, sg_gradient pol s wx = Ok gr /\ is_mat gr N 1 (fun ip _ => q_w (rp pts ip) * (rgam s (rp pts ip) + 2 / q_r (rp pts ip) * e_vlapl lib pol fn (A ip) s)).
Proof.
  intros Hs Eu. unfold sg_gradient, wx, sg_base. cbn [sg_w sg_r sg_wr w_x w_d w_g]. rewrite (sr_n _ _ _ _ HW). fold N.
  assert (Hsig := sx_vsigma _ _ _ _ _ _ _ _ HX Eu). assert (Hgr := proj2 HD Eu). fold N in Hgr.
  destruct (row_ok _ _ _ _ (2 * s) Hsig) as (vs & Evs & Hvs). { destruct pol; cbn [nspin nsigma] in *; lia. }
  rewrite Evs. cbn [bind].
  assert (Hab : exists v, (if pol then row (x_vsigma x) 1 N else Ok (fun _ => 0)) = Ok v /\ (pol = true -> forall ip, (ip < N)%nat -> v ip = e_vsigma lib true fn (A ip) 1)).
  { destruct pol eqn:Ep; [|eexists; split; [reflexivity|discriminate]].
    destruct (row_ok _ _ _ _ 1 Hsig ltac:(cbn; lia)) as (v & Ev & Hv). exists v. split; [exact Ev|]. intros _ ip Hip. rewrite Hv by auto. apply ov. }
  destruct Hab as (vab & -> & Hab). cbn [bind].
  assert (Hvl : exists v, (if x_ml x then row (x_vlapl x) s N else Ok (fun _ => 0)) = Ok v /\
     forall ip, (ip < N)%nat -> (if x_ml x then v ip else 0) = e_vlapl lib pol fn (A ip) s).
  { rewrite (sx_ml _ _ _ _ _ _ _ _ HX). change (usesl (parts fn) (is_lapl lib)) with (uses fn (is_lapl lib)). destruct (uses fn (is_lapl lib)) eqn:El.
    - destruct (row_ok _ _ _ _ s (sx_vlapl _ _ _ _ _ _ _ _ HX El) Hs) as (v & Ev & Hv). exists v. split; [exact Ev|]. intros ip Hip. rewrite Hv by auto. apply ov.
    - eexists; split; [reflexivity|]. intros ip _. symmetry. apply over_zero. exact El. }
  destruct Hvl as (vl & -> & Hvl). cbn [bind].
  apply (tab_ok N 1 _ (fun ip _ => q_w (rp pts ip) * (rgam s (rp pts ip) + 2 / q_r (rp pts ip) * e_vlapl lib pol fn (A ip) s))).
  intros ip c Hip _. rewrite (get_ok _ _ _ _ s ip Hgr Hs Hip). cbn [bind].
  assert (Hr := sr_pos _ _ _ _ HW ip Hip).
  assert (Hw := proj2 (sr_wr _ _ _ _ HW) ip Hip).
  assert (Hg : (if pol then bind (get (d_grho d) (1 - s) ip) (fun z => Ok (g_w (w_g (sg_w w)) ip * (2 * vs ip * rgrad n (cube Ps s) (rp pts ip) + vab ip * z)))
    else Ok (rgrad n (cube Ps s) (rp pts ip) * (2 * (g_w (w_g (sg_w w)) ip * vs ip)))) = Ok (q_w (rp pts ip) * rgam s (rp pts ip))).
  { assert (Es : vs ip = e_vsigma lib pol fn (A ip) (2 * s)) by (rewrite Hvs by auto; apply ov). rewrite Es.
    rewrite (sr_w _ _ _ _ HW ip Hip). unfold rgam. destruct pol eqn:Ep; cbn [nspin] in *.
    - rewrite (get_ok _ _ _ _ (1 - s)%nat ip Hgr ltac:(lia) Hip). cbn [bind]. rewrite Hab by auto. f_equal. unfold A, rargs. ring.
    - assert (s = 0%nat) by lia. subst s. f_equal. unfold A, rargs. cbn [Nat.mul Nat.add]. ring. }
  rewrite Hg. cbn [bind]. assert (Hv := Hvl ip Hip). destruct (x_ml x).
  - rewrite (vget_ok _ _ 0) by (rewrite (proj1 (sr_r _ _ _ _ HW)); exact Hip). cbn [bind].
    rewrite (vget_ok _ _ 0) by (rewrite (proj1 (sr_wr _ _ _ _ HW)); exact Hip). cbn [bind].
    rewrite (proj2 (sr_r _ _ _ _ HW) ip Hip), Hv. f_equal. rewrite Rmult_plus_distr_l. f_equal. rewrite Hw. field. lra.
  - rewrite <- Hv. f_equal. ring.
Qed.

(** Weighted sums over the points *)
Definition racc (T : nat -> nat -> nat -> R) (i j : nat) : R := sum N (fun ip => q_w (rp pts ip) * T ip (ix i) (ix j)).
Lemma racc_step H (h : nat -> nat -> R) T T' X :
  is_mat H NF NF h -> (forall i j, (i < NF)%nat -> (j < NF)%nat -> h i j = racc T i j + sum N (fun ip => X ip i j)) ->
  (forall ip i j, (ip < N)%nat -> q_w (rp pts ip) * T ip (ix i) (ix j) + X ip i j = q_w (rp pts ip) * T' ip (ix i) (ix j)) ->
  is_mat H NF NF (racc T').
Proof.
  intros HH Hh HT. apply (is_mat_ext _ _ _ _ _ HH). intros i j Hi Hj. rewrite Hh by auto. unfold racc. rewrite <- sum_plus.
  apply sum_ext. intros ip Hip. apply HT; auto.
Qed.
Definition t1 s ip i j := e_vrho lib pol fn (A ip) s * r_n (rp pts ip) i j.
Definition t2 s ip i j := t1 s ip i j + (rgam s (rp pts ip) + 2 / q_r (rp pts ip) * e_vlapl lib pol fn (A ip) s) * r_g (rp pts ip) i j.
Definition t3 s ip i j := t2 s ip i j + (/ 2 * e_vtau lib pol fn (A ip) s + 2 * e_vlapl lib pol fn (A ip) s) * r_k (rp pts ip) i j.
Definition t4 s ip i j := t3 s ip i j + e_vlapl lib pol fn (A ip) s * (q_f (rp pts ip) i * q_l (rp pts ip) j + q_l (rp pts ip) i * q_f (rp pts ip) j).
Definition tl s ip i j := e_vtau lib pol fn (A ip) s * (/ 2 / (q_r (rp pts ip) * q_r (rp pts ip)) * r_n (rp pts ip) i j).

Lemma rgam_zero s q : uses fn (is_gga lib) = false -> rgam s q = 0.
Proof. intros H. unfold rgam. destruct pol; unfold e_vsigma; rewrite !over_zero by exact H; ring. Qed.

Lemma sg_channel_ok s : (s < nspin pol)%nat -> exists H Hl, sg_channel pol s wx = Ok (H, Hl) /\ is_mat H NF NF (racc (t4 s)) /\ is_mat Hl NF NF (racc (tl s)).
Proof.
  intros Hs. unfold sg_channel. change (w_x (sg_w wx)) with x. change (w_g (sg_w wx)) with (w_g (sg_w w)). change (sg_ind wx) with (sg_ind w). change (sg_f wx) with (sg_f w). change (sg_d wx) with (sg_d w). change (sg_l wx) with (sg_l w). change (sg_wr wx) with (sg_wr w). rewrite (sr_n _ _ _ _ HW). fold N NF.
  destruct (row_ok _ _ _ _ s (sx_vrho _ _ _ _ _ _ _ _ HX) Hs) as (vr & Evr & Hvr). rewrite Evr. cbn [bind].
  destruct (lda_real_ok (dzero NF NF) NF N _ (fun ip => vr ip * g_w (w_g (sg_w w)) ip) _ _ (dzero_ok NF NF) (sr_f _ _ _ _ HW)) as (H1 & E1 & HH1). rewrite E1. cbn [bind].
  assert (M1 : is_mat H1 NF NF (racc (t1 s))).
  { apply (is_mat_ext _ _ _ _ _ HH1). intros i j Hi Hj. rewrite Rplus_0_l. apply sum_ext. intros ip Hip.
    rewrite (sr_w _ _ _ _ HW ip Hip), Hvr by auto. unfold t1, r_n, e_vrho. fold (ix i) (ix j). rewrite <- ov. ring. }
  clear HH1 E1.
  assert (S2 : exists H2, (if x_gga x then bind (sg_gradient pol s wx) (fun gr => increment_gga_split H1 gr (sg_f w) dempty [sg_d w] []) else Ok H1) = Ok H2 /\ is_mat H2 NF NF (racc (t2 s))).
  { rewrite (sx_gga _ _ _ _ _ _ _ _ HX). change (usesl (parts fn) (is_gga lib)) with (uses fn (is_gga lib)). destruct (uses fn (is_gga lib)) eqn:Eg.
    - destruct (sg_gradient_ok s Hs Eg) as (gr & Egr & Hgr). rewrite Egr. cbn [bind].
      destruct (gga_one_ok _ _ _ _ _ _ _ _ _ _ M1 Hgr (sr_f _ _ _ _ HW) (sr_d _ _ _ _ HW Eg)) as (H2 & E2 & HH2). exists H2. split; [exact E2|].
      apply (racc_step _ _ (t1 s) _ _ HH2 (fun i j _ _ => eq_refl)). intros ip i j Hip. unfold t2, r_g. fold (ix i) (ix j). ring.
    - exists H1. split; [reflexivity|]. apply (is_mat_ext _ _ _ _ _ M1). intros i j _ _. apply sum_ext. intros ip _. f_equal. unfold t2.
      rewrite rgam_zero by exact Eg. unfold e_vlapl. rewrite over_zero; [ring|]. apply not_true_is_false. intros El. apply (lapl_grad lib fn) in El. change (uses fn (is_gga lib) = true) in El. congruence. }
  destruct S2 as (H2 & E2 & M2). fold wx. rewrite E2. cbn [bind]. clear E2 M1.
  rewrite (sx_mt _ _ _ _ _ _ _ _ HX), (sx_ml _ _ _ _ _ _ _ _ HX). change (usesl (parts fn)) with (uses fn).
  destruct (uses fn (is_tau lib)) eqn:Et, (uses fn (is_lapl lib)) eqn:El; cbn [orb].
  - destruct (row_ok _ _ _ _ s (sx_vtau _ _ _ _ _ _ _ _ HX Et) Hs) as (vt & Evt & Hvt). rewrite Evt. cbn [bind].
    destruct (row_ok _ _ _ _ s (sx_vlapl _ _ _ _ _ _ _ _ HX El) Hs) as (vl & Evl & Hvl). rewrite Evl. cbn [bind].
    destruct (lda_real_ok _ NF N _ (fun ip => (/ 2 * vt ip + 2 * vl ip) * g_w (w_g (sg_w w)) ip) _ _ M2 (sr_d _ _ _ _ HW (tau_grad lib fn Et))) as (H3 & E3 & HH3). rewrite E3. cbn [bind].
    destruct (lda_real_ok (dzero NF NF) NF N _ (fun ip => vt ip * (/ 2 * nth ip (sg_wr w) 0 * 4 * PI)) _ _ (dzero_ok NF NF) (sr_f _ _ _ _ HW)) as (Hl & Ehl & HHl). rewrite Ehl. cbn [bind].
    assert (M3 : is_mat H3 NF NF (racc (t3 s))).
    { apply (racc_step _ _ (t2 s) _ _ HH3 (fun i j _ _ => eq_refl)). intros ip i j Hip. rewrite (sr_w _ _ _ _ HW ip Hip), Hvt, Hvl by auto.
      unfold t3, r_k, e_vtau, e_vlapl. rewrite <- !ov. fold (ix i) (ix j). ring. }
    destruct (lapl_real_ok _ NF N _ (fun ip => vl ip * g_w (w_g (sg_w w)) ip) _ _ _ _ M3 (sr_f _ _ _ _ HW) (sr_l _ _ _ _ HW El)) as (H4 & E4 & HH4). rewrite E4. cbn [bind].
    exists H4, Hl. split; [reflexivity|]. split.
    + apply (racc_step _ _ (t3 s) _ _ HH4 (fun i j _ _ => eq_refl)). intros ip i j Hip. rewrite (sr_w _ _ _ _ HW ip Hip), Hvl by auto.
      unfold t4, e_vlapl. rewrite <- !ov. fold (ix i) (ix j). ring.
    + apply (is_mat_ext _ _ _ _ _ HHl). intros i j Hi Hj. rewrite Rplus_0_l. apply sum_ext. intros ip Hip. rewrite Hvt by auto.
      assert (Hr := sr_pos _ _ _ _ HW ip Hip). rewrite (proj2 (sr_wr _ _ _ _ HW) ip Hip).
      unfold tl, e_vtau, r_n. rewrite <- ov. fold (ix i) (ix j). field. lra.
  - destruct (row_ok _ _ _ _ s (sx_vtau _ _ _ _ _ _ _ _ HX Et) Hs) as (vt & Evt & Hvt). rewrite Evt. cbn [bind].
    destruct (lda_real_ok _ NF N _ (fun ip => (/ 2 * vt ip + 0) * g_w (w_g (sg_w w)) ip) _ _ M2 (sr_d _ _ _ _ HW (tau_grad lib fn Et))) as (H3 & E3 & HH3). rewrite E3. cbn [bind].
    destruct (lda_real_ok (dzero NF NF) NF N _ (fun ip => vt ip * (/ 2 * nth ip (sg_wr w) 0 * 4 * PI)) _ _ (dzero_ok NF NF) (sr_f _ _ _ _ HW)) as (Hl & Ehl & HHl). rewrite Ehl. cbn [bind].
    exists H3, Hl. split; [reflexivity|]. split.
    + apply (racc_step _ _ (t2 s) _ _ HH3 (fun i j _ _ => eq_refl)). intros ip i j Hip. rewrite (sr_w _ _ _ _ HW ip Hip), Hvt by auto.
      unfold t4, t3, r_k, e_vtau, e_vlapl. rewrite (over_zero lib fn pol (is_lapl lib)) by exact El. rewrite <- !ov. fold (ix i) (ix j). ring.
    + apply (is_mat_ext _ _ _ _ _ HHl). intros i j Hi Hj. rewrite Rplus_0_l. apply sum_ext. intros ip Hip. rewrite Hvt by auto.
      assert (Hr := sr_pos _ _ _ _ HW ip Hip). rewrite (proj2 (sr_wr _ _ _ _ HW) ip Hip).
      unfold tl, e_vtau, r_n. rewrite <- ov. fold (ix i) (ix j). field. lra.
  - cbn [bind]. destruct (row_ok _ _ _ _ s (sx_vlapl _ _ _ _ _ _ _ _ HX El) Hs) as (vl & Evl & Hvl). rewrite Evl. cbn [bind].
    destruct (lda_real_ok _ NF N _ (fun ip => (0 + 2 * vl ip) * g_w (w_g (sg_w w)) ip) _ _ M2 (sr_d _ _ _ _ HW (lapl_grad lib fn El))) as (H3 & E3 & HH3). rewrite E3. cbn [bind].
    assert (M3 : is_mat H3 NF NF (racc (t3 s))).
    { apply (racc_step _ _ (t2 s) _ _ HH3 (fun i j _ _ => eq_refl)). intros ip i j Hip. rewrite (sr_w _ _ _ _ HW ip Hip), Hvl by auto.
      unfold t3, r_k, e_vtau, e_vlapl. rewrite (over_zero lib fn pol (is_tau lib)) by exact Et. rewrite <- !ov. fold (ix i) (ix j). ring. }
    destruct (lapl_real_ok _ NF N _ (fun ip => vl ip * g_w (w_g (sg_w w)) ip) _ _ _ _ M3 (sr_f _ _ _ _ HW) (sr_l _ _ _ _ HW El)) as (H4 & E4 & HH4). rewrite E4. cbn [bind].
    exists H4, (dzero NF NF). split; [reflexivity|]. split.
    + apply (racc_step _ _ (t3 s) _ _ HH4 (fun i j _ _ => eq_refl)). intros ip i j Hip. rewrite (sr_w _ _ _ _ HW ip Hip), Hvl by auto.
      unfold t4, e_vlapl. rewrite <- !ov. fold (ix i) (ix j). ring.
    + apply (is_mat_ext _ _ _ _ _ (dzero_ok NF NF)). intros i j Hi Hj. symmetry. apply sum_zero'. intros ip Hip.
      unfold tl, e_vtau. rewrite over_zero by exact Et. ring.
  - exists H2, (dzero NF NF). split; [reflexivity|]. split.
    + apply (is_mat_ext _ _ _ _ _ M2). intros i j _ _. apply sum_ext. intros ip _. f_equal. unfold t4, t3, e_vtau, e_vlapl.
      rewrite !over_zero by assumption. ring.
    + apply (is_mat_ext _ _ _ _ _ (dzero_ok NF NF)). intros i j Hi Hj. symmetry. apply sum_zero'. intros ip Hip.
      unfold tl, e_vtau. rewrite over_zero by exact Et. ring.
Qed.

Lemma rfock_split s ip l i j : (ip < N)%nat -> t4 s ip i j + ll1 l * tl s ip i j = rfock_at s (rp pts ip) l i j.
Proof.
  intros Hip. assert (Hr := sr_pos _ _ _ _ HW ip Hip). unfold t4, t3, t2, t1, tl, rfock_at, r_l, r_a, ll1. fold (A ip). unfold r_k. field. lra.
Qed.
Definition rfock_sum s l i j := lsum pts (fun q => q_w q * rfock_at s q l i j).
Lemma rfock_out s l i j : (i < n)%nat -> (j < n)%nat -> ~ In i (sg_ind w) \/ ~ In j (sg_ind w) -> rfock_sum s l i j = 0.
Proof.
  intros Hi Hj Ho. unfold rfock_sum. rewrite <- sum_rp. apply sum_zero'. intros ip Hip. unfold rfock_at, r_l, r_a, r_g, r_n, r_k.
  destruct Ho as [Ho|Ho]; [destruct (sr_out _ _ _ _ HW ip i Hip Hi Ho) as (-> & -> & ->)|destruct (sr_out _ _ _ _ HW ip j Hip Hj Ho) as (-> & -> & ->)]; ring.
Qed.

Lemma sg_add_ok s k0 nsl : (s < nspin pol)%nat -> exists H Hl us, sg_channel pol s wx = Ok (H, Hl) /\ sg_add wx H Hl k0 nsl n = Ok us /\
  within (sg_ind w) n us /\
  forall k i j, (i < n)%nat -> (j < n)%nat -> effect us k i j = if (Nat.leb k0 k && Nat.ltb k (k0 + nsl))%bool then rfock_sum s (k - k0) i j else 0.
Proof.
  intros Hs. destruct (sg_channel_ok s Hs) as (H & Hl & E & MH & ML). exists H, Hl. unfold sg_add. cbn [wx sg_base sg_ind].
  set (step := fun us l => bind (dadd H (dscale (ll1 l) Hl)) (fun Hs0 => bind (updates (k0 + l) (sg_ind w) Hs0 n) (fun u => Ok (us ++ u)))).
  assert (G : exists us, fold_res step (seq 0 nsl) [] = Ok us /\ within (sg_ind w) n us /\
    forall k i j, (i < n)%nat -> (j < n)%nat -> effect us k i j = if (Nat.leb k0 k && Nat.ltb k (k0 + nsl))%bool then rfock_sum s (k - k0) i j else 0).
  { induction nsl as [|m IH].
    - exists []. split; [reflexivity|]. split; [intros k i j y []|]. intros k i j _ _. change (effect [] k i j) with 0.
      destruct (Nat.leb_spec k0 k), (Nat.ltb_spec k (k0 + 0)); cbn [andb]; auto. lia.
    - destruct IH as (us & E1 & W1 & F1). rewrite seq_S, fold_res_app, E1. cbn [bind fold_res plus]. unfold step at 1.
      destruct (dadd_ok _ _ _ _ _ _ MH (dscale_ok (ll1 m) _ _ _ _ ML)) as (Hm & Em & HM). rewrite Em. cbn [bind].
      destruct (updates_ok (k0 + m) (sg_ind w) Hm n (rfock_sum s m) (sr_nodup _ _ _ _ HW) (sr_lt _ _ _ _ HW)) as (u & Eu & Wu & Fu).
      { apply (is_mat_ext _ _ _ _ _ HM). intros i j Hi Hj. unfold racc, rfock_sum. rewrite <- sum_rp. rewrite <- sum_scal, <- sum_plus.
        apply sum_ext. intros ip Hip. fold (ix i) (ix j). rewrite <- (rfock_split s ip m (ix i) (ix j) Hip). ring. }
      { intros i j Hi Hj Ho. apply rfock_out; auto. }
      rewrite Eu. cbn [bind]. exists (us ++ u). split; [reflexivity|]. split.
      + intros k i j y Hy. apply in_app_or in Hy. destruct Hy as [Hy|Hy]; [apply (W1 k i j y Hy)|apply (Wu k i j y Hy)].
      + intros k i j Hi Hj. rewrite effect_app, F1, Fu by auto.
        destruct (Nat.leb_spec k0 k), (Nat.ltb_spec k (k0 + m)), (Nat.ltb_spec k (k0 + S m)), (Nat.eqb_spec (k0 + m) k); cbn [andb]; try lia; try ring.
        subst k. replace (k0 + m - k0)%nat with m by lia. ring. }
  destruct G as (us & G1 & G2 & G3). exists us. auto.
Qed.

(** What the outputs add to the matrices *)
Definition out_sum (outs : list (nat * nat * nat * nat)) (k i j : nat) : R :=
  lsum outs (fun o => let '(s, k0, nsl, _) := o in if (Nat.leb k0 k && Nat.ltb k (k0 + nsl))%bool then rfock_sum s (k - k0) i j else 0).
Lemma sg_fock_ok outs : (forall s k0 nsl nout, In (s, k0, nsl, nout) outs -> (s < nspin pol)%nat /\ nout = n) ->
  exists us, sg_fock pol outs wx = Ok us /\ within (sg_ind w) n us /\
    forall k i j, (i < n)%nat -> (j < n)%nat -> effect us k i j = out_sum outs k i j.
Proof.
  intros Ho. unfold sg_fock. cbn [wx sg_base sg_w w_d]. rewrite (ag_pol _ _ _ _ _ (proj1 HD)), eqb_reflx. cbn [negb]. fold (sg_base w (mkW fl (w_g (sg_w w)) d x)). fold wx.
  assert (G : forall acc, within (sg_ind w) n acc -> exists us, fold_res (fun us o => let '(s, k0, nsl, nout) := o in
    bind (sg_channel pol s wx) (fun HH => bind (sg_add wx (fst HH) (snd HH) k0 nsl nout) (fun u => Ok (us ++ u)))) outs acc = Ok us /\ within (sg_ind w) n us /\
    forall k i j, (i < n)%nat -> (j < n)%nat -> effect us k i j = effect acc k i j + out_sum outs k i j).
  { induction outs as [|[[[s k0] nsl] nout] outs IH]; intros acc Wa.
    - exists acc. split; [reflexivity|]. split; [exact Wa|]. intros. unfold out_sum. cbn. ring.
    - destruct (Ho s k0 nsl nout (or_introl eq_refl)) as [Hs ->]. destruct (sg_add_ok s k0 nsl Hs) as (H & Hl & u & E1 & E2 & Wu & Fu).
      cbn [fold_res]. rewrite E1. cbn [bind fst snd]. rewrite E2. cbn [bind].
      destruct (IH (fun s k0 nsl nout Hi => Ho s k0 nsl nout (or_intror Hi)) (acc ++ u)) as (us & E & W & F).
      { intros k i j y Hy. apply in_app_or in Hy. destruct Hy as [Hy|Hy]; [apply (Wa k i j y Hy)|apply (Wu k i j y Hy)]. }
      exists us. split; [exact E|]. split; [exact W|]. intros k i j Hi Hj. rewrite F, effect_app, Fu by auto.
      change (out_sum ((s, k0, nsl, n) :: outs) k i j) with ((if (Nat.leb k0 k && Nat.ltb k (k0 + nsl))%bool then rfock_sum s (k - k0) i j else 0) + out_sum outs k i j). ring. }
  destruct (G [] ltac:(intros k i j y [])) as (us & E & W & F). exists us. split; [exact E|]. split; [exact W|].
  intros k i j Hi Hj. rewrite F by auto. unfold effect. cbn. ring.
Qed.
End Fock.
