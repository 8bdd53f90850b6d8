(** The Fock matrix from the points of one radius. *)
Require Import Reals ZArith List Bool Arith Lia Lra.
Require Import Verif.Prelude Verif.FEModel Verif.FESpec Verif.AngModel Verif.AngProofs Verif.JKModel Verif.JKProofs Verif.DftModel Verif.DftSpec Verif.DftProofs Verif.DftXc Verif.DftFock Verif.DftFockR Verif.DdfModel Verif.DdfSpec Verif.DdfProofs Verif.DdfDrv Verif.PmModel Verif.PmSpec Verif.PmProofs Verif.PmDens Verif.PmXc.
Import ListNotations.
Local Open Scope R_scope.

Lemma lda_real_ok H n N h v f k : is_mat H n n h -> is_mat f n N k ->
  exists H', increment_lda_real H N v f = Ok H' /\ is_mat H' n n (fun i j => h i j + sum N (fun ip => v ip * (k i ip * k j ip))).
Proof.
  intros HH HK. unfold increment_lda_real. rewrite (proj1 (proj2 HK)), (proj1 HH), (proj1 (proj2 HH)), (proj1 HK), !Nat.eqb_refl. cbn [negb andb].
  destruct (dprod_ok _ _ _ _ _ _ _ (colscale_ok _ v _ _ _ HK) (dT_ok _ _ _ _ HK)) as (X & EX & HX). rewrite EX. cbn [bind].
  destruct (dadd_ok _ _ _ _ _ _ HH HX) as (Z & EZ & HZ). rewrite EZ. eexists; split; [reflexivity|].
  apply (is_mat_ext _ _ _ _ _ HZ). intros i j _ _. f_equal. apply sum_ext. intros. ring.
Qed.
Lemma lapl_real_ok H n N h v f l k kl : is_mat H n n h -> is_mat f n N k -> is_mat l n N kl ->
  exists H', increment_mgga_lapl_real H N v f l = Ok H' /\
    is_mat H' n n (fun i j => h i j + sum N (fun ip => v ip * (k i ip * kl j ip + kl i ip * k j ip))).
Proof.
  intros HH HK HL. unfold increment_mgga_lapl_real.
  rewrite (proj1 (proj2 HK)), (proj1 HH), (proj1 (proj2 HH)), (proj1 HK), (proj1 HL), (proj1 (proj2 HL)), !Nat.eqb_refl. cbn [negb andb].
  destruct (dprod_ok _ _ _ _ _ _ _ (colscale_ok _ v _ _ _ HK) (dT_ok _ _ _ _ HL)) as (X & EX & HX). rewrite EX. cbn [bind].
  destruct (dprod_ok _ _ _ _ _ _ _ HL (dT_ok _ _ _ _ (colscale_ok _ v _ _ _ HK))) as (Y & EY & HY). rewrite EY. cbn [bind].
  destruct (dadd_ok _ _ _ _ _ _ HX HY) as (Z & EZ & HZ). rewrite EZ. cbn [bind].
  destruct (dadd_ok _ _ _ _ _ _ HH HZ) as (U & EU & HU). rewrite EU. eexists; split; [reflexivity|].
  apply (is_mat_ext _ _ _ _ _ HU). intros i j _ _. f_equal. rewrite <- sum_plus. apply sum_ext. intros. ring.
Qed.
Lemma gga_real_ok H gn f A0 A1 n N h gam k a0 a1 : is_mat H n n h -> is_mat gn N 2 gam -> is_mat f n N k -> is_mat A0 n N a0 -> is_mat A1 n N a1 ->
  exists H', increment_gga_split H gn f dempty [A0; A1] [] = Ok H' /\
    is_mat H' n n (fun i j => h i j + sum N (fun ip => gam ip 0%nat * (a0 i ip * k j ip + a0 j ip * k i ip) + gam ip 1%nat * (a1 i ip * k j ip + a1 j ip * k i ip))).
Proof.
  intros HH Hgn HK HA0 HA1. unfold increment_gga_split. rewrite (proj1 (proj2 Hgn)), (proj1 HH), (proj1 (proj2 HH)), (proj1 HK), (proj1 (proj2 HK)).
  cbn [length]. rewrite !Nat.eqb_refl. cbn [negb andb]. unfold add_components. cbn [length seq fold_res].
  change (vget [A0; A1] 0) with (Ok A0). change (vget [A0; A1] 1) with (Ok A1). cbn [bind].
  destruct (add_component_ok _ gn _ 0 n N 2 _ gam _ (dzero_ok n N) Hgn ltac:(lia) HA0) as (G1 & E1 & H1). rewrite E1. cbn [bind].
  destruct (add_component_ok _ gn _ 1 n N 2 _ gam _ H1 Hgn ltac:(lia) HA1) as (G2 & E2 & H2). rewrite E2. cbn [bind].
  destruct (dprod_ok _ _ _ _ _ _ _ H2 (dT_ok _ _ _ _ HK)) as (X & EX & HX). rewrite EX. cbn [bind].
  destruct (dadd_ok _ _ _ _ _ _ HH HX) as (H3 & E3 & HH3). rewrite E3. cbn [bind].
  destruct (dadd_ok _ _ _ _ _ _ HH3 (dT_ok _ _ _ _ HX)) as (H4 & E4 & HH4). rewrite E4.
  eexists; split; [reflexivity|]. apply (is_mat_ext _ _ _ _ _ HH4). intros i j Hi Hj.
  rewrite Rplus_assoc, <- sum_plus. f_equal. apply sum_ext. intros ip Hip. ring.
Qed.

Section Fock.
Variables (lib : libxc) (fn : functional) (n : nat) (pts : list gpoint) (mg : nat -> Z) (hp : nat -> R).
Let fl := fn_flags lib fn.
Hypothesis HF : flags_ok fl.
Variables (w : pmworker) (pol : bool) (Ms : list dmat) (d : densb) (x : xcb).
Hypothesis HW : pm_rep fl n pts mg hp w.
Hypothesis HD : pm_dens_rep fl n pts pol Ms d.
Hypothesis HX : xc_rep lib fl n pts pol Ms (fn_thr fn) (parts fn) x.
Hypothesis HM : forall s, (s < nspin pol)%nat -> forall ip, (ip < length pts)%nat -> grad n (spin Ms s) (pt pts ip) 2 = 0.
Let N := length pts.
Let wx := with_base w (mkW fl (w_g (pm_w w)) d x).

(** The Fock matrix of spin s in a point *)
Definition fock_at (s : nat) (q : gpoint) (i j : nat) : R :=
  if pol then fock2 lib fn n (spin Ms 0) (spin Ms 1) s q i j else fock1 lib fn n (spin Ms 0) q i j.
Definition pm_gamma (s : nat) (q : gpoint) (c : nat) : R :=
  if pol then e_vsigma lib true fn (pargs n pol Ms q) (2 * s) * 2 * grad n (spin Ms s) q c
              + e_vsigma lib true fn (pargs n pol Ms q) 1 * grad n (spin Ms (1 - s)) q c
  else e_vsigma lib false fn (pargs n pol Ms q) 0 * 2 * grad n (spin Ms 0) q c.
Lemma fock_at_eq s ip i j : (s < nspin pol)%nat -> (ip < N)%nat -> fock_at s (pt pts ip) i j =
  e_vrho lib pol fn (pargs n pol Ms (pt pts ip)) s * pair_n (pt pts ip) i j
  + (pm_gamma s (pt pts ip) 0 * pair_g (pt pts ip) 0 i j + pm_gamma s (pt pts ip) 1 * pair_g (pt pts ip) 1 i j)
  + (/ 2 * e_vtau lib pol fn (pargs n pol Ms (pt pts ip)) s + 2 * e_vlapl lib pol fn (pargs n pol Ms (pt pts ip)) s) * pair_gg (pt pts ip) i j
  + e_vlapl lib pol fn (pargs n pol Ms (pt pts ip)) s * (pair_l (pt pts ip) i j - 2 * pair_gg (pt pts ip) i j).
Proof.
  intros Hs Hip. unfold fock_at, pm_gamma. assert (G := fun s Hs => HM s Hs ip Hip). destruct pol; cbn [nspin] in *.
  - unfold fock2, dot3, pair_t. cbn [sum]. destruct s as [|[|s]]; [| |lia]; cbn [Nat.eqb Nat.mul Nat.add Nat.sub];
      rewrite ?(G 0%nat), ?(G 1%nat) by lia; unfold pargs; ring.
  - assert (s = 0%nat) by lia. subst s. unfold fock1, dot3, pair_t. cbn [sum]. rewrite (G 0%nat) by lia. unfold pargs. ring.
Qed.

Lemma pm_gradient_ok s : (s < nspin pol)%nat -> uses fn (is_gga lib) = true ->
  exists gr, pm_gradient pol s wx = Ok gr /\ is_mat gr N 2 (fun ip c => p_w (pt pts ip) * pm_gamma s (pt pts ip) c / pm_h w ip).
Proof.
  intros Hs Eu. unfold pm_gradient, wx, with_base. cbn [pm_w w_x w_d w_g pm_h]. rewrite (pr_n _ _ _ _ _ _ HW). fold N.
  assert (Hsig := xr_vsigma _ _ _ _ _ _ _ _ _ HX Eu). assert (Hgr := pd_grho _ _ _ _ _ _ HD Eu). fold N in Hsig, Hgr.
  unfold pm_gamma. destruct pol eqn:Ep; cbn [nspin nsigma] in *.
  - destruct (row_ok _ _ _ _ (2 * s) Hsig ltac:(lia)) as (vs & Evs & Hvs).
    destruct (row_ok _ _ _ _ 1 Hsig ltac:(lia)) as (vab & Evab & Hvab). rewrite Evs, Evab. cbn [bind].
    apply (tab_ok N 2 _ (fun ip c => p_w (pt pts ip) * (e_vsigma lib true fn (pargs n true Ms (pt pts ip)) (2 * s) * 2 * grad n (spin Ms s) (pt pts ip) c
              + e_vsigma lib true fn (pargs n true Ms (pt pts ip)) 1 * grad n (spin Ms (1 - s)) (pt pts ip) c) / pm_h w ip)).
    intros ip c Hip Hc. assert (Hh := pr_h _ _ _ _ _ _ HW ip Hip). rewrite rdiv_ok by lra. cbn [bind].
    rewrite (get_ok _ _ _ _ (2 * s + c) ip Hgr) by lia. cbn [bind]. rewrite (get_ok _ _ _ _ (2 - 2 * s + c) ip Hgr) by lia. cbn [bind].
    replace (2 - 2 * s + c)%nat with (2 * (1 - s) + c)%nat by lia.
    destruct (div2 s c Hc) as [-> ->]. destruct (div2 (1 - s) c Hc) as [-> ->].
    rewrite (pr_w _ _ _ _ _ _ HW) by auto. rewrite Hvs, Hvab by auto. f_equal. unfold e_vsigma. rewrite <- !ov. field. lra.
  - assert (s = 0%nat) by lia. subst s.
    destruct (row_ok _ _ _ _ 0 Hsig ltac:(lia)) as (vs & Evs & Hvs). rewrite Evs. cbn [bind].
    apply (tab_ok N 2 _ (fun ip c => p_w (pt pts ip) * (e_vsigma lib false fn (pargs n false Ms (pt pts ip)) 0 * 2 * grad n (spin Ms 0) (pt pts ip) c) / pm_h w ip)).
    intros ip c Hip Hc. assert (Hh := pr_h _ _ _ _ _ _ HW ip Hip). rewrite rdiv_ok by lra. cbn [bind].
    rewrite (get_ok _ _ _ _ c ip Hgr) by lia. cbn [bind].
    rewrite (Nat.div_small c 2), (Nat.mod_small c 2) by lia.
    rewrite (pr_w _ _ _ _ _ _ HW) by auto. rewrite Hvs by auto. f_equal. unfold e_vsigma. rewrite <- ov. field. lra.
Qed.

Section Block.
Variable k : pmblock.
Hypothesis Hk : In k (pm_blocks w).
Hypothesis He : k_ind k <> [].
Let NB := length (k_ind k).
Let ix := bi k.
Definition bacc (T : nat -> nat -> nat -> R) (i j : nat) : R := sum N (fun ip => p_w (pt pts ip) * T ip (ix i) (ix j)).
Lemma bacc_step H (h : nat -> nat -> R) T T' X :
  is_mat H NB NB h -> (forall i j, (i < NB)%nat -> (j < NB)%nat -> h i j = bacc T i j + sum N (fun ip => X ip i j)) ->
  (forall ip i j, (ip < N)%nat -> (i < NB)%nat -> (j < NB)%nat -> p_w (pt pts ip) * T ip (ix i) (ix j) + X ip i j = p_w (pt pts ip) * T' ip (ix i) (ix j)) ->
  is_mat H NB NB (bacc T').
Proof.
  intros HH Hh HT. apply (is_mat_ext _ _ _ _ _ HH). intros i j Hi Hj. rewrite Hh by auto. unfold bacc. rewrite <- sum_plus.
  apply sum_ext. intros ip Hip. apply HT; auto.
Qed.
Lemma ix_lt i : (i < NB)%nat -> (ix i < n)%nat.
Proof. intros Hi. apply (bi_in fl n pts mg hp w HW k i Hk Hi). Qed.
Lemma ix_m i : (i < NB)%nat -> mg (ix i) = k_m k.
Proof. intros Hi. apply (bi_in fl n pts mg hp w HW k i Hk Hi). Qed.
Lemma re_at ip i : (ip < N)%nat -> (i < NB)%nat -> real_at pts mg hp ip (ix i).
Proof. intros Hip Hi. apply (pr_real _ _ _ _ _ _ HW); [exact Hip|apply ix_lt; exact Hi]. Qed.
Lemma n_at ip i j : (ip < N)%nat -> (i < NB)%nat -> (j < NB)%nat -> pair_n (pt pts ip) (ix i) (ix j) = vf pts ip (ix i) * vf pts ip (ix j).
Proof. intros Hip Hi Hj. unfold pair_n, reprod, vf. rewrite (ra_f _ _ _ _ _ (re_at ip i Hip Hi)). ring. Qed.
Lemma g_at ip c i j : (ip < N)%nat -> (i < NB)%nat -> (j < NB)%nat ->
  pair_g (pt pts ip) c (ix i) (ix j) = vg pts c ip (ix i) * vf pts ip (ix j) + vg pts c ip (ix j) * vf pts ip (ix i).
Proof.
  intros Hip Hi Hj. unfold pair_g, reprod, vf, vg. rewrite (ra_f _ _ _ _ _ (re_at ip i Hip Hi)), (ra_f _ _ _ _ _ (re_at ip j Hip Hj)). ring.
Qed.
Lemma l_at ip i j : (ip < N)%nat -> (i < NB)%nat -> (j < NB)%nat ->
  pair_l (pt pts ip) (ix i) (ix j) - 2 * pair_gg (pt pts ip) (ix i) (ix j) = vf pts ip (ix i) * vl pts ip (ix j) + vl pts ip (ix i) * vf pts ip (ix j).
Proof.
  intros Hip Hi Hj. unfold pair_l, reprod, vf, vl. rewrite (ra_f _ _ _ _ _ (re_at ip i Hip Hi)), (ra_f _ _ _ _ _ (re_at ip j Hip Hj)). ring.
Qed.
Lemma gg_at ip i j : (ip < N)%nat -> (i < NB)%nat -> (j < NB)%nat ->
  pair_gg (pt pts ip) (ix i) (ix j) = vg pts 0 ip (ix i) * vg pts 0 ip (ix j) + vg pts 1 ip (ix i) * vg pts 1 ip (ix j)
    + IZR (k_m k * k_m k) * pm_ip2 w ip * (vf pts ip (ix i) * vf pts ip (ix j)).
Proof.
  intros Hip Hi Hj. rewrite (pair_gg_eq fl n pts mg hp w HW ip _ _ Hip (ix_lt i Hi) (ix_lt j Hj)). f_equal.
  unfold vu, vf. rewrite (ix_m i Hi), (ix_m j Hj), (pr_ip2 _ _ _ _ _ _ HW ip Hip), mult_IZR.
  assert (Hhp := pr_hp _ _ _ _ _ _ HW ip Hip). field. lra.
Qed.

Lemma pm_channel_ok s : (s < nspin pol)%nat -> exists H, pm_channel pol s wx k = Ok H /\
  is_mat H NB NB (fun i j => lsum pts (fun q => p_w q * fock_at s q (ix i) (ix j))).
Proof.
  intros Hs. unfold pm_channel. cbn [wx with_base pm_w w_x w_g pm_ir2 pm_ip2].
  rewrite (pr_n _ _ _ _ _ _ HW). fold N. fold NB.
  assert (Tf := tab_f _ _ _ _ _ w HW k Hk He). fold NB in Tf. fold N in Tf.
  set (A ip := pargs n pol Ms (pt pts ip)).
  destruct (row_ok _ _ _ _ s (xr_vrho _ _ _ _ _ _ _ _ _ HX) Hs) as (v & Ev & Hv). fold N in Ev. rewrite Ev. cbn [bind].
  destruct (lda_real_ok _ NB N _ (fun ip => v ip * g_w (w_g (pm_w w)) ip) _ _ (dzero_ok NB NB) Tf) as (H1 & E1 & HH1). rewrite E1. cbn [bind].
  assert (B1 : is_mat H1 NB NB (bacc (fun ip i j => e_vrho lib pol fn (A ip) s * pair_n (pt pts ip) i j))).
  { apply (bacc_step H1 _ (fun _ _ _ => 0) _ (fun ip i j => v ip * g_w (w_g (pm_w w)) ip * (vf pts ip (ix i) * vf pts ip (ix j))) HH1).
    - intros i j _ _. f_equal. symmetry. apply sum_zero'. intros. ring.
    - intros ip i j Hip Hi Hj. rewrite n_at by auto. rewrite (pr_w _ _ _ _ _ _ HW) by auto. rewrite Hv by auto. unfold e_vrho, over, overl, A. ring. }
  clear HH1. rewrite (xr_gga _ _ _ _ _ _ _ _ _ HX), (xr_mt _ _ _ _ _ _ _ _ _ HX), (xr_ml _ _ _ _ _ _ _ _ _ HX).
  change (usesl (parts fn)) with (uses fn).
  set (T2 := fun ip i j => e_vrho lib pol fn (A ip) s * pair_n (pt pts ip) i j
     + (pm_gamma s (pt pts ip) 0 * pair_g (pt pts ip) 0 i j + pm_gamma s (pt pts ip) 1 * pair_g (pt pts ip) 1 i j)).
  assert (S2 : exists H2, (if uses fn (is_gga lib) then
          bind (pm_gradient pol s wx) (fun gr => increment_gga_split H1 gr (k_f k) dempty [k_r k; k_t k] [])
        else Ok H1) = Ok H2 /\ is_mat H2 NB NB (bacc T2)).
  { destruct (uses fn (is_gga lib)) eqn:Eu.
    - destruct (pm_gradient_ok s Hs Eu) as (gr & Eg & Hgr). rewrite Eg. cbn [bind].
      assert (Tr := tab_g _ _ _ _ _ w HW 0%nat Eu ltac:(lia) k Hk He). assert (Tt := tab_g _ _ _ _ _ w HW 1%nat Eu ltac:(lia) k Hk He).
      cbn [Nat.eqb] in Tr, Tt. fold NB N in Tr, Tt.
      destruct (gga_real_ok _ gr _ _ _ NB N _ _ _ _ _ B1 Hgr Tf Tr Tt) as (H2 & E2 & HH2). exists H2. split; [exact E2|].
      apply (bacc_step H2 _ (fun ip i j => e_vrho lib pol fn (A ip) s * pair_n (pt pts ip) i j) T2 (fun ip i j => p_w (pt pts ip) * (pm_gamma s (pt pts ip) 0 * pair_g (pt pts ip) 0 (ix i) (ix j) + pm_gamma s (pt pts ip) 1 * pair_g (pt pts ip) 1 (ix i) (ix j))) HH2).
      + intros i j Hi Hj. f_equal. apply sum_ext. intros ip Hip. rewrite !g_at by auto. assert (Hh := pr_h _ _ _ _ _ _ HW ip Hip). fold ix. field. lra.
      + intros ip i j Hip Hi Hj. unfold T2. ring.
    - exists H1. split; [reflexivity|]. apply (is_mat_ext _ _ _ _ _ B1). intros i j _ _. unfold bacc. apply sum_ext. intros ip Hip. unfold T2.
      assert (Z : forall c, pm_gamma s (pt pts ip) c = 0).
      { intros c. unfold pm_gamma, e_vsigma. rewrite !over_zero by exact Eu. destruct pol; ring. }
      rewrite !Z. ring. }
  destruct S2 as (H2 & E2 & HH2). rewrite E2. cbn [bind]. clear E2.
  set (T3 := fun ip i j => T2 ip i j + (/ 2 * e_vtau lib pol fn (A ip) s + 2 * e_vlapl lib pol fn (A ip) s) * pair_gg (pt pts ip) i j).
  assert (S3 : exists H3, (if (uses fn (is_tau lib) || uses fn (is_lapl lib))%bool then
          bind (if uses fn (is_tau lib) then row (x_vtau x) s N else Ok (fun _ => 0)) (fun vt =>
          bind (if uses fn (is_lapl lib) then row (x_vlapl x) s N else Ok (fun _ => 0)) (fun vl =>
          let vtl ip := ((if uses fn (is_tau lib) then / 2 * vt ip else 0) + (if uses fn (is_lapl lib) then 2 * vl ip else 0)) * g_w (w_g (pm_w w)) ip in
          bind (increment_lda_real H2 N (fun ip => vtl ip * pm_ir2 w ip) (k_r k)) (fun H =>
          bind (increment_lda_real H N (fun ip => vtl ip * pm_ir2 w ip) (k_t k)) (fun H =>
          if (k_m k * k_m k =? 0)%Z then Ok H
          else increment_lda_real H N (fun ip => vtl ip * pm_ip2 w ip * IZR (k_m k * k_m k)) (k_f k)))))
        else Ok H2) = Ok H3 /\ is_mat H3 NB NB (bacc T3)).
  { assert (Gt : exists vt, (if uses fn (is_tau lib) then row (x_vtau x) s N else Ok (fun _ => 0)) = Ok vt /\
      (forall ip, (ip < N)%nat -> (if uses fn (is_tau lib) then / 2 * vt ip else 0) = / 2 * e_vtau lib pol fn (A ip) s)).
    { destruct (uses fn (is_tau lib)) eqn:Eu.
      - destruct (row_ok _ _ _ _ s (xr_vtau _ _ _ _ _ _ _ _ _ HX Eu) Hs) as (vt & Evt & Hvt).
        exists vt. split; [exact Evt|]. intros ip Hip. rewrite Hvt by auto. reflexivity.
      - eexists; split; [reflexivity|]. intros. unfold e_vtau. rewrite over_zero by exact Eu. ring. }
    assert (Gl : exists vl, (if uses fn (is_lapl lib) then row (x_vlapl x) s N else Ok (fun _ => 0)) = Ok vl /\
      (forall ip, (ip < N)%nat -> (if uses fn (is_lapl lib) then 2 * vl ip else 0) = 2 * e_vlapl lib pol fn (A ip) s)).
    { destruct (uses fn (is_lapl lib)) eqn:Eu.
      - destruct (row_ok _ _ _ _ s (xr_vlapl _ _ _ _ _ _ _ _ _ HX Eu) Hs) as (vt & Evt & Hvt).
        exists vt. split; [exact Evt|]. intros ip Hip. rewrite Hvt by auto. reflexivity.
      - eexists; split; [reflexivity|]. intros. unfold e_vlapl. rewrite over_zero by exact Eu. ring. }
    destruct Gt as (vt & Evt & Hvt), Gl as (vl & Evl & Hvl). rewrite Evt, Evl. cbn [bind]. cbv zeta.
    set (vtl := fun ip => ((if uses fn (is_tau lib) then / 2 * vt ip else 0) + (if uses fn (is_lapl lib) then 2 * vl ip else 0)) * g_w (w_g (pm_w w)) ip).
    set (cc := fun ip => / 2 * e_vtau lib pol fn (A ip) s + 2 * e_vlapl lib pol fn (A ip) s).
    assert (Hvtl : forall ip, (ip < N)%nat -> vtl ip = cc ip * p_w (pt pts ip)).
    { intros ip Hip. unfold vtl. rewrite Hvt, Hvl, (pr_w _ _ _ _ _ _ HW) by auto. reflexivity. }
    destruct (uses fn (is_tau lib) || uses fn (is_lapl lib))%bool eqn:Eu.
    - assert (Eg : f_grad fl = true) by (apply orb_true_iff in Eu; destruct Eu as [Eu|Eu]; [apply (tau_grad lib fn Eu)|apply (lapl_grad lib fn Eu)]).
      assert (Tr := tab_g _ _ _ _ _ w HW 0%nat Eg ltac:(lia) k Hk He). assert (Tt := tab_g _ _ _ _ _ w HW 1%nat Eg ltac:(lia) k Hk He).
      cbn [Nat.eqb] in Tr, Tt. fold NB N in Tr, Tt.
      destruct (lda_real_ok _ NB N _ (fun ip => vtl ip * pm_ir2 w ip) _ _ HH2 Tr) as (K1 & EK1 & HK1).
      unfold vtl in EK1. rewrite EK1. cbn [bind]. clear EK1.
      destruct (lda_real_ok _ NB N _ (fun ip => vtl ip * pm_ir2 w ip) _ _ HK1 Tt) as (K2 & EK2 & HK2).
      unfold vtl in EK2. rewrite EK2. cbn [bind]. clear EK2.
      assert (Hir : forall ip, (ip < N)%nat -> pm_ir2 w ip * (pm_h w ip * pm_h w ip) = 1).
      { intros ip Hip. rewrite (pr_ir2 _ _ _ _ _ _ HW) by auto. assert (Hh := pr_h _ _ _ _ _ _ HW ip Hip). field. lra. }
      destruct (Z.eqb_spec (k_m k * k_m k) 0) as [E0|E0].
      + exists K2. split; [reflexivity|].
        apply (bacc_step K2 _ T2 T3 (fun ip i j => vtl ip * pair_gg (pt pts ip) (ix i) (ix j)) HK2).
        * intros i j Hi Hj. rewrite Rplus_assoc, <- sum_plus. f_equal. apply sum_ext. intros ip Hip. rewrite gg_at by auto. rewrite E0.
          fold ix.
          transitivity (vtl ip * (pm_ir2 w ip * (pm_h w ip * pm_h w ip)) * (vg pts 0 ip (ix i) * vg pts 0 ip (ix j) + vg pts 1 ip (ix i) * vg pts 1 ip (ix j))); [ring|].
          rewrite Hir by auto. ring.
        * intros ip i j Hip Hi Hj. rewrite Hvtl by auto. unfold T3, cc. ring.
      + destruct (lda_real_ok _ NB N _ (fun ip => vtl ip * pm_ip2 w ip * IZR (k_m k * k_m k)) _ _ HK2 Tf) as (K3 & EK3 & HK3).
        exists K3. split; [exact EK3|].
        apply (bacc_step K3 _ T2 T3 (fun ip i j => vtl ip * pair_gg (pt pts ip) (ix i) (ix j)) HK3).
        * intros i j Hi Hj. rewrite !Rplus_assoc, <- !sum_plus. f_equal. apply sum_ext. intros ip Hip. rewrite gg_at by auto.
          fold ix.
          transitivity (vtl ip * (pm_ir2 w ip * (pm_h w ip * pm_h w ip)) * (vg pts 0 ip (ix i) * vg pts 0 ip (ix j) + vg pts 1 ip (ix i) * vg pts 1 ip (ix j))
             + vtl ip * (IZR (k_m k * k_m k) * pm_ip2 w ip * (vf pts ip (ix i) * vf pts ip (ix j)))); [ring|].
          rewrite Hir by auto. ring.
        * intros ip i j Hip Hi Hj. rewrite Hvtl by auto. unfold T3, cc. ring.
    - exists H2. split; [reflexivity|]. apply orb_false_iff in Eu. destruct Eu as [Et El].
      apply (is_mat_ext _ _ _ _ _ HH2). intros i j _ _. unfold bacc, T3. apply sum_ext. intros ip Hip.
      unfold e_vtau, e_vlapl. rewrite !over_zero by assumption. ring. }
  destruct S3 as (H3 & E3 & HH3). cbv zeta in E3 |- *. rewrite E3. cbn [bind]. clear E3.
  assert (Fin : forall H, is_mat H NB NB (bacc (fun ip i j => T3 ip i j + e_vlapl lib pol fn (A ip) s * (pair_l (pt pts ip) i j - 2 * pair_gg (pt pts ip) i j))) ->
     is_mat H NB NB (fun i j => lsum pts (fun q => p_w q * fock_at s q (ix i) (ix j)))).
  { intros H HH. apply (is_mat_ext _ _ _ _ _ HH). intros i j _ _. rewrite <- sum_pts. unfold bacc. apply sum_ext. intros ip Hip.
    rewrite fock_at_eq by auto. reflexivity. }
  destruct (uses fn (is_lapl lib)) eqn:Eu.
  - destruct (row_ok _ _ _ _ s (xr_vlapl _ _ _ _ _ _ _ _ _ HX Eu) Hs) as (vL & Evl & Hvl). fold N in Evl. rewrite Evl. cbn [bind].
    assert (Tl := tab_l _ _ _ _ _ w HW Eu k Hk He). fold NB N in Tl.
    destruct (lapl_real_ok _ NB N _ (fun ip => vL ip * g_w (w_g (pm_w w)) ip) _ _ _ _ HH3 Tf Tl) as (H4 & E4 & HH4).
    exists H4. split; [exact E4|]. apply Fin.
    apply (bacc_step H4 _ T3 _ (fun ip i j => vL ip * g_w (w_g (pm_w w)) ip * (vf pts ip (ix i) * vl pts ip (ix j) + vl pts ip (ix i) * vf pts ip (ix j))) HH4).
    + reflexivity.
    + intros ip i j Hip Hi Hj. rewrite <- l_at by auto. rewrite (pr_w _ _ _ _ _ _ HW) by auto. rewrite Hvl by auto. unfold e_vlapl. rewrite <- ov. unfold A. ring.
  - exists H3. split; [reflexivity|]. apply Fin. apply (is_mat_ext _ _ _ _ _ HH3). intros i j _ _. unfold bacc. apply sum_ext. intros ip Hip.
    assert (E0 : e_vlapl lib pol fn (A ip) s = 0) by (apply over_zero; exact Eu). rewrite E0. ring.
Qed.
End Block.

(** What the functions outside of the lists contribute, and partners *)
Definition FF s i j := lsum pts (fun q => p_w q * fock_at s q i j).
Lemma FF_out s k i j : (s < nspin pol)%nat -> In k (pm_blocks w) -> (i < n)%nat -> (j < n)%nat -> mg i = k_m k -> mg j = k_m k ->
  ~ In i (k_ind k) \/ ~ In j (k_ind k) -> FF s i j = 0.
Proof.
  intros Hs Hk Hi Hj Mi Mj Ho. unfold FF. rewrite <- sum_pts. apply sum_zero'. intros ip Hip. rewrite fock_at_eq by auto.
  assert (Z : absent pts ip i \/ absent pts ip j).
  { destruct Ho as [Ho|Ho]; [left|right]; apply (br_out _ _ _ _ _ _ (pr_blocks _ _ _ _ _ _ HW k Hk)); auto. }
  assert (P : pair_n (pt pts ip) i j = 0 /\ (forall c, pair_g (pt pts ip) c i j = 0) /\ pair_gg (pt pts ip) i j = 0 /\ pair_l (pt pts ip) i j = 0).
  { unfold pair_l, pair_gg, pair_g, pair_n, reprod. cbn [sum]. destruct Z as [(A & B & C)|(A & B & C)]; rewrite ?A, ?B, ?C; cbn [fst snd];
      (split; [ring|]); (split; [intros c; rewrite ?B; cbn [fst snd]; ring|]); split; ring. }
  destruct P as (-> & P2 & -> & ->). rewrite !P2. ring.
Qed.
Lemma FF_mirror s k k' i j : (s < nspin pol)%nat -> In k (pm_blocks w) -> In k' (pm_blocks w) -> k_m k' = (- k_m k)%Z -> length (k_ind k') = length (k_ind k) ->
  (i < length (k_ind k))%nat -> (j < length (k_ind k))%nat -> FF s (bi k' i) (bi k' j) = FF s (bi k i) (bi k j).
Proof.
  intros Hs Hk Hk' Em El Hi Hj. unfold FF. rewrite <- !sum_pts. apply sum_ext. intros ip Hip. rewrite !fock_at_eq by auto.
  destruct (pr_mirror _ _ _ _ _ _ HW k k' Hk Hk' Em El) as (t & Ht & Hv).
  destruct (bi_in fl n pts mg hp w HW k i Hk Hi) as (_ & Li & Mi). destruct (bi_in fl n pts mg hp w HW k j Hk Hj) as (_ & Lj & Mj).
  destruct (bi_in fl n pts mg hp w HW k' i Hk' ltac:(lia)) as (_ & Li' & Mi'). destruct (bi_in fl n pts mg hp w HW k' j Hk' ltac:(lia)) as (_ & Lj' & Mj').
  assert (Si := Hv ip i Hip Hi). assert (Sj := Hv ip j Hip Hj).
  assert (GG : pair_gg (pt pts ip) (bi k' i) (bi k' j) = pair_gg (pt pts ip) (bi k i) (bi k j)).
  { rewrite !(pair_gg_eq fl n pts mg hp w HW) by auto. unfold vu. rewrite Mi, Mj, Mi', Mj', Em, opp_IZR.
    destruct Si as (A & B & C & _), Sj as (A' & B' & C' & _). unfold vg. rewrite A, B, C, A', B', C'. unfold cscal. cbn [fst snd].
    transitivity (t * t * (fst (p_g (pt pts ip) 0 (bi k i)) * fst (p_g (pt pts ip) 0 (bi k j)) + fst (p_g (pt pts ip) 1 (bi k i)) * fst (p_g (pt pts ip) 1 (bi k j))
      + IZR (k_m k) * fst (p_f (pt pts ip) (bi k i)) / hp ip * (IZR (k_m k) * fst (p_f (pt pts ip) (bi k j)) / hp ip))); [unfold Rdiv; ring|].
    rewrite Ht. ring. }
  rewrite GG. destruct Si as (A & B & C & D), Sj as (A' & B' & C' & D').
  assert (RP : forall x y, reprod (cscal t x) (cscal t y) = reprod x y).
  { intros u v. unfold reprod, cscal. cbn [fst snd]. transitivity (t * t * (fst u * fst v + snd u * snd v)); [ring|]. rewrite Ht. ring. }
  assert (Q : pair_n (pt pts ip) (bi k' i) (bi k' j) = pair_n (pt pts ip) (bi k i) (bi k j)) by (unfold pair_n; rewrite A, A', RP; reflexivity).
  assert (Q0 : pair_g (pt pts ip) 0 (bi k' i) (bi k' j) = pair_g (pt pts ip) 0 (bi k i) (bi k j)) by (unfold pair_g; rewrite A, A', B, B', !RP; reflexivity).
  assert (Q1 : pair_g (pt pts ip) 1 (bi k' i) (bi k' j) = pair_g (pt pts ip) 1 (bi k i) (bi k j)) by (unfold pair_g; rewrite A, A', C, C', !RP; reflexivity).
  assert (Q2 : pair_l (pt pts ip) (bi k' i) (bi k' j) = pair_l (pt pts ip) (bi k i) (bi k j)) by (unfold pair_l; rewrite GG, A, A', D, D', !RP; reflexivity).
  rewrite Q, Q0, Q1, Q2. reflexivity.
Qed.
Definition inb (k : pmblock) (i : nat) : bool := existsb (Nat.eqb i) (k_ind k).
Lemma inb_spec k i : inb k i = true <-> In i (k_ind k).
Proof. unfold inb. rewrite existsb_exists. split; [intros (y & H & E); apply Nat.eqb_eq in E; subst; exact H|intros H; exists i; split; [exact H|apply Nat.eqb_refl]]. Qed.
Definition FB s i j k := if (inb k i && inb k j)%bool then FF s i j else 0.
Lemma block_updates s k k0 H : (s < nspin pol)%nat -> In k (pm_blocks w) -> is_mat H (length (k_ind k)) (length (k_ind k)) (fun i j => FF s (bi k i) (bi k j)) ->
  exists us, updates k0 (k_ind k) H n = Ok us /\ forall t i j, (i < n)%nat -> (j < n)%nat -> effect us t i j = if Nat.eqb k0 t then FB s i j k else 0.
Proof.
  intros Hs Hk HH. assert (B := pr_blocks _ _ _ _ _ _ HW k Hk).
  destruct (updates_ok k0 (k_ind k) H n (fun i j => FB s i j k)) as (us & E & _ & He).
  - apply (br_nodup _ _ _ _ _ _ B).
  - apply (br_lt _ _ _ _ _ _ B).
  - apply (is_mat_ext _ _ _ _ _ HH). intros i j Hi Hj. unfold FB. fold (bi k i) (bi k j).
    rewrite (proj2 (inb_spec k (bi k i))), (proj2 (inb_spec k (bi k j))); [reflexivity| |]; apply nth_In; assumption.
  - intros i j Hi Hj Ho. unfold FB. destruct (inb k i) eqn:E1; [|reflexivity]. destruct (inb k j) eqn:E2; [|reflexivity].
    apply inb_spec in E1, E2. tauto.
  - exists us. split; [exact E|exact He].
Qed.
Lemma FB_sum s i j : (s < nspin pol)%nat -> (i < n)%nat -> (j < n)%nat -> lsum (pm_blocks w) (FB s i j) = if (mg i =? mg j)%Z then FF s i j else 0.
Proof.
  intros Hs Hi Hj. rewrite <- (only_pair fl n pts mg hp w HW i j (FF s i j) Hi). apply lsum_ext. intros k Hk. unfold FB.
  assert (B := pr_blocks _ _ _ _ _ _ HW k Hk).
  destruct (inb k i) eqn:E1; [apply inb_spec in E1; rewrite (br_m _ _ _ _ _ _ B i E1), Z.eqb_refl|]; cbn [andb].
  - destruct (inb k j) eqn:E2; [apply inb_spec in E2; rewrite (br_m _ _ _ _ _ _ B j E2), Z.eqb_refl; reflexivity|].
    destruct (Z.eqb_spec (mg j) (k_m k)) as [Ej|]; [|reflexivity]. symmetry. apply (FF_out s k); auto.
    + apply (br_m _ _ _ _ _ _ B i E1).
    + right. rewrite <- inb_spec. congruence.
  - destruct (Z.eqb_spec (mg i) (k_m k)) as [Ei|]; [|reflexivity]. destruct (Z.eqb_spec (mg j) (k_m k)) as [Ej|]; [|reflexivity].
    symmetry. apply (FF_out s k); auto. left. rewrite <- inb_spec. congruence.
Qed.

Lemma fold_res_flat {A B} (step : list B -> A -> res (list B)) (gg : A -> list B) l : (forall x acc, In x l -> step acc x = Ok (acc ++ gg x)) ->
  forall acc, fold_res step l acc = Ok (acc ++ flat_map gg l).
Proof.
  induction l as [|y l IH]; intros H acc; cbn [fold_res flat_map]; [rewrite app_nil_r; reflexivity|].
  rewrite H by (left; reflexivity). cbn [bind]. rewrite IH by (intros; apply H; right; assumption). rewrite app_assoc. reflexivity.
Qed.

Lemma pm_fock_ok spins : NoDup spins -> (forall s, In s spins -> (s < nspin pol)%nat) -> exists us, pm_fock pol spins wx n = Ok us /\
  forall t i j, (i < n)%nat -> (j < n)%nat -> effect us t i j = lsum pts (fun q => if (existsb (Nat.eqb t) spins && (mg i =? mg j)%Z)%bool then p_w q * fock_at t q i j else 0).
Proof.
  intros Hnd Hsp. unfold pm_fock. cbn [wx with_base pm_w w_d pm_blocks].
  assert (Ep : d_pol d = pol) by (destruct (pd_dens _ _ _ _ _ _ HD) as (G & HD'); exact (dr_pol _ _ _ _ _ _ HD')).
  rewrite Ep, eqb_reflx. cbn [negb]. set (act := visited true (pm_blocks w)).
  set (U := fun a s => unres (bind (pm_channel pol s wx (fst a)) (fun H => pm_add s H a n)) []).
  assert (S : forall a s, In a act -> In s spins -> bind (pm_channel pol s wx (fst a)) (fun H => pm_add s H a n) = Ok (U a s) /\
     forall t i j, (i < n)%nat -> (j < n)%nat -> effect (U a s) t i j = if Nat.eqb s t then FB s i j (fst a) + opt (FB s i j) (snd a) else 0).
  { intros a s Ha Hs. destruct (visited_in _ _ _ Ha) as (Hk & He & Hp). unfold U.
    destruct (pm_channel_ok (fst a) Hk He s (Hsp s Hs)) as (H & EH & HH). rewrite EH. cbn [bind]. unfold pm_add.
    destruct (block_updates s (fst a) s H (Hsp s Hs) Hk HH) as (u & Eu & Fu). rewrite Eu. cbn [bind].
    destruct (snd a) as [k'|] eqn:E; cbn [opt].
    - destruct (Hp k' eq_refl) as (_ & Hk' & Em & El).
      assert (HH' : is_mat H (length (k_ind k')) (length (k_ind k')) (fun i j => FF s (bi k' i) (bi k' j))).
      { rewrite El. apply (is_mat_ext _ _ _ _ _ HH). intros i j Hi Hj. symmetry. apply FF_mirror; auto. }
      destruct (block_updates s k' s H (Hsp s Hs) Hk' HH') as (u' & Eu' & Fu'). rewrite Eu'. cbn [bind unres]. split; [reflexivity|].
      intros t i j Hi Hj. rewrite effect_app, Fu, Fu' by auto. destruct (Nat.eqb s t); ring.
    - cbn [unres]. split; [reflexivity|]. intros t i j Hi Hj. rewrite Fu by auto. destruct (Nat.eqb s t); ring. }
  assert (E : fold_res (fun us a => fold_res (fun us s => bind (pm_channel pol s wx (fst a)) (fun H => bind (pm_add s H a n) (fun u => Ok (us ++ u)))) spins us) act []
     = Ok (flat_map (fun a => flat_map (U a) spins) act)).
  { change (flat_map (fun a => flat_map (U a) spins) act) with ([] ++ flat_map (fun a => flat_map (U a) spins) act).
    apply fold_res_flat. intros a acc Ha. apply fold_res_flat. intros s acc' Hs. destruct (S a s Ha Hs) as [E _].
    destruct (pm_channel pol s wx (fst a)) as [H| | |]; cbn [bind] in *; try discriminate. rewrite E. reflexivity. }
  eexists. split; [exact E|]. intros t i j Hi Hj. unfold effect. rewrite lsum_flat_map.
  destruct (existsb (Nat.eqb t) spins) eqn:Et; cbn [andb].
  - assert (It : In t spins) by (apply existsb_exists in Et; destruct Et as (y & Hy & Ey); apply Nat.eqb_eq in Ey; subst; exact Hy).
    transitivity (lsum act (fun a => FB t i j (fst a) + opt (FB t i j) (snd a))).
    + apply lsum_ext. intros a Ha. rewrite lsum_flat_map.
      transitivity (lsum spins (fun s => if Nat.eqb s t then FB t i j (fst a) + opt (FB t i j) (snd a) else 0)).
      * apply lsum_ext. intros s Hs. destruct (S a s Ha Hs) as [_ F]. etransitivity; [apply (F t i j Hi Hj)|].
        destruct (Nat.eqb_spec s t) as [->|]; reflexivity.
      * clear - Hnd It. induction spins as [|y l IH]; [destruct It|]. inversion Hnd; subst. unfold lsum; cbn [fold_right]. fold (lsum l (fun s => if Nat.eqb s t then FB t i j (fst a) + opt (FB t i j) (snd a) else 0)).
        destruct It as [->|It].
        -- rewrite Nat.eqb_refl. rewrite lsum_zero; [ring|]. intros s Hs. destruct (Nat.eqb_spec s t); [subst; contradiction|reflexivity].
        -- destruct (Nat.eqb_spec y t); [subst; contradiction|]. rewrite IH by auto. ring.
    + unfold act. rewrite (visited_sum true (pm_blocks w) (FB t i j) (pr_keys _ _ _ _ _ _ HW)).
      * rewrite FB_sum by auto. destruct (mg i =? mg j)%Z; [reflexivity|]. symmetry. apply lsum_zero. reflexivity.
      * intros k Hk Ek. unfold FB, inb. rewrite Ek. reflexivity.
  - transitivity 0.
    + apply lsum_zero. intros a Ha. rewrite lsum_flat_map. apply lsum_zero. intros s Hs. destruct (S a s Ha Hs) as [_ F].
      etransitivity; [apply (F t i j Hi Hj)|]. destruct (Nat.eqb_spec s t) as [->|]; [|reflexivity].
      exfalso. assert (X : existsb (Nat.eqb t) spins = true) by (apply existsb_exists; exists t; split; [exact Hs|apply Nat.eqb_refl]). congruence.
    + symmetry. apply lsum_zero. reflexivity.
Qed.
End Fock.
