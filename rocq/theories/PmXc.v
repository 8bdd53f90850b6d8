(** The density, the functional and the energies on the points of one radius. *)
Require Import Reals ZArith List Bool Arith Lia Lra.
Require Import Verif.Prelude Verif.FEModel Verif.FESpec Verif.AngModel Verif.AngProofs Verif.JKModel Verif.JKProofs Verif.DftModel Verif.DftSpec Verif.DftProofs Verif.DftXc Verif.DftFock Verif.DftFockR Verif.DdfModel Verif.DdfSpec Verif.DdfProofs Verif.DdfDrv Verif.PmModel Verif.PmSpec Verif.PmProofs Verif.PmDens.
Import ListNotations.
Local Open Scope R_scope.

(** * A density whose gradient has two rows per spin *)
Definition set_g (G : dmat) (d : densb) : densb := mkDn (d_pol d) (d_rho d) G (d_sigma d) (d_tau d) (d_lapl d).
Record pm_dens_rep (fl : flags) (n : nat) (pts : list gpoint) (pol : bool) (Ms : list dmat) (d : densb) : Prop := {
  pd_dens : exists G, dens_rep fl n pts pol Ms (set_g G d);
  pd_grho : f_grad fl = true -> is_mat (d_grho d) (2 * nspin pol) (length pts) (fun k ip => grad n (spin Ms (k / 2)) (pt pts ip) (k mod 2)) }.

Lemma compute_xc_swap lib id p thr pot fl g G d x fl' g' x' :
  compute_xc lib id p thr pot (mkW fl g (set_g G d) x) = Ok (mkW fl' g' (set_g G d) x') ->
  compute_xc lib id p thr pot (mkW fl g d x) = Ok (mkW fl' g' d x').
Proof.
  unfold compute_xc. destruct (is_gga_mgga lib id) as [[[gga mt] ml]| | |]; cbn [bind]; try discriminate.
  cbn [w_fl w_g w_d w_x]. cbn [set_g d_pol d_rho d_sigma d_tau d_lapl]. destruct (has_exc lib id); cbn [bind]; try discriminate.
  destruct (negb (xc_known lib id)); [discriminate|].
  destruct (match p with [] => false | _ => _ end); [discriminate|].
  destruct (negb (_ && _ && _ && _)); [discriminate|].
  destruct (negb pot && _)%bool; [discriminate|].
  destruct (negb (_ && _ && _ && _ && _)); [discriminate|].
  intros E. injection E as E1 E2 E3. subst. reflexivity.
Qed.
Lemma compute_xc_shape lib id p thr pot fl g d x w' : compute_xc lib id p thr pot (mkW fl g d x) = Ok w' -> exists x', w' = mkW fl g d x'.
Proof.
  unfold compute_xc. destruct (is_gga_mgga lib id) as [[[gga mt] ml]| | |]; cbn [bind]; try discriminate.
  cbn [w_fl w_g w_d w_x]. destruct (has_exc lib id); cbn [bind]; try discriminate.
  destruct (negb (xc_known lib id)); [discriminate|].
  destruct (match p with [] => false | _ => _ end); [discriminate|].
  destruct (negb (_ && _ && _ && _)); [discriminate|].
  destruct (negb pot && _)%bool; [discriminate|].
  destruct (negb (_ && _ && _ && _ && _)); [discriminate|].
  intros E. injection E as <-. eexists. reflexivity.
Qed.
Lemma run_xc_swap lib fn fl g G d x x' :
  run_xc lib fn (mkW fl g (set_g G d) x) = Ok (mkW fl g (set_g G d) x') -> run_xc lib fn (mkW fl g d x) = Ok (mkW fl g d x').
Proof.
  unfold run_xc. unfold init_xc. cbn [w_fl w_g w_d w_x]. cbn [set_g d_pol].
  set (x0 := mkX _ _ _ _ _ _ _ _). clearbody x0.
  destruct (0 <? fn_x fn)%Z.
  - destruct (compute_xc lib (fn_x fn) _ _ true (mkW fl g (set_g G d) x0)) as [w1| | |] eqn:E; cbn [bind]; try discriminate.
    destruct (compute_xc_shape _ _ _ _ _ _ _ _ _ _ E) as (x1 & ->). rewrite (compute_xc_swap _ _ _ _ _ _ _ _ _ _ _ _ _ E). cbn [bind].
    destruct (0 <? fn_c fn)%Z; [apply compute_xc_swap|]. intros E'. injection E' as ->. reflexivity.
  - cbn [bind]. destruct (0 <? fn_c fn)%Z; [apply compute_xc_swap|]. intros E'. injection E' as ->. reflexivity.
Qed.

Section Point.
Variables (lib : libxc) (fn : functional) (n : nat) (pts : list gpoint) (pol : bool) (Ms : list dmat) (g : gridb) (d : densb).
Hypothesis Hg : g_n g = length pts.
Hypothesis Hw : forall ip, (ip < length pts)%nat -> g_w g ip = p_w (pt pts ip).
Let fl := fn_flags lib fn.
Hypothesis HD : pm_dens_rep fl n pts pol Ms d.
Lemma pm_run_xc_ok x : functional_ok lib fn -> exists x', run_xc lib fn (mkW fl g d x) = Ok (mkW fl g d x') /\
    xc_rep lib fl n pts pol Ms (fn_thr fn) (parts fn) x'.
Proof.
  intros HFn. destruct (pd_dens _ _ _ _ _ _ HD) as (G & HD'). destruct (run_xc_ok lib fn n g pts pol Ms _ x HFn Hg HD') as (x' & E & HX).
  exists x'. split; [exact (run_xc_swap _ _ _ _ _ _ _ _ E)|exact HX].
Qed.
Lemma pm_total ip : (ip < length pts)%nat -> total (d_pol d) (d_rho d) ip = Ok (tot_dens n pol Ms (pt pts ip)).
Proof.
  intros Hp. destruct (pd_dens _ _ _ _ _ _ HD) as (G & HD'). assert (E := dr_pol _ _ _ _ _ _ HD'). assert (HR := dr_rho _ _ _ _ _ _ HD').
  cbn [set_g d_pol d_rho] in E, HR. rewrite E. unfold total, tot_dens. destruct pol; cbn [nspin] in HR.
  - rewrite (get_ok _ _ _ _ 0 ip HR), (get_ok _ _ _ _ 1 ip HR) by (auto; lia). reflexivity.
  - rewrite (get_ok _ _ _ _ 0 ip HR) by (auto; lia). reflexivity.
Qed.
Lemma pm_Nel_ok x : compute_Nel (mkW fl g d x) = Ok (lsum pts (fun q => p_w q * tot_dens n pol Ms q)).
Proof.
  unfold compute_Nel. cbn [w_g w_d]. rewrite Hg. rewrite <- (sum_pts pts (fun q => p_w q * tot_dens n pol Ms q)). apply fold_sum_ok. intros ip Hp.
  rewrite pm_total by auto. cbn [bind]. rewrite Hw by auto. reflexivity.
Qed.
Lemma pm_Ekin_ok x : compute_Ekin (mkW fl g d x) = Ok (if f_tau fl then lsum pts (fun q => p_w q * tot_tau n pol Ms q) else 0).
Proof.
  destruct (pd_dens _ _ _ _ _ _ HD) as (G & HD'). unfold compute_Ekin. cbn [w_g w_d w_fl]. destruct (f_tau fl) eqn:Ef; [|reflexivity].
  rewrite Hg. rewrite <- (sum_pts pts (fun q => p_w q * tot_tau n pol Ms q)). apply fold_sum_ok. intros ip Hp.
  assert (HR := dr_tau _ _ _ _ _ _ HD' Ef). assert (E := dr_pol _ _ _ _ _ _ HD'). cbn [set_g d_pol d_tau] in E, HR. rewrite E.
  unfold total, tot_tau. rewrite <- (Hw ip Hp). destruct pol; cbn [nspin] in HR.
  - rewrite (get_ok _ _ _ _ 0 ip HR), (get_ok _ _ _ _ 1 ip HR) by (auto; lia). reflexivity.
  - rewrite (get_ok _ _ _ _ 0 ip HR) by (auto; lia). reflexivity.
Qed.
Lemma pm_Exc_ok x : xc_rep lib fl n pts pol Ms (fn_thr fn) (parts fn) x ->
  eval_Exc (mkW fl g d x) = Ok (lsum pts (fun q => p_w q * e_exc lib pol fn (pargs n pol Ms q) * tot_dens n pol Ms q)).
Proof.
  intros HX. unfold eval_Exc. cbn [w_g w_d w_x]. rewrite Hg. rewrite <- sum_pts. apply fold_sum_ok. intros ip Hp.
  rewrite (get_ok _ _ _ _ 0 ip (xr_exc _ _ _ _ _ _ _ _ _ HX)) by (auto; lia). cbn [bind]. rewrite pm_total by auto. cbn [bind].
  rewrite Hw by auto. reflexivity.
Qed.
End Point.

Lemma div2 s c : (c < 2)%nat -> ((2 * s + c) / 2 = s /\ (2 * s + c) mod 2 = c)%nat.
Proof. intros Hc. split; [symmetry; apply (Nat.div_unique _ 2 s c); lia|symmetry; apply (Nat.mod_unique _ 2 s c); lia]. Qed.

(** * update_density *)
Section Upd.
Variables (fl : flags) (n : nat) (pts : list gpoint) (mg : nat -> Z) (hp : nat -> R).
Hypothesis HF : flags_ok fl.
Variable w : pmworker.
Hypothesis HW : pm_rep fl n pts mg hp w.
Variables (b : abasis) (Nrad : nat) (absm pol : bool) (Ps Qs : list dmat).
Hypothesis HPs : existsb (fun P => Nat.eqb (drows P * dcols P) 0) Ps = false.
Hypothesis HE : each (expand_boundaries (ab_sh b) Nrad) Ps = Ok Qs.
Hypothesis HL : length Qs = nspin pol.
Let share := (absm && negb pol)%bool.
Hypothesis HQ : forall Q, In Q Qs -> is_density n Q /\ shared_ok w share (dent Q).
Let act := visited share (pm_blocks w).
Let N := length pts.
Let Ms := map (mpartD mg) Qs.

Lemma spin_m s : (s < nspin pol)%nat -> spin Ms s = mpart mg (dent (nth s Qs dempty)).
Proof.
  intros Hs. unfold spin, Ms. rewrite (nth_indep _ _ (mpartD mg dempty)) by (rewrite map_length, HL; exact Hs).
  rewrite (map_nth (mpartD mg)). reflexivity.
Qed.
Lemma inQ s : (s < nspin pol)%nat -> In (nth s Qs dempty) Qs.
Proof. intros Hs. apply nth_In. rewrite HL. exact Hs. Qed.
Lemma prods_each sel a : tabrep pts w sel a -> each (fun Q => block_products Q sel act) Qs = Ok (map (prods w share sel) Qs).
Proof.
  intros Ht. apply each_ok. intros Q Hin. destruct (HQ Q Hin) as [(H1 & H2 & _) _].
  apply (products_ok fl n pts mg hp w HW share sel a Q); auto.
Qed.
Lemma prods_get sel s : (s < nspin pol)%nat -> vget (map (prods w share sel) Qs) s = Ok (prods w share sel (nth s Qs dempty)).
Proof.
  intros Hs. rewrite (vget_ok _ s (prods w share sel dempty)) by (rewrite map_length, HL; exact Hs). rewrite (map_nth (prods w share sel)). reflexivity.
Qed.
Lemma grad2_zero Q ip : (ip < N)%nat -> grad n (mpart mg Q) (pt pts ip) 2 = 0.
Proof.
  intros Hip. unfold grad, contract. apply sum_zero'. intros i Hi. apply sum_zero'. intros j Hj.
  unfold pair_g, reprod. assert (A := pr_real _ _ _ _ _ _ HW ip i Hip Hi). assert (B := pr_real _ _ _ _ _ _ HW ip j Hip Hj).
  rewrite (ra_f _ _ _ _ _ A), (ra_f _ _ _ _ _ B), (ra_2 _ _ _ _ _ A), (ra_2 _ _ _ _ _ B). cbn [fst snd]. ring.
Qed.

Lemma pm_update_density_ok : exists d,
  pm_update_density b Nrad absm pol w Ps = Ok (with_base w (mkW fl (w_g (pm_w w)) d (w_x (pm_w w)))) /\ pm_dens_rep fl n pts pol Ms d.
Proof.
  unfold pm_update_density. rewrite HPs, HE. cbn [bind]. fold share. fold act.
  rewrite (pr_fl _ _ _ _ _ _ HW), (pr_n _ _ _ _ _ _ HW). fold N.
  rewrite (prods_each k_f _ (tab_f _ _ _ _ _ w HW)). cbn [bind].
  destruct (tab_ok (nspin pol) N (fun s ip => bind (vget (map (prods w share k_f) Qs) s) (fun X => pm_rho act X ip))
     (fun s ip => dens n (spin Ms s) (pt pts ip))) as (rho & Er & Hr).
  { intros s ip Hs Hip. rewrite prods_get by auto. cbn [bind]. destruct (HQ _ (inQ s Hs)) as [D1 D2]. rewrite spin_m by auto.
    apply (pm_rho_ok fl n pts mg hp w HW share _ D1 D2 ip Hip). }
  rewrite Er. cbn [bind].
  assert (EG : exists gr sg, (if f_grad fl then
          bind (tab (2 * nspin pol) N (fun k ip => bind (vget (map (prods w share k_f) Qs) (k / 2)) (fun X => pm_grad w act X (k mod 2) ip))) (fun grho =>
          bind (tab (nsigma pol) N (fun k ip =>
                  pm_sigma grho (if Nat.eqb k 2 then 2 else 0) (if Nat.eqb k 0 then 0 else 2) ip)) (fun sigma =>
          Ok (grho, sigma)))
        else Ok (d_grho (w_d (pm_w w)), d_sigma (w_d (pm_w w)))) = Ok (gr, sg) /\
     (f_grad fl = true -> is_mat gr (2 * nspin pol) N (fun k ip => grad n (spin Ms (k / 2)) (pt pts ip) (k mod 2))) /\
     (f_grad fl = true -> is_mat sg (nsigma pol) N
       (fun k ip => dot3 (grad n (spin Ms (if Nat.eqb k 2 then 1 else 0)%nat) (pt pts ip))
                       (grad n (spin Ms (if Nat.eqb k 0 then 0 else 1)%nat) (pt pts ip))))).
  { destruct (f_grad fl) eqn:Eg; [|do 2 eexists; split; [reflexivity|split; discriminate]].
    destruct (tab_ok (2 * nspin pol) N (fun k ip => bind (vget (map (prods w share k_f) Qs) (k / 2)) (fun X => pm_grad w act X (k mod 2) ip))
       (fun k ip => grad n (spin Ms (k / 2)) (pt pts ip) (k mod 2))) as (gr & Eg1 & Hg1).
    { intros k ip Hk Hip. assert (Hs : (k / 2 < nspin pol)%nat) by (apply Nat.div_lt_upper_bound; lia).
      rewrite prods_get by exact Hs. cbn [bind]. destruct (HQ _ (inQ _ Hs)) as [D1 D2]. rewrite spin_m by exact Hs.
      apply (pm_grad_ok fl n pts mg hp w HW share _ D1 D2); auto. apply Nat.mod_upper_bound. lia. }
    rewrite Eg1. cbn [bind].
    destruct (tab_ok (nsigma pol) N (fun k ip => pm_sigma gr (if Nat.eqb k 2 then 2 else 0) (if Nat.eqb k 0 then 0 else 2) ip)
       (fun k ip => dot3 (grad n (spin Ms (if Nat.eqb k 2 then 1 else 0)%nat) (pt pts ip))
                       (grad n (spin Ms (if Nat.eqb k 0 then 0 else 1)%nat) (pt pts ip)))) as (sg & Es & Hs).
    { intros k ip Hk Hip. assert (Hz : forall s, (s < nspin pol)%nat -> grad n (spin Ms s) (pt pts ip) 2 = 0).
      { intros s Hs. rewrite spin_m by auto. apply grad2_zero. exact Hip. }
      assert (G : forall s c, (s < nspin pol)%nat -> (c < 2)%nat -> get gr (2 * s + c) ip = Ok (grad n (spin Ms s) (pt pts ip) c)).
      { intros s c Hs Hc. rewrite (get_ok _ _ _ _ (2 * s + c) ip Hg1) by lia. destruct (div2 s c Hc) as [-> ->]. reflexivity. }
      set (s1 := if Nat.eqb k 2 then 1%nat else 0%nat). set (s2 := if Nat.eqb k 0 then 0%nat else 1%nat).
      assert (H1 : (s1 < nspin pol)%nat) by (unfold s1; destruct pol; cbn [nsigma nspin] in *; destruct (Nat.eqb_spec k 2); lia).
      assert (H2 : (s2 < nspin pol)%nat) by (unfold s2; destruct pol; cbn [nsigma nspin] in *; destruct (Nat.eqb_spec k 0); lia).
      replace (if Nat.eqb k 2 then 2%nat else 0%nat) with (2 * s1)%nat by (unfold s1; destruct (Nat.eqb k 2); reflexivity).
      replace (if Nat.eqb k 0 then 0%nat else 2%nat) with (2 * s2)%nat by (unfold s2; destruct (Nat.eqb k 0); reflexivity).
      unfold pm_sigma. rewrite <- (Nat.add_0_r (2 * s1)) at 1. rewrite (G s1 0%nat) by lia. cbn [bind].
      rewrite <- (Nat.add_0_r (2 * s2)) at 1. rewrite (G s2 0%nat) by lia. cbn [bind].
      rewrite (G s1 1%nat), (G s2 1%nat) by lia. cbn [bind]. f_equal. unfold dot3. cbn [sum]. rewrite (Hz s1 H1). ring. }
    rewrite Es. cbn [bind]. exists gr, sg. split; [reflexivity|]. split; intros _; [exact Hg1|exact Hs]. }
  destruct EG as (gr & sg & -> & Hg1 & Hs1). cbn [bind fst snd].
  assert (ET : exists ta la, (if (f_tau fl || f_lapl fl)%bool then
          bind (each (fun Q => block_products Q k_r act) Qs) (fun Pr =>
          bind (each (fun Q => block_products Q k_t act) Qs) (fun Pt =>
          let with_products {A} (s : nat) (f : list dmat -> list dmat -> list dmat -> res A) :=
            bind (vget (map (prods w share k_f) Qs) s) (fun X => bind (vget Pr s) (fun Y => bind (vget Pt s) (fun Z => f X Y Z))) in
          bind (if f_tau fl then
                  tab (nspin pol) N (fun s ip => with_products s (fun X Y Z => bind (pm_kin w act X Y Z ip) (fun k => Ok (/ 2 * k))))
                else Ok (d_tau (w_d (pm_w w)))) (fun tau =>
          bind (if f_lapl fl then tab (nspin pol) N (fun s ip => with_products s (fun X Y Z => pm_lapl w act X Y Z ip))
                else Ok (d_lapl (w_d (pm_w w)))) (fun lapl => Ok (tau, lapl)))))
        else Ok (d_tau (w_d (pm_w w)), d_lapl (w_d (pm_w w)))) = Ok (ta, la) /\
     (f_tau fl = true -> is_mat ta (nspin pol) N (fun s ip => tau n (spin Ms s) (pt pts ip))) /\
     (f_lapl fl = true -> is_mat la (nspin pol) N (fun s ip => lapl n (spin Ms s) (pt pts ip)))).
  { destruct (f_tau fl || f_lapl fl)%bool eqn:Et.
    2:{ apply orb_false_iff in Et. destruct Et as [-> ->]. do 2 eexists; split; [reflexivity|split; discriminate]. }
    assert (Hg : f_grad fl = true) by (apply orb_true_iff in Et; apply HF; tauto).
    rewrite (prods_each k_r _ (tab_g _ _ _ _ _ w HW 0%nat Hg ltac:(lia))). cbn [bind].
    rewrite (prods_each k_t _ (tab_g _ _ _ _ _ w HW 1%nat Hg ltac:(lia))). cbn [bind].
    assert (K : forall s ip, (s < nspin pol)%nat -> (ip < N)%nat ->
      pm_kin w act (prods w share k_f (nth s Qs dempty)) (prods w share k_r (nth s Qs dempty)) (prods w share k_t (nth s Qs dempty)) ip
       = Ok (contract n (spin Ms s) (pair_gg (pt pts ip)))).
    { intros s ip Hs Hip. destruct (HQ _ (inQ s Hs)) as [D1 D2]. rewrite spin_m by auto. apply (pm_kin_ok fl n pts mg hp w HW share _ D1 D2 ip Hg Hip). }
    assert (T1 : exists ta, (if f_tau fl then
                  tab (nspin pol) N (fun s ip => bind (vget (map (prods w share k_f) Qs) s) (fun X => bind (vget (map (prods w share k_r) Qs) s) (fun Y => bind (vget (map (prods w share k_t) Qs) s) (fun Z =>
                    bind (pm_kin w act X Y Z ip) (fun k => Ok (/ 2 * k))))))
                else Ok (d_tau (w_d (pm_w w)))) = Ok ta /\ (f_tau fl = true -> is_mat ta (nspin pol) N (fun s ip => tau n (spin Ms s) (pt pts ip)))).
    { destruct (f_tau fl); [|eexists; split; [reflexivity|discriminate]].
      destruct (tab_ok (nspin pol) N (fun s ip => bind (vget (map (prods w share k_f) Qs) s) (fun X => bind (vget (map (prods w share k_r) Qs) s) (fun Y => bind (vget (map (prods w share k_t) Qs) s) (fun Z =>
                    bind (pm_kin w act X Y Z ip) (fun k => Ok (/ 2 * k))))))
          (fun s ip => tau n (spin Ms s) (pt pts ip))) as (ta & E & H).
      { intros s ip Hs Hip. rewrite !prods_get by auto. cbn [bind]. rewrite K by auto. cbn [bind]. f_equal.
        unfold tau, pair_t. rewrite contract_scal. reflexivity. }
      rewrite E. exists ta. split; [reflexivity|intros _; exact H]. }
    assert (L1 : exists la, (if f_lapl fl then
                  tab (nspin pol) N (fun s ip => bind (vget (map (prods w share k_f) Qs) s) (fun X => bind (vget (map (prods w share k_r) Qs) s) (fun Y => bind (vget (map (prods w share k_t) Qs) s) (fun Z =>
                    pm_lapl w act X Y Z ip))))
                else Ok (d_lapl (w_d (pm_w w)))) = Ok la /\ (f_lapl fl = true -> is_mat la (nspin pol) N (fun s ip => lapl n (spin Ms s) (pt pts ip)))).
    { destruct (f_lapl fl) eqn:El; [|eexists; split; [reflexivity|discriminate]].
      destruct (tab_ok (nspin pol) N (fun s ip => bind (vget (map (prods w share k_f) Qs) s) (fun X => bind (vget (map (prods w share k_r) Qs) s) (fun Y => bind (vget (map (prods w share k_t) Qs) s) (fun Z =>
                    pm_lapl w act X Y Z ip))))
          (fun s ip => lapl n (spin Ms s) (pt pts ip))) as (la & E & H).
      { intros s ip Hs Hip. rewrite !prods_get by auto. cbn [bind]. destruct (HQ _ (inQ s Hs)) as [D1 D2]. rewrite spin_m by auto.
        apply (pm_lapl_ok fl n pts mg hp HF w HW share _ D1 D2 ip El Hip). }
      rewrite E. exists la. split; [reflexivity|intros _; exact H]. }
    destruct T1 as (ta & E1 & H1), L1 as (la & E2 & H2). cbv zeta. rewrite E1. cbn [bind]. rewrite E2. cbn [bind].
    exists ta, la. split; [reflexivity|split; assumption]. }
  destruct ET as (ta & la & E & Ht & Hl). cbv zeta in E |- *. rewrite E. cbn [bind fst snd].
  eexists; split; [reflexivity|]. constructor; cbn [d_grho]; [|exact Hg1].
  exists (mkD (3 * nspin pol) N (fun k ip => grad n (spin Ms (k / 3)) (pt pts ip) (k mod 3))).
  constructor; cbn [set_g d_pol d_rho d_grho d_sigma d_tau d_lapl]; auto. intros _. repeat split.
Qed.
End Upd.
