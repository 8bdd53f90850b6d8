(** Energies and Fock matrix of one block of the grid. *)
Require Import Reals ZArith List Bool Arith Lia Lra Permutation.
Require Import Verif.Prelude Verif.FEModel Verif.FESpec Verif.AngModel Verif.JKModel Verif.DftModel Verif.DftSpec Verif.DftProofs Verif.DftXc.
Import ListNotations.
Local Open Scope R_scope.

Lemma fold_sum_ok n f h : (forall i, (i < n)%nat -> f i = Ok (h i)) -> fold_sum n f = Ok (sum n h).
Proof.
  intros H. unfold fold_sum.
  assert (G : forall l s, (forall i, In i l -> f i = Ok (h i)) ->
    fold_res (fun s ip => bind (f ip) (fun x => Ok (s + x))) l s = Ok (s + lsum l h)).
  { induction l as [|x l IH]; intros s Hl; cbn [fold_res lsum]; [rewrite Rplus_0_r; reflexivity|].
    rewrite Hl by (left; auto). cbn [bind]. rewrite IH by (intros; apply Hl; right; auto). f_equal. ring. }
  rewrite G by (intros i Hi; apply in_seq in Hi; apply H; lia). rewrite lsum_seq0. f_equal. ring.
Qed.
Lemma sum_pts (pts : list gpoint) F : sum (length pts) (fun ip => F (pt pts ip)) = lsum pts F.
Proof.
  unfold pt. rewrite <- lsum_seq0. rewrite <- (lsum_map (fun ip => nth ip pts dpoint)). f_equal.
  induction pts as [|q pts IH]; [reflexivity|]. cbn [length seq map]. f_equal. rewrite <- seq_shift, map_map. exact IH.
Qed.

(** * The accumulation routines *)
Lemma lda_split_ok H n N h v f k : is_mat H n n h -> is_cmat f n N k ->
  exists H', increment_lda_split H N v f = Ok H' /\
    is_mat H' n n (fun i j => h i j + sum N (fun ip => v ip * reprod (k i ip) (k j ip))).
Proof.
  intros HH [F1 F2]. unfold increment_lda_split.
  rewrite (proj1 (proj2 F1)), (proj1 (proj2 F2)), !Nat.eqb_refl. cbn [negb andb].
  destruct (dprod_ok _ _ _ _ _ _ _ (colscale_ok _ v _ _ _ F1) (dT_ok _ _ _ _ F1)) as (X & EX & HX). rewrite EX. cbn [bind].
  destruct (dadd_ok _ _ _ _ _ _ HH HX) as (H1 & EH1 & HH1). rewrite EH1. cbn [bind].
  destruct (dprod_ok _ _ _ _ _ _ _ (colscale_ok _ v _ _ _ F2) (dT_ok _ _ _ _ F2)) as (Y & EY & HY). rewrite EY. cbn [bind].
  destruct (dadd_ok _ _ _ _ _ _ HH1 HY) as (H2 & EH2 & HH2). rewrite EH2. eexists; split; [reflexivity|].
  apply (is_mat_ext _ _ _ _ _ HH2). intros i j Hi Hj. rewrite Rplus_assoc, <- sum_plus. f_equal.
  apply sum_ext. intros. unfold reprod. ring.
Qed.
Lemma lda_ok H n N h v f k : is_mat H n n h -> is_cmat f n N k ->
  exists H', increment_lda H N v f = Ok H' /\
    is_mat H' n n (fun i j => h i j + sum N (fun ip => v ip * reprod (k i ip) (k j ip))).
Proof.
  intros HH [F1 F2]. unfold increment_lda.
  rewrite (proj1 (proj2 F1)), (proj1 F1), (proj1 HH), (proj1 (proj2 HH)), !Nat.eqb_refl. cbn [negb andb].
  destruct (dprod_ok _ _ _ _ _ _ _ (colscale_ok _ v _ _ _ F1) (dT_ok _ _ _ _ F1)) as (X & EX & HX). rewrite EX. cbn [bind].
  destruct (dprod_ok _ _ _ _ _ _ _ (colscale_ok _ v _ _ _ F2) (dscale_ok (-1) _ _ _ _ (dT_ok _ _ _ _ F2))) as (Y & EY & HY). rewrite EY. cbn [bind].
  destruct (dadd_ok _ _ _ _ _ _ HX (dscale_ok (-1) _ _ _ _ HY)) as (H1 & EH1 & HH1). rewrite EH1. cbn [bind].
  destruct (dadd_ok _ _ _ _ _ _ HH HH1) as (H2 & EH2 & HH2). rewrite EH2. eexists; split; [reflexivity|].
  apply (is_mat_ext _ _ _ _ _ HH2). intros i j Hi Hj. rewrite <- sum_scal, <- sum_plus. f_equal.
  apply sum_ext. intros. unfold reprod. ring.
Qed.

Lemma add_component_ok G gn A c n N m h gam a : is_mat G n N h -> is_mat gn N m gam -> (c < m)%nat -> is_mat A n N a ->
  exists G', add_component G gn c A = Ok G' /\ is_mat G' n N (fun i j => h i j + gam j c * a i j).
Proof.
  intros HG Hgn Hc HA. unfold add_component. rewrite (proj1 HG), (proj1 (proj2 HG)).
  apply (tab_ok n N _ (fun i j => h i j + gam j c * a i j)). intros i j Hi Hj.
  rewrite (get_ok _ _ _ _ _ _ Hgn Hj Hc), (get_ok _ _ _ _ _ _ HA Hi Hj). cbn [bind]. rewrite (proj2 (proj2 HG)) by auto. reflexivity.
Qed.
Lemma add_components_ok gn (ga : list dmat) n N gam (a : nat -> nat -> nat -> R) : is_mat gn N 3 gam -> length ga = 3%nat ->
  (forall c, (c < 3)%nat -> is_mat (nth c ga dempty) n N (a c)) ->
  exists G', add_components (dzero n N) gn ga = Ok G' /\
    is_mat G' n N (fun i j => sum 3 (fun c => gam j c * a c i j)).
Proof.
  intros Hgn Hl Ha. unfold add_components. rewrite Hl. cbn [seq fold_res].
  rewrite (vget_ok ga 0 dempty) by lia. cbn [bind].
  destruct (add_component_ok _ gn _ 0 n N 3 _ gam _ (dzero_ok n N) Hgn ltac:(lia) (Ha 0%nat ltac:(lia))) as (G1 & E1 & H1). rewrite E1. cbn [bind].
  rewrite (vget_ok ga 1 dempty) by lia. cbn [bind].
  destruct (add_component_ok _ gn _ 1 n N 3 _ gam _ H1 Hgn ltac:(lia) (Ha 1%nat ltac:(lia))) as (G2 & E2 & H2). rewrite E2. cbn [bind].
  rewrite (vget_ok ga 2 dempty) by lia. cbn [bind].
  destruct (add_component_ok _ gn _ 2 n N 3 _ gam _ H2 Hgn ltac:(lia) (Ha 2%nat ltac:(lia))) as (G3 & E3 & H3). rewrite E3. cbn [bind].
  eexists; split; [reflexivity|]. apply (is_mat_ext _ _ _ _ _ H3). intros. cbn [sum]. ring.
Qed.
Lemma gga_split_ok H gn f (ga gb : list dmat) n N h gam k (kc : nat -> nat -> nat -> R * R) : is_mat H n n h -> is_mat gn N 3 gam ->
  is_cmat f n N k -> length ga = 3%nat -> length gb = 3%nat ->
  (forall c, (c < 3)%nat -> is_cmat (nth c ga dempty, nth c gb dempty) n N (kc c)) ->
  exists H', increment_gga_split H gn (fst f) (snd f) ga gb = Ok H' /\
    is_mat H' n n (fun i j => h i j + sum N (fun ip => sum 3 (fun c => gam ip c * (reprod (kc c i ip) (k j ip) + reprod (kc c j ip) (k i ip))))).
Proof.
  intros HH Hgn [F1 F2] La Lb Hc. unfold increment_gga_split.
  rewrite (proj1 (proj2 Hgn)), La, (proj1 HH), (proj1 (proj2 HH)), (proj1 F1), (proj1 (proj2 F1)), !Nat.eqb_refl. cbn [negb andb].
  destruct gb as [|g0 gb'] eqn:Eb; [discriminate|]. rewrite Lb, Nat.eqb_refl. cbn [negb]. rewrite <- Eb in *.
  assert (A1 : forall c, (c < 3)%nat -> is_mat (nth c ga dempty) n N (fun i j => fst (kc c i j))) by (intros c Hc'; apply (Hc c Hc')).
  assert (A2 : forall c, (c < 3)%nat -> is_mat (nth c gb dempty) n N (fun i j => snd (kc c i j))) by (intros c Hc'; apply (Hc c Hc')).
  destruct (add_components_ok gn ga n N gam _ Hgn La A1) as (G1 & E1 & H1). rewrite E1. cbn [bind].
  destruct (dprod_ok _ _ _ _ _ _ _ H1 (dT_ok _ _ _ _ F1)) as (X & EX & HX). rewrite EX. cbn [bind].
  destruct (add_components_ok gn gb n N gam _ Hgn Lb A2) as (G2 & E2 & H2). rewrite E2. cbn [bind].
  destruct (dprod_ok _ _ _ _ _ _ _ H2 (dT_ok _ _ _ _ F2)) as (Y & EY & HY). rewrite EY. cbn [bind].
  destruct (dadd_ok _ _ _ _ _ _ HX HY) as (Z & EZ & HZ). rewrite EZ. cbn [bind].
  destruct (dadd_ok _ _ _ _ _ _ HH HZ) as (H3 & E3 & HH3). rewrite E3. cbn [bind].
  destruct (dadd_ok _ _ _ _ _ _ HH3 (dT_ok _ _ _ _ HZ)) as (H4 & E4 & HH4). rewrite E4.
  eexists; split; [reflexivity|]. apply (is_mat_ext _ _ _ _ _ HH4). intros i j Hi Hj.
  rewrite <- !sum_plus. rewrite Rplus_assoc, <- sum_plus. f_equal. apply sum_ext. intros ip Hip.
  cbn [sum]. unfold reprod. ring.
Qed.
Lemma lapl_split_ok H n N h v f l k kl : is_mat H n n h -> is_cmat f n N k -> is_cmat l n N kl ->
  exists H', increment_mgga_lapl_split H N v f l = Ok H' /\
    is_mat H' n n (fun i j => h i j + sum N (fun ip => v ip * (reprod (k i ip) (kl j ip) + reprod (k j ip) (kl i ip)))).
Proof.
  intros HH [F1 F2] [L1 L2]. unfold increment_mgga_lapl_split.
  rewrite (proj1 (proj2 F1)), Nat.eqb_refl. cbn [negb].
  destruct (dprod_ok _ _ _ _ _ _ _ (colscale_ok _ v _ _ _ F1) (dT_ok _ _ _ _ L1)) as (X & EX & HX). rewrite EX. cbn [bind].
  destruct (dprod_ok _ _ _ _ _ _ _ (colscale_ok _ v _ _ _ F2) (dT_ok _ _ _ _ L2)) as (Y & EY & HY). rewrite EY. cbn [bind].
  destruct (dadd_ok _ _ _ _ _ _ HX HY) as (Z & EZ & HZ). rewrite EZ. cbn [bind].
  destruct (dadd_ok _ _ _ _ _ _ HH HZ) as (H3 & E3 & HH3). rewrite E3. cbn [bind].
  destruct (dadd_ok _ _ _ _ _ _ HH3 (dT_ok _ _ _ _ HZ)) as (H4 & E4 & HH4). rewrite E4.
  eexists; split; [reflexivity|]. apply (is_mat_ext _ _ _ _ _ HH4). intros i j Hi Hj.
  rewrite <- !sum_plus. rewrite Rplus_assoc, <- sum_plus. f_equal. apply sum_ext. intros ip Hip. unfold reprod. ring.
Qed.

(** * Updates of the shared matrices *)
Definition targets (k i j : nat) (u : update) : bool :=
  let '(k', i', j', _) := u in (Nat.eqb k' k && Nat.eqb i' i && Nat.eqb j' j)%bool.
(** What a list of updates adds to entry (i, j) of matrix k. *)
Definition effect (us : list update) (k i j : nat) : R := lsum us (fun u => if targets k i j u then snd u else 0).
Definition within (ind : list nat) (n : nat) (us : list update) : Prop :=
  forall k i j x, In (k, i, j, x) us -> In i ind /\ In j ind /\ (i < n)%nat /\ (j < n)%nat.

Lemma effect_app us vs k i j : effect (us ++ vs) k i j = effect us k i j + effect vs k i j.
Proof. apply lsum_app. Qed.
Lemma lsum_flat_map {A B} (f : A -> list B) l F : lsum (flat_map f l) F = lsum l (fun a => lsum (f a) F).
Proof. induction l; cbn; [reflexivity|]. rewrite lsum_app, IHl. reflexivity. Qed.
Lemma updates_ok k0 ind H n F : NoDup ind -> (forall i, In i ind -> (i < n)%nat) ->
  is_mat H (length ind) (length ind) (fun i j => F (nth i ind 0%nat) (nth j ind 0%nat)) ->
  (forall i j, (i < n)%nat -> (j < n)%nat -> ~ In i ind \/ ~ In j ind -> F i j = 0) ->
  exists us, updates k0 ind H n = Ok us /\ within ind n us /\
    forall k i j, (i < n)%nat -> (j < n)%nat -> effect us k i j = if Nat.eqb k0 k then F i j else 0.
Proof.
  intros Hd Hlt (H1 & H2 & H3) Hz. unfold updates.
  assert (E : forallb (fun u => Nat.ltb u n) ind = true) by (apply forallb_forall; intros i Hi; apply Nat.ltb_lt; auto).
  rewrite E, H1, H2, Nat.leb_refl. cbn [andb]. eexists; split; [reflexivity|]. split.
  - intros k i j x Hi. apply in_flat_map in Hi. destruct Hi as (a & Ha & Hi). apply in_map_iff in Hi. destruct Hi as (b & E' & Hb).
    apply in_seq in Ha, Hb. inversion E'; subst. split; [apply nth_In; lia|split; [apply nth_In; lia|split; apply Hlt, nth_In; lia]].
  - intros k i j Hi Hj. unfold effect. rewrite lsum_flat_map, lsum_seq0.
    destruct (Nat.eqb_spec k0 k) as [->|Hk].
    2:{ apply sum_zero'. intros a Ha. rewrite lsum_map. apply lsum_zero. intros b _. cbn.
        destruct (Nat.eqb_spec k0 k); [contradiction|]. reflexivity. }
    rewrite (sum_ext _ _ (fun a => sum n (fun y => if (Nat.eqb (nth a ind 0%nat) i && Nat.eqb y j)%bool then F (nth a ind 0%nat) y else 0))).
    + rewrite (sum_local n ind (fun x => sum n (fun y => if (Nat.eqb x i && Nat.eqb y j)%bool then F x y else 0))); auto.
      * rewrite (sum_single n i); auto.
        -- rewrite (sum_single n j); auto.
           ++ rewrite !Nat.eqb_refl. reflexivity.
           ++ intros y _ Hy. destruct (Nat.eqb_spec y j); [contradiction|]. rewrite andb_false_r. reflexivity.
        -- intros x _ Hx. apply sum_zero'. intros y _. destruct (Nat.eqb_spec x i); [contradiction|]. reflexivity.
      * intros x Hx Hn. apply sum_zero'. intros y Hy. rewrite Hz by auto. destruct (_ && _)%bool; reflexivity.
    + intros a Ha. rewrite lsum_map, lsum_seq0. cbn [snd targets].
      rewrite <- (sum_local n ind (fun y => if (Nat.eqb (nth a ind 0%nat) i && Nat.eqb y j)%bool then F (nth a ind 0%nat) y else 0)); auto.
      * apply sum_ext. intros b Hb. rewrite Nat.eqb_refl. cbn [andb].
        destruct (_ && _)%bool; [|reflexivity]. apply H3; auto.
      * intros y Hy Hn. rewrite Hz; auto; [destruct (_ && _)%bool; reflexivity|]. apply Hlt, nth_In; auto.
Qed.

Section Fock.
Variables (lib : libxc) (fn : functional) (n : nat) (g : gridb) (pts : list gpoint) (pol : bool) (Ps : list dmat).
Let fl := fn_flags lib fn.
Hypothesis HG : grid_rep fl n g pts.
Variables (d : densb) (x : xcb).
Hypothesis HD : dens_rep fl n pts pol Ps d.
Hypothesis HX : xc_rep lib fl n pts pol Ps (fn_thr fn) (parts fn) x.
Let w := mkW fl g d x.
Let NF := length (g_ind g).
Let N := length pts.
Let args ip := pargs n pol Ps (pt pts ip).

Definition tot_dens (q : gpoint) : R := if pol then dens n (spin Ps 0) q + dens n (spin Ps 1) q else dens n (spin Ps 0) q.
Definition tot_tau (q : gpoint) : R := if pol then tau n (spin Ps 0) q + tau n (spin Ps 1) q else tau n (spin Ps 0) q.

Lemma total_rho ip : (ip < N)%nat -> total (d_pol d) (d_rho d) ip = Ok (tot_dens (pt pts ip)).
Proof.
  intros Hp. rewrite (dr_pol _ _ _ _ _ _ HD). unfold total, tot_dens. assert (HR := dr_rho _ _ _ _ _ _ HD). destruct pol; cbn [nspin] in HR.
  - rewrite (get_ok _ _ _ _ 0 ip HR), (get_ok _ _ _ _ 1 ip HR) by (auto; lia). reflexivity.
  - rewrite (get_ok _ _ _ _ 0 ip HR) by (auto; lia). reflexivity.
Qed.
Lemma eval_Exc_ok : eval_Exc w = Ok (lsum pts (fun q => p_w q * e_exc lib pol fn (pargs n pol Ps q) * tot_dens q)).
Proof.
  unfold eval_Exc. cbn [w w_g w_d w_x]. rewrite (gr_n HG). rewrite <- sum_pts. apply fold_sum_ok. intros ip Hp.
  rewrite (get_ok _ _ _ _ 0 ip (xr_exc _ _ _ _ _ _ _ _ _ HX)) by (auto; lia). cbn [bind]. rewrite total_rho by auto. cbn [bind].
  rewrite (gr_w HG) by auto. reflexivity.
Qed.
Lemma compute_Nel_ok x' : compute_Nel (mkW fl g d x') = Ok (lsum pts (fun q => p_w q * tot_dens q)).
Proof.
  unfold compute_Nel. cbn [w_g w_d]. rewrite (gr_n HG). rewrite <- (sum_pts pts (fun q => p_w q * tot_dens q)). apply fold_sum_ok. intros ip Hp.
  rewrite total_rho by auto. cbn [bind]. rewrite (gr_w HG) by auto. reflexivity.
Qed.
Lemma compute_Ekin_ok x' : compute_Ekin (mkW fl g d x') = Ok (if f_tau fl then lsum pts (fun q => p_w q * tot_tau q) else 0).
Proof.
  unfold compute_Ekin. cbn [w_g w_d w_fl]. destruct (f_tau fl) eqn:Ef; [|reflexivity].
  rewrite (gr_n HG). rewrite <- (sum_pts pts (fun q => p_w q * tot_tau q)). apply fold_sum_ok. intros ip Hp.
  assert (HR := dr_tau _ _ _ _ _ _ HD Ef). rewrite (dr_pol _ _ _ _ _ _ HD). unfold total, tot_tau. rewrite <- (gr_w HG ip Hp).
  destruct pol; cbn [nspin] in HR.
  - rewrite (get_ok _ _ _ _ 0 ip HR), (get_ok _ _ _ _ 1 ip HR) by (auto; lia). reflexivity.
  - rewrite (get_ok _ _ _ _ 0 ip HR) by (auto; lia). reflexivity.
Qed.

(** Local values *)
Definition F (ip i : nat) := p_f (pt pts ip) (nth i (g_ind g) 0%nat).
Definition Gc (c ip i : nat) := p_g (pt pts ip) c (nth i (g_ind g) 0%nat).
Definition L (ip i : nat) := p_l (pt pts ip) (nth i (g_ind g) 0%nat).

Lemma kin_inc_ok inc v H h :
  (forall H n N h v f k, is_mat H n n h -> is_cmat f n N k -> exists H', inc H N v f = Ok H' /\
     is_mat H' n n (fun i j => h i j + sum N (fun ip => v ip * reprod (k i ip) (k j ip)))) ->
  f_grad fl = true -> is_mat H NF NF h ->
  exists H', increment_kin inc g v H = Ok H' /\
    is_mat H' NF NF (fun i j => h i j + sum N (fun ip => v ip * pair_gg (pt pts ip) (nth i (g_ind g) 0%nat) (nth j (g_ind g) 0%nat))).
Proof.
  intros Hinc Hg HH. unfold increment_kin. rewrite (gr_n HG). cbn [fold_res].
  destruct (Hinc _ _ _ _ (fun ip => v ip * g_inv2 g 0 ip) _ _ HH (gr_df HG Hg 0 ltac:(lia))) as (H1 & E1 & HH1). rewrite E1. cbn [bind].
  destruct (Hinc _ _ _ _ (fun ip => v ip * g_inv2 g 1 ip) _ _ HH1 (gr_df HG Hg 1 ltac:(lia))) as (H2 & E2 & HH2). rewrite E2. cbn [bind].
  destruct (Hinc _ _ _ _ (fun ip => v ip * g_inv2 g 2 ip) _ _ HH2 (gr_df HG Hg 2 ltac:(lia))) as (H3 & E3 & HH3). rewrite E3. cbn [bind].
  eexists; split; [reflexivity|]. apply (is_mat_ext _ _ _ _ _ HH3). intros i j Hi Hj.
  rewrite !Rplus_assoc, <- !sum_plus. f_equal. apply sum_ext. intros ip Hip. unfold pair_gg. cbn [sum].
  rewrite !(gr_inv2 HG) by (auto; lia).
  assert (S0 := gr_scale HG 0 ip ltac:(lia) Hip). assert (S1 := gr_scale HG 1 ip ltac:(lia) Hip). assert (S2 := gr_scale HG 2 ip ltac:(lia) Hip).
  unfold reprod, cscal, conj. cbn [fst snd]. field. auto.
Qed.

Lemma gga_inc_ok H h gr (gam : nat -> nat -> R) :
  f_grad fl = true -> is_mat H NF NF h -> is_mat gr N 3 (fun ip c => gam ip c / g_scale g c ip) ->
  exists H', increment_gga_split H gr (fst (g_bf g)) (snd (g_bf g)) (dcomps g fst) (dcomps g snd) = Ok H' /\
    is_mat H' NF NF (fun i j => h i j + sum N (fun ip => dot3 (gam ip) (fun c => pair_g (pt pts ip) c (nth i (g_ind g) 0%nat) (nth j (g_ind g) 0%nat)))).
Proof.
  intros Hg HH Hgr.
  destruct (gga_split_ok H gr (g_bf g) (dcomps g fst) (dcomps g snd) NF N h _ _
     (fun c i ip => cscal (g_scale g c ip) (conj (Gc c ip i))) HH Hgr (gr_bf HG) eq_refl eq_refl) as (H' & E & HH').
  { intros c Hc. assert (Hdf := gr_df HG Hg c Hc). destruct c as [|[|[|c]]]; [exact Hdf|exact Hdf|exact Hdf|lia]. }
  exists H'. split; [exact E|]. apply (is_mat_ext _ _ _ _ _ HH'). intros i j Hi Hj. f_equal. apply sum_ext. intros ip Hip.
  unfold dot3. apply sum_ext. intros c Hc. assert (Hs := gr_scale HG c ip Hc Hip).
  unfold pair_g, Gc, reprod, cscal, conj. cbn [fst snd]. field. auto.
Qed.
Lemma lda_inc_ok v H h : is_mat H NF NF h ->
  exists H', increment_lda_split H N v (g_bf g) = Ok H' /\
    is_mat H' NF NF (fun i j => h i j + sum N (fun ip => v ip * pair_n (pt pts ip) (nth i (g_ind g) 0%nat) (nth j (g_ind g) 0%nat))).
Proof.
  intros HH. destruct (lda_split_ok H NF N h v (g_bf g) _ HH (gr_bf HG)) as (H' & E & HH').
  exists H'. split; [exact E|]. apply (is_mat_ext _ _ _ _ _ HH'). intros i j Hi Hj. f_equal. apply sum_ext. intros ip Hip.
  rewrite reprod_conj. reflexivity.
Qed.
Lemma lapl_inc_ok v H h : f_lapl fl = true -> is_mat H NF NF h ->
  exists H', increment_mgga_lapl_split H N v (g_bf g) (g_lf g) = Ok H' /\
    is_mat H' NF NF (fun i j => h i j + sum N (fun ip => v ip *
      (pair_l (pt pts ip) (nth i (g_ind g) 0%nat) (nth j (g_ind g) 0%nat) - 2 * pair_gg (pt pts ip) (nth i (g_ind g) 0%nat) (nth j (g_ind g) 0%nat)))).
Proof.
  intros Hl HH. destruct (lapl_split_ok H NF N h v (g_bf g) (g_lf g) _ _ HH (gr_bf HG) (gr_lf HG Hl)) as (H' & E & HH').
  exists H'. split; [exact E|]. apply (is_mat_ext _ _ _ _ _ HH'). intros i j Hi Hj. f_equal. apply sum_ext. intros ip Hip.
  rewrite !reprod_conj. unfold pair_l. rewrite (reprod_sym (p_l _ (nth i _ _))). ring.
Qed.

(** Contributions that are not there vanish. *)
Lemma over_zero (c : Z -> bool) f a : uses fn c = false -> over lib pol fn c f a = 0.
Proof.
  intros H. unfold over. apply lsum_zero. intros ip Hi. destruct (c (fst ip)) eqn:E; [|reflexivity].
  exfalso. assert (uses fn c = true) by (apply existsb_exists; exists ip; auto). congruence.
Qed.
(** Pairs of functions that are not in the block vanish. *)
Lemma pair_out ip i j : (ip < N)%nat -> (i < n)%nat -> (j < n)%nat -> ~ In i (g_ind g) \/ ~ In j (g_ind g) ->
  pair_n (pt pts ip) i j = 0 /\ (forall c, pair_g (pt pts ip) c i j = 0) /\ pair_gg (pt pts ip) i j = 0 /\ pair_l (pt pts ip) i j = 0.
Proof.
  intros Hp Hi Hj Ho.
  assert (K : forall a b : nat -> R * R, (forall k, (k < n)%nat -> ~ In k (g_ind g) -> a k = (0, 0)) ->
    (forall k, (k < n)%nat -> ~ In k (g_ind g) -> b k = (0, 0)) -> reprod (a i) (b j) = 0).
  { intros a b Ha Hb. destruct Ho as [H|H]; [rewrite Ha by auto; apply reprod_0l|rewrite Hb by auto; apply reprod_0r]. }
  assert (Kf : forall k, (k < n)%nat -> ~ In k (g_ind g) -> p_f (pt pts ip) k = (0, 0)) by (intros; apply (gr_out HG ip k); auto).
  assert (Kg : forall c k, (k < n)%nat -> ~ In k (g_ind g) -> p_g (pt pts ip) c k = (0, 0)) by (intros; apply (gr_out HG ip k); auto).
  assert (Kl : forall k, (k < n)%nat -> ~ In k (g_ind g) -> p_l (pt pts ip) k = (0, 0)) by (intros; apply (gr_out HG ip k); auto).
  assert (Hgg : pair_gg (pt pts ip) i j = 0).
  { unfold pair_gg. apply sum_zero'. intros c _. apply K; apply Kg. }
  split; [|split; [|split]].
  - apply K; auto.
  - intros c. unfold pair_g. rewrite !K by (try apply Kf; apply Kg). ring.
  - exact Hgg.
  - unfold pair_l. rewrite Hgg, !K by (try apply Kf; apply Kl). ring.
Qed.
End Fock.
