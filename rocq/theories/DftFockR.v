(** The Fock matrices of one block of the grid, restricted and polarised. *)
Require Import Reals ZArith List Bool Arith Lia Lra Permutation.
Require Import Verif.Prelude Verif.FEModel Verif.FESpec Verif.AngModel Verif.JKModel Verif.DftModel Verif.DftSpec Verif.DftProofs Verif.DftXc Verif.DftFock.
Import ListNotations.
Local Open Scope R_scope.

Section Fock.
Variables (lib : libxc) (fn : functional) (n : nat) (g : gridb) (pts : list gpoint) (pol : bool) (Ps : list dmat).
Let fl := fn_flags lib fn.
Hypothesis HG : grid_rep fl n g pts.
Variables (d : densb) (x : xcb).
Hypothesis HD : dens_rep fl n pts pol Ps d.
Hypothesis HX : xc_rep lib fl n pts pol Ps (fn_thr fn) (parts fn) x.
Let w := mkW fl g d x.
Let NF := length (g_ind g).
Let N := length pts.
Notation ix i := (nth i (g_ind g) 0%nat) (only parsing).
Definition ar ip := pargs n pol Ps (pt pts ip).

Lemma grad_used : uses fn (is_gga lib) = true -> f_grad fl = true. Proof. auto. Qed.
Lemma tau_grad : uses fn (is_tau lib) = true -> f_grad fl = true.
Proof. apply uses_mono, tau_is_gga. Qed.
Lemma lapl_grad : uses fn (is_lapl lib) = true -> f_grad fl = true.
Proof. apply uses_mono, lapl_is_gga. Qed.

(** The sum over the points of weighted contributions. *)
Definition acc (T : nat -> nat -> nat -> R) (i j : nat) : R := sum N (fun ip => p_w (pt pts ip) * T ip (ix i) (ix j)).
Lemma acc_step H (h h' : nat -> nat -> R) T T' X :
  is_mat H NF NF h -> (forall i j, (i < NF)%nat -> (j < NF)%nat -> h i j = acc T i j + sum N (fun ip => X ip (ix i) (ix j))) ->
  (forall ip i j, (ip < N)%nat -> p_w (pt pts ip) * T ip i j + X ip i j = p_w (pt pts ip) * T' ip i j) ->
  is_mat H NF NF (acc T').
Proof.
  intros HH Hh HT. apply (is_mat_ext _ _ _ _ _ HH). intros i j Hi Hj. rewrite Hh by auto. unfold acc. rewrite <- sum_plus.
  apply sum_ext. intros ip Hip. apply HT; auto.
Qed.

(** LDA part of spin s *)
Definition T1 s ip i j := e_vrho lib pol fn (ar ip) s * pair_n (pt pts ip) i j.
Lemma lda_stage s : (s < nspin pol)%nat ->
  exists v H, row (x_vrho x) s N = Ok v /\ increment_lda_split (dzero NF NF) N (fun ip => v ip * g_w g ip) (g_bf g) = Ok H /\
    is_mat H NF NF (acc (T1 s)).
Proof.
  intros Hs. destruct (row_ok _ _ _ _ s (xr_vrho _ _ _ _ _ _ _ _ _ HX) Hs) as (v & Ev & Hv).
  destruct (lda_inc_ok lib fn n g pts HG (fun ip => v ip * g_w g ip) _ _ (dzero_ok _ _)) as (H & E & HH).
  exists v, H. split; [exact Ev|split; [exact E|]].
  apply (acc_step H _ (fun _ _ => 0) (fun _ _ _ => 0) (T1 s) (fun ip i j => v ip * g_w g ip * pair_n (pt pts ip) i j) HH).
  - intros i j _ _. f_equal. symmetry. apply sum_zero'. intros. ring.
  - intros ip i j Hip. rewrite (gr_w HG) by auto. rewrite Hv by auto. unfold T1, e_vrho, over, overl, ar. ring.
Qed.

(** Kinetic energy part with factor c *)
Definition T3 (T : nat -> nat -> nat -> R) (c : nat -> R) ip i j := T ip i j + c ip * pair_gg (pt pts ip) i j.
Lemma kin_stage inc H T c v :
  (forall H n N h v f k, is_mat H n n h -> is_cmat f n N k -> exists H', inc H N v f = Ok H' /\
     is_mat H' n n (fun i j => h i j + sum N (fun ip => v ip * reprod (k i ip) (k j ip)))) ->
  f_grad fl = true -> (forall ip, (ip < N)%nat -> v ip = c ip * p_w (pt pts ip)) -> is_mat H NF NF (acc T) ->
  exists H', increment_kin inc g v H = Ok H' /\ is_mat H' NF NF (acc (T3 T c)).
Proof.
  intros Hinc Hg Hv HH. destruct (kin_inc_ok lib fn n g pts HG inc v H _ Hinc Hg HH) as (H' & E & HH').
  exists H'. split; [exact E|].
  apply (acc_step H' _ (fun _ _ => 0) T (T3 T c) (fun ip i j => v ip * pair_gg (pt pts ip) i j) HH'); [reflexivity|].
  intros ip i j Hip. rewrite Hv by auto. unfold T3. ring.
Qed.
Lemma lapl_stage H T v vl : f_lapl fl = true -> (forall ip, (ip < N)%nat -> v ip = vl ip * p_w (pt pts ip)) -> is_mat H NF NF (acc T) ->
  exists H', increment_mgga_lapl_split H N v (g_bf g) (g_lf g) = Ok H' /\
    is_mat H' NF NF (acc (fun ip i j => T ip i j + vl ip * (pair_l (pt pts ip) i j - 2 * pair_gg (pt pts ip) i j))).
Proof.
  intros Hl Hv HH. destruct (lapl_inc_ok lib fn n g pts HG v H _ Hl HH) as (H' & E & HH').
  exists H'. split; [exact E|].
  apply (acc_step H' _ (fun _ _ => 0) T _ (fun ip i j => v ip * (pair_l (pt pts ip) i j - 2 * pair_gg (pt pts ip) i j)) HH'); [reflexivity|].
  intros ip i j Hip. rewrite Hv by auto. ring.
Qed.
Lemma gga_stage H T gr (gam : nat -> nat -> R) : f_grad fl = true -> is_mat H NF NF (acc T) ->
  is_mat gr N 3 (fun ip c => (p_w (pt pts ip) * gam ip c) / g_scale g c ip) ->
  exists H', increment_gga_split H gr (fst (g_bf g)) (snd (g_bf g)) (dcomps g fst) (dcomps g snd) = Ok H' /\
    is_mat H' NF NF (acc (fun ip i j => T ip i j + dot3 (gam ip) (fun c => pair_g (pt pts ip) c i j))).
Proof.
  intros Hg HH Hgr. destruct (gga_inc_ok lib fn n g pts HG H _ gr (fun ip c => p_w (pt pts ip) * gam ip c) Hg HH Hgr) as (H' & E & HH').
  exists H'. split; [exact E|].
  apply (acc_step H' _ (fun _ _ => 0) T _ (fun ip i j => dot3 (fun c => p_w (pt pts ip) * gam ip c) (fun c => pair_g (pt pts ip) c i j)) HH'); [reflexivity|].
  intros ip i j Hip. unfold dot3. cbn [sum]. ring.
Qed.

(** The updates made from a local matrix. *)
Lemma stage_updates k0 H T (Fk : gpoint -> nat -> nat -> R) : is_mat H NF NF (acc T) ->
  (forall ip i j, (ip < N)%nat -> T ip i j = Fk (pt pts ip) i j) ->
  (forall ip i j, (ip < N)%nat -> (i < n)%nat -> (j < n)%nat -> ~ In i (g_ind g) \/ ~ In j (g_ind g) -> Fk (pt pts ip) i j = 0) ->
  exists us, updates k0 (g_ind g) H n = Ok us /\ within (g_ind g) n us /\
    forall k i j, (i < n)%nat -> (j < n)%nat -> effect us k i j = if Nat.eqb k0 k then lsum pts (fun q => p_w q * Fk q i j) else 0.
Proof.
  intros HH HT Hz. apply (updates_ok k0 (g_ind g) H n (fun i j => lsum pts (fun q => p_w q * Fk q i j))).
  - exact (gr_nodup HG).
  - exact (gr_lt HG).
  - apply (is_mat_ext _ _ _ _ _ HH). intros i j _ _. rewrite <- sum_pts. unfold acc. apply sum_ext. intros ip Hip. rewrite HT by auto. reflexivity.
  - intros i j Hi Hj Ho. rewrite <- sum_pts. apply sum_zero'. intros ip Hip. rewrite (Hz ip i j) by auto. ring.
Qed.
Lemma ov (c : Z -> bool) f a : overl lib pol (fn_thr fn) (parts fn) c f a = over lib pol fn c f a.
Proof. reflexivity. Qed.
End Fock.

Lemma dot3_scal a u v : dot3 (fun c => a * u c) v = a * dot3 u v.
Proof. unfold dot3. cbn [sum]. ring. Qed.
Lemma dot3_zero u v : (forall c, v c = 0) -> dot3 u v = 0.
Proof. intros H. unfold dot3. apply sum_zero'. intros. rewrite H. ring. Qed.

Lemma eval_Fxc_restricted_ok lib fn n g pts P d x : grid_rep (fn_flags lib fn) n g pts ->
  dens_rep (fn_flags lib fn) n pts false [P] d ->
  xc_rep lib (fn_flags lib fn) n pts false [P] (fn_thr fn) (parts fn) x ->
  exists us, eval_Fxc_restricted (mkW (fn_flags lib fn) g d x) n = Ok us /\ within (g_ind g) n us /\
    forall k i j, (i < n)%nat -> (j < n)%nat ->
      effect us k i j = if Nat.eqb 0 k then lsum pts (fun q => p_w q * fock1 lib fn n (dent P) q i j) else 0.
Proof.
  intros HG HD HX. unfold eval_Fxc_restricted. cbn [w_d w_g w_x]. rewrite (dr_pol _ _ _ _ _ _ HD), (gr_n HG).
  destruct (lda_stage lib fn n g pts false [P] HG x HX 0 ltac:(cbn; lia)) as (v & H1 & Ev & E1 & HH1).
  rewrite Ev. cbn [bind]. rewrite E1. cbn [bind].
  rewrite (xr_gga _ _ _ _ _ _ _ _ _ HX), (xr_mt _ _ _ _ _ _ _ _ _ HX), (xr_ml _ _ _ _ _ _ _ _ _ HX).
  change (usesl (parts fn)) with (uses fn).
  set (A ip := ar n pts false [P] ip).
  (* GGA *)
  assert (G : exists H2,
    (if uses fn (is_gga lib) then
          bind (row (x_vsigma x) 0 (length pts)) (fun vs =>
          bind (tab (length pts) 3 (fun i c => bind (get (d_grho d) c i) (fun y =>
                  bind (rdiv (2 * g_w g i * vs i) (g_scale g c i)) (fun f => Ok (y * f))))) (fun gr =>
          increment_gga_split H1 gr (fst (g_bf g)) (snd (g_bf g)) (dcomps g fst) (dcomps g snd)))
        else Ok H1) = Ok H2 /\
    is_mat H2 (length (g_ind g)) (length (g_ind g)) (acc g pts (fun ip i j =>
      T1 lib fn n pts false [P] 0 ip i j +
      e_vsigma lib false fn (A ip) 0 * (2 * dot3 (grad n (dent P) (pt pts ip)) (fun c => pair_g (pt pts ip) c i j))))).
  { destruct (uses fn (is_gga lib)) eqn:Eu.
    - destruct (row_ok _ _ _ _ 0 (xr_vsigma _ _ _ _ _ _ _ _ _ HX Eu) ltac:(cbn; lia)) as (vs & Evs & Hvs).
      rewrite Evs. cbn [bind].
      destruct (tab_ok (length pts) 3 (fun i c => bind (get (d_grho d) c i) (fun y =>
                  bind (rdiv (2 * g_w g i * vs i) (g_scale g c i)) (fun f => Ok (y * f))))
        (fun ip c => (p_w (pt pts ip) * (e_vsigma lib false fn (A ip) 0 * 2 * grad n (dent P) (pt pts ip) c)) / g_scale g c ip)) as (gr & Egr & Hgr).
      { intros ip c Hip Hc. rewrite (get_ok _ _ _ _ c ip (dr_grho _ _ _ _ _ _ HD Eu)) by (cbn [nspin]; lia). cbn [bind].
        assert (Hs := gr_scale HG c ip Hc Hip). rewrite rdiv_ok by auto. cbn [bind]. f_equal.
        rewrite (gr_w HG) by auto. rewrite Hvs by auto.
        rewrite (Nat.div_small c 3), (Nat.mod_small c 3) by auto. unfold e_vsigma. rewrite <- ov. unfold A, ar, spin. cbn [nth]. field. auto. }
      rewrite Egr. cbn [bind].
      destruct (gga_stage lib fn n g pts HG H1 _ gr _ Eu HH1 Hgr) as (H2 & E2 & HH2).
      exists H2. split; [exact E2|]. apply (is_mat_ext _ _ _ _ _ HH2). intros i j _ _. unfold acc. apply sum_ext. intros ip Hip.
      rewrite dot3_scal. ring.
    - exists H1. split; [reflexivity|]. apply (is_mat_ext _ _ _ _ _ HH1). intros i j _ _. unfold acc. apply sum_ext. intros ip Hip.
      unfold e_vsigma. rewrite over_zero by exact Eu. ring. }
  destruct G as (H2 & E2 & HH2). rewrite E2. cbn [bind]. clear E2.
  set (T2 := fun ip i j => T1 lib fn n pts false [P] 0 ip i j +
      e_vsigma lib false fn (A ip) 0 * (2 * dot3 (grad n (dent P) (pt pts ip)) (fun c => pair_g (pt pts ip) c i j))) in *.
  (* kinetic energy density and gradient part of the Laplacian *)
  assert (G : exists H3,
    (if (uses fn (is_tau lib) || uses fn (is_lapl lib))%bool then
          bind (if uses fn (is_tau lib) then row (x_vtau x) 0 (length pts) else Ok (fun _ => 0)) (fun vt =>
          bind (if uses fn (is_lapl lib) then row (x_vlapl x) 0 (length pts) else Ok (fun _ => 0)) (fun vl =>
          increment_kin increment_lda_split g
            (fun ip => ((if uses fn (is_tau lib) then / 2 * vt ip else 0) + (if uses fn (is_lapl lib) then 2 * vl ip else 0)) * g_w g ip) H2))
        else Ok H2) = Ok H3 /\
    is_mat H3 (length (g_ind g)) (length (g_ind g)) (acc g pts (T3 pts T2 (fun ip =>
      / 2 * e_vtau lib false fn (A ip) 0 + 2 * e_vlapl lib false fn (A ip) 0)))).
  { assert (Gt : exists vt, (if uses fn (is_tau lib) then row (x_vtau x) 0 (length pts) else Ok (fun _ => 0)) = Ok vt /\
      (forall ip, (ip < length pts)%nat -> (if uses fn (is_tau lib) then / 2 * vt ip else 0) = / 2 * e_vtau lib false fn (A ip) 0)).
    { destruct (uses fn (is_tau lib)) eqn:Eu.
      - destruct (row_ok _ _ _ _ 0 (xr_vtau _ _ _ _ _ _ _ _ _ HX Eu) ltac:(cbn; lia)) as (vt & Evt & Hvt).
        exists vt. split; [exact Evt|]. intros ip Hip. rewrite Hvt by auto. reflexivity.
      - eexists; split; [reflexivity|]. intros. unfold e_vtau. rewrite over_zero by exact Eu. ring. }
    assert (Gl : exists vl, (if uses fn (is_lapl lib) then row (x_vlapl x) 0 (length pts) else Ok (fun _ => 0)) = Ok vl /\
      (forall ip, (ip < length pts)%nat -> (if uses fn (is_lapl lib) then 2 * vl ip else 0) = 2 * e_vlapl lib false fn (A ip) 0)).
    { destruct (uses fn (is_lapl lib)) eqn:Eu.
      - destruct (row_ok _ _ _ _ 0 (xr_vlapl _ _ _ _ _ _ _ _ _ HX Eu) ltac:(cbn; lia)) as (vt & Evt & Hvt).
        exists vt. split; [exact Evt|]. intros ip Hip. rewrite Hvt by auto. reflexivity.
      - eexists; split; [reflexivity|]. intros. unfold e_vlapl. rewrite over_zero by exact Eu. ring. }
    destruct Gt as (vt & Evt & Hvt), Gl as (vl & Evl & Hvl). rewrite Evt, Evl. cbn [bind].
    destruct (uses fn (is_tau lib) || uses fn (is_lapl lib))%bool eqn:Eu.
    - apply (kin_stage lib fn n g pts HG); auto.
      + intros. apply lda_split_ok; auto.
      + apply orb_true_iff in Eu. destruct Eu as [Eu|Eu]; [apply (tau_grad lib fn Eu)|apply (lapl_grad lib fn Eu)].
      + intros ip Hip. rewrite Hvt, Hvl, (gr_w HG) by auto. reflexivity.
    - exists H2. split; [reflexivity|]. apply orb_false_iff in Eu. destruct Eu as [Et El].
      apply (is_mat_ext _ _ _ _ _ HH2). intros i j _ _. unfold acc, T3. apply sum_ext. intros ip Hip.
      unfold e_vtau, e_vlapl. rewrite !over_zero by assumption. ring. }
  destruct G as (H3 & E3 & HH3). rewrite E3. cbn [bind]. clear E3.
  (* the rest of the Laplacian *)
  assert (G : exists H4,
    (if uses fn (is_lapl lib) then
          bind (row (x_vlapl x) 0 (length pts)) (fun vl =>
          increment_mgga_lapl_split H3 (length pts) (fun ip => vl ip * g_w g ip) (g_bf g) (g_lf g))
        else Ok H3) = Ok H4 /\
    is_mat H4 (length (g_ind g)) (length (g_ind g)) (acc g pts (fun ip i j => T3 pts T2 (fun ip =>
      / 2 * e_vtau lib false fn (A ip) 0 + 2 * e_vlapl lib false fn (A ip) 0) ip i j
      + e_vlapl lib false fn (A ip) 0 * (pair_l (pt pts ip) i j - 2 * pair_gg (pt pts ip) i j)))).
  { destruct (uses fn (is_lapl lib)) eqn:Eu.
    - destruct (row_ok _ _ _ _ 0 (xr_vlapl _ _ _ _ _ _ _ _ _ HX Eu) ltac:(cbn; lia)) as (vl & Evl & Hvl).
      rewrite Evl. cbn [bind]. apply (lapl_stage lib fn n g pts HG); auto.
      intros ip Hip. rewrite Hvl, (gr_w HG) by auto. reflexivity.
    - exists H3. split; [reflexivity|]. apply (is_mat_ext _ _ _ _ _ HH3). intros i j _ _. unfold acc. apply sum_ext. intros ip Hip.
      assert (E0 : e_vlapl lib false fn (A ip) 0 = 0) by (apply over_zero; exact Eu). rewrite E0. ring. }
  destruct G as (H4 & E4 & HH4). rewrite E4. cbn [bind].
  apply (stage_updates lib fn n g pts HG 0 H4 _ (fock1 lib fn n (dent P)) HH4).
  - intros ip i j Hip. unfold T3, T2, T1, fock1, pair_t, A, ar, pargs, spin. cbn [nth]. ring.
  - intros ip i j Hip Hi Hj Ho. destruct (pair_out lib fn n g pts HG ip i j Hip Hi Hj Ho) as (P1 & P2 & P3 & P4).
    unfold fock1, pair_t. rewrite P1, P3, P4, (dot3_zero _ (fun c => pair_g (pt pts ip) c i j)) by auto. ring.
Qed.

(** What the polarised code leaves out: for a functional that depends on the Laplacian
    but not on the kinetic energy density, the products of gradients. *)
Definition deficit lib fn n Pa Pb s (q : gpoint) (i j : nat) : R :=
  if uses fn (is_tau lib) then 0 else e_vlapl lib true fn (args2 n Pa Pb q) s * (2 * pair_gg q i j).
Definition own (Ps : list dmat) (s : nat) : mat := spin Ps s.
Definition other (Ps : list dmat) (s : nat) : mat := spin Ps (1 - s).

(** A routine that adds sum_p v_p f_i(p)^* f_j(p). *)
Definition inc_ok (inc : increment) : Prop :=
  forall H n N h v f k, is_mat H n n h -> is_cmat f n N k -> exists H', inc H N v f = Ok H' /\
     is_mat H' n n (fun i j => h i j + sum N (fun ip => v ip * reprod (k i ip) (k j ip))).

Section Pol.
Variables (lib : libxc) (fn : functional) (n : nat) (g : gridb) (pts : list gpoint) (Ps : list dmat).
Hypothesis HG : grid_rep (fn_flags lib fn) n g pts.
Variables (d : densb) (x : xcb).
Hypothesis HD : dens_rep (fn_flags lib fn) n pts true Ps d.
Hypothesis HX : xc_rep lib (fn_flags lib fn) n pts true Ps (fn_thr fn) (parts fn) x.
Let A ip := ar n pts true Ps ip.
Definition TP s ip i j :=
  T1 lib fn n pts true Ps s ip i j
  + (e_vsigma lib true fn (ar n pts true Ps ip) (2 * s) * (2 * dot3 (grad n (own Ps s) (pt pts ip)) (fun c => pair_g (pt pts ip) c i j))
     + e_vsigma lib true fn (ar n pts true Ps ip) 1 * dot3 (grad n (other Ps s) (pt pts ip)) (fun c => pair_g (pt pts ip) c i j))
  + (if uses fn (is_tau lib) then (/ 2 * e_vtau lib true fn (ar n pts true Ps ip) s + 2 * e_vlapl lib true fn (ar n pts true Ps ip) s) * pair_gg (pt pts ip) i j else 0).

Lemma pol_channel_ok inc s : inc_ok inc -> (s < 2)%nat ->
  exists H, pol_channel inc (mkW (fn_flags lib fn) g d x) s = Ok H /\
    is_mat H (length (g_ind g)) (length (g_ind g)) (acc g pts (TP s)).
Proof.
  intros Hinc Hs. unfold pol_channel. cbn [w_d w_g w_x]. rewrite (gr_n HG).
  destruct (lda_stage lib fn n g pts true Ps HG x HX s Hs) as (v & H1 & Ev & E1 & HH1).
  rewrite Ev. cbn [bind]. rewrite E1. cbn [bind].
  rewrite (xr_gga _ _ _ _ _ _ _ _ _ HX), (xr_mt _ _ _ _ _ _ _ _ _ HX), (xr_ml _ _ _ _ _ _ _ _ _ HX).
  change (usesl (parts fn)) with (uses fn).
  assert (G : exists H2,
    (if uses fn (is_gga lib) then
          bind (row (x_vsigma x) (2 * s) (length pts)) (fun vs =>
          bind (row (x_vsigma x) 1 (length pts)) (fun vs_ab =>
          bind (pol_gradient (mkW (fn_flags lib fn) g d x) vs vs_ab (3 * s) (3 - 3 * s)) (fun gr =>
          increment_gga_split H1 gr (fst (g_bf g)) (snd (g_bf g)) (dcomps g fst) (dcomps g snd))))
        else Ok H1) = Ok H2 /\
    is_mat H2 (length (g_ind g)) (length (g_ind g)) (acc g pts (fun ip i j =>
      T1 lib fn n pts true Ps s ip i j +
      (e_vsigma lib true fn (A ip) (2 * s) * (2 * dot3 (grad n (own Ps s) (pt pts ip)) (fun c => pair_g (pt pts ip) c i j))
     + e_vsigma lib true fn (A ip) 1 * dot3 (grad n (other Ps s) (pt pts ip)) (fun c => pair_g (pt pts ip) c i j))))).
  { destruct (uses fn (is_gga lib)) eqn:Eu.
    - destruct (row_ok _ _ _ _ (2 * s) (xr_vsigma _ _ _ _ _ _ _ _ _ HX Eu) ltac:(cbn [nsigma]; lia)) as (vs & Evs & Hvs).
      destruct (row_ok _ _ _ _ 1 (xr_vsigma _ _ _ _ _ _ _ _ _ HX Eu) ltac:(cbn [nsigma]; lia)) as (vab & Evab & Hvab).
      rewrite Evs, Evab. cbn [bind].
      destruct (tab_ok (length pts) 3 (fun i c =>
          bind (get (d_grho d) (3 * s + c) i) (fun a => bind (get (d_grho d) (3 - 3 * s + c) i) (fun b =>
          rdiv (g_w g i * (2 * vs i * a + vab i * b)) (g_scale g c i))))
        (fun ip c => (p_w (pt pts ip) * (e_vsigma lib true fn (A ip) (2 * s) * 2 * grad n (own Ps s) (pt pts ip) c
             + e_vsigma lib true fn (A ip) 1 * grad n (other Ps s) (pt pts ip) c)) / g_scale g c ip)) as (gr & Egr & Hgr).
      { intros ip c Hip Hc. assert (HGr := dr_grho _ _ _ _ _ _ HD Eu).
        rewrite (get_ok _ _ _ _ (3 * s + c) ip HGr) by (cbn [nspin]; lia). cbn [bind].
        rewrite (get_ok _ _ _ _ (3 - 3 * s + c) ip HGr) by (cbn [nspin]; lia). cbn [bind].
        assert (Hsc := gr_scale HG c ip Hc Hip). rewrite rdiv_ok by auto. f_equal.
        rewrite (gr_w HG) by auto. rewrite Hvs, Hvab by auto.
        assert (D1 : ((3 * s + c) / 3 = s)%nat) by (symmetry; apply (Nat.div_unique _ 3 s c); lia).
        assert (D2 : ((3 - 3 * s + c) / 3 = 1 - s)%nat) by (symmetry; apply (Nat.div_unique _ 3 (1 - s) c); lia).
        assert (M1 : ((3 * s + c) mod 3 = c)%nat) by (symmetry; apply (Nat.mod_unique _ 3 s c); lia).
        assert (M2 : ((3 - 3 * s + c) mod 3 = c)%nat) by (symmetry; apply (Nat.mod_unique _ 3 (1 - s) c); lia).
        rewrite D1, D2, M1, M2. unfold own, other, e_vsigma. rewrite <- !ov. unfold A, ar. field. auto. }
      unfold pol_gradient. cbn [w_g w_d]. rewrite (gr_n HG), Egr. cbn [bind].
      destruct (gga_stage lib fn n g pts HG H1 _ gr _ Eu HH1 Hgr) as (H2 & E2 & HH2).
      exists H2. split; [exact E2|]. apply (is_mat_ext _ _ _ _ _ HH2). intros i j _ _. unfold acc. apply sum_ext. intros ip Hip.
      unfold dot3. cbn [sum]. ring.
    - exists H1. split; [reflexivity|]. apply (is_mat_ext _ _ _ _ _ HH1). intros i j _ _. unfold acc. apply sum_ext. intros ip Hip.
      unfold e_vsigma. rewrite !over_zero by exact Eu. ring. }
  destruct G as (H2 & E2 & HH2). rewrite E2. cbn [bind]. clear E2.
  destruct (uses fn (is_tau lib)) eqn:Et.
  - destruct (row_ok _ _ _ _ s (xr_vtau _ _ _ _ _ _ _ _ _ HX Et) Hs) as (vt & Evt & Hvt). rewrite Evt. cbn [bind].
    assert (Gl : exists vl, (if uses fn (is_lapl lib) then row (x_vlapl x) s (length pts) else Ok (fun _ => 0)) = Ok vl /\
      (forall ip, (ip < length pts)%nat -> (if uses fn (is_lapl lib) then 2 * vl ip else 0) = 2 * e_vlapl lib true fn (A ip) s)).
    { destruct (uses fn (is_lapl lib)) eqn:Eu.
      - destruct (row_ok _ _ _ _ s (xr_vlapl _ _ _ _ _ _ _ _ _ HX Eu) Hs) as (vl & Evl & Hvl).
        exists vl. split; [exact Evl|]. intros ip Hip. rewrite Hvl by auto. reflexivity.
      - eexists; split; [reflexivity|]. intros. unfold e_vlapl. rewrite over_zero by exact Eu. ring. }
    destruct Gl as (vl & Evl & Hvl). rewrite Evl. cbn [bind].
    assert (Hv : forall ip, (ip < length pts)%nat -> (/ 2 * vt ip + (if uses fn (is_lapl lib) then 2 * vl ip else 0)) * g_w g ip
       = (/ 2 * e_vtau lib true fn (A ip) s + 2 * e_vlapl lib true fn (A ip) s) * p_w (pt pts ip)).
    { intros ip Hip. rewrite Hvt, Hvl, (gr_w HG) by auto. reflexivity. }
    destruct (kin_stage lib fn n g pts HG inc H2 _ (fun ip => / 2 * e_vtau lib true fn (A ip) s + 2 * e_vlapl lib true fn (A ip) s)
       (fun ip => (/ 2 * vt ip + (if uses fn (is_lapl lib) then 2 * vl ip else 0)) * g_w g ip)
       Hinc (tau_grad lib fn Et) Hv HH2) as (H3 & E3 & HH3).
    exists H3. split; [exact E3|]. apply (is_mat_ext _ _ _ _ _ HH3). intros i j _ _. unfold acc, T3, TP. rewrite Et. reflexivity.
  - exists H2. split; [reflexivity|]. apply (is_mat_ext _ _ _ _ _ HH2). intros i j _ _. unfold acc, TP. rewrite Et. apply sum_ext. intros ip Hip. fold (A ip). ring.
Qed.

Lemma channel_value s ip i j : (s < 2)%nat ->
  TP s ip i j + e_vlapl lib true fn (A ip) s * (pair_l (pt pts ip) i j - 2 * pair_gg (pt pts ip) i j)
  = fock2 lib fn n (spin Ps 0) (spin Ps 1) s (pt pts ip) i j - deficit lib fn n (spin Ps 0) (spin Ps 1) s (pt pts ip) i j.
Proof.
  intros Hs. unfold TP, T1, fock2, deficit, own, other. fold (A ip).
  assert (Et : uses fn (is_tau lib) = false -> e_vtau lib true fn (A ip) s = 0) by (apply over_zero).
  change (args2 n (spin Ps 0) (spin Ps 1) (pt pts ip)) with (A ip).
  destruct (uses fn (is_tau lib)); [|rewrite (Et eq_refl)];
  (destruct s as [|[|s]]; [| |lia]); unfold pair_t; cbn [Nat.eqb Nat.sub Nat.mul Nat.add]; ring.
Qed.
End Pol.

Lemma pair_zero_fock2 lib fn n Pa Pb s q i j : pair_n q i j = 0 -> (forall c, pair_g q c i j = 0) -> pair_gg q i j = 0 -> pair_l q i j = 0 ->
  fock2 lib fn n Pa Pb s q i j - deficit lib fn n Pa Pb s q i j = 0.
Proof.
  intros P1 P2 P3 P4. unfold fock2, deficit, pair_t.
  rewrite P1, P3, P4, !(dot3_zero _ (fun c => pair_g q c i j)) by auto. destruct (uses fn (is_tau lib)); ring.
Qed.

Lemma eval_Fxc_polarised_ok lib fn n g pts Pa Pb d x inc beta : inc_ok inc -> grid_rep (fn_flags lib fn) n g pts ->
  dens_rep (fn_flags lib fn) n pts true [Pa; Pb] d ->
  xc_rep lib (fn_flags lib fn) n pts true [Pa; Pb] (fn_thr fn) (parts fn) x ->
  uses fn (is_lapl lib) = false \/ beta = true ->
  exists us, eval_Fxc_polarised inc (mkW (fn_flags lib fn) g d x) beta n n = Ok us /\ within (g_ind g) n us /\
    forall k i j, (i < n)%nat -> (j < n)%nat ->
      effect us k i j = if (Nat.eqb 0 k || (Nat.eqb 1 k && beta))%bool
        then lsum pts (fun q => p_w q * (fock2 lib fn n (dent Pa) (dent Pb) k q i j - deficit lib fn n (dent Pa) (dent Pb) k q i j)) else 0.
Proof.
  intros Hinc HG HD HX Hb. unfold eval_Fxc_polarised. cbn [w_d w_g w_x]. rewrite (dr_pol _ _ _ _ _ _ HD), (gr_n HG). cbn [negb].
  destruct (pol_channel_ok lib fn n g pts [Pa; Pb] HG d x HD HX inc 0 Hinc ltac:(lia)) as (Ha & Ea & HHa). rewrite Ea. cbn [bind].
  assert (HB : exists Hb, (if beta then pol_channel inc (mkW (fn_flags lib fn) g d x) 1 else Ok dempty) = Ok Hb /\
    (beta = true -> is_mat Hb (length (g_ind g)) (length (g_ind g)) (acc g pts (TP lib fn n pts [Pa; Pb] 1)))).
  { destruct beta; [|eexists; split; [reflexivity|discriminate]].
    destruct (pol_channel_ok lib fn n g pts [Pa; Pb] HG d x HD HX inc 1 Hinc ltac:(lia)) as (H & E & HH). exists H. auto. }
  destruct HB as (Hbm & Eb & HHb). rewrite Eb. cbn [bind]. rewrite (xr_ml _ _ _ _ _ _ _ _ _ HX). change (usesl (parts fn)) with (uses fn).
  set (TT s ip i j := TP lib fn n pts [Pa; Pb] s ip i j + e_vlapl lib true fn (ar n pts true [Pa; Pb] ip) s * (pair_l (pt pts ip) i j - 2 * pair_gg (pt pts ip) i j)).
  assert (HL : exists Ha' Hb', (if uses fn (is_lapl lib) then
          bind (row (x_vlapl x) 0 (length pts)) (fun va =>
          bind (row (x_vlapl x) 1 (length pts)) (fun vb =>
          bind (increment_mgga_lapl_split Ha (length pts) (fun ip => va ip * g_w g ip) (g_bf g) (g_lf g)) (fun Ha =>
          bind (increment_mgga_lapl_split Hbm (length pts) (fun ip => vb ip * g_w g ip) (g_bf g) (g_lf g)) (fun Hb =>
          Ok (Ha, Hb)))))
        else Ok (Ha, Hbm)) = Ok (Ha', Hb') /\
     is_mat Ha' (length (g_ind g)) (length (g_ind g)) (acc g pts (TT 0%nat)) /\
     (beta = true -> is_mat Hb' (length (g_ind g)) (length (g_ind g)) (acc g pts (TT 1%nat)))).
  { destruct (uses fn (is_lapl lib)) eqn:El.
    - destruct Hb as [Hb|Hb]; [discriminate|].
      destruct (row_ok _ _ _ _ 0 (xr_vlapl _ _ _ _ _ _ _ _ _ HX El) ltac:(cbn; lia)) as (va & Eva & Hva). rewrite Eva. cbn [bind].
      destruct (row_ok _ _ _ _ 1 (xr_vlapl _ _ _ _ _ _ _ _ _ HX El) ltac:(cbn; lia)) as (vb & Evb & Hvb). rewrite Evb. cbn [bind].
      assert (Hwa : forall ip, (ip < length pts)%nat -> va ip * g_w g ip = e_vlapl lib true fn (ar n pts true [Pa; Pb] ip) 0 * p_w (pt pts ip)).
      { intros ip Hip. rewrite Hva, (gr_w HG) by auto. reflexivity. }
      destruct (lapl_stage lib fn n g pts HG Ha _ (fun ip => va ip * g_w g ip) (fun ip => e_vlapl lib true fn (ar n pts true [Pa; Pb] ip) 0) El Hwa (HHa)) as (Ha' & Ea' & HHa').
      rewrite Ea'. cbn [bind].
      assert (Hwb : forall ip, (ip < length pts)%nat -> vb ip * g_w g ip = e_vlapl lib true fn (ar n pts true [Pa; Pb] ip) 1 * p_w (pt pts ip)).
      { intros ip Hip. rewrite Hvb, (gr_w HG) by auto. reflexivity. }
      destruct (lapl_stage lib fn n g pts HG Hbm _ (fun ip => vb ip * g_w g ip) (fun ip => e_vlapl lib true fn (ar n pts true [Pa; Pb] ip) 1) El Hwb (HHb Hb)) as (Hb' & Eb' & HHb').
      rewrite Eb'. cbn [bind]. exists Ha', Hb'. split; [reflexivity|split; [exact HHa'|intros _; exact HHb']].
    - exists Ha, Hbm. split; [reflexivity|].
      assert (Ez : forall s h, is_mat h (length (g_ind g)) (length (g_ind g)) (acc g pts (TP lib fn n pts [Pa; Pb] s)) ->
        is_mat h (length (g_ind g)) (length (g_ind g)) (acc g pts (TT s))).
      { intros s h Hh. apply (is_mat_ext _ _ _ _ _ Hh). intros i j _ _. unfold acc, TT. apply sum_ext. intros ip _.
        assert (E0 : e_vlapl lib true fn (ar n pts true [Pa; Pb] ip) s = 0) by (apply over_zero; exact El). rewrite E0. ring. }
      split; [apply Ez; exact HHa|intros H; apply Ez; auto]. }
  destruct HL as (Ha' & Hb' & EL & HHa' & HHb'). rewrite EL. cbn [bind fst snd].
  assert (Val : forall s ip i j, (s < 2)%nat -> TT s ip i j =
    fock2 lib fn n (dent Pa) (dent Pb) s (pt pts ip) i j - deficit lib fn n (dent Pa) (dent Pb) s (pt pts ip) i j).
  { intros s ip i j Hs. unfold TT.
    assert (V := channel_value lib fn n pts [Pa; Pb] s ip i j Hs). cbn beta in V. rewrite V. reflexivity. }
  assert (Out : forall s ip i j, (ip < length pts)%nat -> (i < n)%nat -> (j < n)%nat -> ~ In i (g_ind g) \/ ~ In j (g_ind g) ->
    fock2 lib fn n (dent Pa) (dent Pb) s (pt pts ip) i j - deficit lib fn n (dent Pa) (dent Pb) s (pt pts ip) i j = 0).
  { intros s ip i j Hip Hi Hj Ho. destruct (pair_out lib fn n g pts HG ip i j Hip Hi Hj Ho) as (P1 & P2 & P3 & P4).
    apply pair_zero_fock2; auto. }
  destruct (stage_updates lib fn n g pts HG 0 Ha' _ (fun q i j => fock2 lib fn n (dent Pa) (dent Pb) 0 q i j - deficit lib fn n (dent Pa) (dent Pb) 0 q i j) HHa'
     (fun ip i j _ => Val 0%nat ip i j ltac:(lia)) (Out 0%nat)) as (ua & Eua & Wa & Fa). rewrite Eua. cbn [bind].
  destruct beta.
  - destruct (stage_updates lib fn n g pts HG 1 Hb' _ (fun q i j => fock2 lib fn n (dent Pa) (dent Pb) 1 q i j - deficit lib fn n (dent Pa) (dent Pb) 1 q i j) (HHb' eq_refl)
     (fun ip i j _ => Val 1%nat ip i j ltac:(lia)) (Out 1%nat)) as (ub & Eub & Wb & Fb). rewrite Eub. cbn [bind].
    eexists; split; [reflexivity|]. split.
    + intros k i j y Hin. apply in_app_iff in Hin. destruct Hin as [Hin|Hin]; [apply (Wa _ _ _ _ Hin)|apply (Wb _ _ _ _ Hin)].
    + intros k i j Hi Hj. rewrite effect_app, Fa, Fb by auto.
      destruct k as [|[|k]]; cbn [Nat.eqb orb andb]; ring.
  - eexists; split; [reflexivity|]. split; [exact Wa|].
    intros k i j Hi Hj. rewrite Fa by auto. destruct k as [|[|k]]; cbn [Nat.eqb orb andb]; reflexivity.
Qed.
