(** Concrete cases and restatements for the radial basis properties. *)
Require Import Reals List Arith Bool ZArith Lia Lra.
Require Import Verif.Prelude Verif.FEModel Verif.FESpec Verif.FEProofs.
Require Import Verif.ShapeModel Verif.ShapeSpec Verif.ShapePoly Verif.ShapeOrth Verif.ShapeProofs Verif.QuadModel Verif.QuadSpec Verif.QuadProofs Verif.QuadInt.
Require Import Verif.RadModel Verif.RadSpec Verif.RadProofs Verif.RadFun Verif.RadCache Verif.RadMat Verif.RadExact Verif.RadConf.
Import ListNotations.
Open Scope R_scope.

(** * Samples *)

(** Two linear elements on [0, 1] and [1, 3]. *)
Definition two_nodes : vec := fun i => if (i =? 0)%nat then -1 else 1.
Definition hat : rad := mkRad (mkFE LIP 2 [0; 1; 3] true false false false) two_nodes [-1; 0; 1] [1 / 3; 4 / 3; 1 / 3].
(** Hermite elements with three nodes; values and slopes join. *)
Definition three_nodes : vec := fun i => if (i =? 0)%nat then -1 else if (i =? 1)%nat then 0 else 1.
Definition herm : rad := mkRad (mkFE HIP 3 [0; 1; 3; 7] true false true true) three_nodes [0] [2].

Lemma incr3 : increasing [0; 1; 3].
Proof. intros i j H1 H2. cbn [length] in H2. destruct i as [|[|[|i]]]; destruct j as [|[|[|j]]]; try lia; cbn [nth]; lra. Qed.

Lemma hat_valid : valid_fe (rb_fe hat).
Proof. split; [cbn; lia|]. split; [cbn; lia|]. exact incr3. Qed.
Lemma herm_valid : valid_fe (rb_fe herm).
Proof. split; [cbn; lia|]. split; [cbn; lia|]. exact increasing_sample. Qed.
Lemma hat_nodes : nodes_ok LIP 2 two_nodes.
Proof.
  intros _. split; [|split; reflexivity]. intros i j Hi Hj H. unfold two_nodes in H.
  destruct i as [|[|i]]; destruct j as [|[|j]]; try lia; cbn [Nat.eqb] in H; lra.
Qed.
Lemma herm_nodes : nodes_ok HIP 3 three_nodes.
Proof.
  intros _. split; [|split; reflexivity]. intros i j Hi Hj H. unfold three_nodes in H.
  destruct i as [|[|[|i]]]; destruct j as [|[|[|j]]]; try lia; cbn [Nat.eqb] in H; lra.
Qed.
Lemma hat_ok : radial_ok hat.
Proof.
  split; [exact hat_valid|]. split; [exact hat_nodes|]. split; [reflexivity|]. split; [reflexivity|].
  intros en H E. cbn in H. inversion H. subst en. discriminate.
Qed.
Lemma herm_ok : radial_ok herm.
Proof.
  split; [exact herm_valid|]. split; [exact herm_nodes|]. split; [reflexivity|]. split; [reflexivity|].
  intros en H E. cbn in H. inversion H. subst en. discriminate.
Qed.
Lemma hat_size : get_nbf (rb_fe hat) = Ok (Z.of_nat 2) /\ get_nelem (rb_fe hat) = 2%nat /\ basis_indices (rb_fe hat) 0 = Ok [1%nat] /\ basis_indices (rb_fe hat) 1 = Ok [0; 1]%nat.
Proof. repeat split; reflexivity. Qed.
Lemma herm_size : get_nbf (rb_fe herm) = Ok (Z.of_nat 11) /\ get_nelem (rb_fe herm) = 3%nat.
Proof. split; reflexivity. Qed.

(** Simpson's rule, padded with points of weight zero. *)
Definition simp_x (n : nat) : vec := fun q => match q with 0%nat => -1 | 2%nat => 1 | _ => 0 end.
Definition simp_w (n : nat) : vec := fun q => match q with 0%nat => 1 / 3 | 1%nat => 4 / 3 | 2%nat => 1 / 3 | _ => 0 end.

Lemma simp_sum n f : (3 <= n)%nat -> sum n (fun q => simp_w n q * f (simp_x n q)) = 1 / 3 * f (-1) + 4 / 3 * f 0 + 1 / 3 * f 1.
Proof.
  intros Hn. replace n with (3 + (n - 3))%nat at 1 by lia. rewrite sum_split. rewrite (sum_zero' (n - 3)).
  - cbn [sum simp_w simp_x]. ring.
  - intros i _. cbn [plus simp_w]. ring.
Qed.
Lemma simp_quad n f a b : (3 <= n)%nat -> quad n (simp_x n) (simp_w n) a b f
  = (b - a) / 2 * (1 / 3 * f a + 4 / 3 * f ((a + b) / 2) + 1 / 3 * f b).
Proof.
  intros Hn. unfold quad.
  rewrite (sum_ext n _ (fun q => simp_w n q * ((b - a) / 2 * f ((b + a) / 2 + (b - a) / 2 * simp_x n q)))) by (intros; ring).
  rewrite (simp_sum n (fun x => (b - a) / 2 * f ((b + a) / 2 + (b - a) / 2 * x)) Hn).
  replace ((b + a) / 2 + (b - a) / 2 * -1) with a by field. replace ((b + a) / 2 + (b - a) / 2 * 0) with ((a + b) / 2) by field.
  replace ((b + a) / 2 + (b - a) / 2 * 1) with b by field. ring.
Qed.
Lemma simp_positive : positive_rule simp_x simp_w.
Proof.
  intros n q _ _. destruct q as [|[|[|q]]]; cbn [simp_w simp_x]; lra.
Qed.
Lemma simp_exact : basis_exact (rb_fe hat) simp_x simp_w.
Proof.
  intros n c v Hs Hn Hl Hi. cbn in Hs. cbn in Hl.
  assert (H5 : (3 <= n)%nat) by lia. clear Hs.
  rewrite (simp_sum n (peval c) H5).
  destruct c as [|c0 [|c1 [|c2 [|c3 c]]]]; cbn [length] in Hl; try lia.
  all: cbn [peval] in *.
  all: match type of Hi with integral _ _ _ _ => idtac end.
  - apply (integral_unique (fun _ => 0) (-1) 1); [|exact Hi]. exists (fun _ => 0). split; [intros; apply derivable_pt_lim_const | ring].
  - apply (integral_unique (fun x => c0 + x * 0) (-1) 1); [|exact Hi].
    exists (fun x => c0 * x). split; [|field]. intros x. replace (c0 + x * 0) with (c0 * 1) by ring.
    apply (derivable_pt_lim_scal (fun x => x)). apply derivable_pt_lim_id.
  - apply (integral_unique (fun x => c0 + x * (c1 + x * 0)) (-1) 1); [|exact Hi].
    exists (fun x => c0 * x + c1 / 2 * x ^ 2). split; [|field]. intros x.
    replace (c0 + x * (c1 + x * 0)) with (c0 * 1 + c1 / 2 * (INR 2 * x ^ 1)) by (cbn [INR]; field).
    apply (derivable_pt_lim_plus (fun x => c0 * x) (fun x => c1 / 2 * x ^ 2)).
    + apply (derivable_pt_lim_scal (fun x => x)). apply derivable_pt_lim_id.
    + apply (derivable_pt_lim_scal (fun x => x ^ 2)). apply derivable_pt_lim_pow.
  - apply (integral_unique (fun x => c0 + x * (c1 + x * (c2 + x * 0))) (-1) 1); [|exact Hi].
    exists (fun x => c0 * x + c1 / 2 * x ^ 2 + c2 / 3 * x ^ 3). split; [|field]. intros x.
    replace (c0 + x * (c1 + x * (c2 + x * 0))) with (c0 * 1 + c1 / 2 * (INR 2 * x ^ 1) + c2 / 3 * (INR 3 * x ^ 2)) by (cbn [INR]; field).
    apply (derivable_pt_lim_plus (fun x => c0 * x + c1 / 2 * x ^ 2) (fun x => c2 / 3 * x ^ 3)).
    + apply (derivable_pt_lim_plus (fun x => c0 * x) (fun x => c1 / 2 * x ^ 2)).
      * apply (derivable_pt_lim_scal (fun x => x)). apply derivable_pt_lim_id.
      * apply (derivable_pt_lim_scal (fun x => x ^ 2)). apply derivable_pt_lim_pow.
    + apply (derivable_pt_lim_scal (fun x => x ^ 3)). apply derivable_pt_lim_pow.
Qed.

(** * Restatements without the counting helper *)
Lemma count_indices b e en : valid_fe b -> basis_indices b e = Ok en -> count b e = length en.
Proof. intros Hv E. destruct (en_props b e (proj1 Hv)) as (en' & E' & _ & _ & L). rewrite E in E'. inversion E'. subst. symmetry. exact L. Qed.

Lemma radial_functions' rb e r k en : radial_ok rb -> basis_indices (rb_fe rb) e = Ok en -> (e < get_nelem (rb_fe rb))%nat ->
  e = 0%nat \/ r <> 0 -> (k < length en)%nat ->
  (exists v d l, get_bf rb e (xi (rb_fe rb) e r) = Ok v /\ get_df rb e (xi (rb_fe rb) e r) = Ok d /\ get_lf rb e (xi (rb_fe rb) e r) = Ok l /\
     length v = length en /\ length d = length en /\ length l = length en) /\
  r * entry (get_bf rb e (xi (rb_fe rb) e r)) k = entry (fe_dnf (rb_fe rb) (rb_x0 rb) 0 e (xi (rb_fe rb) e r)) k /\
  derivable_pt_lim (fun r => entry (get_bf rb e (xi (rb_fe rb) e r)) k) r (entry (get_df rb e (xi (rb_fe rb) e r)) k) /\
  derivable_pt_lim (fun r => entry (get_df rb e (xi (rb_fe rb) e r)) k) r (entry (get_lf rb e (xi (rb_fe rb) e r)) k).
Proof.
  intros Hok E He Hr Hk. rewrite <- (count_indices _ _ _ (proj1 Hok) E) in *. exact (radial_functions rb Hok e r k He Hr Hk).
Qed.

Lemma nuc_values' rb P N en : radial_ok rb -> get_nbf (rb_fe rb) = Ok (Z.of_nat N) -> basis_indices (rb_fe rb) 0 = Ok en ->
  nuclear_density rb P N N = Ok (first_density rb P (length en) 0) /\
  ((forall i j, P i j = P j i) ->
   exists g, nuclear_density_gradient rb P N N = Ok g /\ derivable_pt_lim (first_density rb P (length en)) 0 g).
Proof.
  intros Hok HN E. rewrite <- (count_indices _ _ _ (proj1 Hok) E). exact (nuc_values rb Hok P N HN).
Qed.

(** * Centrifugal and nuclear attraction matrices *)
Lemma kinetic_l_psd rb lobx lobw dist scale tol sqrteps : radial_ok rb -> positive_rule lobx lobw ->
  exists M, kinetic_l lobx lobw dist scale tol sqrteps rb = Ok M /\
  forall N, get_nbf (rb_fe rb) = Ok (Z.of_nat N) -> (forall u v, form N M u v = form N M v u) /\ (forall u, 0 <= form N M u u).
Proof.
  intros Hok Hp. destruct (psd_form rb Hok lobx lobw dist scale tol sqrteps Hp R0 no_weight [] (-1)) as (M & E & H).
  { intros r _. unfold wt, no_weight. lra. }
  unfold kinetic_l, scaled. rewrite E. eexists. split; [reflexivity|]. intros N HN. destruct (H N HN) as [A B].
  split; intros; rewrite !form_scal; [rewrite A; reflexivity|]. specialize (B u). lra.
Qed.
Lemma nuclear_nsd rb lobx lobw dist scale tol sqrteps : radial_ok rb -> positive_rule lobx lobw ->
  exists M, nuclear lobx lobw dist scale tol sqrteps rb = Ok M /\
  forall N, get_nbf (rb_fe rb) = Ok (Z.of_nat N) -> (forall u v, form N M u v = form N M v u) /\ (forall u, form N M u u <= 0).
Proof.
  intros Hok Hp. destruct (psd_form rb Hok lobx lobw dist scale tol sqrteps Hp R0 r_weight [] (-1)) as (M & E & H).
  { intros r Hr. unfold wt, r_weight. exact Hr. }
  unfold nuclear, scaled. rewrite E. eexists. split; [reflexivity|]. intros N HN. destruct (H N HN) as [A B].
  split; intros; rewrite !form_scal; [rewrite A; reflexivity|]. specialize (B u). lra.
Qed.

(** What they are matrices of, as quadrature sums. *)
Lemma kinetic_l_form rb lobx lobw dist scale tol sqrteps : radial_ok rb ->
  exists (n : nat -> R * R -> nat) M, kinetic_l lobx lobw dist scale tol sqrteps rb = Ok M /\ (forall e p, (2 <= n e p <= 512)%nat) /\
  forall N, get_nbf (rb_fe rb) = Ok (Z.of_nat N) -> forall u v,
   form N M u v = sum (get_nelem (rb_fe rb)) (fun e => quad (n e (-1, 1)) (lobx (n e (-1, 1))) (lobw (n e (-1, 1))) (-1) 1 (fun x =>
          half (rb_fe rb) e * (1 / 2 * (rfield rb u e x * rfield rb v e x)))).
Proof.
  intros Hok. destruct (me_all_form rb Hok lobx lobw dist scale tol sqrteps R0 R0 no_weight [] (-1)) as (n & M & E & Hn & H).
  exists n. unfold kinetic_l, scaled. rewrite E. eexists. split; [reflexivity|]. split; [intros e p; apply Hn|].
  intros N HN u v. rewrite form_scal, (H N HN). rewrite <- sum_scal. apply sum_ext. intros e _. rewrite panels_whole. cbn [lsum fst snd].
  rewrite Rplus_0_r. unfold quad. rewrite <- sum_scal. apply sum_ext. intros q _.
  change (kfield rb R0) with (rfield rb). unfold wt, no_weight. ring.
Qed.
Lemma nuclear_form rb lobx lobw dist scale tol sqrteps : radial_ok rb ->
  exists (n : nat -> R * R -> nat) M, nuclear lobx lobw dist scale tol sqrteps rb = Ok M /\ (forall e p, (2 <= n e p <= 512)%nat) /\
  forall N, get_nbf (rb_fe rb) = Ok (Z.of_nat N) -> forall u v,
   form N M u v = sum (get_nelem (rb_fe rb)) (fun e => quad (n e (-1, 1)) (lobx (n e (-1, 1))) (lobw (n e (-1, 1))) (-1) 1 (fun x =>
          half (rb_fe rb) e * (- radius (rb_fe rb) e x * (rfield rb u e x * rfield rb v e x)))).
Proof.
  intros Hok. destruct (me_all_form rb Hok lobx lobw dist scale tol sqrteps R0 R0 r_weight [] (-1)) as (n & M & E & Hn & H).
  exists n. unfold nuclear, scaled. rewrite E. eexists. split; [reflexivity|]. split; [intros e p; apply Hn|].
  intros N HN u v. rewrite form_scal, (H N HN). rewrite <- sum_scal. apply sum_ext. intros e _. rewrite panels_whole. cbn [lsum fst snd].
  rewrite Rplus_0_r. unfold quad. rewrite <- sum_scal. apply sum_ext. intros q _.
  change (kfield rb R0) with (rfield rb). unfold wt, r_weight. ring.
Qed.

(** A first element that does not start at the origin. *)
Lemma off_origin rb lobx lobw dist scale tol sqrteps : valid_fe (rb_fe rb) -> 1 / 10 ^ 14 < Rabs (lo (rb_fe rb) 0) ->
  kinetic_l lobx lobw dist scale tol sqrteps rb = UB /\ nuclear lobx lobw dist scale tol sqrteps rb = UB.
Proof.
  intros Hv Hl. assert (Hn : (0 < get_nelem (rb_fe rb))%nat) by (destruct Hv as (_ & A & _); unfold get_nelem; lia).
  assert (G : forall x, get_bf rb 0 x = Throw LogicError).
  { intros x. unfold get_bf, fe_over_r. cbn [Nat.eqb]. rewrite begin_ok by exact Hn. cbn [bind]. fold (lo (rb_fe rb) 0).
    destruct (Rltb_spec (1 / 10 ^ 14) (Rabs (lo (rb_fe rb) 0))); [reflexivity | lra]. }
  assert (M : forall f, me_all lobx lobw dist scale tol sqrteps rb R0 R0 f [] (-1) = UB).
  { intros f. unfold me_all. replace (get_nelem (rb_fe rb)) with (S (get_nelem (rb_fe rb) - 1)) by lia. cbn [seq each].
    unfold me at 1, me_range. rewrite mid_ok, sf_ok by exact Hn. cbn [bind kind_eval]. rewrite G. reflexivity. }
  unfold kinetic_l, nuclear, scaled. rewrite !M. split; reflexivity.
Qed.

(** * The shifted polynomial confinement *)
Lemma hat_top x : entry (fe_dnf (rb_fe hat) two_nodes 0 1 x) 1 = (1 + x) / 2.
Proof.
  rewrite (dnf_row (rb_fe hat) two_nodes 0 1 x [0; 1]%nat ltac:(cbn; lia) ltac:(cbn; lia) eq_refl). cbn [entry map nth].
  unfold pval. cbn [rb_fe hat fe_fam fe_n prim_dnf pow]. unfold lip_dnf. cbn [lip_nest]. unfold lip_prod, lip_div, lip_factor.
  cbn [seq fold_left existsb Nat.eqb orb two_nodes nth]. unfold two_nodes. cbn [Nat.eqb]. field.
Qed.
Lemma hat_panels : panels 2 1 (-1) 1 [2] = [(-1, 0); (0, 1)].
Proof.
  unfold panels, panel_bounds. cbn [map filter]. replace ((2 - 2) / 1) with 0 by field.
  destruct (Rltb_spec (-1) 0); [|lra]. destruct (Rltb_spec 0 1); [|lra]. cbn [andb app]. unfold sortR. cbn [fold_right insertR].
  destruct (Rleb_spec 0 1); [|lra]. cbn [insertR]. destruct (Rleb_spec (-1) 0); [|lra].
  cbn [consecutive filter fst snd].
  repeat match goal with |- context [Rltb ?a ?b] => destruct (Rltb_spec a b); [|lra] end. reflexivity.
Qed.
Lemma hat_entry n V M : (forall p, (5 <= n p <= 512)%nat) -> matrix_of hat simp_x simp_w n [2] 1 V M ->
  M 1%nat 1%nat = 1 / 2 * (4 / 3 * V (3 / 2) * (1 / 16) + 1 / 3 * V 2 * (1 / 4)) + 1 / 2 * (1 / 3 * V 2 * (1 / 4) + 4 / 3 * V (5 / 2) * (9 / 16) + 1 / 3 * V 3).
Proof.
  intros Hn H. rewrite (H 1%nat 1%nat).
  replace ((lo (rb_fe hat) 1 + hi (rb_fe hat) 1) / 2) with 2 by (unfold lo, hi; cbn; field).
  assert (Hh : half (rb_fe hat) 1 = 1) by (unfold half, lo, hi; cbn; field). rewrite Hh. rewrite hat_panels. cbn [lsum fst snd].
  pose proof (Hn (-1, 0)) as H1. pose proof (Hn (0, 1)) as H2. rewrite !simp_quad by lia. cbn [rb_x0 hat]. rewrite !hat_top.
  unfold radius. rewrite Hh. replace ((lo (rb_fe hat) 1 + hi (rb_fe hat) 1) / 2) with 2 by (unfold lo, hi; cbn; field).
  replace (2 + 1 * -1) with 1 by ring. replace (2 + 1 * ((-1 + 0) / 2)) with (3 / 2) by field. replace (2 + 1 * 0) with 2 by ring.
  replace (2 + 1 * ((0 + 1) / 2)) with (5 / 2) by field. replace (2 + 1 * 1) with 3 by ring. field.
Qed.
Lemma shifted_refuted : radial_ok hat /\ positive_rule simp_x simp_w /\ forall dist scale tol sqrteps,
  exists B, confinement_potential simp_x simp_w dist scale tol sqrteps hat 1 0 1 1 0 2 = Ok B /\
  forall n, (forall p, (5 <= n p <= 512)%nat) -> ~ matrix_of hat simp_x simp_w n [2] 1 (conf_poly 0 1 2) B.
Proof.
  split; [exact hat_ok|]. split; [exact simp_positive|]. intros.
  destruct (conf_poly_matrix hat hat_ok simp_x simp_w dist scale tol sqrteps 1 0 1 0 2) as (n0 & B & E & Hn0 & HB);
    [cbn; lia | lra | exact simp_positive | left; lia |].
  exists B. split; [exact E|]. intros n Hn HM. apply (hat_entry n0 _ B Hn0) in HB. apply (hat_entry n _ B Hn) in HM. rewrite HB in HM. clear HB.
  revert HM. unfold conf_poly. cbn [pow].
  repeat match goal with |- context [Rltb ?a ?b] => destruct (Rltb_spec a b); [try (exfalso; lra)|try (exfalso; lra)] end.
  destruct (Reqb_spec 2 0); [lra|]. lra.
Qed.

(** The hat functions: B = r on the first element, so R = 1 there. *)
Lemma hat_first x : get_bf hat 0 x = Ok [1].
Proof.
  destruct (kind_total hat hat_ok R0 0 x ltac:(cbn; lia)) as (v & E & L). cbn [kind_eval] in E. rewrite E.
  change (count (rb_fe hat) 0) with 1%nat in L. destruct v as [|a [|? ?]]; cbn in L; try lia. f_equal. f_equal.
  unfold get_bf, fe_over_r in E. cbn [Nat.eqb] in E. rewrite begin_ok in E by (cbn; lia). cbn [bind] in E.
  destruct (Rltb _ _); [discriminate|]. change (basis_indices (rb_fe hat) 0) with (@Ok (list nat) [1%nat]) in E. cbn [bind] in E.
  rewrite sf_ok in E by (cbn; lia). cbn [bind] in E. unfold eval_over_r in E. cbn [rb_fe hat fe_fam max_over_r Nat.leb map] in E.
  inversion E as [E']. clear E. unfold half, lo, hi. cbn [rb_fe hat fe_bval nth plus fe_n rb_x0 over_r].
  unfold lip_over_r, lip_dnf, lip_factor. cbn [Nat.sub Nat.add lip_nest nth pow]. unfold lip_prod, lip_div. cbn [seq fold_left existsb Nat.eqb orb].
  unfold two_nodes. cbn [Nat.eqb]. field.
Qed.
Lemma hat_nuclear : nuclear_density hat mid 2 2 = Ok 1.
Proof.
  destruct (nuc_values' hat mid 2 [1%nat] hat_ok eq_refl eq_refl) as [E _]. rewrite E. f_equal. unfold first_density, first_fn.
  rewrite !hat_first. unfold mid. cbn. ring.
Qed.
Lemma hat_in : in_element (rb_fe hat) 1 2 /\ hi (rb_fe hat) (get_nelem (rb_fe hat) - 1) = 3.
Proof. unfold in_element, hi. cbn. split; [lra | reflexivity]. Qed.

(** * Filling the caches succeeds *)
Lemma each_ok {A B} (g : A -> res B) l : (forall a, exists v, g a = Ok v) -> exists v, each g l = Ok v.
Proof.
  intros H. induction l as [|a l (v & IH)]; [exists []; reflexivity|]. cbn [each]. destruct (H a) as (w & ->). cbn [bind]. rewrite IH.
  exists (w :: v). reflexivity.
Qed.
Lemma fill1_ok need ev c i : (exists m, ev = Ok m) -> exists c', fill1 need ev c i = (c', Ok tt).
Proof. intros (m & ->). unfold fill1. destruct (need && _)%bool; eexists; reflexivity. Qed.
Lemma fill_succeeds rb nd nl c : radial_ok rb -> exists c', fill_quadrature_cache rb nd nl c = (c', Ok tt).
Proof.
  intros Hok. unfold fill_quadrature_cache. generalize (mkCache (resized (get_nelem (rb_fe rb)) (bfq c)) (resized (get_nelem (rb_fe rb)) (dfq c)) (resized (get_nelem (rb_fe rb)) (lfq c))).
  assert (H : forall i, In i (seq 0 (get_nelem (rb_fe rb))) -> (i < get_nelem (rb_fe rb))%nat) by (intros i Hi; apply in_seq in Hi; lia).
  revert H. induction (seq 0 (get_nelem (rb_fe rb))) as [|e l IH]; intros H k; [exists k; reflexivity|]. cbn [fill_loop].
  pose proof (H e (or_introl eq_refl)) as He.
  assert (T : forall kd, exists m, each (kind_eval rb kd e) (rb_xq rb) = Ok m).
  { intros kd. apply each_ok. intros x. destruct (kind_total rb Hok kd e x He) as (v & E & _). exists v. exact E. }
  destruct (fill1_ok true (bf_table rb e) (bfq k) e (T R0)) as (c1 & ->).
  destruct (fill1_ok nd (df_table rb e) (dfq k) e (T R1)) as (c2 & ->).
  destruct (fill1_ok nl (lf_table rb e) (lfq k) e (T R2)) as (c3 & ->).
  apply IH. intros i Hi. apply H. right. exact Hi.
Qed.
(** A history after which the caches of the Hermite basis are in use. *)
Lemma cache_case : last_basis hat [Fill true false; Replace herm; Fill false true; Fill true true] = herm /\
  exists c', fill_quadrature_cache herm true true (snd (run hat [Fill true false; Replace herm; Fill false true])) = (c', Ok tt).
Proof. split; [reflexivity | apply fill_succeeds; exact herm_ok]. Qed.

(** A Gauss-Lobatto rule integrates products of the functions of every basis below the
    cap of the order. *)
Lemma offcenter_case : ~ (lo (rb_fe hat) 1 < 1 < hi (rb_fe hat) 1) /\ lo (rb_fe hat) 1 < 2 < hi (rb_fe hat) 1.
Proof. unfold lo, hi. cbn. lra. Qed.
Lemma off_case : let rb := mkRad (mkFE LIP 2 [1; 2] true false false false) two_nodes [] [] in
  valid_fe (rb_fe rb) /\ 1 / 10 ^ 14 < Rabs (lo (rb_fe rb) 0).
Proof.
  cbv zeta. split.
  - split; [cbn; lia|]. split; [cbn; lia|]. intros i j H1 H2. cbn [rb_fe fe_bval length] in *. destruct i as [|[|i]]; destruct j as [|[|j]]; try lia; cbn [nth]; lra.
  - unfold lo. cbn [rb_fe fe_bval nth]. rewrite Rabs_R1. apply (Rmult_lt_reg_r (10 ^ 14)); [apply pow_lt; lra|].
    unfold Rdiv. rewrite Rmult_assoc, Rinv_l by (apply pow_nonzero; lra). cbn [pow]. lra.
Qed.
Lemma conf_cases : conf_ok 1 2 0 3 /\ conf_ok 2 1 0 0 /\ conf_ok 3 0 5 1 /\ conf_ok 4 2 1 0 /\ ~ conf_ok 1 (-1) 0 1 /\ ~ conf_ok 5 1 1 0.
Proof.
  unfold conf_ok. repeat split.
  - left. split; [reflexivity | left; lia].
  - right. left. split; [reflexivity | lia].
  - right. right. left. split; [reflexivity | lra].
  - right. right. right. split; [reflexivity | split; [lia | lra]].
  - intros [(_ & [A|A])|[(A & _)|[(A & _)|(A & _)]]]; try lia; lra.
  - intros [(A & _)|[(A & _)|[(A & _)|(A & _)]]]; lia.
Qed.
