(** Proofs about the radial functions, orbitals and values at the nucleus. *)
Require Import Reals List Arith Bool ZArith Lia Lra.
Require Import Verif.Prelude Verif.FEModel Verif.FESpec Verif.FEProofs.
Require Import Verif.ShapeModel Verif.ShapeSpec Verif.ShapeProofs.
Require Import Verif.RadModel Verif.RadSpec Verif.RadProofs.
Import ListNotations.
Open Scope R_scope.

Lemma nodes_good b x0 : valid_fe b -> nodes_ok (fe_fam b) (fe_n b) x0 -> good (fe_fam b) (fe_n b) x0.
Proof.
  intros (H2 & _) Hx. unfold nodes_ok in Hx. destruct (fe_fam b); cbn [good]; [exact H2|..];
  apply Hx; discriminate.
Qed.
Lemma nodes_origin b x0 : valid_fe b -> nodes_ok (fe_fam b) (fe_n b) x0 -> origin (fe_fam b) (fe_n b) x0.
Proof. intros Hv Hx. split; [apply nodes_good; assumption|]. intros H. apply (Hx H). Qed.

Lemma pval_der b x0 n e idx r : valid_fe b -> nodes_ok (fe_fam b) (fe_n b) x0 -> (e < get_nelem b)%nat ->
  (idx < nprim (fe_fam b) (fe_n b))%nat -> (n < max_order (fe_fam b))%nat ->
  derivable_pt_lim (fun r => pval b x0 n e idx (xi b e r)) r (pval b x0 (S n) e idx (xi b e r)).
Proof.
  intros Hv Hx He Hi Hn. pose proof (half_pos b e Hv He) as Hh.
  destruct (derivative_tables (fe_fam b) (fe_n b) x0 [idx] n (half b e) ((lo b e + hi b e) / 2) r 0) as (_ & _ & D).
  - apply nodes_good; assumption.
  - intros i [<-|[]]. exact Hi.
  - exact Hn.
  - lra.
  - cbn; lia.
  - assert (E : forall m y, (m <= max_order (fe_fam b))%nat ->
      entry (eval_dnf (fe_fam b) (fe_n b) x0 [idx] m (half b e) ((y - (lo b e + hi b e) / 2) / half b e)) 0 = pval b x0 m e idx (xi b e y)).
    { intros m y Hm. unfold eval_dnf. rewrite (proj2 (Nat.leb_le _ _) Hm). reflexivity. }
    rewrite E in D by lia. eapply derivable_pt_lim_ext; [|exact D]. intros y. apply E. lia.
Qed.

Lemma coord_xi b e r : valid_fe b -> (e < get_nelem b)%nat -> eval_coord b (xi b e r) e = Ok r.
Proof.
  intros Hv He. rewrite coord_ok by exact He. f_equal. pose proof (half_pos b e Hv He). unfold xi, half, lo, hi in *.
  field. lra.
Qed.

Lemma one_le_order f : (2 <= max_order f)%nat. Proof. destruct f; cbn; lia. Qed.
Lemma two_le_over f : (2 <= max_over_r f)%nat. Proof. destruct f; cbn; lia. Qed.

Section Radial.
Variable rb : rad.
Hypothesis Hok : radial_ok rb.
Let b := rb_fe rb.
Let x0 := rb_x0 rb.
Lemma Hv : valid_fe b. Proof. exact (proj1 Hok). Qed.
Lemma Hx : nodes_ok (fe_fam b) (fe_n b) x0. Proof. exact (proj1 (proj2 Hok)). Qed.

Lemma first_pos : forall en i, basis_indices b 0 = Ok en -> In i en -> (1 <= i < nprim (fe_fam b) (fe_n b))%nat.
Proof.
  intros en i E Hi. destruct (en_all b 0 (proj1 Hv)) as (en' & E' & _ & B & _ & RL & _).
  rewrite E in E'. injection E' as <-. split; [|apply B; exact Hi].
  destruct i as [|i]; [|lia]. exfalso. specialize (RL 0%nat Hi eq_refl).
  pose proof Hok as (_ & _ & _ & Hz & _). fold b in Hz. rewrite Hz in RL.
  unfold removed_at, node_of, kind_of in RL. rewrite Nat.div_0_l, Nat.mod_0_l in RL by (pose proof (noverlap_pos (fe_fam b)); lia).
  discriminate.
Qed.

Lemma over_eq n x en : basis_indices b 0 = Ok en ->
  fe_over_r b x0 n 0 x = eval_over_r (fe_fam b) (fe_n b) x0 en n (half b 0) x.
Proof.
  intros E. assert (Hne : (0 < get_nelem b)%nat) by (pose proof Hv as (_ & H & _); unfold get_nelem; lia).
  unfold fe_over_r. rewrite begin_ok by exact Hne. cbn [bind].
  pose proof Hok as (_ & _ & H0 & _). unfold lo in H0. fold b in H0. rewrite H0.
  destruct (Rltb_spec (1 / 10 ^ 14) (Rabs 0)) as [H|_].
  { exfalso. rewrite Rabs_R0 in H. assert (0 < 10 ^ 14) by (apply pow_lt; lra).
    assert (0 < 1 / 10 ^ 14) by (apply Rdiv_lt_0_compat; lra). lra. }
  rewrite E. cbn [bind]. rewrite sf_ok by exact Hne. reflexivity.
Qed.
Lemma xi_first r : xi b 0 r = r / half b 0 - 1.
Proof.
  assert (Hne : (0 < get_nelem b)%nat) by (pose proof Hv as (_ & H & _); unfold get_nelem; lia).
  pose proof (half_pos b 0 Hv Hne) as Hh. pose proof Hok as (_ & _ & H0 & _). fold b in H0.
  unfold xi, half in *. rewrite H0 in *. field. lra.
Qed.

(** Closed forms of the three evaluators in the later elements. *)
Lemma later_bf e r en : (e < get_nelem b)%nat -> e <> 0%nat -> basis_indices b e = Ok en ->
  get_bf rb e (xi b e r) = Ok (map (fun idx => pval b x0 0 e idx (xi b e r) / r) en).
Proof.
  intros He H0 E. unfold get_bf. destruct (Nat.eqb_spec e 0); [contradiction|]. fold b x0.
  rewrite (dnf_row b x0 0 e _ en He) by (lia || exact E). cbn [bind]. rewrite coord_xi by (exact Hv || exact He). cbn [bind].
  rewrite map_map. reflexivity.
Qed.
Lemma combine_map {A B C} (f : A -> B) (g : A -> C) l : combine (map f l) (map g l) = map (fun a => (f a, g a)) l.
Proof. induction l; cbn; [reflexivity|]. now rewrite IHl. Qed.
Lemma later_df e r en : (e < get_nelem b)%nat -> e <> 0%nat -> basis_indices b e = Ok en ->
  get_df rb e (xi b e r) = Ok (map (fun idx => (- pval b x0 0 e idx (xi b e r) * (1 / r) + pval b x0 1 e idx (xi b e r)) * (1 / r)) en).
Proof.
  intros He H0 E. pose proof (one_le_order (fe_fam b)). unfold get_df. destruct (Nat.eqb_spec e 0); [contradiction|]. fold b x0.
  rewrite !(dnf_row b x0 _ e _ en He) by (lia || exact E). cbn [bind]. rewrite coord_xi by (exact Hv || exact He). cbn [bind].
  rewrite combine_map, map_map. reflexivity.
Qed.
Lemma later_lf e r en : (e < get_nelem b)%nat -> e <> 0%nat -> basis_indices b e = Ok en ->
  get_lf rb e (xi b e r) = Ok (map (fun idx => ((2 * pval b x0 0 e idx (xi b e r) * (1 / r) - 2 * pval b x0 1 e idx (xi b e r)) * (1 / r)
     + pval b x0 2 e idx (xi b e r)) * (1 / r)) en).
Proof.
  intros He H0 E. pose proof (one_le_order (fe_fam b)). unfold get_lf. destruct (Nat.eqb_spec e 0); [contradiction|]. fold b x0.
  rewrite !(dnf_row b x0 _ e _ en He) by (lia || exact E). cbn [bind]. rewrite coord_xi by (exact Hv || exact He). cbn [bind].
  rewrite !combine_map, map_map. reflexivity.
Qed.

Lemma inv_der r : r <> 0 -> derivable_pt_lim (fun y => 1 / y) r (- (1 / r) * (1 / r)).
Proof.
  intros Hr. replace (- (1 / r) * (1 / r)) with ((0 * r - 1 * 1) / Rsqr r) by (unfold Rsqr; field; exact Hr).
  apply (derivable_pt_lim_div (fun _ => 1) (fun y => y)); [apply derivable_pt_lim_const | apply derivable_pt_lim_id | exact Hr].
Qed.

Lemma radial_functions e r k : (e < get_nelem b)%nat -> e = 0%nat \/ r <> 0 -> (k < count b e)%nat ->
  (exists v d l, get_bf rb e (xi b e r) = Ok v /\ get_df rb e (xi b e r) = Ok d /\ get_lf rb e (xi b e r) = Ok l /\
     length v = count b e /\ length d = count b e /\ length l = count b e) /\
  r * entry (get_bf rb e (xi b e r)) k = entry (fe_dnf b x0 0 e (xi b e r)) k /\
  derivable_pt_lim (fun r => entry (get_bf rb e (xi b e r)) k) r (entry (get_df rb e (xi b e r)) k) /\
  derivable_pt_lim (fun r => entry (get_df rb e (xi b e r)) k) r (entry (get_lf rb e (xi b e r)) k).
Proof.
  intros He Hr Hk. destruct (en_props b e (proj1 Hv)) as (en & E & Hd & B & L).
  pose proof (one_le_order (fe_fam b)) as Ho. pose proof (two_le_over (fe_fam b)) as Hov.
  rewrite <- L in Hk |- *. set (idx := nth k en 0%nat).
  assert (Hi : (idx < nprim (fe_fam b) (fe_n b))%nat) by (apply B; apply nth_In; exact Hk).
  destruct (Nat.eq_dec e 0) as [->|He0].
  - (* the first element *)
    pose proof (half_pos b 0 Hv He) as Hh.
    assert (Hne : en <> []) by (intros ->; cbn in Hk; lia).
    assert (Hp : forall i, In i en -> (1 <= i < nprim (fe_fam b) (fe_n b))%nat) by (intros i Hin; exact (first_pos en i E Hin)).
    assert (Hp1 : forall i, In i en -> (1 <= i)%nat) by (intros i Hin; apply Hp; exact Hin).
    pose proof (nodes_origin b x0 Hv Hx) as Hor.
    assert (Gb : forall y, get_bf rb 0 y = eval_over_r (fe_fam b) (fe_n b) x0 en 0 (half b 0) y) by (intros y; apply over_eq; exact E).
    assert (Gd : forall y, get_df rb 0 y = eval_over_r (fe_fam b) (fe_n b) x0 en 1 (half b 0) y) by (intros y; apply over_eq; exact E).
    assert (Gl : forall y, get_lf rb 0 y = eval_over_r (fe_fam b) (fe_n b) x0 en 2 (half b 0) y) by (intros y; apply over_eq; exact E).
    rewrite Gb, Gd, Gl.
    split; [|split; [|split]].
    + rewrite !over_ok by (assumption || lia). do 3 eexists. repeat split; try reflexivity; apply map_length.
    + destruct (over_r_value (fe_fam b) (fe_n b) x0 en (half b 0) (xi b 0 r) k Hor Hne Hp ltac:(lra) Hk) as [_ V].
      unfold fe_dnf. rewrite E. cbn [bind]. rewrite sf_ok by exact He. cbn [bind]. rewrite <- V.
      f_equal. rewrite xi_first. field. lra.
    + destruct (over_r_derivs (fe_fam b) (fe_n b) x0 en 0 (half b 0) r k Hor Hne Hp ltac:(lra) Hk ltac:(lia)) as [_ D].
      rewrite xi_first. eapply derivable_pt_lim_ext; [|exact D]. intros y. cbn beta. rewrite Gb, xi_first. reflexivity.
    + destruct (over_r_derivs (fe_fam b) (fe_n b) x0 en 1 (half b 0) r k Hor Hne Hp ltac:(lra) Hk ltac:(lia)) as [_ D].
      rewrite xi_first. eapply derivable_pt_lim_ext; [|exact D]. intros y. cbn beta. rewrite Gd, xi_first. reflexivity.
  - destruct Hr as [Hr|Hr]; [contradiction|].
    pose proof (later_bf e r en He He0 E) as Gb. pose proof (later_df e r en He He0 E) as Gd. pose proof (later_lf e r en He He0 E) as Gl.
    split; [|split; [|split]].
    + rewrite Gb, Gd, Gl. do 3 eexists. repeat split; try reflexivity; apply map_length.
    + rewrite Gb, (dnf_row b x0 0 e _ en He) by (lia || exact E). cbn [entry]. rewrite !entry_map by exact Hk. field. exact Hr.
    + rewrite Gd. cbn [entry]. rewrite entry_map by exact Hk. fold idx.
      apply (derivable_pt_lim_ext (fun y => pval b x0 0 e idx (xi b e y) * (1 / y))).
      { intros y. rewrite (later_bf e y en He He0 E). cbn [entry]. rewrite entry_map by exact Hk. fold idx. unfold Rdiv. ring. }
      replace ((- pval b x0 0 e idx (xi b e r) * (1 / r) + pval b x0 1 e idx (xi b e r)) * (1 / r))
        with (pval b x0 1 e idx (xi b e r) * (1 / r) + pval b x0 0 e idx (xi b e r) * (- (1 / r) * (1 / r))) by ring.
      apply (derivable_pt_lim_mult (fun y => pval b x0 0 e idx (xi b e y)) (fun y => 1 / y)).
      * apply pval_der; exact Hv || exact Hx || assumption || lia.
      * apply inv_der; exact Hr.
    + rewrite Gl. cbn [entry]. rewrite entry_map by exact Hk. fold idx.
      apply (derivable_pt_lim_ext (fun y => (- pval b x0 0 e idx (xi b e y) * (1 / y) + pval b x0 1 e idx (xi b e y)) * (1 / y))).
      { intros y. rewrite (later_df e y en He He0 E). cbn [entry]. rewrite entry_map by exact Hk. reflexivity. }
      set (F0 := fun y => pval b x0 0 e idx (xi b e y)). set (F1 := fun y => pval b x0 1 e idx (xi b e y)).
      change (pval b x0 0 e idx (xi b e r)) with (F0 r). change (pval b x0 1 e idx (xi b e r)) with (F1 r).
      set (F2r := pval b x0 2 e idx (xi b e r)).
      assert (D0 : derivable_pt_lim F0 r (F1 r)) by (apply pval_der; exact Hv || exact Hx || assumption || lia).
      assert (D1 : derivable_pt_lim F1 r F2r) by (apply pval_der; exact Hv || exact Hx || assumption || lia).
      replace (((2 * F0 r * (1 / r) - 2 * F1 r) * (1 / r) + F2r) * (1 / r))
        with (((- F1 r * (1 / r) + (- F0 r) * (- (1 / r) * (1 / r))) + F2r) * (1 / r) + (- F0 r * (1 / r) + F1 r) * (- (1 / r) * (1 / r))) by ring.
      apply (derivable_pt_lim_mult (fun y => - F0 y * (1 / y) + F1 y) (fun y => 1 / y)); [|apply inv_der; exact Hr].
      apply (derivable_pt_lim_plus (fun y => - F0 y * (1 / y)) F1); [|exact D1].
      apply (derivable_pt_lim_mult (fun y => - F0 y) (fun y => 1 / y)); [|apply inv_der; exact Hr].
      apply (derivable_pt_lim_opp F0). exact D0.
Qed.

Lemma nel_pos : (1 <= get_nelem b)%nat.
Proof. pose proof Hv as (_ & H & _). unfold get_nelem. lia. Qed.

Lemma rfield_field c e r : (e < get_nelem b)%nat -> e = 0%nat \/ r <> 0 ->
  r * rfield rb c e (xi b e r) = field b x0 c 0 e (xi b e r).
Proof.
  intros He Hr. destruct (en_props b e (proj1 Hv)) as (en & E & _ & _ & L).
  destruct (idx_total b e (proj1 Hv) He) as (f & l & I).
  pose proof (dnf_row b x0 0 e (xi b e r) en He ltac:(lia) E) as D.
  rewrite (field_row _ _ _ _ _ _ _ _ _ D I), map_length.
  unfold rfield. fold b. rewrite I.
  destruct (Nat.eq_dec (length en) 0) as [Z|Z].
  - assert (en = []) as -> by (destruct en; [reflexivity|discriminate]). cbn [length sum].
    destruct (Nat.eq_dec e 0) as [->|].
    + exfalso. pose proof Hok as (_ & _ & _ & _ & Hne). exact (Hne [] E eq_refl).
    + rewrite (later_bf e r [] He n E). cbn. ring.
  - destruct (radial_functions e r 0 He Hr ltac:(lia)) as ((v & d & lf & Gb & _ & _ & Lv & _) & _).
    rewrite Gb, Lv, <- L. rewrite <- sum_scal. apply sum_ext. intros k Hk.
    destruct (radial_functions e r k He Hr ltac:(lia)) as (_ & V & _). fold b x0 in V. rewrite Gb, D in V. cbn [entry] in V.
    rewrite <- V. ring.
Qed.

Lemma xi_ends e : (e < get_nelem b)%nat -> xi b e (hi b e) = 1 /\ xi b e (lo b e) = -1.
Proof. intros He. pose proof (half_pos b e Hv He). unfold xi, half in *. split; field; lra. Qed.

Lemma rfield_any c e i r : (e < get_nelem b)%nat -> (i < get_nelem b)%nat -> in_element b e r -> in_element b i r ->
  rfield rb c e (xi b e r) = rfield rb c i (xi b i r).
Proof.
  assert (W : forall e i, (e < i)%nat -> (i < get_nelem b)%nat -> in_element b e r -> in_element b i r ->
    rfield rb c e (xi b e r) = rfield rb c i (xi b i r)).
  { clear e i. intros e i Hei Hi H1 H2. pose proof Hv as (_ & Hl & Hinc). unfold in_element in H1, H2.
    assert (Hlen : (i + 1 < length (fe_bval b))%nat) by (unfold get_nelem in Hi; lia).
    assert (i = S e) as ->.
    { destruct (Nat.eq_dec i (S e)); [assumption|]. exfalso.
      assert (nth (e + 1) (fe_bval b) 0 < nth i (fe_bval b) 0) by (apply Hinc; lia). lra. }
    replace (e + 1)%nat with (S e) in H1 by lia.
    assert (Er : r = nth (S e) (fe_bval b) 0) by lra.
    assert (Hp : 0 < r).
    { pose proof Hok as (_ & _ & H0 & _). unfold lo in H0. fold b in H0. rewrite <- H0, Er. apply Hinc; lia. }
    assert (He : (e < get_nelem b)%nat) by lia.
    apply (Rmult_eq_reg_l r); [|lra].
    rewrite !rfield_field by (assumption || (right; lra)).
    assert (E1 : xi b e r = 1). { rewrite <- (proj1 (xi_ends e He)). unfold hi. f_equal. rewrite Er. f_equal. lia. }
    assert (E2 : xi b (S e) r = -1). { rewrite <- (proj2 (xi_ends (S e) Hi)). unfold lo. f_equal. exact Er. }
    rewrite E1, E2. apply (field_joins b x0 c 0 e); [exact Hv | exact Hx | exact Hi | apply noverlap_pos]. }
  intros He Hi H1 H2. destruct (lt_eq_lt_dec e i) as [[H|<-]|H]; [apply W; assumption | reflexivity | symmetry; apply W; assumption].
Qed.

Lemma mid_prim e r : (e < get_nelem b)%nat -> in_element b e r -> eval_prim b r e = Ok (xi b e r).
Proof.
  intros He H. rewrite (prim_ok b r e Hv He). unfold in_element in H.
  destruct (Rltb_spec r (nth e (fe_bval b) 0)); [lra|]. destruct (Rltb_spec (nth (e + 1) (fe_bval b) 0) r); [lra|].
  cbn [orb]. f_equal. unfold xi, half, lo, hi. f_equal. lra.
Qed.

Lemma column_rfield C e x v f l j : get_bf rb e x = Ok v -> get_idx b e = Ok (f, l) ->
  column C (Z.to_nat f) v j = rfield rb (fun g => C g j) e x.
Proof.
  intros E I. unfold column, rfield. fold b. rewrite E, I. apply sum_ext. intros k _. ring.
Qed.

Lemma bf_total e x : (e < get_nelem b)%nat -> exists v, get_bf rb e x = Ok v.
Proof.
  intros He. destruct (en_props b e (proj1 Hv)) as (en & E & _ & B & L).
  unfold get_bf. fold b x0. destruct (Nat.eqb_spec e 0) as [->|H0].
  - rewrite (over_eq 0 x en E). rewrite over_ok; [eexists; reflexivity | lia | |].
    + pose proof Hok as (_ & _ & _ & _ & Hne). exact (Hne en E).
    + intros i Hi. apply (first_pos en i E Hi).
  - rewrite (dnf_row b x0 0 e x en He ltac:(lia) E). cbn [bind]. rewrite coord_ok by exact He. cbn [bind]. eexists; reflexivity.
Qed.

Lemma orbitals C ncol r fuel : (get_nelem b <= fuel)%nat ->
  (hi b (get_nelem b - 1) < r -> eval_orbs rb C ncol r fuel = Ok (repeat 0 ncol)) /\
  (r < 0 -> eval_orbs rb C ncol r fuel = Throw LogicError) /\
  (forall e, (e < get_nelem b)%nat -> in_element b e r ->
     eval_orbs rb C ncol r fuel = Ok (map (fun j => rfield rb (fun g => C g j) e (xi b e r)) (seq 0 ncol))).
Proof.
  intros Hf. pose proof nel_pos as Hn. pose proof Hok as (_ & _ & H0 & _). unfold lo in H0. fold b in H0.
  pose proof Hv as (_ & Hlen & Hinc).
  assert (Hmax : nth 0 (fe_bval b) 0 <= nth (get_nelem b - 1 + 1) (fe_bval b) 0) by (apply increasing_le; auto; unfold get_nelem in *; lia).
  unfold eval_orbs. fold b. rewrite end_ok by lia. cbn [bind]. unfold hi.
  split; [|split].
  - intros H. destruct (Rltb_spec (nth (get_nelem b - 1 + 1) (fe_bval b) 0) r); [reflexivity|lra].
  - intros H. destruct (Rltb_spec (nth (get_nelem b - 1 + 1) (fe_bval b) 0) r); [lra|].
    destruct (find_element_finite b r fuel Hv Hf) as (i & E & Hi & Hlow & _). rewrite Hlow in E by lra.
    rewrite E. cbn [bind]. rewrite prim_outside; [reflexivity | exact Hv | lia |]. unfold in_element. lra.
  - intros e He Hin.
    assert (Hrmax : r <= nth (get_nelem b - 1 + 1) (fe_bval b) 0).
    { unfold in_element in Hin. eapply Rle_trans; [apply Hin|]. apply increasing_le; auto; unfold get_nelem in *; lia. }
    assert (Hrmin : nth 0 (fe_bval b) 0 <= r).
    { unfold in_element in Hin. eapply Rle_trans; [|apply Hin]. apply increasing_le; auto; unfold get_nelem in *; lia. }
    destruct (Rltb_spec (nth (get_nelem b - 1 + 1) (fe_bval b) 0) r); [lra|].
    destruct (find_element_finite b r fuel Hv Hf) as (i & E & Hi & _ & _ & Hi2).
    replace (get_nelem b - 1 + 1)%nat with (get_nelem b) in Hrmax by lia.
    specialize (Hi2 (conj Hrmin Hrmax)). rewrite E. cbn [bind]. rewrite (mid_prim i r Hi Hi2). cbn [bind].
    destruct (bf_total i (xi b i r) Hi) as (v & Gv). rewrite Gv. cbn [bind].
    destruct (idx_total b i (proj1 Hv) Hi) as (f & l & I). rewrite I. cbn [bind fst]. f_equal. apply map_ext. intros j.
    rewrite (column_rfield C i (xi b i r) v f l j Gv I). apply rfield_any; assumption.
Qed.

(** * At the nucleus *)
Lemma sum_der n (f : nat -> R -> R) (l : nat -> R) x : (forall k, (k < n)%nat -> derivable_pt_lim (f k) x (l k)) ->
  derivable_pt_lim (fun y => sum n (fun k => f k y)) x (sum n l).
Proof.
  induction n as [|n IH]; intros H; cbn [sum]; [apply derivable_pt_lim_const|].
  apply (derivable_pt_lim_plus (fun y => sum n (fun k => f k y)) (f n)); [apply IH; intros; apply H; lia | apply H; lia].
Qed.

Definition Rk (k : nat) (r : R) : R := entry (get_bf rb 0 (xi b 0 r)) k.
Lemma origin_values k : (k < count b 0)%nat ->
  entry (fe_dnf b x0 1 0 (-1)) k = entry (get_bf rb 0 (-1)) k /\
  entry (fe_dnf b x0 2 0 (-1)) k = 2 * entry (get_df rb 0 (-1)) k.
Proof.
  intros Hk. pose proof nel_pos as Hn. destruct (en_props b 0 (proj1 Hv)) as (en & E & _ & B & L).
  pose proof (one_le_order (fe_fam b)) as Ho. set (idx := nth k en 0%nat).
  assert (Hk' : (k < length en)%nat) by lia.
  assert (Hi : (idx < nprim (fe_fam b) (fe_n b))%nat) by (apply B; apply nth_In; exact Hk').
  assert (X0 : xi b 0 0 = -1). { rewrite xi_first. unfold Rdiv. ring. }
  assert (P : forall m y, (m <= 2)%nat -> entry (fe_dnf b x0 m 0 y) k = pval b x0 m 0 idx y).
  { intros m y Hm. rewrite (dnf_row b x0 m 0 y en) by (exact E || lia). cbn [entry]. rewrite entry_map by exact Hk'. reflexivity. }
  set (D := fun r => entry (get_df rb 0 (xi b 0 r)) k). set (L2 := fun r => entry (get_lf rb 0 (xi b 0 r)) k).
  assert (DR : forall r, derivable_pt_lim (Rk k) r (D r)) by (intros r; apply (radial_functions 0 r k ltac:(lia) (or_introl eq_refl) Hk)).
  assert (DD : forall r, derivable_pt_lim D r (L2 r)) by (intros r; apply (radial_functions 0 r k ltac:(lia) (or_introl eq_refl) Hk)).
  assert (V : forall r, r * Rk k r = pval b x0 0 0 idx (xi b 0 r)).
  { intros r. rewrite <- P by lia. apply (radial_functions 0 r k ltac:(lia) (or_introl eq_refl) Hk). }
  assert (F1 : forall r, pval b x0 1 0 idx (xi b 0 r) = Rk k r + r * D r).
  { intros r. apply (uniqueness_limite (fun y => pval b x0 0 0 idx (xi b 0 y)) r).
    - apply pval_der; exact Hv || exact Hx || assumption || lia.
    - apply (derivable_pt_lim_ext (fun y => y * Rk k y)); [exact V|].
      replace (Rk k r + r * D r) with (1 * Rk k r + r * D r) by ring.
      apply (derivable_pt_lim_mult (fun y => y) (Rk k)); [apply derivable_pt_lim_id | apply DR]. }
  assert (F2 : forall r, pval b x0 2 0 idx (xi b 0 r) = 2 * D r + r * L2 r).
  { intros r. apply (uniqueness_limite (fun y => pval b x0 1 0 idx (xi b 0 y)) r).
    - apply pval_der; exact Hv || exact Hx || assumption || lia.
    - apply (derivable_pt_lim_ext (fun y => Rk k y + y * D y)); [intros y; symmetry; apply F1|].
      replace (2 * D r + r * L2 r) with (D r + (1 * D r + r * L2 r)) by ring.
      apply (derivable_pt_lim_plus (Rk k) (fun y => y * D y)); [apply DR|].
      apply (derivable_pt_lim_mult (fun y => y) D); [apply derivable_pt_lim_id | apply DD]. }
  rewrite !P by lia. rewrite <- X0, F1, F2. unfold Rk, D. split; ring.
Qed.

Lemma first_zero : exists l, get_idx b 0 = Ok (0%Z, l).
Proof. pose proof nel_pos. rewrite get_idx_closed by (exact (proj1 Hv) || lia). eexists. reflexivity. Qed.

Lemma dnf_len m x : (m <= 2)%nat -> exists v, fe_dnf b x0 m 0 x = Ok v /\ length v = count b 0.
Proof.
  intros Hm. pose proof nel_pos. destruct (en_props b 0 (proj1 Hv)) as (en & E & _ & B & L). pose proof (one_le_order (fe_fam b)).
  rewrite (dnf_row b x0 m 0 x en) by (exact E || lia). eexists. split; [reflexivity|]. rewrite map_length. exact L.
Qed.

Lemma nuc_values P N : get_nbf b = Ok (Z.of_nat N) ->
  nuclear_density rb P N N = Ok (sum (count b 0) (fun u => sum (count b 0) (fun v => P u v * (Rk u 0 * Rk v 0)))) /\
  ((forall i j, P i j = P j i) ->
   exists g, nuclear_density_gradient rb P N N = Ok g /\
     derivable_pt_lim (fun r => sum (count b 0) (fun u => sum (count b 0) (fun v => P u v * (Rk u r * Rk v r)))) 0 g).
Proof.
  intros HN. assert (X0 : xi b 0 0 = -1) by (rewrite xi_first; unfold Rdiv; ring).
  destruct first_zero as (l0 & I). destruct (dnf_len 1 (-1) ltac:(lia)) as (d1 & E1 & L1). destruct (dnf_len 2 (-1) ltac:(lia)) as (d2 & E2 & L2).
  assert (V1 : forall u, (u < count b 0)%nat -> nth u d1 0 = Rk u 0).
  { intros u Hu. destruct (origin_values u Hu) as [A _]. rewrite E1 in A. cbn [entry] in A. unfold Rk. rewrite X0. exact A. }
  assert (V2 : forall u, (u < count b 0)%nat -> nth u d2 0 = 2 * entry (get_df rb 0 (-1)) u).
  { intros u Hu. destruct (origin_values u Hu) as [_ A]. rewrite E2 in A. exact A. }
  split.
  - unfold nuclear_density. fold b x0. rewrite HN. cbn [bind]. rewrite Z.eqb_refl. cbn [negb orb]. rewrite E1. cbn [bind].
    rewrite I. cbn [bind fst Z.to_nat plus]. f_equal. rewrite L1. apply sum_ext. intros u Hu. apply sum_ext. intros v Hv'.
    rewrite !V1 by assumption. ring.
  - intros Hs. unfold nuclear_density_gradient. fold b x0. rewrite HN. cbn [bind]. rewrite Z.eqb_refl. cbn [negb orb]. rewrite E1. cbn [bind].
    rewrite E2. cbn [bind]. rewrite I. cbn [bind fst Z.to_nat plus]. eexists. split; [reflexivity|]. rewrite L1.
    set (D := fun r k => entry (get_df rb 0 (xi b 0 r)) k).
    assert (DR : forall k, (k < count b 0)%nat -> derivable_pt_lim (Rk k) 0 (D 0 k)).
    { intros k Hk. pose proof nel_pos. apply (radial_functions 0 0 k ltac:(lia) (or_introl eq_refl) Hk). }
    replace (sum (count b 0) (fun u => sum (count b 0) (fun v => nth u d1 0 * P u v * nth v d2 0)))
      with (sum (count b 0) (fun u => sum (count b 0) (fun v => P u v * (D 0 u * Rk v 0 + Rk u 0 * D 0 v)))).
    + apply sum_der. intros u Hu. apply sum_der. intros v Hw.
      apply (derivable_pt_lim_scal (fun r => Rk u r * Rk v r)). apply (derivable_pt_lim_mult (Rk u) (Rk v)); apply DR; assumption.
    + transitivity (sum (count b 0) (fun u => sum (count b 0) (fun v => P u v * (D 0 u * Rk v 0)))
                    + sum (count b 0) (fun u => sum (count b 0) (fun v => P u v * (Rk u 0 * D 0 v)))).
      { rewrite <- sum_plus. apply sum_ext. intros u _. rewrite <- sum_plus. apply sum_ext. intros v _. ring. }
      rewrite (sum_swap _ _ (fun u v => P u v * (D 0 u * Rk v 0))).
      rewrite <- sum_plus. apply sum_ext. intros u Hu. rewrite <- sum_plus. apply sum_ext. intros v Hw.
      rewrite V1, V2 by assumption. rewrite (Hs v u). unfold D. rewrite X0. ring.
Qed.

Lemma nuc_shape P rows cols : get_nbf b <> Ok (Z.of_nat rows) \/ get_nbf b <> Ok (Z.of_nat cols) ->
  nuclear_density rb P rows cols = Throw LogicError /\ nuclear_density_gradient rb P rows cols = Throw LogicError.
Proof.
  intros H. pose proof nel_pos. unfold nuclear_density, nuclear_density_gradient. fold b x0.
  rewrite get_nbf_closed in * by (exact (proj1 Hv) || assumption). cbn [bind].
  set (N := (offs b 0 (get_nelem b) + Z.of_nat (noverlap (fe_fam b)))%Z) in *.
  destruct (Z.eqb_spec (Z.of_nat rows) N), (Z.eqb_spec (Z.of_nat cols) N); cbn [negb orb]; auto.
  exfalso. destruct H as [H|H]; apply H; congruence.
Qed.

Lemma nuc_orbital C ncol : nuclear_orbital rb C ncol = Ok (map (fun j => rfield rb (fun g => C g j) 0 (-1)) (seq 0 ncol)).
Proof.
  pose proof nel_pos as Hn. destruct first_zero as (l0 & I). destruct (dnf_len 1 (-1) ltac:(lia)) as (d1 & E1 & L1).
  unfold nuclear_orbital. fold b x0. rewrite E1. cbn [bind]. rewrite I. cbn [bind fst]. f_equal. apply map_ext. intros j.
  destruct (bf_total 0 (-1) ltac:(lia)) as (v & Gv).
  rewrite <- (column_rfield C 0 (-1) v 0 l0 j Gv I). unfold column.
  assert (length v = count b 0).
  { destruct (Nat.eq_dec (count b 0) 0) as [Z|Z].
    - exfalso. destruct (en_props b 0 (proj1 Hv)) as (en & E & _ & B & L). pose proof Hok as (_ & _ & _ & _ & Hne).
      destruct en; [exact (Hne [] E eq_refl)|cbn in L; lia].
    - destruct (radial_functions 0 0 0 ltac:(lia) (or_introl eq_refl) ltac:(lia)) as ((v' & d & lf & Gb & _ & _ & Lv & _) & _).
      assert (X0 : xi b 0 0 = -1) by (rewrite xi_first; unfold Rdiv; ring). fold b in Gb. rewrite X0, Gv in Gb. injection Gb as <-. exact Lv. }
  rewrite L1, H. apply sum_ext. intros k Hk. destruct (origin_values k Hk) as [A _]. rewrite E1, Gv in A. cbn [entry] in A.
  rewrite A. reflexivity.
Qed.
End Radial.
