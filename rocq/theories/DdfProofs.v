(** The grid of a diatomic molecule: basis functions, loops and boundary conditions. *)
Require Import Reals ZArith List Bool Arith Lia Lra Permutation.
Require Import Verif.Prelude Verif.FEModel Verif.FESpec Verif.FEProofs Verif.AngModel Verif.AngSpec Verif.AngProofs Verif.JKModel Verif.DftModel Verif.DftSpec Verif.DftProofs Verif.DftXc Verif.DftFock Verif.DftFockR Verif.DftAtom Verif.DftPar Verif.DftDrv Verif.DdfModel Verif.DdfSpec.
Import ListNotations.
Local Open Scope R_scope.

(** * Another system of orthogonal coordinates *)
Lemma rescale fl n g pts g' pts' : grid_rep fl n g pts -> f_lapl fl = false -> length pts' = length pts ->
  g_n g' = g_n g -> g_ind g' = g_ind g -> g_bf g' = g_bf g -> (f_grad fl = true -> g_df g' = g_df g) ->
  (forall ip, (ip < length pts)%nat -> g_w g' ip = p_w (pt pts' ip)) ->
  (forall ip i, (ip < length pts)%nat -> p_f (pt pts' ip) i = p_f (pt pts ip) i) ->
  (forall c ip, (c < 3)%nat -> (ip < length pts)%nat -> g_scale g' c ip <> 0) ->
  (forall c ip, (c < 3)%nat -> (ip < length pts)%nat -> g_inv2 g' c ip = / (g_scale g' c ip) ^ 2) ->
  (forall c ip i, (c < 3)%nat -> (ip < length pts)%nat ->
     cscal (g_scale g' c ip) (p_g (pt pts' ip) c i) = cscal (g_scale g c ip) (p_g (pt pts ip) c i)) ->
  (forall ip i, (ip < length pts)%nat -> (i < n)%nat -> ~ In i (g_ind g) -> (forall c, p_g (pt pts' ip) c i = (0, 0)) /\ p_l (pt pts' ip) i = (0, 0)) ->
  grid_rep fl n g' pts'.
Proof.
  intros HG Hl Hlen En Ei Eb Ed Ew Ef Hs Hi Hg Ho. constructor; rewrite ?Hlen, ?Ei.
  - rewrite En. apply (gr_n HG).
  - apply (gr_nodup HG).
  - apply (gr_lt HG).
  - intros ip i Hip Hn Hni. rewrite Ef by auto. split; [apply (gr_out HG); auto|]. apply Ho; auto.
  - exact Ew.
  - rewrite Eb. destruct (gr_bf HG) as [B1 B2].
    split; [apply (is_mat_ext _ _ _ _ _ B1)|apply (is_mat_ext _ _ _ _ _ B2)]; intros k ip Hk Hip; rewrite Ef by auto; reflexivity.
  - exact Hs.
  - exact Hi.
  - intros Hgr c Hc. rewrite (Ed Hgr). destruct (gr_df HG Hgr c Hc) as [B1 B2].
    split; [apply (is_mat_ext _ _ _ _ _ B1)|apply (is_mat_ext _ _ _ _ _ B2)]; intros k ip Hk Hip;
    (assert (E := Hg c ip (nth k (g_ind g) 0%nat) Hc Hip); unfold cscal, conj in E |- *; cbn [fst snd] in E |- *; injection E as E1 E2; lra).
  - intros X. congruence.
Qed.

Section Elem.
Variables (b : abasis) (Rh : R) (ru : rule) (iel irad : nat).
Hypothesis HB : di_grid_ok b Rh ru.
Hypothesis Hiel : (iel < get_nelem (ab_fe b))%nat.
Hypothesis Hir : (irad < length (ab_r b iel))%nat.
Let nang := length ru.
Let v := row_view b irad.
Let mu := nth irad (ab_r b iel) 0.

(** The row view with the tables of the other elements left alone. *)
Definition patched : abasis :=
  mkAB (ab_sh b) (ab_fe b) (fun e => if Nat.eqb e iel then ab_r v e else ab_r b e) (fun e => if Nat.eqb e iel then ab_wrad v e else ab_wrad b e)
    (fun e => if Nat.eqb e iel then ab_f v e else ab_f b e) (fun e => if Nat.eqb e iel then ab_d v e else ab_d b e)
    (fun e => if Nat.eqb e iel then ab_l v e else ab_l b e) (ab_Y b).
Lemma mat_row_ok (M : dmat) n m : drows M = n -> dcols M = m -> (irad < n)%nat -> drows (mat_row M irad) = 1%nat /\ dcols (mat_row M irad) = m.
Proof. intros E1 E2 H. unfold mat_row. cbn [drows dcols]. rewrite E1. destruct (Nat.ltb_spec irad n); [auto|lia]. Qed.
Lemma patched_ok : at_grid_ok patched ru.
Proof.
  destruct HB as [_ (H1 & H2 & H3 & H4)]. split; [exact H1|]. split; [exact H2|]. split; [exact H3|].
  intros e He. cbn [ab_fe patched ab_r ab_wrad ab_f ab_d ab_l]. destruct (Nat.eqb_spec e iel) as [->|Hne]; [|apply H4; exact He].
  destruct (H4 iel Hiel) as (R1 & R2 & R3). cbn [v row_view ab_r ab_wrad ab_f ab_d ab_l]. split; [|split].
  - intros r [<-|[]]. apply R1, nth_In. exact Hir.
  - reflexivity.
  - intros A [<-|[<-|[<-|[]]]]; (apply (mat_row_ok _ (length (ab_r b iel))); [apply R3|apply R3|exact Hir]); cbn; auto.
Qed.
Lemma patched_r : ab_r patched iel = [mu].
Proof. cbn [patched ab_r]. rewrite Nat.eqb_refl. reflexivity. Qed.
Lemma patched_w : ab_wrad patched iel = [nth irad (ab_wrad b iel) 0].
Proof. cbn [patched ab_wrad]. rewrite Nat.eqb_refl. reflexivity. Qed.
Lemma patched_f : ab_f patched iel = mat_row (ab_f b iel) irad.
Proof. cbn [patched ab_f]. rewrite Nat.eqb_refl. reflexivity. Qed.
Lemma patched_d : ab_d patched iel = mat_row (ab_d b iel) irad.
Proof. cbn [patched ab_d]. rewrite Nat.eqb_refl. reflexivity. Qed.
Lemma mu_pos : 0 < mu.
Proof. destruct HB as [_ (_ & _ & _ & H4)]. apply (H4 iel Hiel). apply nth_In. exact Hir. Qed.
Lemma sinh_pos : 0 < sinh mu.
Proof. rewrite <- sinh_0. apply sinh_lt, mu_pos. Qed.

Definition row_pts := el_pts patched ru iel.
Lemma row_len : length row_pts = nang.
Proof. unfold row_pts. rewrite (len_pts patched ru iel). cbn [patched ab_r v row_view]. rewrite Nat.eqb_refl. cbn [length]. unfold nang. lia. Qed.
Lemma row_pt ip : (ip < nang)%nat -> pt row_pts ip = at_point patched ru iel ip 0.
Proof.
  intros H. unfold row_pts. assert (E := nth_pts patched ru iel ip). cbn [patched ab_r v row_view] in E. rewrite Nat.eqb_refl in E. cbn [length] in E.
  rewrite Nat.div_1_r, Nat.mod_1_r in E. apply E. unfold nang in H. lia.
Qed.
Definition di_pts := di_row_points b Rh ru iel irad.
Lemma di_len : length di_pts = nang.
Proof. unfold di_pts, di_row_points. rewrite map_length, seq_length. reflexivity. Qed.
Lemma di_pt ip : (ip < nang)%nat -> pt di_pts ip = di_raw_point b Rh ru iel irad ip.
Proof.
  intros H. unfold pt, di_pts, di_row_points.
  rewrite (nth_indep _ _ (di_raw_point b Rh ru iel irad 0)) by (rewrite map_length, seq_length; exact H).
  rewrite (map_nth (fun ia => di_raw_point b Rh ru iel irad ia)), seq_nth by exact H. reflexivity.
Qed.

Lemma sth_sq ip : (ip < nang)%nat -> 0 < sqrt (1 - a_cth (ang ru ip) * a_cth (ang ru ip)).
Proof. intros H. apply sqrt_lt_R0. destruct HB as [_ (_ & _ & Hc & _)]. assert (X := Hc ip H). nra. Qed.
Lemma di_scale_pos c ip : (ip < nang)%nat -> 0 < di_scale Rh mu ru c ip.
Proof.
  intros H. assert (S := sinh_pos). assert (T := sth_sq ip H). destruct HB as [HR _]. unfold di_scale.
  assert (A : 0 < Rh * sqrt (sinh mu ^ 2 + sqrt (1 - a_cth (ang ru ip) * a_cth (ang ru ip)) ^ 2)) by (apply Rmult_lt_0_compat; [exact HR|]; apply sqrt_lt_R0; nra).
  destruct c as [|[|c]]; [exact A|exact A|]. apply Rmult_lt_0_compat; [|exact T]. apply Rmult_lt_0_compat; auto.
Qed.

(** The radial functions of the element in this point *)
Lemma radial_row (A A' : nat -> dmat) k : (forall j, dent (A' iel) 0%nat j = dent (A iel) irad j) -> radial_value patched A' iel 0 k = radial_value b A iel irad k.
Proof. intros H. unfold radial_value. cbn [patched ab_fe]. destruct (elem_range (ab_fe b) iel) as [f n]. rewrite H. reflexivity. Qed.

Lemma di_compute_bf_ok w : f_lapl (w_fl w) = false ->
  exists g, di_compute_bf b Rh ru iel irad w = Ok (mkW (w_fl w) g (w_d w) (w_x w)) /\
  grid_rep (w_fl w) (at_nbf b) g di_pts.
Proof.
  intros Hl. destruct (compute_bf_ok patched ru iel patched_ok Hiel w) as (g & E & Hind & HG).
  change (at_nbf patched) with (at_nbf b) in HG.
  assert (Es : forall c ip, (ip < nang)%nat -> g_scale g c ip = at_scale [mu] ru c ip).
  { intros c ip Hip. revert E. unfold compute_bf. cbn [patched ab_fe ab_sh]. destruct (bf_list_full _ _ _) as [ind| | |]; cbn [bind]; try discriminate.
    rewrite patched_r, patched_w. cbn [length Nat.eqb negb].
    destruct (existsb _ _); [discriminate|]. intros E.
    repeat match type of E with bind ?t _ = _ => destruct t; cbn [bind] in E; try discriminate end. injection E as <-. reflexivity. }
  revert E Hind. unfold compute_bf, di_compute_bf. cbn [patched ab_fe ab_sh]. destruct (bf_list_full _ _ _) as [ind| | |]; cbn [bind]; try discriminate.
  rewrite patched_r, patched_w. cbn [length Nat.eqb negb].
  assert (Er : vget (ab_r b iel) irad = Ok mu).
  { unfold vget. rewrite (nth_error_nth' (ab_r b iel) 0 Hir). reflexivity. }
  assert (Ew : vget (ab_wrad b iel) irad = Ok (nth irad (ab_wrad b iel) 0)).
  { unfold vget. rewrite (nth_error_nth' (ab_wrad b iel) 0); [reflexivity|]. destruct HB as [_ (_ & _ & _ & H4)]. destruct (H4 iel Hiel) as (_ & -> & _). exact Hir. }
  rewrite Er, Ew. cbn [bind]. destruct (existsb _ _); [discriminate|].
  assert (Ex : existsb (fun ip => (Reqb (di_scale Rh mu ru 0 ip) 0 || Reqb (di_scale Rh mu ru 2 ip) 0)%bool) (seq 0 (length ru)) = false).
  { apply not_true_is_false. intros H. apply existsb_exists in H. destruct H as (ip & Hi & H). apply in_seq in Hi.
    assert (X0 := di_scale_pos 0 ip ltac:(unfold nang; lia)). assert (X2 := di_scale_pos 2 ip ltac:(unfold nang; lia)).
    destruct (Reqb_spec (di_scale Rh mu ru 0 ip) 0), (Reqb_spec (di_scale Rh mu ru 2 ip) 0); try discriminate; lra. }
  rewrite Ex.
  assert (Vb : eval_bf patched iel = eval_bf (row_view b irad) iel).
  { unfold eval_bf. rewrite patched_f. reflexivity. }
  assert (Vd : eval_df patched iel = eval_df (row_view b irad) iel).
  { unfold eval_df. rewrite patched_f, patched_d. reflexivity. }
  rewrite Vb, Vd, Hl. intros E Hind.
  destruct (fill_points (length ind) 1 (length ru) (fun ia => eval_bf (row_view b irad) iel (a_cth (ang ru ia)) (a_phi (ang ru ia)))) as [bf| | |]; cbn [bind] in E |- *; try discriminate E.
  match type of E with bind ?t _ = _ => destruct t as [df| | |] eqn:Edf; cbn [bind] in E |- *; try discriminate E end.
  injection E as E. subst g. eexists. split; [reflexivity|].
  eapply (rescale _ _ _ (el_pts patched ru iel)); [exact HG|exact Hl|..]; fold row_pts; rewrite ?row_len, ?di_len;
    cbn [g_n g_w g_scale g_inv2 g_ind g_bf g_df g_lf]; auto.
  - intros ip Hip. rewrite di_pt by exact Hip. unfold di_weight, di_raw_point. cbn [p_w]. fold mu.
    set (s := sqrt (1 - a_cth (ang ru ip) * a_cth (ang ru ip))).
    assert (Q : sqrt (sinh mu * sinh mu + s * s) * sqrt (sinh mu * sinh mu + s * s) = sinh mu * sinh mu + s * s) by (apply sqrt_sqrt; nra).
    set (h := sqrt (sinh mu * sinh mu + s * s)) in *.
    transitivity (a_w (ang ru ip) * nth irad (ab_wrad b iel) 0 * (Rh * Rh * Rh * sinh mu * (h * h))); [rewrite Q; ring|ring].
  - intros ip i Hip. rewrite di_pt, row_pt by exact Hip. unfold di_raw_point, at_point. cbn [p_f].
    change (at_nr patched) with (at_nr b). change (ab_sh patched) with (ab_sh b). change (ab_Y patched) with (ab_Y b).
    rewrite (radial_row (ab_f b)); [reflexivity|]. intros j. rewrite patched_f. reflexivity.
  - intros c ip _ Hip. apply Rgt_not_eq, di_scale_pos. exact Hip.
  - intros c ip i Hc Hip. rewrite di_pt, row_pt by exact Hip. unfold di_raw_point, at_point. cbn [p_g].
    change (at_nr patched) with (at_nr b). change (ab_sh patched) with (ab_sh b). change (ab_Y patched) with (ab_Y b).
    rewrite !(radial_row (ab_f b) (ab_f patched)) by (intros j; rewrite patched_f; reflexivity).
    rewrite !(radial_row (ab_d b) (ab_d patched)) by (intros j; rewrite patched_d; reflexivity).
    rewrite patched_r. cbn [nth].
    assert (P := di_scale_pos c ip Hip). assert (S := sinh_pos). assert (T := sth_sq ip Hip). assert (M := mu_pos).
    unfold at_scale. cbn [length]. rewrite Nat.div_1_r, Nat.mod_1_r. cbn [nth].
    destruct c as [|[|c]].
    + unfold di_scale in P |- *. cbn [pow] in P |- *. rewrite !Rmult_1_r in P |- *. fold mu.
      unfold cscal. cbn [fst snd]. f_equal; field; nra.
    + unfold di_scale in P |- *. cbn [pow] in P |- *. rewrite !Rmult_1_r in P |- *. fold mu.
      unfold cscal. cbn [fst snd]. f_equal; field; split; nra.
    + unfold di_scale in P |- *. fold mu. unfold cscal. cbn [fst snd]. destruct HB as [HR _].
      f_equal; field; repeat split; nra.
  - intros ip i Hip Hi Hn. rewrite di_pt by exact Hip. unfold di_raw_point. cbn [p_g p_l].
    cbn [g_ind] in Hind. rewrite Hind in Hn. change (el_ind patched iel) with (el_ind b iel) in Hn.
    rewrite !(radial_out b ru iel (proj2 HB) Hiel) by auto. split.
    + intros [|[|c]]; unfold cscal, Rdiv; f_equal; ring.
    + unfold cscal, Rdiv; f_equal; ring.
Qed.
End Elem.
