(** The basis functions of an atom on the grid of one element. *)
Require Import Reals ZArith List Bool Arith Lia Lra Permutation.
Require Import Verif.Prelude Verif.FEModel Verif.FESpec Verif.FEProofs Verif.AngModel Verif.AngProofs Verif.JKModel Verif.DftModel Verif.DftSpec Verif.DftProofs.
Import ListNotations.
Local Open Scope R_scope.

Lemma nth_flat_map_seq {A} (f : nat -> nat -> A) n m d k : (k < n * m)%nat ->
  nth k (flat_map (fun a => map (f a) (seq 0 m)) (seq 0 n)) d = f (k / m)%nat (k mod m)%nat.
Proof.
  intros H. assert (Hm : (m <> 0)%nat) by nia.
  assert (L : forall n0, length (flat_map (fun a => map (f a) (seq 0 m)) (seq 0 n0)) = (n0 * m)%nat).
  { induction n0; [reflexivity|]. rewrite seq_S, flat_map_app, app_length, IHn0. cbn. rewrite app_nil_r, map_length, seq_length. lia. }
  induction n; [lia|]. rewrite seq_S, flat_map_app. cbn [flat_map Nat.add]. rewrite app_nil_r.
  destruct (Nat.lt_ge_cases k (n * m)) as [Hk|Hk].
  - rewrite app_nth1 by (rewrite L; auto). apply IHn; auto.
  - rewrite app_nth2 by (rewrite L; lia). rewrite L.
    rewrite (nth_map_seq (f n)) by lia.
    assert (E1 : (k / m = n)%nat) by (symmetry; apply (Nat.div_unique _ m n (k - n * m)); lia).
    assert (E2 : (k mod m = k - n * m)%nat) by (symmetry; apply (Nat.mod_unique _ m n (k - n * m)); lia).
    rewrite E1, E2. reflexivity.
Qed.
Lemma length_flat_map_seq {A} (f : nat -> nat -> A) n m :
  length (flat_map (fun a => map (f a) (seq 0 m)) (seq 0 n)) = (n * m)%nat.
Proof.
  induction n; [reflexivity|]. rewrite seq_S, flat_map_app, app_length, IHn. cbn. rewrite app_nil_r, map_length, seq_length. lia.
Qed.

(** * Filling the table of values *)
Lemma set_cols_ok M c0 n X r m h x : is_mat M r m h -> is_mat X r n x -> (c0 + n <= m)%nat ->
  exists M', set_cols M c0 n X = Ok M' /\
    is_mat M' r m (fun i j => if (Nat.leb c0 j && Nat.ltb j (c0 + n))%bool then x i (j - c0)%nat else h i j).
Proof.
  intros (H1 & H2 & H3) (X1 & X2 & X3) Hc. unfold set_cols. rewrite H1, H2, X1, X2, !Nat.eqb_refl.
  destruct (Nat.leb_spec (c0 + n) m); [|lia]. cbn [andb]. eexists; split; [reflexivity|].
  split; [reflexivity|split; [reflexivity|]]. intros i j Hi Hj. cbn [dent].
  destruct (Nat.leb_spec c0 j), (Nat.ltb_spec j (c0 + n)); cbn [andb]; auto. apply X3; auto; lia.
Qed.
Lemma fill_points_ok nbf nrad nang ev (h : nat -> nat -> nat -> R * R) :
  (forall ia, (ia < nang)%nat -> is_cmat (ev ia) nrad nbf (h ia)) ->
  exists X, fill_points nbf nrad nang ev = Ok X /\
    is_cmat X nbf (nang * nrad) (fun i ip => conj (h (ip / nrad)%nat (ip mod nrad)%nat i)).
Proof.
  intros Hev. unfold fill_points.
  assert (G : forall k, (k <= nang)%nat -> exists X,
    fold_res (fun M ia =>
      let X := ev ia in
      if negb (Nat.eqb (dcols (fst X)) nbf) then Throw LogicError else
      bind (set_cols (fst M) (ia * nrad) nrad (fst (adjoint X))) (fun A =>
      bind (set_cols (snd M) (ia * nrad) nrad (snd (adjoint X))) (fun B => Ok (A, B))))
      (seq 0 k) (dzero nbf (nang * nrad), dzero nbf (nang * nrad)) = Ok X /\
    is_cmat X nbf (nang * nrad) (fun i ip => if Nat.ltb ip (k * nrad) then conj (h (ip / nrad)%nat (ip mod nrad)%nat i) else (0, 0))).
  { induction k; intros Hk.
    - cbn [seq fold_res]. eexists; split; [reflexivity|]. split; repeat split.
    - destruct (IHk ltac:(lia)) as (X & EX & [X1 X2]). rewrite seq_S.
      assert (FA : forall {S T} (f : S -> T -> res S) l x s, fold_res f (l ++ [x]) s = bind (fold_res f l s) (fun s' => f s' x)).
      { intros S T f l x. induction l as [|y l IHl]; intros s; cbn [app fold_res bind].
        - destruct (f s x); reflexivity.
        - destruct (f s y); cbn [bind]; auto. }
      rewrite FA, EX. cbn [bind Nat.add]. destruct (Hev k ltac:(lia)) as [E1 E2].
      rewrite (proj1 (proj2 E1)), Nat.eqb_refl. cbn [negb].
      destruct (set_cols_ok (fst X) (k * nrad) nrad (fst (adjoint (ev k))) _ _ _ _ X1 (dT_ok _ _ _ _ E1) ltac:(nia)) as (A & EA & HA).
      destruct (set_cols_ok (snd X) (k * nrad) nrad (snd (adjoint (ev k))) _ _ _ _ X2 (dscale_ok (-1) _ _ _ _ (dT_ok _ _ _ _ E2)) ltac:(nia)) as (B & EB & HB).
      rewrite EA. cbn [bind]. rewrite EB. cbn [bind]. eexists; split; [reflexivity|].
      assert (Hc : forall j, (j < nang * nrad)%nat -> Nat.leb (k * nrad) j = true -> Nat.ltb j (k * nrad + nrad) = true ->
         (j / nrad = k)%nat /\ (j mod nrad = j - k * nrad)%nat).
      { intros j Hj L1 L2. apply Nat.leb_le in L1. apply Nat.ltb_lt in L2.
        split; symmetry; [apply (Nat.div_unique _ nrad k (j - k * nrad)); lia|apply (Nat.mod_unique _ nrad k (j - k * nrad)); lia]. }
      assert (Hs : forall j, Nat.ltb j (S k * nrad) = (Nat.leb (k * nrad) j && Nat.ltb j (k * nrad + nrad) || Nat.ltb j (k * nrad))%bool).
      { intros j. destruct (Nat.ltb_spec j (S k * nrad)), (Nat.leb_spec (k * nrad) j), (Nat.ltb_spec j (k * nrad + nrad)), (Nat.ltb_spec j (k * nrad)); cbn; auto; lia. }
      split.
      + apply (is_mat_ext _ _ _ _ _ HA). intros i j Hi Hj. rewrite Hs.
        destruct (Nat.leb (k * nrad) j) eqn:L1, (Nat.ltb j (k * nrad + nrad)) eqn:L2; cbn [andb orb fst]; auto.
        destruct (Hc j Hj L1 L2) as [-> ->]. reflexivity.
      + apply (is_mat_ext _ _ _ _ _ HB). intros i j Hi Hj. rewrite Hs.
        destruct (Nat.leb (k * nrad) j) eqn:L1, (Nat.ltb j (k * nrad + nrad)) eqn:L2; cbn [andb orb snd]; auto.
        destruct (Hc j Hj L1 L2) as [-> ->]. cbn. ring. }
  destruct (G nang (le_n _)) as (X & EX & [X1 X2]). exists X. split; [exact EX|].
  split; [apply (is_mat_ext _ _ _ _ _ X1)|apply (is_mat_ext _ _ _ _ _ X2)]; intros i j Hi Hj;
    (destruct (Nat.ltb_spec j (nang * nrad)); [reflexivity|lia]).
Qed.

(** * One element *)
Section Elem.
Variables (b : abasis) (ru : rule) (iel : nat).
Hypothesis HB : at_grid_ok b ru.
Hypothesis Hiel : (iel < get_nelem (ab_fe b))%nat.
Let first := fst (elem_range (ab_fe b) iel).
Let Nr := snd (elem_range (ab_fe b) iel).
Let nr := at_nr b.
Let nsh := length (ab_sh b).
Let nrad := length (ab_r b iel).
Let nang := length ru.

Lemma range_le : (first + Nr <= nr)%nat /\ bf_list_full (ab_fe b) nsh iel
  = Ok (flat_map (fun iam => map (fun j => (nr * iam + first + j)%nat) (seq 0 Nr)) (seq 0 nsh)).
Proof.
  destruct HB as (Hv & _). destruct (elem_facts (ab_fe b) iel Hv Hiel) as (f & l & N & Hg & HN & H0 & H1 & H2).
  unfold first, Nr, nr, at_nr, elem_range, bf_list_full. rewrite Hg, HN. cbn [fst snd bind]. split; [lia|].
  destruct (Z.ltb_spec f 0); [lia|]. destruct (Z.ltb_spec (l - f + 1) 0); [lia|]. destruct (Z.ltb_spec N 0); [lia|]. reflexivity.
Qed.
Definition el_ind := flat_map (fun iam => map (fun j => (nr * iam + first + j)%nat) (seq 0 Nr)) (seq 0 nsh).
Lemma len_ind : length el_ind = (nsh * Nr)%nat.
Proof. apply (length_flat_map_seq (fun iam j => nr * iam + first + j)%nat). Qed.
Lemma nth_ind k : (k < nsh * Nr)%nat -> nth k el_ind 0%nat = (nr * (k / Nr) + first + k mod Nr)%nat.
Proof. apply (nth_flat_map_seq (fun iam j => nr * iam + first + j)%nat). Qed.
Lemma ind_div k : (k < nsh * Nr)%nat -> (nth k el_ind 0 / nr = k / Nr)%nat /\ (nth k el_ind 0 mod nr = first + k mod Nr)%nat /\ (k mod Nr < Nr)%nat.
Proof.
  intros Hk. assert (Nr <> 0)%nat by nia. assert (Hm := Nat.mod_upper_bound k Nr H). destruct range_le as [Hle _].
  rewrite nth_ind by auto. split; [|split; [|auto]].
  - symmetry. apply (Nat.div_unique _ nr (k / Nr) (first + k mod Nr)); lia.
  - symmetry. apply (Nat.mod_unique _ nr (k / Nr) (first + k mod Nr)); lia.
Qed.
Lemma ind_in mu : In mu el_ind <-> (mu / nr < nsh)%nat /\ (first <= mu mod nr < first + Nr)%nat.
Proof.
  destruct range_le as [Hle _]. unfold el_ind. rewrite in_flat_map. split.
  - intros (a & Ha & Hi). apply in_map_iff in Hi. destruct Hi as (j & <- & Hj). apply in_seq in Ha, Hj.
    assert (E1 : ((nr * a + first + j) / nr = a)%nat) by (symmetry; apply (Nat.div_unique _ nr a (first + j)); lia).
    assert (E2 : ((nr * a + first + j) mod nr = first + j)%nat) by (symmetry; apply (Nat.mod_unique _ nr a (first + j)); lia).
    rewrite E1, E2. lia.
  - intros [H1 H2]. exists (mu / nr)%nat. split; [apply in_seq; lia|]. apply in_map_iff. exists (mu mod nr - first)%nat.
    split; [|apply in_seq; lia]. assert (nr <> 0)%nat by lia. assert (D := Nat.div_mod mu nr H). lia.
Qed.
Lemma ind_lt mu : In mu el_ind -> (mu < at_nbf b)%nat.
Proof.
  intros H. apply ind_in in H. destruct H as [H1 H2]. destruct range_le as [Hle _]. unfold at_nbf. fold nr nsh.
  assert (nr <> 0)%nat by lia. assert (D := Nat.div_mod mu nr H). assert (M := Nat.mod_upper_bound mu nr H). nia.
Qed.
Lemma ind_nodup : NoDup el_ind.
Proof. apply bf_rows_nodup. apply range_le. Qed.

(** Radial functions *)
Lemma radial_eq A ir k : radial_value b A iel ir k
  = if (Nat.leb first k && Nat.ltb k (first + Nr))%bool then dent (A iel) ir (k - first)%nat else 0.
Proof. unfold radial_value, first, Nr. destruct (elem_range (ab_fe b) iel); reflexivity. Qed.
Lemma radial_in A ir k : (k < nsh * Nr)%nat -> radial_value b A iel ir (nth k el_ind 0 mod nr)%nat = dent (A iel) ir (k mod Nr)%nat.
Proof.
  intros Hk. destruct (ind_div k Hk) as (_ & E & Hm). rewrite E, radial_eq.
  destruct (Nat.leb_spec first (first + k mod Nr)); [|lia].
  destruct (Nat.ltb_spec (first + k mod Nr) (first + Nr)); [|lia]. cbn [andb].
  f_equal. lia.
Qed.
Lemma radial_out A ir mu : (mu < at_nbf b)%nat -> ~ In mu el_ind -> radial_value b A iel ir (mu mod nr)%nat = 0.
Proof.
  intros Hm Hn. unfold at_nbf in Hm. fold nr nsh in Hm.
  assert (nr <> 0)%nat by nia. assert (mu / nr < nsh)%nat by (apply Nat.div_lt_upper_bound; lia).
  rewrite ind_in in Hn. rewrite radial_eq.
  destruct (Nat.leb_spec first (mu mod nr)), (Nat.ltb_spec (mu mod nr) (first + Nr)); cbn [andb]; auto. exfalso. apply Hn. lia.
Qed.

(** The angular grid *)
Lemma cth_in ia : (ia < nang)%nat -> 0 < 1 - a_cth (ang ru ia) * a_cth (ang ru ia).
Proof. intros H. destruct HB as (_ & _ & Hc & _). assert (X := Hc ia H). nra. Qed.
Lemma sth_pos ia : (ia < nang)%nat -> 0 < sqrt (1 - a_cth (ang ru ia) * a_cth (ang ru ia)).
Proof. intros H. apply sqrt_lt_R0, cth_in; auto. Qed.
Lemma r_pos ir : (ir < nrad)%nat -> 0 < nth ir (ab_r b iel) 0.
Proof. intros H. destruct HB as (_ & _ & _ & He). apply (He iel Hiel). apply nth_In. exact H. Qed.
Lemma tables A : In A [ab_f b iel; ab_d b iel; ab_l b iel] -> drows A = nrad /\ dcols A = Nr.
Proof. intros H. destruct HB as (_ & _ & _ & He). apply (proj2 (proj2 (He iel Hiel))). exact H. Qed.

Lemma theta_factor_ok ia k : (ia < nang)%nat -> (k < nsh)%nat ->
  theta_factor b (a_cth (ang ru ia)) (a_phi (ang ru ia)) k
  = dtheta (ab_Y b) (fst (shell (ab_sh b) k)) (snd (shell (ab_sh b) k)) (a_cth (ang ru ia)) (a_phi (ang ru ia)).
Proof.
  intros Hia Hk. unfold theta_factor, dtheta, shell_Y.
  assert (Hin : In (shell (ab_sh b) k) (ab_sh b)) by (apply nth_In; auto).
  destruct (shell (ab_sh b) k) as [l m] eqn:Es. cbn [fst snd].
  set (c := a_cth (ang ru ia)). assert (Hs := sth_pos ia Hia). fold c in Hs.
  assert (Hc := cth_in ia Hia). fold c in Hc.
  replace (Rmax ((1 - c) * (1 + c)) 0) with (1 - c * c) by (rewrite Rmax_left; [ring|nra]).
  destruct (Rltb_spec 0 (sqrt (1 - c * c))); [|lra].
  destruct (Z.ltb_spec m l); [reflexivity|].
  assert (m = l). { destruct HB as (_ & Hm & _). specialize (Hm l m Hin). lia. } subst m.
  replace ((l - l) * (l + l + 1))%Z with 0%Z by ring. rewrite sqrt_0. unfold cadd, cscal. cbn [fst snd]. f_equal; ring.
Qed.

Lemma super_ok A fac : drows A = nrad -> dcols A = Nr ->
  is_cmat (super nsh fac A) nrad (nsh * Nr) (fun ir k => cscal (dent A ir (k mod Nr)%nat) (fac (k / Nr)%nat)).
Proof.
  intros E1 E2. unfold super. split; (split; [|split]); cbn [drows dcols dent fst snd]; rewrite ?E1, ?E2; auto.
Qed.

Definition el_pts := at_elem_points b ru iel.
Lemma len_pts : length el_pts = (nang * nrad)%nat.
Proof. apply (length_flat_map_seq (fun ia ir => at_point b ru iel ia ir)). Qed.
Lemma nth_pts ip : (ip < nang * nrad)%nat -> pt el_pts ip = at_point b ru iel (ip / nrad)%nat (ip mod nrad)%nat.
Proof. apply (nth_flat_map_seq (fun ia ir => at_point b ru iel ia ir)). Qed.
Lemma ip_bounds ip : (ip < nang * nrad)%nat -> (ip / nrad < nang)%nat /\ (ip mod nrad < nrad)%nat.
Proof.
  intros H. assert (nrad <> 0)%nat by nia. split; [apply Nat.div_lt_upper_bound; lia|apply Nat.mod_upper_bound; auto].
Qed.

Lemma at_scale_nonzero c ip : (ip < nang * nrad)%nat -> at_scale (ab_r b iel) ru c ip <> 0.
Proof.
  intros H. destruct (ip_bounds ip H) as [H1 H2]. assert (P1 := r_pos _ H2). assert (P2 := sth_pos _ H1). fold nrad.
  unfold at_scale. fold nrad. destruct c as [|[|c]]; [lra|lra|]. apply Rgt_not_eq. apply Rmult_lt_0_compat; auto.
Qed.

Lemma compute_bf_ok w : exists g, compute_bf b ru iel w = Ok (mkW (w_fl w) g (w_d w) (w_x w)) /\
  g_ind g = el_ind /\ grid_rep (w_fl w) (at_nbf b) g el_pts.
Proof.
  unfold compute_bf. destruct range_le as [Hle Eb]. fold nsh. rewrite Eb. cbn [bind]. fold el_ind. rewrite len_ind.
  assert (Ew : length (ab_wrad b iel) = nrad). { destruct HB as (_ & _ & _ & He). apply (He iel Hiel). }
  fold nrad. rewrite Ew, Nat.eqb_refl. cbn [negb].
  assert (Ex : existsb (fun ip => (Reqb (at_scale (ab_r b iel) ru 1 ip) 0 || Reqb (at_scale (ab_r b iel) ru 2 ip) 0)%bool)
     (seq 0 (nrad * length ru)) = false).
  { apply not_true_is_false. intros H. apply existsb_exists in H. destruct H as (ip & Hi & H). apply in_seq in Hi.
    assert (Hip : (ip < nang * nrad)%nat) by (unfold nang; lia).
    apply orb_true_iff in H. destruct H as [H|H]; destruct (Reqb_spec (at_scale (ab_r b iel) ru 1 ip) 0), (Reqb_spec (at_scale (ab_r b iel) ru 2 ip) 0);
      try discriminate; eapply at_scale_nonzero; eauto. }
  rewrite Ex. fold nang.
  destruct (tables (ab_f b iel)) as [F1 F2]; [left; auto|].
  destruct (tables (ab_d b iel)) as [D1 D2]; [right; left; auto|].
  destruct (tables (ab_l b iel)) as [L1 L2]; [right; right; left; auto|].
  set (cth ia := a_cth (ang ru ia)). set (phi ia := a_phi (ang ru ia)).
  destruct (fill_points_ok (nsh * Nr) nrad nang (fun ia => eval_bf b iel (cth ia) (phi ia)) _
     (fun ia _ => super_ok (ab_f b iel) (shell_Y b (cth ia) (phi ia)) F1 F2)) as (bf & Ebf & Hbf).
  unfold cth, phi in Ebf. rewrite Ebf. cbn [bind]. clear Ebf.
  destruct (fill_points_ok (nsh * Nr) nrad nang (fun ia => eval_df b iel (cth ia) (phi ia) 0) _
     (fun ia _ => super_ok (ab_d b iel) (shell_Y b (cth ia) (phi ia)) D1 D2)) as (d0 & E0 & H0).
  destruct (fill_points_ok (nsh * Nr) nrad nang (fun ia => eval_df b iel (cth ia) (phi ia) 1) _
     (fun ia _ => super_ok (ab_f b iel) (theta_factor b (cth ia) (phi ia)) F1 F2)) as (d1 & E1 & H1).
  destruct (fill_points_ok (nsh * Nr) nrad nang (fun ia => eval_df b iel (cth ia) (phi ia) 2) _
     (fun ia _ => super_ok (ab_f b iel) (fun i => cmul (0, IZR (snd (shell (ab_sh b) i))) (shell_Y b (cth ia) (phi ia) i)) F1 F2)) as (d2 & E2 & H2).
  destruct (fill_points_ok (nsh * Nr) nrad nang (fun ia => eval_lf b iel (cth ia) (phi ia))
     (fun ia ir k => cscal (lf_radial b iel (k / Nr)%nat ir (k mod Nr)%nat) (shell_Y b (cth ia) (phi ia) (k / Nr)%nat))) as (lf & El & Hl).
  { intros ia _. unfold eval_lf. split; (split; [|split]); cbn [drows dcols dent fst snd]; rewrite ?F1, ?F2; auto. }
  unfold cth, phi in E0, E1, E2, El. rewrite E0, E1, E2, El.
  assert (HY : forall ip k, (k < nsh * Nr)%nat ->
     ab_Y b (fst (shell (ab_sh b) (nth k el_ind 0 / nr)%nat)) (snd (shell (ab_sh b) (nth k el_ind 0 / nr)%nat)) (cth (ip / nrad)%nat) (phi (ip / nrad)%nat)
     = shell_Y b (cth (ip / nrad)%nat) (phi (ip / nrad)%nat) (k / Nr)%nat).
  { intros ip k Hk. destruct (ind_div k Hk) as (E & _ & _). rewrite E. unfold shell_Y. destruct (shell (ab_sh b) (k / Nr)%nat); reflexivity. }
  assert (Hdf : exists df, (if f_grad (w_fl w) then
           bind (Ok d0) (fun d0 => bind (Ok d1) (fun d1 => bind (Ok d2) (fun d2 =>
           Ok (fun c => match c with 0 => d0 | 1 => d1 | _ => d2 end%nat))))
         else Ok (g_df (w_g w))) = Ok df /\ (f_grad (w_fl w) = true -> df = fun c => match c with 0 => d0 | 1 => d1 | _ => d2 end%nat)).
  { destruct (f_grad (w_fl w)); eexists; (split; [reflexivity|]); [reflexivity|discriminate]. }
  destruct Hdf as (df & Edf & Hdf). rewrite Edf. cbn [bind].
  assert (Hlf : exists l, (if f_lapl (w_fl w) then Ok lf else Ok (g_lf (w_g w))) = Ok l /\ (f_lapl (w_fl w) = true -> l = lf)).
  { destruct (f_lapl (w_fl w)); eexists; (split; [reflexivity|]); [reflexivity|discriminate]. }
  destruct Hlf as (l & Elf & Hlf). rewrite Elf. cbn [bind].
  eexists; split; [reflexivity|]. split; [reflexivity|].
  constructor; cbn [g_n g_w g_scale g_inv2 g_ind g_bf g_df g_lf].
  - rewrite len_pts. apply Nat.mul_comm.
  - apply ind_nodup.
  - apply ind_lt.
  - intros ip mu Hip Hmu Hn. rewrite len_pts in Hip. rewrite nth_pts by auto. unfold at_point. cbn [p_f p_g p_l].
    fold nr. rewrite !radial_out by auto. split; [|split].
    + unfold cscal; f_equal; ring.
    + intros [|[|c]]; unfold cscal, Rdiv; f_equal; ring.
    + unfold cscal, Rdiv; f_equal; ring.
  - intros ip Hip. rewrite len_pts in Hip. rewrite nth_pts by auto. unfold at_point, at_weight. cbn [p_w]. fold nrad. ring.
  - rewrite len_ind, len_pts. destruct Hbf as [B1 B2].
    split; [apply (is_mat_ext _ _ _ _ _ B1)|apply (is_mat_ext _ _ _ _ _ B2)];
      (intros k ip Hk Hip; rewrite nth_pts by auto; unfold at_point; cbn [p_f]; fold nr; rewrite radial_in by auto;
       fold (cth (ip / nrad)%nat) (phi (ip / nrad)%nat); rewrite HY by auto; reflexivity).
  - intros c ip Hc Hip. rewrite len_pts in Hip. apply at_scale_nonzero; auto.
  - reflexivity.
  - intros Hg c Hc. rewrite (Hdf Hg), len_ind, len_pts.
    destruct c as [|[|[|c]]]; [| | |lia].
    + destruct H0 as [B1 B2].
      split; [apply (is_mat_ext _ _ _ _ _ B1)|apply (is_mat_ext _ _ _ _ _ B2)];
      (intros k ip Hk Hip; rewrite nth_pts by auto; unfold at_point, at_scale; cbn [p_g]; fold nr; rewrite radial_in by auto;
       fold (cth (ip / nrad)%nat) (phi (ip / nrad)%nat); rewrite HY by auto; unfold cscal, conj; cbn [fst snd]; ring).
    + destruct H1 as [B1 B2].
      assert (HT : forall k ip, (k < nsh * Nr)%nat -> (ip < nang * nrad)%nat ->
        conj (cscal (dent (ab_f b iel) (ip mod nrad)%nat (k mod Nr)%nat) (theta_factor b (cth (ip / nrad)%nat) (phi (ip / nrad)%nat) (k / Nr)%nat))
        = cscal (at_scale (ab_r b iel) ru 1 ip) (conj (p_g (pt el_pts ip) 1 (nth k el_ind 0%nat)))).
      { intros k ip Hk Hip. rewrite nth_pts by auto. unfold at_point, at_scale. cbn [p_g]. fold nr. rewrite radial_in by auto.
        destruct (ip_bounds ip Hip) as [I1 I2]. destruct (ind_div k Hk) as (E & _ & _). rewrite E.
        unfold cth, phi. rewrite theta_factor_ok by (auto; apply Nat.div_lt_upper_bound; nia).
        fold nrad. assert (P := r_pos _ I2). unfold cscal, conj. cbn [fst snd]. f_equal; field; lra. }
      split; [apply (is_mat_ext _ _ _ _ _ B1)|apply (is_mat_ext _ _ _ _ _ B2)];
      (intros k ip Hk Hip; rewrite <- HT by auto; reflexivity).
    + destruct H2 as [B1 B2].
      assert (HT : forall k ip, (k < nsh * Nr)%nat -> (ip < nang * nrad)%nat ->
        conj (cscal (dent (ab_f b iel) (ip mod nrad)%nat (k mod Nr)%nat) (cmul (0, IZR (snd (shell (ab_sh b) (k / Nr)%nat))) (shell_Y b (cth (ip / nrad)%nat) (phi (ip / nrad)%nat) (k / Nr)%nat)))
        = cscal (at_scale (ab_r b iel) ru 2 ip) (conj (p_g (pt el_pts ip) 2 (nth k el_ind 0%nat)))).
      { intros k ip Hk Hip. rewrite nth_pts by auto. unfold at_point, at_scale. cbn [p_g]. fold nr. rewrite radial_in by auto.
        destruct (ip_bounds ip Hip) as [I1 I2]. fold (cth (ip / nrad)%nat) (phi (ip / nrad)%nat). rewrite HY by auto.
        destruct (ind_div k Hk) as (E & _ & _). rewrite E.
        fold nrad. assert (P := r_pos _ I2). assert (P2 := sth_pos _ I1). fold (cth (ip / nrad)%nat) in P2 |- *.
        unfold cscal, conj. cbn [fst snd]. f_equal; field; split; lra. }
      split; [apply (is_mat_ext _ _ _ _ _ B1)|apply (is_mat_ext _ _ _ _ _ B2)];
      (intros k ip Hk Hip; rewrite <- HT by auto; reflexivity).
  - intros Hg. rewrite (Hlf Hg), len_ind, len_pts. destruct Hl as [B1 B2].
    assert (HT : forall k ip, (k < nsh * Nr)%nat -> (ip < nang * nrad)%nat ->
        cscal (lf_radial b iel (k / Nr)%nat (ip mod nrad)%nat (k mod Nr)%nat) (shell_Y b (cth (ip / nrad)%nat) (phi (ip / nrad)%nat) (k / Nr)%nat)
        = p_l (pt el_pts ip) (nth k el_ind 0%nat)).
    { intros k ip Hk Hip. rewrite nth_pts by auto. unfold at_point. cbn [p_l]. fold nr. rewrite !radial_in by auto.
      fold (cth (ip / nrad)%nat) (phi (ip / nrad)%nat). rewrite HY by auto.
      destruct (ind_div k Hk) as (E & _ & _). rewrite E. reflexivity. }
    split; [apply (is_mat_ext _ _ _ _ _ B1)|apply (is_mat_ext _ _ _ _ _ B2)];
      (intros k ip Hk Hip; rewrite <- HT by auto; reflexivity).
Qed.
End Elem.
