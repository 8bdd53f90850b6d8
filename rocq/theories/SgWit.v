(** Spherical atoms that meet the hypotheses, and a failure. *)
Require Import Reals ZArith List Bool Arith Lia Lra Permutation.
Require Import Verif.Prelude Verif.FEModel Verif.FESpec Verif.FEProofs Verif.AngModel Verif.JKModel Verif.DftModel Verif.DftSpec Verif.DftProofs Verif.DftXc Verif.DftFock Verif.DftDrv Verif.DftGrad Verif.DftMore Verif.DftWit Verif.SgModel Verif.SgSpec Verif.SgDrv Verif.SgMore Verif.SgAtSpec Verif.SgAt.
Import ListNotations.
Local Open Scope R_scope.

(** * Runs that end *)
Lemma sg_runs1 lib b fn P ev od : sg_grid_ok b -> functional_ok lib fn -> cube_ok (at_nr b) P -> schedule_ok (get_nelem (ab_fe b)) (mkS ev od [] []) ->
  exists a H N, sg_eval_Fxc lib b fn P (mkS ev od a a) = Ok (H, (rexc1 lib fn (at_nr b) P (sg_points b), N)).
Proof.
  intros HB HF HP Hs. destruct (sg_eval_Fxc_ok lib b fn HB HF P ev od HP Hs) as (N & R). exists (fair (length ev) N).
  destruct (R (fair (length ev) N) (fair (length ev) N)) as [(_ & t & Ht & Hc)|(H & E & _)].
  - rewrite fair_count in Hc by exact Ht. lia.
  - exists H. eexists. exact E.
Qed.
Lemma sg_runs2 lib b fn Pa Pb ev od : sg_grid_ok b -> functional_ok lib fn -> cube_ok (at_nr b) Pa -> cube_ok (at_nr b) Pb -> schedule_ok (get_nelem (ab_fe b)) (mkS ev od [] []) ->
  exists a Ha Hb N, sg_eval_Fxc_pol lib b fn Pa Pb true (mkS ev od a a) = Ok (Ha, Hb, (rexc2 lib fn (at_nr b) Pa Pb (sg_points b), N)).
Proof.
  intros HB HF HPa HPb Hs. destruct (sg_eval_Fxc_pol_ok lib b fn HB HF Pa Pb true ev od HPa HPb Hs) as (N & R). exists (fair (length ev) N).
  destruct (R (fair (length ev) N) (fair (length ev) N)) as [(_ & t & Ht & Hc)|(Ha & Hb & E & _)].
  - rewrite fair_count in Hc by exact Ht. lia.
  - exists Ha, Hb. eexists. exact E.
Qed.

(** * s and p orbitals over three elements *)
Definition wQ : dmat := mkD 2 2 (fun i j => if Nat.eqb i j then 2 else 1).
Definition wcube : list dmat := [wQ; wQ].
Lemma wQ_ok : is_density 2 wQ.
Proof. split; [reflexivity|split; [reflexivity|]]. intros i j _ _. cbn. rewrite Nat.eqb_sym. reflexivity. Qed.
Lemma wcube_ok : cube_ok 2 wcube.
Proof. split; [discriminate|]. intros P [<-|[<-|[]]]; exact wQ_ok. Qed.
Lemma wb_sg : sg_grid_ok wb.
Proof. apply (sg_of_at wb wru wb_ok). Qed.
Lemma wb_nr : at_nr wb = 2%nat. Proof. reflexivity. Qed.
Definition wC2 : mat := fun i k => if Nat.eqb k 2 then 1 else if Nat.eqb i k then 1 else 0.
Lemma wcube_orbitals : orbital_cube 2 (fun _ => 3%nat) (fun _ _ => 1) (fun _ => wC2) wcube.
Proof.
  intros l Hl i j Hi Hj. assert (E : part wcube l = dent wQ) by (destruct l as [|[|l]]; [reflexivity|reflexivity|cbn in Hl; lia]). rewrite E.
  destruct i as [|[|i]]; try lia; destruct j as [|[|j]]; try lia; unfold wC2; cbn; ring.
Qed.
Lemma wrang iel : (iel < 3)%nat -> 0 < rang 2 wcube (sg_point wb iel 0).
Proof.
  intros H. assert (Hr : 0 < nth 0 (ab_r wb iel) 0) by (cbn; assert (P := pos_INR iel); lra).
  unfold rang, rsum. cbn [length wcube sum]. unfold r_a, r_n. change (q_r (sg_point wb iel 0)) with (nth 0 (ab_r wb iel) 0).
  set (r := nth 0 (ab_r wb iel) 0) in *. clearbody r.
  change (part wcube 0) with (dent wQ). change (part wcube 1) with (dent wQ).
  change (q_f (sg_point wb iel 0)) with (radial_value wb (ab_f wb) iel 0). unfold contract. cbn [sum Nat.add Nat.mul INR wQ dent Nat.eqb].
  assert (Hi : 0 < / (r * r)) by (apply Rinv_0_lt_compat; nra). unfold Rdiv.
  destruct iel as [|[|[|iel]]]; [| | |lia].
  - change (radial_value wb (ab_f wb) 0 0 0) with 1. change (radial_value wb (ab_f wb) 0 0 1) with 0. lra.
  - change (radial_value wb (ab_f wb) 1 0 0) with 1. change (radial_value wb (ab_f wb) 1 0 1) with 1. lra.
  - change (radial_value wb (ab_f wb) 2 0 0) with 0. change (radial_value wb (ab_f wb) 2 0 1) with 1. lra.
Qed.
Lemma wsmooth q : In q (sg_points wb) -> 0 < rang 2 wcube q.
Proof.
  change (sg_points wb) with [sg_point wb 0 0; sg_point wb 1 0; sg_point wb 2 0]. intros [<-|[<-|[<-|[]]]]; apply wrang; lia.
Qed.
Lemma rargs1_shaped n P q : shaped false (rargs1 n P q). Proof. repeat split. Qed.
Lemma rargs2_shaped n Pa Pb q : shaped true (rargs2 n Pa Pb q). Proof. repeat split. Qed.
Lemma wfn_rderivatives1 n P q ip : In ip (parts wfn) -> xc_derivatives wlib false (fn_thr wfn) ip (rargs1 n P q).
Proof. intros H. destruct (wfn_parts ip H) as [E1 E2]. destruct ip as [id pars]. cbn in E1, E2. subst. apply wlib_derivatives; [exact E2|apply rargs1_shaped]. Qed.
Lemma wfn_rderivatives2 n Pa Pb q ip : In ip (parts wfn) -> xc_derivatives wlib true (fn_thr wfn) ip (rargs2 n Pa Pb q).
Proof. intros H. destruct (wfn_parts ip H) as [E1 E2]. destruct ip as [id pars]. cbn in E1, E2. subst. apply wlib_derivatives; [exact E2|apply rargs2_shaped]. Qed.
Lemma wrE1 P D : cube_ok 2 P -> cube_ok 2 D -> length D = length P -> exists E, forall t, exists sc H N, schedule_ok (get_nelem (ab_fe wb)) sc /\
  sg_eval_Fxc wlib wb wfn (shifted_cube P D t) sc = Ok (H, (E t, N)).
Proof.
  intros HP HD HL. exists (fun t => rexc1 wlib wfn 2 (shifted_cube P D t) (sg_points wb)). intros t.
  destruct (sg_runs1 wlib wb wfn (shifted_cube P D t) [[2]; [0]]%nat [[]; [1]]%nat wb_sg wfn_ok) as (a & H & N & E).
  { exact (shifted_cube_ok 2 P D t HL HP HD). } { exact wsched. }
  eexists _, H, N. split; [|exact E]. exact wsched.
Qed.
Lemma wrE2 Pa Da Pb Db : cube_ok 2 Pa -> cube_ok 2 Da -> length Da = length Pa -> cube_ok 2 Pb -> cube_ok 2 Db -> length Db = length Pb ->
  exists E, forall t, exists sc Ha Hb N, schedule_ok (get_nelem (ab_fe wb)) sc /\
  sg_eval_Fxc_pol wlib wb wfn (shifted_cube Pa Da t) (shifted_cube Pb Db t) true sc = Ok (Ha, Hb, (E t, N)).
Proof.
  intros HPa HDa HLa HPb HDb HLb. exists (fun t => rexc2 wlib wfn 2 (shifted_cube Pa Da t) (shifted_cube Pb Db t) (sg_points wb)). intros t.
  destruct (sg_runs2 wlib wb wfn (shifted_cube Pa Da t) (shifted_cube Pb Db t) [[2]; [0]]%nat [[]; [1]]%nat wb_sg wfn_ok) as (a & Ha & Hb & N & E).
  { exact (shifted_cube_ok 2 Pa Da t HLa HPa HDa). } { exact (shifted_cube_ok 2 Pb Db t HLb HPb HDb). } { exact wsched. }
  eexists _, Ha, Hb, N. split; [|exact E]. exact wsched.
Qed.

(** * A density that is not one of orbitals *)
Definition wfn_tau : functional := mkFn 3 [] 0 [] 0.
Lemma wfn_tau_ok : functional_ok wlib wfn_tau.
Proof. intros id pars H. cbn in H. destruct H as [H|[]]; injection H as <- <-; cbn. split; [reflexivity|split; [discriminate|split; [|left; reflexivity]]]. auto. Qed.
Definition wneg : list dmat := [mkD 1 1 (fun _ _ => 2); mkD 1 1 (fun _ _ => -1)].
Definition wdir : list dmat := [mkD 1 1 (fun _ _ => 0); mkD 1 1 (fun _ _ => 1)].
Lemma wneg_ok : cube_ok 1 wneg. Proof. split; [discriminate|]. intros P [<-|[<-|[]]]; repeat split. Qed.
Lemma wdir_ok : cube_ok 1 wdir. Proof. split; [discriminate|]. intros P [<-|[<-|[]]]; repeat split. Qed.
Lemma wb1_sg : sg_grid_ok wb1. Proof. apply (sg_of_at wb1 wru1 wb1_ok). Qed.
Definition q1 := sg_point wb1 0 0.
Lemma wsg_points1 : sg_points wb1 = [q1]. Proof. reflexivity. Qed.
Lemma wq1_f : q_f q1 0 = 1. Proof. reflexivity. Qed.
Lemma wq1_d : q_d q1 0 = 1. Proof. reflexivity. Qed.
Lemma wq1_r : q_r q1 = / 2. Proof. unfold q1, sg_point. cbn. ring. Qed.
Lemma wq1_w : 0 < q_w q1. Proof. unfold q1, sg_point. cbn [q_w]. cbn [ab_r ab_wrad wb1 wbasis nth INR]. assert (H := PI_RGT_0). lra. Qed.
Lemma one_contract P x : contract 1 P x = P 0%nat 0%nat * x 0%nat 0%nat.
Proof. unfold contract. cbn [sum]. ring. Qed.
Lemma two_rsum P Q x : rsum 1 [P; Q] x = dent P 0%nat 0%nat * x 0%nat 0%nat 0%nat + dent Q 0%nat 0%nat * x 1%nat 0%nat 0%nat.
Proof. unfold rsum. cbn [length sum]. rewrite !one_contract. unfold part. cbn [nth]. ring. Qed.
Lemma wshift t : shifted_cube wneg wdir t = [mkD 1 1 (fun _ _ => 2 + t * 0); mkD 1 1 (fun _ _ => -1 + t * 1)].
Proof. reflexivity. Qed.
Lemma wexc P : rexc1 wlib wfn_tau 1 P [q1] = q_w q1 * (rtau 1 P q1 * rdens 1 P q1).
Proof.
  unfold rexc1, lsum. cbn [map fold_right]. unfold e_exc, over, lsum.
  cbn [parts wfn_tau filter fn_x fn_xp fn_c fn_cp fst snd Z.ltb Z.compare map fold_right].
  change (xc_have_exc wlib 3) with true. cbv iota. cbn [xc_at wlib xc_family Z.eqb Pos.eqb xc_mgga o_exc xc_lapl xc_tau opt]. unfold tot.
  cbn [rargs1 a_tau nth]. ring.
Qed.
Lemma clamp_gradient_fails : exists sc H s, schedule_ok (get_nelem (ab_fe wb1)) sc /\ sg_eval_Fxc wlib wb1 wfn_tau wneg sc = Ok (H, s) /\
  ~ derivable_pt_lim (fun t => rexc1 wlib wfn_tau 1 (shifted_cube wneg wdir t) (sg_points wb1)) 0 (rsum 1 wdir (part H)).
Proof.
  destruct (sg_runs1 wlib wb1 wfn_tau wneg [[0]]%nat [[]] wb1_sg wfn_tau_ok wneg_ok wsched1) as (a & H & N & E).
  eexists _, H, _. split; [|split; [exact E|]]. { exact wsched1. } intros Hd.
  destruct (sg_value1 wlib wb1 wfn_tau wb1_sg wfn_tau_ok wneg (mkS [[0]]%nat [[]] a a) H _ wneg_ok wsched1 E) as (_ & HC).
  rewrite wsg_points1 in Hd.
  (* near t = 0 the angular part is cut off *)
  assert (Hv : derivable_pt_lim (fun t => rexc1 wlib wfn_tau 1 (shifted_cube wneg wdir t) [q1]) 0 (q_w q1)).
  { apply (dl_local (fun t => q_w q1 * (/ 2 * ((1 + t * 1) * (1 + t * 1)))) _ 0 _ (/ 2)); [lra| |].
    - intros h Hh. rewrite Rplus_0_l. rewrite wexc, wshift. unfold rtau, rang, rdens. rewrite !two_rsum. cbn [dent]. unfold r_k, r_a, r_n. rewrite wq1_f, wq1_d, wq1_r.
      cbn [Nat.mul Nat.add INR]. rewrite Rmax_right. 2:{ apply Rabs_def2 in Hh. assert (Hi : / (/ 2 * / 2) = 4) by field. unfold Rdiv. rewrite Hi. lra. } ring.
    - eapply dl_val; [|apply (derivable_pt_lim_scal (fun t => / 2 * ((1 + t * 1) * (1 + t * 1)))); apply (derivable_pt_lim_scal (fun t => ((1 + t * 1) * (1 + t * 1)))); apply dl_prod].
      field. }
  assert (U := uniqueness_limite _ _ _ _ Hd Hv). clear Hd Hv.
  unfold wdir in U. rewrite two_rsum in U. cbn [dent] in U.
  rewrite (is_cube_part H 2 1 _ 1 0 0 HC) in U by lia. rewrite wsg_points1 in U.
  unfold rfock1, lsum in U. cbn [map fold_right] in U. change (at_nr wb1) with 1%nat in U.
  assert (Z1 : e_vsigma wlib false wfn_tau (rargs1 1 wneg q1) 0 = 0).
  { unfold e_vsigma, over, lsum. cbn [parts wfn_tau filter fn_x fn_xp fn_c fn_cp fst snd Z.ltb Z.compare map fold_right].
    change (is_gga wlib 3) with true. cbv iota. cbn [xc_at wlib xc_family Z.eqb Pos.eqb xc_mgga o_vsigma]. ring. }
  assert (Z2 : e_vlapl wlib false wfn_tau (rargs1 1 wneg q1) 0 = 0).
  { unfold e_vlapl, over, lsum. cbn [parts wfn_tau filter fn_x fn_xp fn_c fn_cp fst snd Z.ltb Z.compare map fold_right].
    change (is_lapl wlib 3) with false. cbv iota. ring. }
  assert (Z3 : e_vtau wlib false wfn_tau (rargs1 1 wneg q1) 0 = 1).
  { unfold e_vtau, over, lsum. cbn [parts wfn_tau filter fn_x fn_xp fn_c fn_cp fst snd Z.ltb Z.compare map fold_right].
    change (is_tau wlib 3) with true. cbv iota. cbn [xc_at wlib xc_family Z.eqb Pos.eqb xc_mgga o_vtau]. unfold tot. cbn [rargs1 a_rho nth].
    unfold rdens, wneg. rewrite two_rsum. cbn [dent]. unfold r_n. rewrite wq1_f. ring. }
  assert (Z4 : e_vrho wlib false wfn_tau (rargs1 1 wneg q1) 0 = / 2).
  { unfold e_vrho, over, lsum. cbn [parts wfn_tau filter fn_x fn_xp fn_c fn_cp fst snd Z.ltb Z.compare map fold_right].
    cbv iota. cbn [xc_at wlib xc_family Z.eqb Pos.eqb xc_mgga o_vrho xc_lapl xc_tau opt]. unfold tot. cbn [rargs1 a_tau nth].
    unfold rtau, rang, wneg. rewrite !two_rsum. cbn [dent]. unfold r_k, r_a, r_n. rewrite wq1_f, wq1_d, wq1_r. cbn [Nat.mul Nat.add INR].
    rewrite Rmax_right. 2:{ assert (Hi : / (/ 2 * / 2) = 4) by field. unfold Rdiv. rewrite Hi. lra. } field. }
  rewrite Z1, Z2, Z3, Z4 in U. unfold r_n, r_k, r_a, r_n in U. rewrite wq1_f, wq1_d, wq1_r in U. cbn [Nat.mul Nat.add INR] in U.
  assert (Hi : / (/ 2 * / 2) = 4) by field. unfold Rdiv in U. rewrite Hi in U. assert (W := wq1_w). lra.
Qed.
Lemma clamp_refuted : exists lib b fn P D sc H s E, sg_grid_ok b /\ functional_ok lib fn /\ cube_ok (at_nr b) P /\ cube_ok (at_nr b) D /\ length D = length P /\
  (forall q ip, In ip (parts fn) -> xc_derivatives lib false (fn_thr fn) ip (rargs1 (at_nr b) P q)) /\
  schedule_ok (get_nelem (ab_fe b)) sc /\ sg_eval_Fxc lib b fn P sc = Ok (H, s) /\
  (forall t, exists sc H N, schedule_ok (get_nelem (ab_fe b)) sc /\ sg_eval_Fxc lib b fn (shifted_cube P D t) sc = Ok (H, (E t, N))) /\
  ~ derivable_pt_lim E 0 (rsum (at_nr b) D (part H)).
Proof.
  destruct clamp_gradient_fails as (sc & H & s & Hs & E & Hd).
  exists wlib, wb1, wfn_tau, wneg, wdir, sc, H, s, (fun t => rexc1 wlib wfn_tau 1 (shifted_cube wneg wdir t) (sg_points wb1)).
  split; [exact wb1_sg|]. split; [exact wfn_tau_ok|]. split; [exact wneg_ok|]. split; [exact wdir_ok|]. split; [reflexivity|].
  split. { intros q ip [<-|[]]. apply wlib_derivatives; [cbn; auto|apply rargs1_shaped]. }
  split; [exact Hs|]. split; [exact E|]. split; [|exact Hd]. intros t.
  destruct (sg_runs1 wlib wb1 wfn_tau (shifted_cube wneg wdir t) [[0]]%nat [[]] wb1_sg wfn_tau_ok (shifted_cube_ok 1 wneg wdir t eq_refl wneg_ok wdir_ok) wsched1) as (a & H' & N & E').
  eexists _, H', N. split; [|exact E']. exact wsched1.
Qed.

(** * Spherical harmonics up to l = 1 *)
Definition hk : R := sqrt (3 / (8 * PI)).
Definition hY (l m : Z) (cth phi : R) : R * R :=
  let sth := sqrt (1 - cth * cth) in
  if Z.eqb l 0 then (if Z.eqb m 0 then (sqrt (1 / (4 * PI)), 0) else (0, 0))
  else if Z.eqb m 0 then (sqrt 2 * hk * cth, 0)
  else if Z.eqb m 1 then (- hk * sth * cos phi, - hk * sth * sin phi)
  else if Z.eqb m (-1) then (hk * sth * cos phi, - hk * sth * sin phi)
  else (0, 0).
Lemma hk_sq : hk * hk = 3 / (8 * PI).
Proof. apply sqrt_sqrt. assert (H := PI_RGT_0). left. apply Rdiv_lt_0_compat; lra. Qed.
Lemma hY_ok : harmonics hY 2.
Proof.
  intros l cth phi Hl Hc. assert (Hs : 0 < 1 - cth * cth) by nra. assert (Hr := sqrt_lt_R0 _ Hs). assert (Hq := sqrt_sqrt _ (Rlt_le _ _ Hs)).
  assert (C2 : sin phi * sin phi = 1 - cos phi * cos phi) by (assert (H := sin2_cos2 phi); unfold Rsqr in H; lra).
  assert (S2 := sqrt_sqrt 2 ltac:(lra)). assert (HP := PI_RGT_0).
  destruct l as [|[|l]]; [| |lia].
  - split.
    + intros m Hm. assert (m = 0%Z) by lia. subst m. cbn [Z.of_nat Z.sub Z.add Z.mul Z.opp]. rewrite sqrt_0.
      unfold cscal, cadd, cmul. cbn [fst snd]. f_equal; ring.
    + cbn [Nat.mul Nat.add sum]. change (Z.of_nat 0 - Z.of_nat 0)%Z with 0%Z. change (Z.of_nat 0) with 0%Z. unfold hY. cbn [Z.eqb]. unfold reprod. cbn [fst snd].
      rewrite sqrt_sqrt by (left; apply Rdiv_lt_0_compat; lra). cbn [INR]. field. lra.
  - change (Z.of_nat 1) with 1%Z. split.
    + intros m Hm. assert (Hm' : m = (-1)%Z \/ m = 0%Z \/ m = 1%Z) by lia. destruct Hm' as [-> | [-> | ->] ].
      * change ((1 - -1) * (1 + -1 + 1))%Z with 2%Z. change ((1 + -1) * (1 - -1 + 1))%Z with 0%Z. change (-1 + 1)%Z with 0%Z. change (-1 - 1)%Z with (-2)%Z.
        rewrite sqrt_0. unfold hY. cbn [Z.eqb Pos.eqb]. unfold cscal, cadd, cmul. cbn [fst snd]. f_equal.
        -- transitivity (- (2) * hk * cth * cos phi); [field; lra|]. set (s := sqrt 2) in *. clearbody s. rewrite <- S2. ring.
        -- transitivity (2 * hk * cth * sin phi); [field; lra|]. set (s := sqrt 2) in *. clearbody s. rewrite <- S2. ring.
      * change ((1 - 0) * (1 + 0 + 1))%Z with 2%Z. change ((1 + 0) * (1 - 0 + 1))%Z with 2%Z. change (0 + 1)%Z with 1%Z. change (0 - 1)%Z with (-1)%Z.
        unfold hY. cbn [Z.eqb Pos.eqb]. unfold cscal, cadd, cmul. cbn [fst snd]. f_equal; ring.
      * change ((1 - 1) * (1 + 1 + 1))%Z with 0%Z. change ((1 + 1) * (1 - 1 + 1))%Z with 2%Z. change (1 + 1)%Z with 2%Z. change (1 - 1)%Z with 0%Z.
        rewrite sqrt_0. unfold hY. cbn [Z.eqb Pos.eqb]. unfold cscal, cadd, cmul. cbn [fst snd]. f_equal.
        -- transitivity (- (2) * hk * cth * cos phi); [field; lra|]. set (s := sqrt 2) in *. clearbody s. rewrite <- S2. ring.
        -- transitivity (- (2) * hk * cth * sin phi); [field; lra|]. set (s := sqrt 2) in *. clearbody s. rewrite <- S2. ring.
    + cbn [Nat.mul Nat.add sum]. change (Z.of_nat 0 - 1)%Z with (-1)%Z. change (Z.of_nat 1 - 1)%Z with 0%Z. change (Z.of_nat 2 - 1)%Z with 1%Z.
      unfold hY. cbn [Z.eqb Pos.eqb]. unfold reprod. cbn [fst snd INR].
      transitivity (2 * (hk * hk) * (sqrt (1 - cth * cth) * sqrt (1 - cth * cth)) * (cos phi * cos phi + sin phi * sin phi) + (sqrt 2 * sqrt 2) * (hk * hk) * (cth * cth)); [ring|].
      rewrite Hq, S2, C2, hk_sq. field. lra.
Qed.
Definition wb4 : abasis := mkAB (full_shells 2) wfe (fun iel => [INR iel + / 2]) (fun _ => [1]) (wtab wfe (fun _ _ => 1)) (wtab wfe (fun _ _ => 1)) (wtab wfe (fun _ _ => 0)) hY.
Definition wru4 : rule := [(/ 2, 0, 2 * PI); (- / 2, 1, 2 * PI)].
Lemma wb4_ok : at_grid_ok wb4 wru4.
Proof.
  split; [exact wfe_valid|split; [|split; [|]]].
  - intros l m H. cbn in H. destruct H as [H|[H|[H|[H|[]]]]]; injection H as <- <-; lia.
  - intros [|[|ia]] H; cbn in *; [lra|lra|lia].
  - intros iel Hi. split; [intros r [<-|[]]; assert (P := pos_INR iel); lra|]. split; [reflexivity|].
    intros A [<-|[<-|[<-|[]]]]; split; reflexivity.
Qed.
Lemma wru4_w : lsum wru4 a_w = 4 * PI. Proof. unfold lsum. cbn. ring. Qed.
(** The density of the whole atom *)
Definition whole (b : abasis) (Ps : list dmat) : dmat :=
  mkD (at_nbf b) (at_nbf b) (fun i j => if Nat.eqb (i / at_nr b) (j / at_nr b)
    then let l := Z.to_nat (fst (shell (ab_sh b) (i / at_nr b))) in
         4 * PI / INR (2 * l + 1) * part Ps l (i mod at_nr b) (j mod at_nr b)
    else 0).
Lemma whole_spherical b Ps : spherical b Ps (whole b Ps). Proof. intros i j _ _. reflexivity. Qed.
Lemma whole_density b Ps : (0 < at_nr b)%nat -> cube_ok (at_nr b) Ps -> is_density (at_nbf b) (whole b Ps).
Proof.
  intros Hn [_ HC]. split; [reflexivity|split; [reflexivity|]]. intros i j Hi Hj. cbn [whole dent]. rewrite (Nat.eqb_sym (j / at_nr b)).
  destruct (Nat.eqb_spec (i / at_nr b) (j / at_nr b)) as [E|E]; [|reflexivity]. rewrite <- E. cbv zeta. f_equal.
  set (l := Z.to_nat (fst (shell (ab_sh b) (i / at_nr b)))). unfold part.
  destruct (Nat.lt_ge_cases l (length Ps)) as [Hl|Hl].
  - apply (HC (nth l Ps dempty) (nth_In _ _ Hl)); apply Nat.mod_upper_bound; lia.
  - rewrite nth_overflow by exact Hl. reflexivity.
Qed.
Lemma wb4_n : at_nbf wb4 = 8%nat. Proof. reflexivity. Qed.
Lemma wb4_nr : at_nr wb4 = 2%nat. Proof. reflexivity. Qed.
Lemma wcube_rang n q : n = 2%nat -> 0 <= rang n wcube q.
Proof. intros ->. apply (rang_nonneg 2 (fun _ => 3%nat) (fun _ _ => 1) (fun _ => wC2) wcube); [intros; lra|exact wcube_orbitals]. Qed.
Lemma wagree_example : at_grid_ok wb4 wru4 /\ Permutation (ab_sh wb4) (full_shells 2) /\ harmonics (ab_Y wb4) 2 /\ lsum wru4 a_w = 4 * PI /\ (0 < at_nbf wb4)%nat /\
  cube_ok (at_nr wb4) wcube /\ is_density (at_nbf wb4) (whole wb4 wcube) /\ spherical wb4 wcube (whole wb4 wcube) /\ forall q, 0 <= rang (at_nr wb4) wcube q.
Proof.
  split; [exact wb4_ok|]. split; [apply Permutation_refl|]. split; [exact hY_ok|]. split; [exact wru4_w|]. split; [rewrite wb4_n; lia|].
  split; [exact wcube_ok|]. split; [apply whole_density; [rewrite wb4_nr; lia|exact wcube_ok]|]. split; [apply whole_spherical|]. intros q. apply wcube_rang. reflexivity.
Qed.
