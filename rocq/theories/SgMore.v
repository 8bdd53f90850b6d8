(** What follows from the values of the quadrature in a spherical atom. *)
Require Import Reals ZArith List Bool Arith Lia Lra Permutation.
Require Import Verif.Prelude Verif.FEModel Verif.FESpec Verif.AngModel Verif.JKModel Verif.DftModel Verif.DftSpec Verif.DftProofs Verif.DftXc Verif.DftFock Verif.DftDrv Verif.DftGrad Verif.DftMore Verif.SgModel Verif.SgSpec Verif.SgDrv.
Import ListNotations.
Local Open Scope R_scope.

(** * Sums over slices *)
Lemma rsum_plus n D x y : rsum n D (fun l i j => x l i j + y l i j) = rsum n D x + rsum n D y.
Proof. unfold rsum. rewrite <- sum_plus. apply sum_ext. intros l _. apply contract_plus. Qed.
Lemma rsum_scal n D c x : rsum n D (fun l i j => c * x l i j) = c * rsum n D x.
Proof. unfold rsum. rewrite <- sum_scal. apply sum_ext. intros l _. apply contract_scal. Qed.
Lemma rsum_lsum {A} n D (pts : list A) (x : A -> nat -> mat) : rsum n D (fun l i j => lsum pts (fun q => x q l i j)) = lsum pts (fun q => rsum n D (x q)).
Proof.
  unfold rsum. rewrite lsum_sum_swap. apply sum_ext. intros l _. apply (contract_lsum n (part D l) pts (fun q => x q l)).
Qed.
Lemma rsum_ext n D x y : (forall l i j, (l < length D)%nat -> (i < n)%nat -> (j < n)%nat -> x l i j = y l i j) -> rsum n D x = rsum n D y.
Proof. intros H. apply sum_ext. intros l Hl. apply contract_ext. intros; apply H; auto. Qed.

Lemma shifted_length P D t : length D = length P -> length (shifted_cube P D t) = length P.
Proof. intros H. unfold shifted_cube. rewrite map_length, combine_length. lia. Qed.
Lemma shifted_part P D t l : length D = length P -> (l < length P)%nat ->
  part (shifted_cube P D t) l = fun i j => part P l i j + t * part D l i j.
Proof.
  intros H Hl. unfold part, shifted_cube.
  rewrite (nth_indep _ dempty ((fun PD => shifted (fst PD) (snd PD) t) (dempty, dempty))) by (rewrite map_length, combine_length; lia).
  rewrite (map_nth (fun PD => shifted (fst PD) (snd PD) t)), combine_nth by auto. reflexivity.
Qed.
Lemma rsum_shift n P D x t : length D = length P -> rsum n (shifted_cube P D t) x = rsum n P x + t * rsum n D x.
Proof.
  intros H. unfold rsum. rewrite shifted_length, H by exact H. rewrite <- sum_scal, <- sum_plus. apply sum_ext. intros l Hl.
  rewrite shifted_part by auto. apply contract_shift.
Qed.
Lemma half_part P l : (l < length P)%nat -> part (half_cube P) l = fun i j => part P l i j / 2.
Proof.
  intros Hl. unfold part, half_cube. rewrite (nth_indep _ dempty (half dempty)) by (rewrite map_length; lia).
  rewrite map_nth. reflexivity.
Qed.
Lemma rsum_half n P x : rsum n (half_cube P) x = rsum n P x / 2.
Proof.
  unfold rsum. replace (length (half_cube P)) with (length P) by (unfold half_cube; rewrite map_length; reflexivity).
  unfold Rdiv. rewrite Rmult_comm, <- sum_scal. apply sum_ext. intros l Hl. rewrite half_part by auto.
  rewrite half_contract. unfold Rdiv. ring.
Qed.
Lemma shifted_cube_ok n P D t : length D = length P -> cube_ok n P -> cube_ok n D -> cube_ok n (shifted_cube P D t).
Proof.
  intros HL [H1 H2] [_ H4]. split.
  - intros E. apply (f_equal (@length _)) in E. rewrite shifted_length in E by exact HL. destruct P; [congruence|discriminate].
  - intros Q HQ. unfold shifted_cube in HQ. apply in_map_iff in HQ. destruct HQ as ([X Y] & <- & HI). cbn [fst snd].
    assert (HX := H2 X (in_combine_l _ _ _ _ HI)). assert (HY := H4 Y (in_combine_r _ _ _ _ HI)).
    destruct HX as (R & C & S), HY as (R' & C' & S'). split; [exact R|split; [exact C|]]. intros i j Hi Hj. cbn. rewrite (S i j), (S' i j) by auto. reflexivity.
Qed.
Lemma half_cube_ok n P : cube_ok n P -> cube_ok n (half_cube P).
Proof.
  intros [H1 H2]. split; [destruct P; [congruence|discriminate]|]. intros Q HQ. apply in_map_iff in HQ. destruct HQ as (X & <- & HI).
  destruct (H2 X HI) as (R & C & S). split; [exact R|split; [exact C|]]. intros i j Hi Hj. cbn. rewrite (S i j) by auto. reflexivity.
Qed.

(** * Derivatives *)
Lemma dl_local f g x l eps : 0 < eps -> (forall h, Rabs h < eps -> f (x + h) = g (x + h)) -> derivable_pt_lim f x l -> derivable_pt_lim g x l.
Proof.
  intros He E H e Hp. destruct (H e Hp) as (del & Hd). assert (Hm : 0 < Rmin del eps) by (apply Rmin_glb_lt; [apply del|exact He]).
  exists (mkposreal _ Hm). cbn. intros h H1 H2. rewrite <- (E h). 2:{ eapply Rlt_le_trans; [exact H2|apply Rmin_r]. }
  replace (g x) with (f x). 2:{ rewrite <- (Rplus_0_r x). apply E. rewrite Rabs_R0. exact He. }
  apply Hd; [exact H1|]. eapply Rlt_le_trans; [exact H2|apply Rmin_l].
Qed.
(** max(a + t b, 0) has a derivative in t = 0 if a > 0 or b = 0 *)
Lemma dl_clamp a c : 0 < a \/ c = 0 -> derivable_pt_lim (fun t => Rmax (a + t * c) 0) 0 c.
Proof.
  intros [H| ->].
  - destruct (Req_dec c 0) as [->|Hc].
    + apply (dl_ext (fun _ => Rmax a 0)); [intros t; f_equal; ring|apply derivable_pt_lim_const].
    + assert (Hp : 0 < a / Rabs c) by (apply Rdiv_lt_0_compat; [exact H|apply Rabs_pos_lt; exact Hc]).
      apply (dl_local (fun t => a + t * c) _ 0 c (a / Rabs c) Hp); [|apply dl_affine]. intros h Hh.
      rewrite Rmax_left; [reflexivity|]. assert (Rabs (h * c) < a).
      { rewrite Rabs_mult. apply (Rmult_lt_reg_r (/ Rabs c)); [apply Rinv_0_lt_compat, Rabs_pos_lt, Hc|].
        replace (Rabs h * Rabs c * / Rabs c) with (Rabs h) by (field; apply Rabs_no_R0, Hc). exact Hh. }
      assert (Hx := Rle_abs (- (h * c))). rewrite Rabs_Ropp in Hx. lra.
  - apply (dl_ext (fun _ => Rmax a 0)); [intros t; f_equal; ring|apply derivable_pt_lim_const].
Qed.

(** The kinetic energy density only matters to functionals that use it *)
Lemma xc_at_notau lib fn pol ip a a' : functional_ok lib fn -> uses fn (is_tau lib) = false -> In ip (parts fn) ->
  a_rho a = a_rho a' -> a_sigma a = a_sigma a' -> a_lapl a = a_lapl a' ->
  xc_at lib pol (fn_thr fn) (fst ip) (snd ip) a = xc_at lib pol (fn_thr fn) (fst ip) (snd ip) a'.
Proof.
  intros HF HU Hip E1 E2 E3. destruct ip as [id pars]. destruct (HF id pars Hip) as (_ & Hf & _). cbn [fst snd]. unfold xc_at. rewrite E1, E2, E3.
  destruct (xc_family lib id) eqn:Ef; auto; [|congruence].
  assert (is_tau lib id = false).
  { destruct (is_tau lib id) eqn:E; [|reflexivity]. unfold uses in HU.
    assert (existsb (fun ip => is_tau lib (fst ip)) (parts fn) = true) by (apply existsb_exists; exists (id, pars); auto). congruence. }
  unfold is_tau in H. rewrite Ef in H. rewrite H. reflexivity.
Qed.
Lemma over_notau lib fn pol c f a a' : functional_ok lib fn -> uses fn (is_tau lib) = false ->
  a_rho a = a_rho a' -> a_sigma a = a_sigma a' -> a_lapl a = a_lapl a' -> over lib pol fn c f a = over lib pol fn c f a'.
Proof.
  intros HF HU E1 E2 E3. apply lsum_ext. intros ip Hip. rewrite (xc_at_notau lib fn pol ip a a'); auto.
Qed.
Lemma vtau_zero lib fn pol a s : uses fn (is_tau lib) = false -> e_vtau lib pol fn a s = 0.
Proof.
  intros HU. unfold e_vtau, over. apply lsum_zero. intros ip Hip. destruct (is_tau lib (fst ip)) eqn:E; [|reflexivity].
  unfold uses in HU. assert (existsb (fun ip => is_tau lib (fst ip)) (parts fn) = true) by (apply existsb_exists; exists ip; auto). congruence.
Qed.

(** The angular part of the kinetic energy density of P can be differentiated in the
    direction D. *)
Definition ang_smooth n P D q : Prop := 0 < rang n P q \/ rang n D q = 0.
Section Grad.
Variables (lib : libxc) (fn : functional) (n : nat).
Hypothesis HF : functional_ok lib fn.
Let u := uses fn (is_tau lib).
Definition tvel (D : list dmat) q : R := / 2 * (rsum n D (fun _ => r_k q) + rang n D q).
Lemma dl_rtau P D q : length D = length P -> ang_smooth n P D q -> derivable_pt_lim (fun t => rtau n (shifted_cube P D t) q) 0 (tvel D q).
Proof.
  intros HL HS. unfold tvel. apply (dl_ext (fun t => / 2 * ((rsum n P (fun _ => r_k q) + t * rsum n D (fun _ => r_k q)) + Rmax (rang n P q + t * rang n D q) 0))).
  { intros t. unfold rtau, rang. rewrite !rsum_shift by exact HL. reflexivity. }
  apply (derivable_pt_lim_scal (fun t => (rsum n P (fun _ => r_k q) + t * rsum n D (fun _ => r_k q)) + Rmax (rang n P q + t * rang n D q) 0)).
  apply (derivable_pt_lim_plus (fun t => rsum n P (fun _ => r_k q) + t * rsum n D (fun _ => r_k q)) (fun t => Rmax (rang n P q + t * rang n D q) 0)).
  - apply dl_affine. - apply dl_clamp. exact HS.
Qed.
Definition tcur P D q t : R := if u then rtau n (shifted_cube P D t) q else rtau n P q.
Definition tdot D q : R := if u then tvel D q else 0.
Lemma shift_0 P D x : length D = length P -> rsum n (shifted_cube P D 0) x = rsum n P x.
Proof. intros H. rewrite rsum_shift by exact H. ring. Qed.
Lemma rtau_0 P D q : length D = length P -> rtau n (shifted_cube P D 0) q = rtau n P q.
Proof. intros H. unfold rtau, rang. rewrite !shift_0 by exact H. reflexivity. Qed.
Lemma dl_tcur P D q : length D = length P -> (u = true -> ang_smooth n P D q) -> derivable_pt_lim (tcur P D q) 0 (tdot D q).
Proof.
  intros HL HS. unfold tdot, tcur. destruct u eqn:E.
  - apply (dl_ext (fun t => rtau n (shifted_cube P D t) q)); [reflexivity|apply dl_rtau; auto].
  - apply (derivable_pt_lim_const (rtau n P q)).
Qed.
Lemma dl_rsum P D x : length D = length P -> derivable_pt_lim (fun t => rsum n (shifted_cube P D t) x) 0 (rsum n D x).
Proof. intros HL. eapply dl_ext; [intros t; symmetry; apply rsum_shift; exact HL|apply dl_affine]. Qed.
Lemma dl_rgrad P D P' D' q : length D = length P -> length D' = length P' ->
  derivable_pt_lim (fun t => rgrad n (shifted_cube P D t) q * rgrad n (shifted_cube P' D' t) q) 0 (rgrad n D q * rgrad n P' q + rgrad n P q * rgrad n D' q).
Proof.
  intros H H'. apply (dl_ext (fun t => (rgrad n P q + t * rgrad n D q) * (rgrad n P' q + t * rgrad n D' q))); [|apply dl_prod].
  intros t. unfold rgrad. rewrite !rsum_shift by auto. reflexivity.
Qed.

Definition rcurve1 P D q t : xargs := let S := shifted_cube P D t in
  mkA [rdens n S q] [rgrad n S q * rgrad n S q] [rlapl n S q] [tcur P D q t].
Definition rvel1 P D q : xargs := mkA [rdens n D q] [2 * (rgrad n P q * rgrad n D q)] [rlapl n D q] [tdot D q].
Lemma rcurve1_ok P D q : length D = length P -> (u = true -> ang_smooth n P D q) -> curve (rcurve1 P D q) (rargs1 n P q) (rvel1 P D q).
Proof.
  intros HL HS. unfold curve, rcurve1, rvel1. split; [|split; [reflexivity|split; [reflexivity|split; [reflexivity|split; [reflexivity|]]]]].
  - unfold rargs1, tcur, rdens, rgrad, rlapl. rewrite rtau_0, !shift_0 by exact HL. destruct u; reflexivity.
  - intros k. cbn [rargs1 a_rho a_sigma a_lapl a_tau]. split; [|split; [|split]].
    + apply (dl_nth1 (fun t => rdens n (shifted_cube P D t) q)). apply dl_rsum. exact HL.
    + apply (dl_nth1 (fun t => rgrad n (shifted_cube P D t) q * rgrad n (shifted_cube P D t) q)).
      apply (dl_val _ _ (rgrad n D q * rgrad n P q + rgrad n P q * rgrad n D q)); [ring|]. apply dl_rgrad; exact HL.
    + apply (dl_nth1 (fun t => rlapl n (shifted_cube P D t) q)). apply dl_rsum. exact HL.
    + apply (dl_nth1 (tcur P D q)). apply dl_tcur; auto.
Qed.
Lemma rfock_contract n' D (w v1 v2 v3 v4 g : rpoint -> R) pts :
  rsum n' D (fun l i j => lsum pts (fun q => w q * (v1 q * r_n q i j + v2 q * (g q * r_g q i j) + v3 q * (/ 2 * (r_k q i j + r_a q l i j)) + v4 q * r_l q i j)))
  = lsum pts (fun q => w q * (v1 q * rdens n' D q + v2 q * (g q * rgrad n' D q) + v3 q * (/ 2 * (rsum n' D (fun _ => r_k q) + rang n' D q)) + v4 q * rlapl n' D q)).
Proof.
  rewrite rsum_lsum. apply lsum_ext. intros q _. rewrite rsum_scal. f_equal. rewrite !rsum_plus, !rsum_scal, rsum_plus. reflexivity.
Qed.
Lemma tdot_vtau pol a s D q : e_vtau lib pol fn a s * tdot D q = e_vtau lib pol fn a s * tvel D q.
Proof. unfold tdot. destruct u eqn:E; [reflexivity|]. rewrite vtau_zero by exact E. ring. Qed.
Lemma rgradient1 P D pts : length D = length P ->
  (forall q, In q pts -> u = true -> ang_smooth n P D q) ->
  (forall q ip, In q pts -> In ip (parts fn) -> xc_derivatives lib false (fn_thr fn) ip (rargs1 n P q)) ->
  derivable_pt_lim (fun t => rexc1 lib fn n (shifted_cube P D t) pts) 0 (rsum n D (rfock1 lib fn n P pts)).
Proof.
  intros HL HS HX. unfold rfock1. cbv zeta.
  erewrite rsum_ext; [|intros; apply lsum_ext; intros q _; rewrite (Rmult_assoc 2); rewrite <- (Rmult_assoc 2); reflexivity].
  rewrite (rfock_contract n D q_w (fun q => e_vrho lib false fn (rargs1 n P q) 0) (fun q => e_vsigma lib false fn (rargs1 n P q) 0)
    (fun q => e_vtau lib false fn (rargs1 n P q) 0) (fun q => e_vlapl lib false fn (rargs1 n P q) 0) (fun q => 2 * rgrad n P q)).
  unfold rexc1. apply dl_lsum. intros q Hq.
  apply (dl_ext (fun t => q_w q * (e_exc lib false fn (rcurve1 P D q t) * sum (length (a_rho (rcurve1 P D q t))) (fun s => nth s (a_rho (rcurve1 P D q t)) 0)))).
  { intros t. cbn [rcurve1 a_rho length sum nth]. rewrite Rplus_0_l, Rmult_assoc. f_equal. f_equal.
    unfold rcurve1, tcur. cbv zeta. fold (rargs1 n (shifted_cube P D t) q). destruct u eqn:E; [reflexivity|].
    apply over_notau; auto. }
  eapply dl_val; [|apply (derivable_pt_lim_scal _ _ _ _ (dl_parts lib false fn _ _ _ (rcurve1_ok P D q HL (HS q Hq)) (fun ip Hip => HX q ip Hq Hip)))].
  unfold rvel1. cbn [rargs1 a_rho a_sigma a_tau a_lapl length sum nth]. rewrite tdot_vtau. unfold tvel. ring.
Qed.

Definition rcurve2 Pa Da Pb Db q t : xargs := let A := shifted_cube Pa Da t in let B := shifted_cube Pb Db t in
  mkA [rdens n A q; rdens n B q] [rgrad n A q * rgrad n A q; rgrad n A q * rgrad n B q; rgrad n B q * rgrad n B q]
      [rlapl n A q; rlapl n B q] [tcur Pa Da q t; tcur Pb Db q t].
Definition rvel2 Pa Da Pb Db q : xargs := mkA [rdens n Da q; rdens n Db q]
  [2 * (rgrad n Pa q * rgrad n Da q); rgrad n Da q * rgrad n Pb q + rgrad n Pa q * rgrad n Db q; 2 * (rgrad n Pb q * rgrad n Db q)]
  [rlapl n Da q; rlapl n Db q] [tdot Da q; tdot Db q].
Lemma rcurve2_ok Pa Da Pb Db q : length Da = length Pa -> length Db = length Pb ->
  (u = true -> ang_smooth n Pa Da q) -> (u = true -> ang_smooth n Pb Db q) -> curve (rcurve2 Pa Da Pb Db q) (rargs2 n Pa Pb q) (rvel2 Pa Da Pb Db q).
Proof.
  intros HL HL' HS HS'. unfold curve, rcurve2, rvel2. split; [|split; [reflexivity|split; [reflexivity|split; [reflexivity|split; [reflexivity|]]]]].
  - unfold rargs2, tcur, rdens, rgrad, rlapl. rewrite !rtau_0, !shift_0 by auto. destruct u; reflexivity.
  - intros k. cbn [rargs2 a_rho a_sigma a_lapl a_tau].
    assert (Z : forall k, derivable_pt_lim (fun t : R => nth k [] 0) 0 (nth k [] 0)) by (intros k0; apply (dl_val _ _ 0); [destruct k0; reflexivity|apply (derivable_pt_lim_const (nth k0 [] 0))]).
    assert (S : forall P D, length D = length P -> derivable_pt_lim (fun t => rgrad n (shifted_cube P D t) q * rgrad n (shifted_cube P D t) q) 0 (2 * (rgrad n P q * rgrad n D q))).
    { intros P D H. apply (dl_val _ _ (rgrad n D q * rgrad n P q + rgrad n P q * rgrad n D q)); [ring|]. apply dl_rgrad; exact H. }
    split; [|split; [|split]]; revert k.
    + apply (dl_nth_cons _ _ (fun t => [_])); [apply dl_rsum; auto|]. apply (dl_nth_cons _ _ (fun t => [])); [apply dl_rsum; auto|apply Z].
    + apply (dl_nth_cons _ _ (fun t => [_; _])); [apply S; auto|]. apply (dl_nth_cons _ _ (fun t => [_])); [apply dl_rgrad; auto|].
      apply (dl_nth_cons _ _ (fun t => [])); [apply S; auto|apply Z].
    + apply (dl_nth_cons _ _ (fun t => [_])); [apply dl_rsum; auto|]. apply (dl_nth_cons _ _ (fun t => [])); [apply dl_rsum; auto|apply Z].
    + apply (dl_nth_cons _ _ (fun t => [_])); [apply dl_tcur; auto|]. apply (dl_nth_cons _ _ (fun t => [])); [apply dl_tcur; auto|apply Z].
Qed.
Lemma rfock_contract2 D (w v1 v2 v2' v3 v4 g g' : rpoint -> R) pts :
  rsum n D (fun l i j => lsum pts (fun q => w q * (v1 q * r_n q i j + v2 q * (g q * r_g q i j) + v2' q * (g' q * r_g q i j) + v3 q * (/ 2 * (r_k q i j + r_a q l i j)) + v4 q * r_l q i j)))
  = lsum pts (fun q => w q * (v1 q * rdens n D q + v2 q * (g q * rgrad n D q) + v2' q * (g' q * rgrad n D q) + v3 q * (/ 2 * (rsum n D (fun _ => r_k q) + rang n D q)) + v4 q * rlapl n D q)).
Proof.
  rewrite rsum_lsum. apply lsum_ext. intros q _. rewrite rsum_scal. f_equal. rewrite !rsum_plus, !rsum_scal, rsum_plus. reflexivity.
Qed.
Lemma rfock2_contract D Pa Pb s pts : rsum n D (rfock2 lib fn n Pa Pb s pts) = lsum pts (fun q =>
  q_w q * (e_vrho lib true fn (rargs2 n Pa Pb q) s * rdens n D q
   + e_vsigma lib true fn (rargs2 n Pa Pb q) (2 * s) * (2 * rgrad n (if Nat.eqb s 0 then Pa else Pb) q * rgrad n D q)
   + e_vsigma lib true fn (rargs2 n Pa Pb q) 1 * (rgrad n (if Nat.eqb s 0 then Pb else Pa) q * rgrad n D q)
   + e_vtau lib true fn (rargs2 n Pa Pb q) s * tvel D q + e_vlapl lib true fn (rargs2 n Pa Pb q) s * rlapl n D q)).
Proof.
  unfold rfock2. cbv zeta. set (own := if Nat.eqb s 0 then Pa else Pb). set (oth := if Nat.eqb s 0 then Pb else Pa).
  exact (rfock_contract2 D q_w (fun q => e_vrho lib true fn (rargs2 n Pa Pb q) s) (fun q => e_vsigma lib true fn (rargs2 n Pa Pb q) (2 * s))
    (fun q => e_vsigma lib true fn (rargs2 n Pa Pb q) 1) (fun q => e_vtau lib true fn (rargs2 n Pa Pb q) s) (fun q => e_vlapl lib true fn (rargs2 n Pa Pb q) s)
    (fun q => 2 * rgrad n own q) (fun q => rgrad n oth q) pts).
Qed.
Lemma rgradient2 Pa Da Pb Db pts : length Da = length Pa -> length Db = length Pb ->
  (forall q, In q pts -> u = true -> ang_smooth n Pa Da q) -> (forall q, In q pts -> u = true -> ang_smooth n Pb Db q) ->
  (forall q ip, In q pts -> In ip (parts fn) -> xc_derivatives lib true (fn_thr fn) ip (rargs2 n Pa Pb q)) ->
  derivable_pt_lim (fun t => rexc2 lib fn n (shifted_cube Pa Da t) (shifted_cube Pb Db t) pts) 0
    (rsum n Da (rfock2 lib fn n Pa Pb 0 pts) + rsum n Db (rfock2 lib fn n Pa Pb 1 pts)).
Proof.
  intros HL HL' HS HS' HX. rewrite !rfock2_contract, <- lsum_plus.
  unfold rexc2. apply dl_lsum. intros q Hq.
  apply (dl_ext (fun t => q_w q * (e_exc lib true fn (rcurve2 Pa Da Pb Db q t) * sum (length (a_rho (rcurve2 Pa Da Pb Db q t))) (fun s => nth s (a_rho (rcurve2 Pa Da Pb Db q t)) 0)))).
  { intros t. cbn [rcurve2 a_rho length sum nth]. rewrite Rplus_0_l, Rmult_assoc. f_equal. f_equal.
    unfold rcurve2, tcur. cbv zeta. fold (rargs2 n (shifted_cube Pa Da t) (shifted_cube Pb Db t) q). destruct u eqn:E; [reflexivity|].
    apply over_notau; auto. }
  eapply dl_val; [|apply (derivable_pt_lim_scal _ _ _ _ (dl_parts lib true fn _ _ _ (rcurve2_ok Pa Da Pb Db q HL HL' (HS q Hq) (HS' q Hq)) (fun ip Hip => HX q ip Hq Hip)))].
  unfold rvel2. cbn [rargs2 a_rho a_sigma a_tau a_lapl length sum nth Nat.eqb Nat.mul Nat.add]. rewrite !tdot_vtau. ring.
Qed.
End Grad.

(** * Symmetry *)
Lemma rfock1_sym lib fn n P pts l i j : rfock1 lib fn n P pts l i j = rfock1 lib fn n P pts l j i.
Proof. apply lsum_ext. intros q _. cbv zeta. unfold r_a, r_l, r_n, r_k, r_g. ring. Qed.
Lemma rfock2_sym lib fn n Pa Pb s pts l i j : rfock2 lib fn n Pa Pb s pts l i j = rfock2 lib fn n Pa Pb s pts l j i.
Proof. apply lsum_ext. intros q _. cbv zeta. unfold r_a, r_l, r_n, r_k, r_g. ring. Qed.

(** * Half of the density for each spin *)
Section Half.
Variables (lib : libxc) (fn : functional) (n : nat) (P : list dmat).
Hypothesis HS : forall ip, In ip (parts fn) -> xc_spin_symmetric lib (fn_thr fn) ip.
Let Ph := half_cube P.
Lemma rtau_half q : rtau n Ph q = rtau n P q / 2.
Proof.
  unfold rtau, rang, Ph. rewrite !rsum_half. set (x := rsum n P (fun l => r_a q l)).
  assert (E : Rmax (x / 2) 0 = Rmax x 0 / 2) by (unfold Rmax; destruct (Rle_dec (x / 2) 0), (Rle_dec x 0); lra). rewrite E. field.
Qed.
Lemma half_rargs q : rargs2 n Ph Ph q = half_spins (rdens n P q) (rgrad n P q * rgrad n P q) (rlapl n P q) (rtau n P q).
Proof.
  unfold rargs2, half_spins. rewrite rtau_half. unfold rdens, rgrad, rlapl. fold Ph. unfold Ph. rewrite !rsum_half.
  replace (rsum n P (fun _ => r_g q) / 2 * (rsum n P (fun _ => r_g q) / 2)) with (rsum n P (fun _ => r_g q) * rsum n P (fun _ => r_g q) / 4) by field. reflexivity.
Qed.
Lemma rhalf_over c f g q : (forall ip, In ip (parts fn) -> c (fst ip) = true ->
    f (xc_at lib true (fn_thr fn) (fst ip) (snd ip) (rargs2 n Ph Ph q)) = g (xc_at lib false (fn_thr fn) (fst ip) (snd ip) (rargs1 n P q))) ->
  over lib true fn c f (rargs2 n Ph Ph q) = over lib false fn c g (rargs1 n P q).
Proof. intros H. apply lsum_ext. intros ip Hip. destruct (c (fst ip)) eqn:E; [apply H; auto|reflexivity]. Qed.
Lemma rhalf_sym ip q : In ip (parts fn) ->
    let o1 := xc_at lib false (fn_thr fn) (fst ip) (snd ip) (rargs1 n P q) in
    let o2 := xc_at lib true (fn_thr fn) (fst ip) (snd ip) (rargs2 n Ph Ph q) in
    o_exc o2 = o_exc o1 /\
    (forall s, (s < 2)%nat -> o_vrho o2 s = o_vrho o1 0%nat) /\
    (is_gga lib (fst ip) = true -> o_vsigma o2 2%nat = o_vsigma o2 0%nat /\ 2 * o_vsigma o2 0%nat + o_vsigma o2 1%nat = 4 * o_vsigma o1 0%nat) /\
    (is_tau lib (fst ip) = true -> forall s, (s < 2)%nat -> o_vtau o2 s = o_vtau o1 0%nat) /\
    (is_lapl lib (fst ip) = true -> forall s, (s < 2)%nat -> o_vlapl o2 s = o_vlapl o1 0%nat).
Proof. intros Hip. rewrite half_rargs. destruct ip as [id pars]. apply (HS (id, pars) Hip). Qed.
Lemma rhalf_exc pts : rexc2 lib fn n Ph Ph pts = rexc1 lib fn n P pts.
Proof.
  apply lsum_ext. intros q _. unfold e_exc. rewrite (rhalf_over _ _ o_exc) by (intros; apply rhalf_sym; auto).
  unfold rdens, Ph. rewrite rsum_half. field.
Qed.
Lemma rhalf_nel pts : rnel n Ph pts + rnel n Ph pts = rnel n P pts.
Proof. unfold rnel. rewrite <- lsum_plus. apply lsum_ext. intros q _. unfold rdens, Ph. rewrite rsum_half. field. Qed.
Lemma rhalf_fock s pts l i j : (s < 2)%nat -> rfock2 lib fn n Ph Ph s pts l i j = rfock1 lib fn n P pts l i j.
Proof.
  intros Hs. apply lsum_ext. intros q _. cbv zeta. f_equal.
  replace (if Nat.eqb s 0 then Ph else Ph) with Ph by (destruct (Nat.eqb s 0); reflexivity).
  assert (Ed : rgrad n Ph q = rgrad n P q / 2) by (unfold rgrad, Ph; apply rsum_half). rewrite Ed.
  assert (E1 : e_vrho lib true fn (rargs2 n Ph Ph q) s = e_vrho lib false fn (rargs1 n P q) 0).
  { apply rhalf_over. intros ip Hip _. apply (rhalf_sym ip q Hip); auto. }
  assert (E2 : e_vtau lib true fn (rargs2 n Ph Ph q) s = e_vtau lib false fn (rargs1 n P q) 0).
  { apply rhalf_over. intros ip Hip Hc. apply (rhalf_sym ip q Hip); auto. }
  assert (E3 : e_vlapl lib true fn (rargs2 n Ph Ph q) s = e_vlapl lib false fn (rargs1 n P q) 0).
  { apply rhalf_over. intros ip Hip Hc. apply (rhalf_sym ip q Hip); auto. }
  assert (E4 : e_vsigma lib true fn (rargs2 n Ph Ph q) (2 * s) + / 2 * e_vsigma lib true fn (rargs2 n Ph Ph q) 1
     = 2 * e_vsigma lib false fn (rargs1 n P q) 0).
  { unfold e_vsigma, over. rewrite <- !lsum_scal, <- lsum_plus. apply lsum_ext. intros ip Hip.
    destruct (is_gga lib (fst ip)) eqn:E; [|ring].
    destruct (rhalf_sym ip q Hip) as (_ & _ & Hg & _). destruct (Hg E) as [G1 G2]. destruct s as [|[|s]]; [| |lia]; cbn [Nat.mul Nat.add]; lra. }
  rewrite E1, E2, E3.
  assert (E5 : e_vsigma lib true fn (rargs2 n Ph Ph q) (2 * s) = 2 * e_vsigma lib false fn (rargs1 n P q) 0 - / 2 * e_vsigma lib true fn (rargs2 n Ph Ph q) 1) by lra.
  rewrite E5. field.
Qed.
End Half.

(** * Densities of orbitals *)
Section Orb.
Variables (n : nat) (no : nat -> nat) (o : nat -> vec) (C : nat -> mat) (P : list dmat).
Hypothesis Ho : forall l k, (l < length P)%nat -> (k < no l)%nat -> 0 <= o l k.
Hypothesis HP : orbital_cube n no o C P.
Lemma orb_quad (c : nat -> R) (f : nat -> R) : (forall l, 0 <= c l) -> 0 <= rsum n P (fun l i j => c l * (f i * f j)).
Proof.
  intros Hc. apply sum_nonneg. intros l Hl. rewrite contract_scal. apply Rmult_le_pos; [apply Hc|].
  assert (E : contract n (part P l) (fun i j => f i * f j) = contract n (part P l) (fun i j => reprod (f i, 0) (f j, 0))).
  { apply contract_ext. intros. unfold reprod; cbn [fst snd]. ring. }
  rewrite E, (psd_contract n (no l) (o l) (C l) (part P l) (HP l Hl) (fun i => (f i, 0)) (fun i => (f i, 0))).
  apply (wsum_nonneg (no l) (o l)). intros k Hk. apply Ho; auto.
Qed.
Lemma rdens_nonneg q : 0 <= rdens n P q.
Proof. unfold rdens. rewrite (rsum_ext _ _ _ (fun l i j => 1 * (q_f q i * q_f q j))) by (intros; unfold r_n; ring). apply orb_quad. intros; lra. Qed.
Lemma rk_nonneg q : 0 <= rsum n P (fun _ => r_k q).
Proof. rewrite (rsum_ext _ _ _ (fun l i j => 1 * (q_d q i * q_d q j))) by (intros; unfold r_k; ring). apply orb_quad. intros; lra. Qed.
Lemma rang_nonneg q : 0 <= rang n P q.
Proof.
  unfold rang, r_a. apply (orb_quad (fun l => INR (l * (l + 1)) / (q_r q * q_r q))). intros l.
  destruct (Req_dec (q_r q) 0) as [E|E].
  - rewrite E, Rmult_0_l. unfold Rdiv. rewrite Rinv_0. lra.
  - apply Rmult_le_pos; [apply pos_INR|]. left. apply Rinv_0_lt_compat. nra.
Qed.
Lemma rtau_nonneg q : 0 <= rtau n P q.
Proof. unfold rtau. assert (A := rk_nonneg q). assert (B := Rmax_r (rang n P q) 0). lra. Qed.
Lemma rgrad_bound q : rgrad n P q * rgrad n P q <= 8 * rdens n P q * rtau n P q.
Proof.
  assert (H : (rgrad n P q / 2) * (rgrad n P q / 2) <= rdens n P q * rsum n P (fun _ => r_k q)).
  { apply quadratic_disc; [apply rdens_nonneg|]. intros x.
    assert (Hx := orb_quad (fun _ => 1) (fun i => x * q_f q i - q_d q i) (fun _ => Rle_0_1)).
    rewrite (rsum_ext _ _ _ (fun l i j => (x * x) * r_n q i j + (- x * r_g q i j + r_k q i j))) in Hx.
    2:{ intros. unfold r_n, r_g, r_k. ring. }
    rewrite !rsum_plus, !rsum_scal in Hx.
    change (0 <= x * x * rdens n P q + (- x * rgrad n P q + rsum n P (fun _ => r_k q))) in Hx. lra. }
  assert (A := rdens_nonneg q). assert (B := Rmax_r (rang n P q) 0). unfold rtau.
  assert (D := Rmult_le_pos _ _ A B). lra.
Qed.
Lemma rphysical1 q : physical1 (rargs1 n P q).
Proof.
  eexists _, _, _, _. split; [reflexivity|]. split; [apply rdens_nonneg|]. split; [apply rtau_nonneg|]. split; [apply Rle_0_sqr|apply rgrad_bound].
Qed.
End Orb.
Lemma rphysical2 n no o C Pa no' o' C' Pb q : (forall l k, (l < length Pa)%nat -> (k < no l)%nat -> 0 <= o l k) -> orbital_cube n no o C Pa ->
  (forall l k, (l < length Pb)%nat -> (k < no' l)%nat -> 0 <= o' l k) -> orbital_cube n no' o' C' Pb -> physical2 (rargs2 n Pa Pb q).
Proof.
  intros Ho HO Ho' HO'. eexists _, _, _, _, _, _, _, _, _. split; [reflexivity|].
  split; [exact (rdens_nonneg n no o C Pa Ho HO q)|]. split; [exact (rdens_nonneg n no' o' C' Pb Ho' HO' q)|].
  split; [exact (rtau_nonneg n no o C Pa Ho HO q)|]. split; [exact (rtau_nonneg n no' o' C' Pb Ho' HO' q)|].
  split; [split; [apply Rle_0_sqr|exact (rgrad_bound n no o C Pa Ho HO q)]|].
  split; [split; [apply Rle_0_sqr|exact (rgrad_bound n no' o' C' Pb Ho' HO' q)]|]. right. ring.
Qed.

(** * The results *)
Section Results.
Variables (b : abasis).
Hypothesis HB : sg_grid_ok b.
Let n := at_nr b.
Let nel := get_nelem (ab_fe b).
Lemma is_cube_part H nl m h l i j : is_cube H nl m h -> (l < nl)%nat -> (i < m)%nat -> (j < m)%nat -> part H l i j = h l i j.
Proof. intros [_ H2] Hl Hi Hj. destruct (H2 l Hl) as (_ & _ & E). apply E; auto. Qed.
Lemma cube_sym H nl m h : is_cube H nl m h -> (forall l i j, h l i j = h l j i) -> forall l, (l < nl)%nat -> sym_mat m (part H l).
Proof. intros HC Hh l Hl i j Hi Hj. rewrite !(is_cube_part _ _ _ _ _ _ _ HC) by auto. apply Hh. Qed.
Lemma sg_gradient1 lib fn P D sc H s E : functional_ok lib fn -> cube_ok n P -> cube_ok n D -> length D = length P ->
  (forall q, In q (sg_points b) -> uses fn (is_tau lib) = true -> ang_smooth n P D q) ->
  (forall q ip, In q (sg_points b) -> In ip (parts fn) -> xc_derivatives lib false (fn_thr fn) ip (rargs1 n P q)) ->
  schedule_ok nel sc -> sg_eval_Fxc lib b fn P sc = Ok (H, s) ->
  (forall t, exists sc H N, schedule_ok nel sc /\ sg_eval_Fxc lib b fn (shifted_cube P D t) sc = Ok (H, (E t, N))) ->
  (forall l, (l < length P)%nat -> sym_mat n (part H l)) /\ derivable_pt_lim E 0 (rsum n D (part H)).
Proof.
  intros HF HP HD HL HS HX Hs Ev Hr. destruct (sg_value1 lib b fn HB HF P sc H s HP Hs Ev) as (_ & HC). split.
  - apply (cube_sym _ _ _ _ HC). intros; apply rfock1_sym.
  - rewrite (rsum_ext n D (part H) (rfock1 lib fn n P (sg_points b))).
    2:{ intros l i j Hl Hi Hj. apply (is_cube_part _ _ _ _ _ _ _ HC); auto. rewrite <- HL. exact Hl. }
    eapply dl_ext; [|exact (rgradient1 lib fn n HF P D (sg_points b) HL HS HX)].
    intros t. cbv beta. destruct (Hr t) as (sc' & H' & N & Hs' & E').
    destruct (sg_value1 lib b fn HB HF _ sc' H' _ (shifted_cube_ok n P D t HL HP HD) Hs' E') as (E1 & _). injection E1 as -> _. reflexivity.
Qed.
Lemma sg_gradient2 lib fn Pa Da Pb Db sc Ha Hb s E : functional_ok lib fn -> cube_ok n Pa -> cube_ok n Da -> length Da = length Pa ->
  cube_ok n Pb -> cube_ok n Db -> length Db = length Pb ->
  (forall q, In q (sg_points b) -> uses fn (is_tau lib) = true -> ang_smooth n Pa Da q /\ ang_smooth n Pb Db q) ->
  (forall q ip, In q (sg_points b) -> In ip (parts fn) -> xc_derivatives lib true (fn_thr fn) ip (rargs2 n Pa Pb q)) ->
  schedule_ok nel sc -> sg_eval_Fxc_pol lib b fn Pa Pb true sc = Ok (Ha, Hb, s) ->
  (forall t, exists sc Ha Hb N, schedule_ok nel sc /\ sg_eval_Fxc_pol lib b fn (shifted_cube Pa Da t) (shifted_cube Pb Db t) true sc = Ok (Ha, Hb, (E t, N))) ->
  (forall l, (l < length Pa)%nat -> sym_mat n (part Ha l)) /\ (forall l, (l < length Pb)%nat -> sym_mat n (part Hb l)) /\
  derivable_pt_lim E 0 (rsum n Da (part Ha) + rsum n Db (part Hb)).
Proof.
  intros HF HPa HDa HLa HPb HDb HLb HS HX Hs Ev Hr. destruct (sg_value2 lib b fn HB HF Pa Pb true sc Ha Hb s HPa HPb Hs Ev) as (_ & HCa & HCb). split; [|split].
  - apply (cube_sym _ _ _ _ HCa). intros; apply rfock2_sym.
  - apply (cube_sym _ _ _ _ HCb). intros; apply rfock2_sym.
  - rewrite (rsum_ext n Da (part Ha) (rfock2 lib fn n Pa Pb 0 (sg_points b))).
    2:{ intros l i j Hl Hi Hj. apply (is_cube_part _ _ _ _ _ _ _ HCa); auto. rewrite <- HLa. exact Hl. }
    rewrite (rsum_ext n Db (part Hb) (rfock2 lib fn n Pa Pb 1 (sg_points b))).
    2:{ intros l i j Hl Hi Hj. apply (is_cube_part _ _ _ _ _ _ _ HCb); auto. rewrite <- HLb. exact Hl. }
    eapply dl_ext; [|exact (rgradient2 lib fn n HF Pa Da Pb Db (sg_points b) HLa HLb (fun q Hq Hu => proj1 (HS q Hq Hu)) (fun q Hq Hu => proj2 (HS q Hq Hu)) HX)].
    intros t. cbv beta. destruct (Hr t) as (sc' & H1 & H2 & N & Hs' & E').
    destruct (sg_value2 lib b fn HB HF _ _ true sc' H1 H2 _ (shifted_cube_ok n Pa Da t HLa HPa HDa) (shifted_cube_ok n Pb Db t HLb HPb HDb) Hs' E') as (E1 & _). injection E1 as -> _. reflexivity.
Qed.
Lemma is_cube_half H H' nl h h' : is_cube H nl n h -> is_cube H' nl n h' -> (forall l i j, h' l i j = h l i j) -> is_cube H' nl n (part H).
Proof.
  intros HC [L M] Hh. split; [exact L|]. intros l Hl. destruct (M l Hl) as (R & C & S). split; [exact R|split; [exact C|]].
  intros i j Hi Hj. rewrite S by auto. rewrite (is_cube_part _ _ _ _ _ _ _ HC) by auto. apply Hh.
Qed.
Lemma sg_closed_shell lib fn P sc sc' H Ha Hb s s' : functional_ok lib fn -> cube_ok n P ->
  (forall ip, In ip (parts fn) -> xc_spin_symmetric lib (fn_thr fn) ip) -> schedule_ok nel sc -> schedule_ok nel sc' ->
  sg_eval_Fxc lib b fn P sc = Ok (H, s) -> sg_eval_Fxc_pol lib b fn (half_cube P) (half_cube P) true sc' = Ok (Ha, Hb, s') ->
  s' = s /\ is_cube Ha (length P) n (part H) /\ is_cube Hb (length P) n (part H).
Proof.
  intros HF HP HS Hs Hs' Ev Ev'. destruct (sg_value1 lib b fn HB HF P sc H s HP Hs Ev) as (-> & HC).
  destruct (sg_value2 lib b fn HB HF _ _ true sc' Ha Hb s' (half_cube_ok n P HP) (half_cube_ok n P HP) Hs' Ev') as (-> & HCa & HCb).
  assert (L : length (half_cube P) = length P) by (unfold half_cube; apply map_length). rewrite L in *.
  split; [|split].
  - f_equal; [apply rhalf_exc; exact HS|apply rhalf_nel].
  - apply (is_cube_half _ _ _ _ _ HC HCa). intros; apply rhalf_fock; [exact HS|lia].
  - apply (is_cube_half _ _ _ _ _ HC HCb). intros; apply rhalf_fock; [exact HS|lia].
Qed.
Lemma sg_physical1 lib lib' fn no o C P sc sc' H H' s s' : functional_ok lib fn -> cube_ok n P ->
  (forall l k, (l < length P)%nat -> (k < no l)%nat -> 0 <= o l k) -> orbital_cube n no o C P -> agree false physical1 lib lib' ->
  schedule_ok nel sc -> schedule_ok nel sc' ->
  sg_eval_Fxc lib b fn P sc = Ok (H, s) -> sg_eval_Fxc lib' b fn P sc' = Ok (H', s') -> s = s' /\ is_cube H' (length P) n (part H).
Proof.
  intros HF HP Ho HO HA Hs Hs' Ev Ev'. destruct (agree_tests _ _ _ _ HA) as (A1 & A2 & A3 & A4 & A5).
  destruct (sg_value1 lib b fn HB HF P sc H s HP Hs Ev) as (-> & HC).
  destruct (sg_value1 lib' b fn HB (A5 _ HF) P sc' H' s' HP Hs' Ev') as (-> & HC').
  assert (Hph := fun q => rphysical1 n no o C P Ho HO q). split.
  - f_equal. apply lsum_ext. intros q _. unfold e_exc. rewrite (agree_over _ _ _ _ _ _ _ _ _ HA (Hph q) A4). reflexivity.
  - apply (is_cube_half _ _ _ _ _ HC HC'). intros l i j. apply lsum_ext. intros q _. cbv zeta. unfold e_vrho, e_vsigma, e_vtau, e_vlapl. fold n.
    rewrite (agree_over _ _ _ _ _ _ _ _ _ HA (Hph q) A1), (agree_over _ _ _ _ _ _ _ _ _ HA (Hph q) A2), (agree_over _ _ _ _ _ _ _ _ _ HA (Hph q) A3).
    rewrite (agree_over _ _ _ _ _ (fun _ => true) (fun _ => true) _ _ HA (Hph q)) by reflexivity. reflexivity.
Qed.
Lemma sg_physical2 lib lib' fn no o C Pa no' o' C' Pb beta sc sc' Ha Hb Ha' Hb' s s' : functional_ok lib fn -> cube_ok n Pa -> cube_ok n Pb ->
  (forall l k, (l < length Pa)%nat -> (k < no l)%nat -> 0 <= o l k) -> orbital_cube n no o C Pa ->
  (forall l k, (l < length Pb)%nat -> (k < no' l)%nat -> 0 <= o' l k) -> orbital_cube n no' o' C' Pb -> agree true physical2 lib lib' ->
  schedule_ok nel sc -> schedule_ok nel sc' ->
  sg_eval_Fxc_pol lib b fn Pa Pb beta sc = Ok (Ha, Hb, s) -> sg_eval_Fxc_pol lib' b fn Pa Pb beta sc' = Ok (Ha', Hb', s') ->
  s = s' /\ is_cube Ha' (length Pa) n (part Ha) /\ is_cube Hb' (length Pb) n (part Hb).
Proof.
  intros HF HPa HPb Ho HO Ho' HO' HA Hs Hs' Ev Ev'. destruct (agree_tests _ _ _ _ HA) as (A1 & A2 & A3 & A4 & A5).
  destruct (sg_value2 lib b fn HB HF Pa Pb beta sc Ha Hb s HPa HPb Hs Ev) as (-> & HCa & HCb).
  destruct (sg_value2 lib' b fn HB (A5 _ HF) Pa Pb beta sc' Ha' Hb' s' HPa HPb Hs' Ev') as (-> & HCa' & HCb').
  assert (Hph := fun q => rphysical2 n no o C Pa no' o' C' Pb q Ho HO Ho' HO').
  assert (EF : forall s l i j, rfock2 lib' fn n Pa Pb s (sg_points b) l i j = rfock2 lib fn n Pa Pb s (sg_points b) l i j).
  { intros s l i j. apply lsum_ext. intros q _. cbv zeta. unfold e_vrho, e_vsigma, e_vtau, e_vlapl.
    rewrite !(agree_over _ _ _ _ _ _ _ _ _ HA (Hph q) A1), (agree_over _ _ _ _ _ _ _ _ _ HA (Hph q) A2), (agree_over _ _ _ _ _ _ _ _ _ HA (Hph q) A3).
    rewrite (agree_over _ _ _ _ _ (fun _ => true) (fun _ => true) _ _ HA (Hph q)) by reflexivity. reflexivity. }
  split; [|split].
  - f_equal. apply lsum_ext. intros q _. unfold e_exc. rewrite (agree_over _ _ _ _ _ _ _ _ _ HA (Hph q) A4). reflexivity.
  - apply (is_cube_half _ _ _ _ _ HCa HCa'). intros; apply EF.
  - apply (is_cube_half _ _ _ _ _ HCb HCb'). intros; destruct beta; [apply EF|reflexivity].
Qed.
(** Orbitals always have a derivative of the angular part when its value is not zero, or
    the change has none. *)
Lemma orbital_smooth P D no o C : (forall l k, (l < length P)%nat -> (k < no l)%nat -> 0 <= o l k) -> orbital_cube n no o C P ->
  forall q, rang n P q <> 0 \/ rang n D q = 0 -> ang_smooth n P D q.
Proof. intros Ho HO q [H|H]; [left|right; exact H]. assert (A := rang_nonneg n no o C P Ho HO q). lra. Qed.

(** * Errors *)
Lemma needed_unknown lib (need : Z -> res bool) x c : (forall id, (0 < id)%Z -> xc_known lib id = false -> need id = Throw RuntimeError) ->
  ((0 < x)%Z /\ xc_known lib x = false) \/ ((x <= 0)%Z /\ (0 < c)%Z /\ xc_known lib c = false) -> needed need x c = Throw RuntimeError.
Proof.
  intros Hn [[H1 H2]|(H1 & H2 & H3)]; unfold needed.
  - rewrite (proj2 (Z.ltb_lt 0 x) H1), (Hn x H1 H2). reflexivity.
  - rewrite (proj2 (Z.ltb_ge 0 x) H1). cbn [bind]. rewrite (proj2 (Z.ltb_lt 0 c) H2). apply Hn; auto.
Qed.
Lemma sg_unknown lib fn : ((0 < fn_x fn)%Z /\ xc_known lib (fn_x fn) = false) \/ ((fn_x fn <= 0)%Z /\ (0 < fn_c fn)%Z /\ xc_known lib (fn_c fn) = false) ->
  (forall P sc, P <> [] -> sg_eval_Fxc lib b fn P sc = Throw RuntimeError) /\
  (forall Pa Pb beta sc, Pa <> [] -> Pb <> [] -> sg_eval_Fxc_pol lib b fn Pa Pb beta sc = Throw RuntimeError).
Proof.
  intros H. assert (E : sg_prime lib fn = Throw RuntimeError).
  { unfold sg_prime, check_grad_tau_lapl. rewrite (needed_unknown lib (gradient_needed lib) _ _) ; [reflexivity| |exact H].
    intros id Hi Hk. unfold gradient_needed, with_func. rewrite (proj2 (Z.leb_gt id 0) Hi), Hk. reflexivity. }
  split.
  - intros P sc HP. unfold sg_eval_Fxc. destruct P as [|P0 P]; [congruence|]. cbn [vget nth_error bind]. rewrite E. reflexivity.
  - intros Pa Pb beta sc HPa HPb. unfold sg_eval_Fxc_pol. destruct Pa as [|A0 Pa]; [congruence|]. destruct Pb as [|B0 Pb]; [congruence|]. cbn [vget nth_error bind]. rewrite E. reflexivity.
Qed.
Lemma sg_empty lib fn : (forall sc, sg_eval_Fxc lib b fn [] sc = UB) /\
  (forall Pa Pb beta sc, Pa = [] \/ Pb = [] -> sg_eval_Fxc_pol lib b fn Pa Pb beta sc = UB).
Proof.
  split; [reflexivity|]. intros Pa Pb beta sc H. unfold sg_eval_Fxc_pol. destruct Pa as [|A0 Pa]; [reflexivity|].
  destruct H as [H| ->]; [discriminate|]. reflexivity.
Qed.
End Results.
