(** Bases, functionals and densities that meet the hypotheses, and failures. *)
Require Import Reals ZArith List Bool Arith Lia Lra Permutation.
Require Import Verif.Prelude Verif.FEModel Verif.FESpec Verif.FEProofs Verif.AngModel Verif.JKModel Verif.DftModel Verif.DftSpec Verif.DftProofs Verif.DftXc Verif.DftFock Verif.DftFockR Verif.DftAtom Verif.DftPar Verif.DftDrv Verif.DftGrad Verif.DftMore.
Import ListNotations.
Local Open Scope R_scope.

(** * libxc with four functionals *)
(** Energies per volume: 1: n^2, 2: n^3 + n sigma, 3: n tau, 4: n lapl, with n, sigma, tau
    and lapl summed over spins. *)
Definition tot (l : list R) : R := nth 0 l 0 + nth 1 l 0.
Definition stot (l : list R) : R := nth 0 l 0 + 2 * nth 1 l 0 + nth 2 l 0.
Definition opt (l : option (list R)) : list R := match l with Some x => x | None => [] end.
Definition svals (pol : bool) (v : R) (s : nat) : R := if (pol && Nat.eqb s 1)%bool then 2 * v else v.
Definition wlib : libxc := mkLib (fun _ => true)
  (fun id => if Z.eqb id 1 then LDA else if Z.eqb id 2 then GGA else MGGA)
  (fun id => Z.eqb id 3) (fun id => Z.eqb id 4) (fun _ => true) (fun _ => 0%nat)
  (fun id pol thr pars rho => mkXO (tot rho) (fun _ => 2 * tot rho) (fun _ => 0) (fun _ => 0) (fun _ => 0))
  (fun id pol thr pars rho sg => mkXO (tot rho * tot rho + stot sg) (fun _ => 3 * (tot rho * tot rho) + stot sg)
     (svals pol (tot rho)) (fun _ => 0) (fun _ => 0))
  (fun id pol thr pars rho sg lp ta => mkXO (tot (opt lp) + tot (opt ta)) (fun _ => tot (opt lp) + tot (opt ta)) (fun _ => 0)
     (fun _ => tot rho) (fun _ => tot rho)).
(** A GGA for exchange with a meta-GGA for correlation; a meta-GGA of the Laplacian *)
Definition wfn : functional := mkFn 2 [] 3 [] 0.
Definition wfn_lapl : functional := mkFn 4 [] 0 [] 0.
Lemma wfn_ok : functional_ok wlib wfn.
Proof.
  intros id pars H. cbn in H. destruct H as [H|[H|[]]]; injection H as <- <-; cbn; (split; [reflexivity|split; [discriminate|split; [|left; reflexivity]]]); auto; discriminate.
Qed.
Lemma wfn_lapl_ok : functional_ok wlib wfn_lapl.
Proof.
  intros id pars H. cbn in H. destruct H as [H|[]]; injection H as <- <-; cbn. split; [reflexivity|split; [discriminate|split; [|left; reflexivity]]]. auto.
Qed.

(** The derivatives are right. *)
Definition shaped (pol : bool) (a : xargs) : Prop :=
  length (a_rho a) = nspin pol /\ length (a_sigma a) = nsigma pol /\ length (a_tau a) = nspin pol /\ length (a_lapl a) = nspin pol.
Lemma sum_tot pol (l : list R) : length l = nspin pol -> sum (length l) (fun s => nth s l 0) = tot l.
Proof. unfold tot. destruct pol; cbn; destruct l as [|x [|y [|z l]]]; cbn; intros; try lia; ring. Qed.
Lemma dl_tot (f : R -> list R) m : (forall k, derivable_pt_lim (fun t => nth k (f t) 0) 0 (nth k m 0)) -> derivable_pt_lim (fun t => tot (f t)) 0 (tot m).
Proof. intros H. unfold tot. apply (derivable_pt_lim_plus (fun t => nth 0 (f t) 0) (fun t => nth 1 (f t) 0)); apply H. Qed.
Lemma dl_stot (f : R -> list R) m : (forall k, derivable_pt_lim (fun t => nth k (f t) 0) 0 (nth k m 0)) -> derivable_pt_lim (fun t => stot (f t)) 0 (stot m).
Proof.
  intros H. unfold stot. apply (derivable_pt_lim_plus (fun t => nth 0 (f t) 0 + 2 * nth 1 (f t) 0) (fun t => nth 2 (f t) 0)); [|apply H].
  apply (derivable_pt_lim_plus (fun t => nth 0 (f t) 0) (fun t => 2 * nth 1 (f t) 0)); [apply H|].
  apply (derivable_pt_lim_scal (fun t => nth 1 (f t) 0)). apply H.
Qed.
(** the velocity may have any length, but has no component beyond those of the curve *)
Lemma beyond (f : R -> list R) m n : (forall t, length (f t) = n) -> (forall k, derivable_pt_lim (fun t => nth k (f t) 0) 0 (nth k m 0)) ->
  forall k, (n <= k)%nat -> nth k m 0 = 0.
Proof.
  intros Hl H k Hk. apply (uniqueness_limite (fun _ => 0) 0); [|apply derivable_pt_lim_const].
  apply (dl_ext (fun t => nth k (f t) 0)); [|apply H]. intros t. apply nth_overflow. rewrite Hl. exact Hk.
Qed.
Lemma wlib_derivatives pol thr id a : In id [1; 2; 3; 4]%Z -> shaped pol a -> xc_derivatives wlib pol thr (id, []) a.
Proof.
  intros Hid (S1 & S2 & S3 & S4). split; [reflexivity|]. intros c d (E0 & L1 & L2 & L3 & L4 & Hd).
  assert (Dr := dl_tot (fun t => a_rho (c t)) (a_rho d) (fun k => proj1 (Hd k))).
  assert (Ds := dl_stot (fun t => a_sigma (c t)) (a_sigma d) (fun k => proj1 (proj2 (Hd k)))).
  assert (Dl := dl_tot (fun t => a_lapl (c t)) (a_lapl d) (fun k => proj1 (proj2 (proj2 (Hd k))))).
  assert (Dt := dl_tot (fun t => a_tau (c t)) (a_tau d) (fun k => proj2 (proj2 (proj2 (Hd k))))).
  assert (Br := beyond _ _ _ L1 (fun k => proj1 (Hd k))).
  assert (Bs := beyond _ _ _ L2 (fun k => proj1 (proj2 (Hd k)))).
  assert (Bl := beyond _ _ _ L3 (fun k => proj1 (proj2 (proj2 (Hd k))))).
  assert (Bt := beyond _ _ _ L4 (fun k => proj2 (proj2 (proj2 (Hd k))))).
  assert (Sr : forall v, sum (length (a_rho a)) (fun s => v * nth s (a_rho d) 0) = v * tot (a_rho d)).
  { intros v. rewrite sum_scal. f_equal. rewrite S1 in *. unfold tot. destruct pol; cbn [nspin sum].
    - ring. - rewrite (Br 1%nat) by (cbn; lia). ring. }
  assert (Sl : forall v, sum (length (a_lapl a)) (fun s => v * nth s (a_lapl d) 0) = v * tot (a_lapl d)).
  { intros v. rewrite sum_scal. f_equal. rewrite S4 in *. unfold tot. destruct pol; cbn [nspin sum].
    - ring. - rewrite (Bl 1%nat) by (cbn; lia). ring. }
  assert (St : forall v, sum (length (a_tau a)) (fun s => v * nth s (a_tau d) 0) = v * tot (a_tau d)).
  { intros v. rewrite sum_scal. f_equal. rewrite S3 in *. unfold tot. destruct pol; cbn [nspin sum].
    - ring. - rewrite (Bt 1%nat) by (cbn; lia). ring. }
  assert (Ss : forall v, sum (length (a_sigma a)) (fun s => svals pol v s * nth s (a_sigma d) 0) = v * stot (a_sigma d)).
  { intros v. rewrite S2 in *. unfold stot, svals. destruct pol; cbn [nsigma sum Nat.eqb andb].
    - ring. - rewrite (Bs 1%nat), (Bs 2%nat) by (cbn; lia). ring. }
  assert (Er : forall t, sum (length (a_rho (c t))) (fun s => nth s (a_rho (c t)) 0) = tot (a_rho (c t))).
  { intros t. apply (sum_tot pol). rewrite L1. exact S1. }
  assert (C1 : tot (a_rho (c 0)) = tot (a_rho a)) by (rewrite E0; reflexivity).
  assert (C2 : stot (a_sigma (c 0)) = stot (a_sigma a)) by (rewrite E0; reflexivity).
  assert (C3 : tot (a_lapl (c 0)) = tot (a_lapl a)) by (rewrite E0; reflexivity).
  assert (C4 : tot (a_tau (c 0)) = tot (a_tau a)) by (rewrite E0; reflexivity).
  unfold edens. cbn in Hid. destruct Hid as [<-|[<-|[<-|[<-|[]]]]]; cbn [xc_at wlib xc_family Z.eqb Pos.eqb xc_lda xc_gga xc_mgga xc_tau xc_lapl is_gga is_tau is_lapl o_exc o_vrho o_vsigma o_vtau o_vlapl opt].
  - apply (dl_ext (fun t => tot (a_rho (c t)) * tot (a_rho (c t)))); [intros t; rewrite Er; reflexivity|]. rewrite Sr.
    eapply dl_val; [|exact (derivable_pt_lim_mult _ _ _ _ _ Dr Dr)]. cbv beta. rewrite C1. ring.
  - apply (dl_ext (fun t => (tot (a_rho (c t)) * tot (a_rho (c t)) + stot (a_sigma (c t))) * tot (a_rho (c t)))); [intros t; rewrite Er; reflexivity|]. rewrite Sr, Ss.
    eapply dl_val; [|exact (derivable_pt_lim_mult _ _ _ _ _ (derivable_pt_lim_plus _ _ _ _ _ (derivable_pt_lim_mult _ _ _ _ _ Dr Dr) Ds) Dr)].
    unfold plus_fct, mult_fct. rewrite C1, C2. ring.
  - apply (dl_ext (fun t => tot (a_tau (c t)) * tot (a_rho (c t)))); [intros t; rewrite Er; unfold tot; cbn [nth]; ring|].
    rewrite Sr, St. replace (tot []) with 0 by (unfold tot; cbn; ring).
    eapply dl_val; [|exact (derivable_pt_lim_mult _ _ _ _ _ Dt Dr)]. cbv beta. rewrite C1, C4.
    rewrite (sum_zero' (length (a_sigma a))) by (intros; ring). ring.
  - apply (dl_ext (fun t => tot (a_lapl (c t)) * tot (a_rho (c t)))); [intros t; rewrite Er; unfold tot; cbn [nth]; ring|].
    rewrite Sr, Sl. replace (tot []) with 0 by (unfold tot; cbn; ring).
    eapply dl_val; [|exact (derivable_pt_lim_mult _ _ _ _ _ Dl Dr)]. cbv beta. rewrite C1, C3.
    rewrite (sum_zero' (length (a_sigma a))) by (intros; ring). ring.
Qed.
Lemma args1_shaped n P q : shaped false (args1 n P q). Proof. repeat split. Qed.
Lemma args2_shaped n Pa Pb q : shaped true (args2 n Pa Pb q). Proof. repeat split. Qed.
Lemma wfn_parts ip : In ip (parts wfn) -> snd ip = [] /\ In (fst ip) [1; 2; 3; 4]%Z.
Proof. cbn. intros [<-|[<-|[]]]; cbn; auto. Qed.
Lemma wfn_derivatives1 n P q ip : In ip (parts wfn) -> xc_derivatives wlib false (fn_thr wfn) ip (args1 n P q).
Proof. intros H. destruct (wfn_parts ip H) as [E1 E2]. destruct ip as [id pars]. cbn in E1, E2. subst. apply wlib_derivatives; [exact E2|apply args1_shaped]. Qed.
Lemma wfn_derivatives2 n Pa Pb q ip : In ip (parts wfn) -> xc_derivatives wlib true (fn_thr wfn) ip (args2 n Pa Pb q).
Proof. intros H. destruct (wfn_parts ip H) as [E1 E2]. destruct ip as [id pars]. cbn in E1, E2. subst. apply wlib_derivatives; [exact E2|apply args2_shaped]. Qed.
Lemma wfn_spin ip : In ip (parts wfn) -> xc_spin_symmetric wlib (fn_thr wfn) ip.
Proof.
  intros H. cbn in H. destruct H as [<-|[<-|[]]]; intros rho sigma lapl tau;
    cbn [xc_at wlib xc_family Z.eqb Pos.eqb xc_lda xc_gga xc_mgga xc_tau xc_lapl is_gga is_tau is_lapl o_exc o_vrho o_vsigma o_vtau o_vlapl opt
         half_spins a_rho a_sigma a_tau a_lapl tot stot nth svals andb Nat.eqb];
    unfold tot, stot, svals; cbn [nth andb Nat.eqb];
    (split; [field|split; [intros; field|split; [intros; split; field|split; [intros; field|intros; try discriminate; field]]]]).
Qed.

(** * A basis with three elements *)
Definition wtab (b : fe) (x : nat -> nat -> R) (iel : nat) : dmat := mkD 1 (snd (elem_range b iel)) x.
Definition wbasis (f : fe) (sh : list (Z * Z)) : abasis :=
  mkAB sh f (fun iel => [INR iel + / 2]) (fun _ => [1]) (wtab f (fun _ _ => 1)) (wtab f (fun _ _ => 1)) (wtab f (fun _ _ => 0))
    (fun l m cth phi => (if Z.eqb l 0 then 1 else cth, 0)).
Definition wfe : fe := mkFE LIP 2 [0; 1; 2; 3] true false true false.
Definition wb : abasis := wbasis wfe [(0, 0); (1, 0)]%Z.
Definition wru : rule := [(/ 2, 0, 1); (- / 2, 1, 2)].
Lemma wbasis_ok f sh ru : valid_fe f -> (forall l m, In (l, m) sh -> (m <= l)%Z) -> (forall ia, (ia < length ru)%nat -> -1 < a_cth (ang ru ia) < 1) ->
  at_grid_ok (wbasis f sh) ru.
Proof.
  intros H1 H2 H3. split; [exact H1|split; [exact H2|split; [exact H3|]]]. intros iel Hi.
  split; [intros r [<-|[]]; assert (P := pos_INR iel); lra|]. split; [reflexivity|].
  intros A [<-|[<-|[<-|[]]]]; split; reflexivity.
Qed.
Lemma wfe_valid : valid_fe wfe.
Proof.
  split; [cbn; lia|]. split; [cbn; lia|]. intros i j H1 H2. cbn [fe_bval wfe length] in *.
  destruct i as [|[|[|[|i]]]], j as [|[|[|[|j]]]]; try lia; cbn [nth]; lra.
Qed.
Lemma wb_ok : at_grid_ok wb wru.
Proof.
  apply wbasis_ok; [exact wfe_valid| |].
  - intros l m [H|[H|[]]]; injection H as <- <-; lia.
  - intros [|[|ia]] H; cbn in *; [lra|lra|lia].
Qed.
Lemma wb_n : at_nbf wb = 4%nat. Proof. reflexivity. Qed.
Lemma wb_nel : get_nelem (ab_fe wb) = 3%nat. Proof. reflexivity. Qed.
(** two threads; the first loop has an element for each *)
Lemma wsched : schedule_ok (get_nelem (ab_fe wb)) (mkS [[2]; [0]]%nat [[]; [1]]%nat [] []).
Proof. split; [reflexivity|split]; cbn; [apply perm_swap|apply Permutation_refl]. Qed.
Definition wP : dmat := mkD 4 4 (fun i j => if Nat.eqb i j then 2 else 1).
Lemma wP_ok : is_density 4 wP.
Proof. split; [reflexivity|split; [reflexivity|]]. intros i j _ _. cbn. rewrite Nat.eqb_sym. reflexivity. Qed.
(** wP is a density of five orbitals. *)
Definition wC : mat := fun i k => if Nat.eqb k 4 then 1 else if Nat.eqb i k then 1 else 0.
Lemma wP_orbitals : orbital_density 4 5 (fun _ => 1) wC (dent wP).
Proof.
  intros i j Hi Hj. destruct i as [|[|[|[|i]]]]; try lia; destruct j as [|[|[|[|j]]]]; try lia; unfold wC; cbn; ring.
Qed.

(** * Lost updates *)
Lemma lost_update : exists H ths,
  run_adders [0; 1; 0; 1]%nat (fun _ => dzero 1 1) [(None, [(0%nat, 0%nat, 0%nat, 1)]); (None, [(0%nat, 0%nat, 0%nat, 1)])] = (H, ths) /\
  all_done ths = true /\ dent (H 0%nat) 0%nat 0%nat = 1.
Proof. eexists _, _. split; [reflexivity|]. split; [reflexivity|]. cbn. unfold mzero. ring. Qed.

(** * The Laplacian without the kinetic energy density *)
Definition wfe1 : fe := mkFE LIP 2 [0; 1] false false true false.
Definition wb1 : abasis := wbasis wfe1 [(0, 0)]%Z.
Definition wru1 : rule := [(0, 0, 1)].
Lemma wfe1_valid : valid_fe wfe1.
Proof.
  split; [cbn; lia|]. split; [cbn; lia|]. intros i j H1 H2. cbn [fe_bval wfe1 length] in *.
  destruct i as [|[|i]], j as [|[|j]]; try lia; cbn [nth]; lra.
Qed.
Lemma wb1_ok : at_grid_ok wb1 wru1.
Proof.
  apply wbasis_ok; [exact wfe1_valid| |].
  - intros l m [H|[]]; injection H as <- <-; lia.
  - intros [|ia] H; cbn in *; [lra|lia].
Qed.
Definition wone : dmat := mkD 1 1 (fun _ _ => 1).
Definition wzero : dmat := mkD 1 1 (fun _ _ => 0).
Lemma wone_ok : is_density 1 wone. Proof. repeat split. Qed.
Lemma wzero_ok : is_density 1 wzero. Proof. repeat split. Qed.
Lemma wsched1 : schedule_ok (get_nelem (ab_fe wb1)) (mkS [[0]]%nat [[]] [] []).
Proof. split; [reflexivity|split]; cbn; apply Permutation_refl. Qed.
Lemma wfn_lapl_derivatives n Pa Pb q ip : In ip (parts wfn_lapl) -> xc_derivatives wlib true (fn_thr wfn_lapl) ip (args2 n Pa Pb q).
Proof. cbn. intros [<-|[]]. apply wlib_derivatives; [cbn; auto|apply args2_shaped]. Qed.
Lemma wpoint : at_points wb1 wru1 = [at_point wb1 wru1 0 0 0]. Proof. reflexivity. Qed.
Lemma wpoint_w : p_w (at_point wb1 wru1 0 0 0) = / 4.
Proof. unfold at_point. cbn. field. Qed.
Lemma wpoint_n : pair_n (at_point wb1 wru1 0 0 0) 0 0 = 1.
Proof.
  unfold pair_n, reprod. unfold at_point. cbn [p_f]. unfold cscal. cbn [fst snd].
  change (radial_value wb1 (ab_f wb1) 0 0 (0 mod at_nr wb1)) with 1.
  change (ab_Y wb1 (fst (shell (ab_sh wb1) (0 / at_nr wb1))) (snd (shell (ab_sh wb1) (0 / at_nr wb1))) (a_cth (ang wru1 0)) (a_phi (ang wru1 0))) with (1, 0).
  cbn [fst snd]. ring.
Qed.
Lemma wpoint_gg : pair_gg (at_point wb1 wru1 0 0 0) 0 0 = 1.
Proof.
  unfold pair_gg, reprod. cbn [sum]. unfold at_point. cbn [p_g]. unfold dtheta, cscal, cadd, cmul. cbn [fst snd].
  change (radial_value wb1 (ab_f wb1) 0 0 (0 mod at_nr wb1)) with 1. change (radial_value wb1 (ab_d wb1) 0 0 (0 mod at_nr wb1)) with 1.
  change (ab_Y wb1 (fst (shell (ab_sh wb1) (0 / at_nr wb1))) (snd (shell (ab_sh wb1) (0 / at_nr wb1))) (a_cth (ang wru1 0)) (a_phi (ang wru1 0))) with (1, 0).
  change (snd (shell (ab_sh wb1) (0 / at_nr wb1))) with 0%Z. change (fst (shell (ab_sh wb1) (0 / at_nr wb1))) with 0%Z.
  change ((0 - 0) * (0 + 0 + 1))%Z with 0%Z. rewrite sqrt_0. cbn [fst snd]. ring.
Qed.
Lemma lapl_gradient_fails : exists sc Ha Hb s, schedule_ok (get_nelem (ab_fe wb1)) sc /\ at_eval_Fxc_pol wlib wb1 wru1 wfn_lapl wone wzero true sc = Ok (Ha, Hb, s) /\
  ~ derivable_pt_lim (fun t => spec_exc2 wlib wfn_lapl 1 (dent (shifted wone wone t)) (dent wzero) (at_points wb1 wru1)) 0
      (contract 1 (dent wone) (dent Ha)).
Proof.
  destruct (at_eval_Fxc_pol_ok wlib wb1 wru1 wfn_lapl wb1_ok wfn_lapl_ok wone wzero true [[0]]%nat [[]]) as (N & R); try exact wone_ok; try exact wzero_ok.
  { change (0 < 1)%nat. lia. } { exact wsched1. } { right; reflexivity. }
  destruct (R (repeat 0%nat N) (repeat 0%nat N)) as [[_ (t & Ht & Hc)]|(Ha & Hb & E & MA & _)].
  { exfalso. cbn in Ht. assert (t = 0%nat) by lia. subst t. rewrite count_occ_repeat_eq in Hc by reflexivity. lia. }
  eexists _, Ha, Hb, _. split; [|split; [exact E|]]. { exact wsched1. } intros Hd.
  assert (G := energy_gradient2 wlib wfn_lapl 1 (dent wone) (dent wzero) (dent wone) (dent wzero) (at_points wb1 wru1)
    (fun q ip _ Hip => wfn_lapl_derivatives 1 (dent wone) (dent wzero) q ip Hip)).
  assert (G' : derivable_pt_lim (fun t => spec_exc2 wlib wfn_lapl 1 (dent (shifted wone wone t)) (dent wzero) (at_points wb1 wru1)) 0
    (contract 1 (dent wone) (spec_fock2 wlib wfn_lapl 1 (dent wone) (dent wzero) 0 (at_points wb1 wru1))
     + contract 1 (dent wzero) (spec_fock2 wlib wfn_lapl 1 (dent wone) (dent wzero) 1 (at_points wb1 wru1)))).
  { eapply dl_ext; [|exact G]. intros t. cbv beta. unfold spec_exc2. apply lsum_ext. intros q _.
    assert (Ez : forall x, contract 1 (fun i j => dent wzero i j + t * dent wzero i j) x = contract 1 (dent wzero) x).
    { intros x. apply contract_ext_l. intros. cbn. ring. }
    unfold args2, dens, lapl, tau, dot3, grad. cbn [sum]. rewrite !Ez. reflexivity. }
  assert (U := uniqueness_limite _ _ _ _ Hd G'). clear - U MA.
  destruct MA as (_ & _ & MA). unfold contract in U. cbn [sum dent wone wzero] in U. rewrite (MA 0%nat 0%nat (le_n 1) (le_n 1)) in U.
  unfold spec_fock2 in U. rewrite wpoint in U. unfold lsum in U. cbn [map fold_right] in U. rewrite wpoint_w in U.
  change (at_nbf wb1) with 1%nat in U.
  unfold deficit in U at 1. change (uses wfn_lapl (is_tau wlib)) with false in U. cbv iota in U. rewrite wpoint_gg in U.
  assert (V : e_vlapl wlib true wfn_lapl (args2 1 (dent wone) (dent wzero) (at_point wb1 wru1 0 0 0)) 0 = 1).
  { unfold e_vlapl, over, lsum. cbn [parts wfn_lapl filter fn_x fn_xp fn_c fn_cp fst snd Z.ltb Z.compare map fold_right].
    change (is_lapl wlib 4) with true. cbv iota. cbn [xc_at wlib xc_family Z.eqb Pos.eqb xc_mgga o_vlapl].
    unfold tot. cbn [args2 a_rho nth]. unfold dens, contract. cbn [sum wone wzero dent]. rewrite wpoint_n. ring. }
  rewrite V in U. cbn [dent wone wzero] in U. lra.
Qed.

(** * Without the second matrix *)
Lemma lapl_empty k n v f l Z : k <> 0%nat -> increment_mgga_lapl_split (dzero k k) n v f l = Ok Z ->
  increment_mgga_lapl_split dempty n v f l = UB.
Proof.
  intros Hk. unfold increment_mgga_lapl_split. destruct (negb _); [discriminate|].
  destruct (dprod (colscale (fst f) v) (dT (fst l))) as [X| | |]; try discriminate. cbn [bind].
  destruct (dprod (colscale (snd f) v) (dT (snd l))) as [Y| | |]; try discriminate. cbn [bind].
  destruct (dadd X Y) as [W| | |]; try discriminate. cbn [bind]. intros EZ.
  assert (EW : drows W = k).
  { unfold dadd at 1 in EZ. cbn [drows dcols dzero] in EZ. destruct (Nat.eqb_spec k (drows W)); [auto|cbn [andb bind] in EZ; discriminate EZ]. }
  unfold dadd at 1. rewrite EW. change (drows dempty) with 0%nat. destruct (Nat.eqb_spec 0 k); [lia|]. reflexivity.
Qed.
Lemma nobeta_UB lib fn n g pts Pa Pb d x : grid_rep (fn_flags lib fn) n g pts ->
  dens_rep (fn_flags lib fn) n pts true [Pa; Pb] d ->
  xc_rep lib (fn_flags lib fn) n pts true [Pa; Pb] (fn_thr fn) (parts fn) x ->
  uses fn (is_lapl lib) = true -> length (g_ind g) <> 0%nat ->
  eval_Fxc_polarised increment_lda (mkW (fn_flags lib fn) g d x) false n n = UB.
Proof.
  intros HG HD HX El Hlen. unfold eval_Fxc_polarised. cbn [w_d w_g w_x]. rewrite (dr_pol _ _ _ _ _ _ HD), (gr_n HG). cbn [negb].
  destruct (pol_channel_ok lib fn n g pts [Pa; Pb] HG d x HD HX increment_lda 0 lda_ok ltac:(lia)) as (Ha & Ea & HHa). rewrite Ea. cbn [bind].
  rewrite (xr_ml _ _ _ _ _ _ _ _ _ HX). change (usesl (parts fn)) with (uses fn). rewrite El.
  destruct (row_ok _ _ _ _ 0 (xr_vlapl _ _ _ _ _ _ _ _ _ HX El) ltac:(cbn; lia)) as (va & Eva & Hva). rewrite Eva. cbn [bind].
  destruct (row_ok _ _ _ _ 1 (xr_vlapl _ _ _ _ _ _ _ _ _ HX El) ltac:(cbn; lia)) as (vb & Evb & Hvb). rewrite Evb. cbn [bind].
  destruct (lapl_inc_ok lib fn n g pts HG (fun ip => va ip * g_w g ip) Ha _ El HHa) as (Ha' & Ea' & _). rewrite Ea'. cbn [bind].
  destruct (lapl_inc_ok lib fn n g pts HG (fun ip => vb ip * g_w g ip) (dzero (length (g_ind g)) (length (g_ind g))) (fun _ _ => 0) El) as (Z & EZ & _).
  { split; [reflexivity|split; [reflexivity|reflexivity]]. }
  rewrite (lapl_empty _ _ _ _ _ _ Hlen EZ). reflexivity.
Qed.
Lemma lapl_nobeta_fails a1 a2 : at_eval_Fxc_pol wlib wb1 wru1 wfn_lapl wone wzero false (mkS [[0]]%nat [[]] a1 a2) = UB.
Proof.
  set (n := 1%nat).
  assert (It : iteration true (fun w => eval_Fxc_polarised increment_lda w false n n) wlib wb1 wru1 wfn_lapl [wone; wzero] (new_worker (fn_flags wlib wfn_lapl)) 0 = UB).
  { unfold iteration.
    destruct (compute_bf_ok wb1 wru1 0 wb1_ok ltac:(cbn; lia) (new_worker (fn_flags wlib wfn_lapl))) as (g & E1 & Hind & HG). rewrite E1. cbn [bind].
    assert (HP : forall P, In P [wone; wzero] -> is_density (at_nbf wb1) P) by (intros P [<-|[<-|[]]]; [exact wone_ok|exact wzero_ok]).
    destruct (update_density_ok (fn_flags wlib wfn_lapl) (at_nbf wb1) g _ HG (fn_flags_ok wlib wfn_lapl) true [wone; wzero] eq_refl HP (le_n 1) (mkW (fn_flags wlib wfn_lapl) g (w_d (new_worker (fn_flags wlib wfn_lapl))) (w_x (new_worker (fn_flags wlib wfn_lapl)))) eq_refl eq_refl) as (d & E2 & HD).
    cbn [w_x w_fl new_worker w_d] in E2 |- *. rewrite E2. cbn [bind].
    destruct (run_xc_ok wlib wfn_lapl (at_nbf wb1) g _ true [wone; wzero] d (mkX false false false dempty dempty dempty dempty dempty) wfn_lapl_ok (gr_n HG) HD) as (x & E3 & HX).
    rewrite (compute_Nel_ok wlib wfn_lapl _ g _ true [wone; wzero] HG d x HD HX). cbn [bind].
    rewrite (compute_Ekin_ok wlib wfn_lapl _ g _ true [wone; wzero] HG d x HD HX). cbn [bind].
    rewrite E3. cbn [bind]. rewrite (eval_Exc_ok wlib wfn_lapl _ g _ true [wone; wzero] HG d x HD HX). cbn [bind].
    change n with (at_nbf wb1). rewrite (nobeta_UB wlib wfn_lapl (at_nbf wb1) g _ wone wzero d x HG HD HX); [reflexivity|reflexivity|].
    rewrite Hind. intros Ez. vm_compute in Ez. discriminate Ez. }
  unfold at_eval_Fxc_pol, driver. rewrite (check_ok wlib wfn_lapl wfn_lapl_ok).
  cbn [s_even s_odd s_acc1 s_acc2 map]. unfold parallel_loop at 1. cbn [all_threads]. unfold thread_loop at 1. cbn [fold_res].
  change (drows wone) with n. change (drows wzero) with n. rewrite It. reflexivity.
Qed.
(** * Fair interleavings *)
Definition fair (k N : nat) : list nat := concat (repeat (seq 0 k) N).
Lemma fair_count k N t : (t < k)%nat -> count_occ Nat.eq_dec (fair k N) t = N.
Proof.
  intros Ht. unfold fair. induction N as [|N IH]; [reflexivity|]. cbn [repeat concat]. rewrite count_occ_app, IH.
  assert (E : count_occ Nat.eq_dec (seq 0 k) t = 1%nat).
  { apply NoDup_count_occ'; [apply seq_NoDup|]. apply in_seq. lia. }
  rewrite E. reflexivity.
Qed.
Lemma restricted_runs lib b ru fn P ev od : at_grid_ok b ru -> functional_ok lib fn -> (0 < at_nbf b)%nat -> is_density (at_nbf b) P ->
  schedule_ok (get_nelem (ab_fe b)) (mkS ev od [] []) ->
  exists a H N K, at_eval_Fxc lib b ru fn P (mkS ev od a a) = Ok (H, (spec_exc1 lib fn (at_nbf b) (dent P) (at_points b ru), N, K)).
Proof.
  intros HB HF Hn HP Hs. destruct (at_eval_Fxc_ok lib b ru fn HB HF P ev od Hn HP Hs) as (N & R). exists (fair (length ev) N).
  destruct (R (fair (length ev) N) (fair (length ev) N)) as [(_ & t & Ht & Hc)|(H & E & _)].
  - rewrite fair_count in Hc by exact Ht. lia.
  - exists H. eexists _, _. exact E.
Qed.
Lemma unrestricted_runs lib b ru fn Pa Pb ev od : at_grid_ok b ru -> functional_ok lib fn -> (0 < at_nbf b)%nat -> is_density (at_nbf b) Pa -> is_density (at_nbf b) Pb ->
  schedule_ok (get_nelem (ab_fe b)) (mkS ev od [] []) ->
  exists a Ha Hb N K, at_eval_Fxc_pol lib b ru fn Pa Pb true (mkS ev od a a) = Ok (Ha, Hb, (spec_exc2 lib fn (at_nbf b) (dent Pa) (dent Pb) (at_points b ru), N, K)).
Proof.
  intros HB HF Hn HPa HPb Hs. destruct (at_eval_Fxc_pol_ok lib b ru fn HB HF Pa Pb true ev od Hn HPa HPb Hs (or_intror eq_refl)) as (N & R). exists (fair (length ev) N).
  destruct (R (fair (length ev) N) (fair (length ev) N)) as [(_ & t & Ht & Hc)|(Ha & Hb & E & _)].
  - rewrite fair_count in Hc by exact Ht. lia.
  - exists Ha, Hb. eexists _, _. exact E.
Qed.
(** The energies along P + t D are those of runs. *)
Lemma wE1 P D : is_density 4 P -> is_density 4 D -> exists E, forall t, exists sc H N K, schedule_ok (get_nelem (ab_fe wb)) sc /\
  at_eval_Fxc wlib wb wru wfn (shifted P D t) sc = Ok (H, (E t, N, K)).
Proof.
  intros HP HD. exists (fun t => spec_exc1 wlib wfn (at_nbf wb) (dent (shifted P D t)) (at_points wb wru)). intros t.
  destruct (restricted_runs wlib wb wru wfn (shifted P D t) [[2]; [0]]%nat [[]; [1]]%nat wb_ok wfn_ok) as (a & H & N & K & E).
  { rewrite wb_n. lia. } { exact (shifted_density wb P D t HP HD). } { exact wsched. }
  eexists _, H, N, K. split; [|exact E]. exact wsched.
Qed.
Lemma wE2 Pa Pb Da Db : is_density 4 Pa -> is_density 4 Pb -> is_density 4 Da -> is_density 4 Db ->
  exists E, forall t, exists sc Ha Hb N K, schedule_ok (get_nelem (ab_fe wb)) sc /\
  at_eval_Fxc_pol wlib wb wru wfn (shifted Pa Da t) (shifted Pb Db t) true sc = Ok (Ha, Hb, (E t, N, K)).
Proof.
  intros HPa HPb HDa HDb. exists (fun t => spec_exc2 wlib wfn (at_nbf wb) (dent (shifted Pa Da t)) (dent (shifted Pb Db t)) (at_points wb wru)). intros t.
  destruct (unrestricted_runs wlib wb wru wfn (shifted Pa Da t) (shifted Pb Db t) [[2]; [0]]%nat [[]; [1]]%nat wb_ok wfn_ok) as (a & Ha & Hb & N & K & E).
  { rewrite wb_n. lia. } { exact (shifted_density wb Pa Da t HPa HDa). } { exact (shifted_density wb Pb Db t HPb HDb). } { exact wsched. }
  eexists _, Ha, Hb, N, K. split; [|exact E]. exact wsched.
Qed.
Lemma laplacian_refuted : exists lib b ru fn Pa Pb Da Db sc Ha Hb s E,
  at_grid_ok b ru /\ functional_ok lib fn /\ (0 < at_nbf b)%nat /\
  is_density (at_nbf b) Pa /\ is_density (at_nbf b) Pb /\ is_density (at_nbf b) Da /\ is_density (at_nbf b) Db /\
  (forall q ip, In ip (parts fn) -> xc_derivatives lib true (fn_thr fn) ip (args2 (at_nbf b) (dent Pa) (dent Pb) q)) /\
  schedule_ok (get_nelem (ab_fe b)) sc /\ at_eval_Fxc_pol lib b ru fn Pa Pb true sc = Ok (Ha, Hb, s) /\
  (forall t, exists sc Ha Hb N K, schedule_ok (get_nelem (ab_fe b)) sc /\
     at_eval_Fxc_pol lib b ru fn (shifted Pa Da t) (shifted Pb Db t) true sc = Ok (Ha, Hb, (E t, N, K))) /\
  ~ derivable_pt_lim E 0 (contract (at_nbf b) (dent Da) (dent Ha) + contract (at_nbf b) (dent Db) (dent Hb)).
Proof.
  destruct lapl_gradient_fails as (sc & Ha & Hb & s & Hs & Ev & Hd).
  exists wlib, wb1, wru1, wfn_lapl, wone, wzero, wone, wzero, sc, Ha, Hb, s.
  exists (fun t => spec_exc2 wlib wfn_lapl 1 (dent (shifted wone wone t)) (dent (shifted wzero wzero t)) (at_points wb1 wru1)).
  split; [exact wb1_ok|]. split; [exact wfn_lapl_ok|]. split; [exact (le_n 1)|].
  split; [exact wone_ok|]. split; [exact wzero_ok|]. split; [exact wone_ok|]. split; [exact wzero_ok|].
  split; [intros q ip Hip; apply wfn_lapl_derivatives; exact Hip|]. split; [exact Hs|]. split; [exact Ev|]. split.
  - intros t. destruct (unrestricted_runs wlib wb1 wru1 wfn_lapl (shifted wone wone t) (shifted wzero wzero t) [[0]]%nat [[]] wb1_ok wfn_lapl_ok) as (a & H1 & H2 & N & K & E).
    { exact (le_n 1). } { exact (shifted_density wb1 wone wone t wone_ok wone_ok). } { exact (shifted_density wb1 wzero wzero t wzero_ok wzero_ok). } { exact wsched1. }
    eexists _, H1, H2, N, K. split; [|exact E]. exact wsched1.
  - intros D. apply Hd. eapply dl_val; [|eapply dl_ext; [|exact D]].
    + change (at_nbf wb1) with 1%nat. unfold contract at 2. cbn [sum wzero dent]. ring.
    + intros t. cbv beta. unfold spec_exc2. apply lsum_ext. intros q _.
      assert (Ez : forall x, contract 1 (dent (shifted wzero wzero t)) x = contract 1 (dent wzero) x).
      { intros x. apply contract_ext_l. intros. cbn. ring. }
      unfold args2, dens, lapl, tau, dot3, grad. cbn [sum]. rewrite !Ez. reflexivity.
Qed.
Lemma beta_refuted : exists lib b ru fn Pa Pb ev od, at_grid_ok b ru /\ functional_ok lib fn /\ (0 < at_nbf b)%nat /\
  is_density (at_nbf b) Pa /\ is_density (at_nbf b) Pb /\ schedule_ok (get_nelem (ab_fe b)) (mkS ev od [] []) /\
  forall a1 a2, at_eval_Fxc_pol lib b ru fn Pa Pb false (mkS ev od a1 a2) = UB.
Proof.
  exists wlib, wb1, wru1, wfn_lapl, wone, wzero, [[0]]%nat, [[]]. split; [exact wb1_ok|]. split; [exact wfn_lapl_ok|]. split; [exact (le_n 1)|].
  split; [exact wone_ok|]. split; [exact wzero_ok|]. split; [exact wsched1|]. exact lapl_nobeta_fails.
Qed.
