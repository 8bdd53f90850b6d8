(** The energy and the Fock matrices of an atom with a spherical density. *)
Require Import Reals ZArith List Bool Arith Lia Lra Permutation.
Require Import Verif.Prelude Verif.FEModel Verif.FESpec Verif.FEProofs Verif.FEProps Verif.AngProofs Verif.AngModel Verif.JKModel Verif.DftModel Verif.DftSpec Verif.DftProofs Verif.DftXc Verif.DftFock Verif.DftFockR Verif.DftPar Verif.DftDrv Verif.PmModel Verif.PmProofs Verif.SgModel Verif.SgSpec Verif.SgXc Verif.SgProofs Verif.SgFock.
Import ListNotations.
Local Open Scope R_scope.

Lemma out_cons lib fn n pts pol Ps s k0 nsl nout outs k i j : out_sum lib fn n pts pol Ps ((s, k0, nsl, nout) :: outs) k i j
  = (if (Nat.leb k0 k && Nat.ltb k (k0 + nsl))%bool then rfock_sum lib fn n pts pol Ps s (k - k0) i j else 0) + out_sum lib fn n pts pol Ps outs k i j.
Proof. reflexivity. Qed.

Section Driver.
Variables (lib : libxc) (b : abasis) (fn : functional).
Hypothesis HB : sg_grid_ok b.
Hypothesis HF : functional_ok lib fn.
Let n := at_nr b.
Let nel := get_nelem (ab_fe b).
Let fl := fn_flags lib fn.

Lemma sg_far e e' mu : (e < nel)%nat -> (e' < nel)%nat -> (e + 1 < e')%nat -> In mu (sg_el_ind b e) -> In mu (sg_el_ind b e') -> False.
Proof.
  intros He He' Hfar H H'. apply (sg_in b e He) in H. apply (sg_in b e' He') in H'. assert (Hv := proj1 HB).
  destruct (elem_facts (ab_fe b) e Hv He) as (f & l & N & Hg & _ & A1 & A2 & _).
  destruct (elem_facts (ab_fe b) e' Hv He') as (f' & l' & N' & Hg' & _ & B1 & B2 & _).
  unfold elem_range in H, H'. rewrite Hg in H. rewrite Hg' in H'. cbn [fst snd] in H, H'.
  apply (fe_far_elements_disjoint (ab_fe b) e e' f l f' l' Hv Hg Hg' Hfar (Z.of_nat mu)).
  unfold in_range. cbn [fst snd]. lia.
Qed.
Lemma sg_parity e e' mu : (e < nel)%nat -> (e' < nel)%nat -> Nat.even e = Nat.even e' -> e <> e' -> In mu (sg_el_ind b e) -> In mu (sg_el_ind b e') -> False.
Proof.
  intros He He' Hp Hne H H'.
  assert (D : (e + 1 < e' \/ e' + 1 < e)%nat).
  { destruct (Nat.lt_trichotomy e e') as [Hl|[Hl|Hl]]; [left|contradiction|right];
    (destruct (Nat.eq_dec e' (S e)) as [->|]; [rewrite Nat.even_succ, <- Nat.negb_even in Hp; destruct (Nat.even e); discriminate|]);
    (destruct (Nat.eq_dec e (S e')) as [->|]; [rewrite Nat.even_succ, <- Nat.negb_even in Hp; destruct (Nat.even e'); discriminate|lia]). }
  destruct D as [D|D]; [apply (sg_far e e' mu)|apply (sg_far e' e mu)]; auto.
Qed.

Definition sg_sums (pol : bool) (Ps : list (list dmat)) (pts : list rpoint) : sums :=
  (lsum pts (fun q => q_w q * e_exc lib pol fn (rargs n pol Ps q) * tot pol (rargs n pol Ps q)), lsum pts (fun q => q_w q * tot pol (rargs n pol Ps q)), 0).

Lemma sg_iteration_ok pol outs Ps : length Ps = nspin pol -> (forall P, In P Ps -> cube_ok n P) ->
  (forall s k0 nsl nout, In (s, k0, nsl, nout) outs -> (s < nspin pol)%nat /\ nout = n) ->
  forall w iel, w_fl (sg_w w) = fl -> (iel < nel)%nat -> exists w' us,
    sg_iteration pol outs lib b fn Ps w iel = Ok (w', sg_sums pol Ps (sg_elem_points b iel), us) /\
    w_fl (sg_w w') = fl /\ within (sg_el_ind b iel) n us /\
    forall k i j, (i < n)%nat -> (j < n)%nat -> effect us k i j = out_sum lib fn n (sg_elem_points b iel) pol Ps outs k i j.
Proof.
  intros HL HP Ho w iel Hw Hiel. unfold sg_iteration. set (pts := sg_elem_points b iel).
  destruct (sg_compute_bf_ok b iel HB Hiel w) as (w1 & E1 & Hind & HW). rewrite E1. cbn [bind]. rewrite Hw in HW. fold n pts in HW.
  destruct (sg_update_ok fl n pts w1 (fn_flags_ok lib fn) HW pol Ps HL HP) as (d & E2 & HD). rewrite E2. cbn [bind sg_w].
  assert (Hg := sr_n _ _ _ _ HW).
  destruct (sg_run_xc_ok lib fn (w_g (sg_w w1)) (length pts) pol (fun ip => rargs n pol Ps (rp pts ip)) d (w_x (sg_w w1)) HF Hg (proj1 HD)) as (x & E3 & HX).
  unfold fl. rewrite (sg_Nel_ok lib fn _ _ pol _ d (w_x (sg_w w1)) Hg (proj1 HD)). cbn [bind]. rewrite E3. cbn [bind].
  rewrite (sg_Exc_ok lib fn _ _ pol _ d x Hg (proj1 HD) HX). cbn [bind].
  destruct (sg_fock_ok lib fn n pts w1 pol Ps d x HW HD HX outs Ho) as (us & E4 & W & Fu). unfold sg_base in E4 |- *. cbn [sg_r sg_wr sg_ind sg_f sg_d sg_l].
  rewrite E4. cbn [bind]. eexists _, us. split.
  - f_equal. f_equal. f_equal. unfold sg_sums. f_equal. f_equal.
    + rewrite <- sum_rp. apply sum_ext. intros ip Hip. rewrite (sr_w _ _ _ _ HW) by auto. reflexivity.
    + rewrite <- sum_rp. apply sum_ext. intros ip Hip. rewrite (sr_w _ _ _ _ HW) by auto. reflexivity.
  - split; [reflexivity|split; [rewrite <- Hind; exact W|exact Fu]].
Qed.

Lemma sg_driver_ok pol outs Ps H ev od : length Ps = nspin pol -> (forall P, In P Ps -> cube_ok n P) ->
  (forall s k0 nsl nout, In (s, k0, nsl, nout) outs -> (s < nspin pol)%nat /\ nout = n) ->
  schedule_ok nel (mkS ev od [] []) ->
  exists N, forall a1 a2, let r := driver new_sgworker lib fn (sg_iteration pol outs lib b fn Ps) H (mkS ev od a1 a2) in
    (r = OutOfFuel /\ exists t, (t < length ev)%nat /\ (count_occ Nat.eq_dec a1 t < N \/ count_occ Nat.eq_dec a2 t < N)%nat) \/
    exists H', r = Ok (H', sg_sums pol Ps (sg_points b)) /\
     (forall k, drows (H' k) = drows (H k) /\ dcols (H' k) = dcols (H k)) /\
     forall k i j, (i < n)%nat -> (j < n)%nat -> dent (H' k) i j = dent (H k) i j + out_sum lib fn n (sg_points b) pol Ps outs k i j.
Proof.
  intros HL HP Ho Hsc.
  destruct (driver_gen new_sgworker lib fn n nel (sg_el_ind b) (fun w => w_fl (sg_w w) = fl) HF eq_refl sg_parity
    (sg_iteration pol outs lib b fn Ps) (fun e => sg_sums pol Ps (sg_elem_points b e)) (fun e => out_sum lib fn n (sg_elem_points b e) pol Ps outs) H
    (fun w iel Hw Hi => sg_iteration_ok pol outs Ps HL HP Ho w iel Hw Hi) ev od Hsc) as (N & R).
  exists N. intros a1 a2 r. destruct (R a1 a2) as [[E X]|(H' & E & D & V)]; [left; auto|right]. exists H'. split; [|split; [exact D|]].
  - unfold r. rewrite E. f_equal. f_equal. unfold add3, sg_sums, sg_points. cbn [fst snd]. fold nel. rewrite !lsum_flat_map. f_equal. apply lsum_zero. reflexivity.
  - intros k i j Hi Hj. rewrite V by auto. f_equal. unfold out_sum. rewrite lsum_swap. apply lsum_ext. intros [[[s k0] nsl] nout] _.
    destruct (_ && _)%bool; [|apply lsum_zero; reflexivity]. unfold rfock_sum, sg_points. fold nel. rewrite lsum_flat_map. reflexivity.
Qed.

Lemma prime_ok : sg_prime lib fn = Ok tt.
Proof. unfold sg_prime. rewrite (check_ok lib fn HF). reflexivity. Qed.
Lemma cube_first P : cube_ok n P -> exists P0, vget P 0 = Ok P0 /\ drows P0 = n.
Proof. intros [Hne HP]. destruct P as [|P0 P]; [congruence|]. exists P0. split; [reflexivity|]. apply (HP P0 (or_introl eq_refl)). Qed.
Lemma slices_ok (H : shared) k0 nl h : (forall l, (l < nl)%nat -> is_mat (H (k0 + l)%nat) n n (h l)) -> is_cube (slices H k0 nl) nl n h.
Proof.
  intros HM. unfold slices. split; [rewrite map_length, seq_length; reflexivity|]. intros l Hl.
  rewrite (nth_map_seq (fun l => H (k0 + l)%nat)) by exact Hl. auto.
Qed.

Lemma sg_eval_Fxc_ok P ev od : cube_ok n P -> schedule_ok nel (mkS ev od [] []) ->
  exists N, forall a1 a2,
    (sg_eval_Fxc lib b fn P (mkS ev od a1 a2) = OutOfFuel /\
     exists t, (t < length ev)%nat /\ (count_occ Nat.eq_dec a1 t < N \/ count_occ Nat.eq_dec a2 t < N)%nat) \/
    exists H, sg_eval_Fxc lib b fn P (mkS ev od a1 a2) = Ok (H, (rexc1 lib fn n P (sg_points b), rnel n P (sg_points b))) /\
      is_cube H (length P) n (rfock1 lib fn n P (sg_points b)).
Proof.
  intros HP Hsc. unfold sg_eval_Fxc. destruct (cube_first P HP) as (P0 & E0 & Hr). rewrite E0. cbn [bind]. rewrite prime_ok, Hr. cbn [bind].
  destruct (sg_driver_ok false [(0, 0, length P, n)%nat] [P] (fun _ => dzero n n) ev od eq_refl) as (N & R); auto.
  { intros Q [<-|[]]. exact HP. }
  { intros s k0 nsl nout [E|[]]. inversion E; subst. split; [cbn; lia|reflexivity]. }
  exists N. intros a1 a2. destruct (R a1 a2) as [[E X]|(H & E & D & V)]; rewrite E; cbn [bind fst snd]; [left; auto|].
  right. exists (slices H 0 (length P)). split; [reflexivity|]. apply slices_ok. intros l Hl. destruct (D (0 + l)%nat) as [D1 D2].
  split; [exact D1|split; [exact D2|]]. intros i j Hi Hj. rewrite V by auto. cbn [dzero dent]. rewrite Rplus_0_l.
  unfold out_sum, lsum. cbn [fold_right plus]. destruct (Nat.leb_spec 0 l); [|lia]. destruct (Nat.ltb_spec l (length P)); [|lia]. cbn [andb].
  rewrite Rplus_0_r, Nat.sub_0_r. unfold rfock_sum, rfock1. apply lsum_ext. intros q _. unfold rfock_at, rgam, rargs, cube. cbn [nth]. ring.
Qed.

Lemma sg_eval_Fxc_pol_ok Pa Pb beta ev od : cube_ok n Pa -> cube_ok n Pb -> schedule_ok nel (mkS ev od [] []) ->
  exists N, forall a1 a2,
    (sg_eval_Fxc_pol lib b fn Pa Pb beta (mkS ev od a1 a2) = OutOfFuel /\
     exists t, (t < length ev)%nat /\ (count_occ Nat.eq_dec a1 t < N \/ count_occ Nat.eq_dec a2 t < N)%nat) \/
    exists Ha Hb, sg_eval_Fxc_pol lib b fn Pa Pb beta (mkS ev od a1 a2)
        = Ok (Ha, Hb, (rexc2 lib fn n Pa Pb (sg_points b), rnel n Pa (sg_points b) + rnel n Pb (sg_points b))) /\
      is_cube Ha (length Pa) n (rfock2 lib fn n Pa Pb 0 (sg_points b)) /\
      is_cube Hb (length Pb) n (if beta then rfock2 lib fn n Pa Pb 1 (sg_points b) else fun _ _ _ => 0).
Proof.
  intros HPa HPb Hsc. unfold sg_eval_Fxc_pol. destruct (cube_first Pa HPa) as (Pa0 & Ea & Hra). destruct (cube_first Pb HPb) as (Pb0 & Eb & Hrb).
  rewrite Ea, Eb. cbn [bind]. rewrite prime_ok, Hra, Hrb. cbn [bind].
  set (na := length Pa). set (nb := length Pb).
  destruct (sg_driver_ok true ((0, 0, na, n)%nat :: if beta then [(1, na, nb, n)%nat] else []) [Pa; Pb]
     (fun k => if Nat.ltb k na then dzero n n else dzero n n) ev od eq_refl) as (N & R); auto.
  { intros Q [<-|[<-|[]]]; assumption. }
  { intros s k0 nsl nout [E|E]; [inversion E; subst; split; [cbn; lia|reflexivity]|]. destruct beta; [|destruct E]. destruct E as [E|[]]. inversion E; subst. split; [cbn; lia|reflexivity]. }
  exists N. intros a1 a2. destruct (R a1 a2) as [[E X]|(H & E & D & V)]; rewrite E; cbn [bind fst snd]; [left; auto|].
  assert (Dz : forall k, drows (H k) = n /\ dcols (H k) = n) by (intros k; destruct (D k) as [-> ->]; destruct (Nat.ltb k na); split; reflexivity).
  assert (Vz : forall k i j, (i < n)%nat -> (j < n)%nat -> dent (H k) i j = out_sum lib fn n (sg_points b) true [Pa; Pb] ((0, 0, na, n)%nat :: if beta then [(1, na, nb, n)%nat] else []) k i j).
  { intros k i j Hi Hj. rewrite V by auto. destruct (Nat.ltb k na); change (dent (dzero n n) i j) with 0; apply Rplus_0_l. }
  right. exists (slices H 0 na), (if beta then slices H na nb else map (fun _ => dzero n n) (seq 0 nb)). split; [|split].
  - f_equal. f_equal. unfold sg_sums, rexc2, rnel. cbn [fst]. rewrite <- lsum_plus. f_equal. apply lsum_ext. intros q _. unfold tot, rargs, rargs2, cube. cbn [a_rho nth]. ring.
  - apply slices_ok. intros l Hl. destruct (Dz (0 + l)%nat) as [D1 D2]. split; [exact D1|split; [exact D2|]]. intros i j Hi Hj. rewrite Vz by auto.
    rewrite out_cons. cbn [plus]. destruct (Nat.leb_spec 0 l); [|lia]. destruct (Nat.ltb_spec l na); [|lia]. cbn [andb]. rewrite Nat.sub_0_r.
    assert (Z : out_sum lib fn n (sg_points b) true [Pa; Pb] (if beta then [(1, na, nb, n)%nat] else []) l i j = 0).
    { destruct beta; [|reflexivity]. rewrite out_cons. destruct (Nat.leb_spec na l); [lia|]. cbn [andb]. unfold out_sum, lsum. cbn [fold_right]. ring. }
    rewrite Z, Rplus_0_r. unfold rfock_sum, rfock2. apply lsum_ext. intros q _. unfold rfock_at, rgam, rargs, cube. cbn [nth Nat.sub Nat.mul Nat.eqb]. ring.
  - destruct beta.
    + apply slices_ok. intros l Hl. destruct (Dz (na + l)%nat) as [D1 D2]. split; [exact D1|split; [exact D2|]]. intros i j Hi Hj. rewrite Vz by auto.
      unfold out_sum, lsum. cbn [fold_right]. destruct (Nat.ltb_spec (na + l) (0 + na)); [lia|]. rewrite andb_false_r.
      destruct (Nat.leb_spec na (na + l)); [|lia]. destruct (Nat.ltb_spec (na + l) (na + nb)); [|lia]. cbn [andb]. replace (na + l - na)%nat with l by lia.
      rewrite Rplus_0_l, Rplus_0_r. unfold rfock_sum, rfock2. apply lsum_ext. intros q _. unfold rfock_at, rgam, rargs, cube. cbn [nth Nat.sub Nat.mul Nat.eqb Nat.add]. ring.
    + split; [rewrite map_length, seq_length; reflexivity|]. intros l Hl. rewrite (nth_map_seq (fun _ => dzero n n)) by exact Hl. apply dzero_ok.
Qed.

(** The result does not depend on the schedule. *)
Lemma sg_value1 P sc H s : cube_ok n P -> schedule_ok nel sc -> sg_eval_Fxc lib b fn P sc = Ok (H, s) ->
  s = (rexc1 lib fn n P (sg_points b), rnel n P (sg_points b)) /\ is_cube H (length P) n (rfock1 lib fn n P (sg_points b)).
Proof.
  intros HP Hsc E. destruct sc as [ev od a1 a2]. destruct (sg_eval_Fxc_ok P ev od HP Hsc) as (N & R).
  destruct (R a1 a2) as [[E' _]|(H' & E' & HM)]; rewrite E' in E; [discriminate|]. injection E as <- <-. auto.
Qed.
Lemma sg_value2 Pa Pb beta sc Ha Hb s : cube_ok n Pa -> cube_ok n Pb -> schedule_ok nel sc -> sg_eval_Fxc_pol lib b fn Pa Pb beta sc = Ok (Ha, Hb, s) ->
  s = (rexc2 lib fn n Pa Pb (sg_points b), rnel n Pa (sg_points b) + rnel n Pb (sg_points b)) /\
  is_cube Ha (length Pa) n (rfock2 lib fn n Pa Pb 0 (sg_points b)) /\
  is_cube Hb (length Pb) n (if beta then rfock2 lib fn n Pa Pb 1 (sg_points b) else fun _ _ _ => 0).
Proof.
  intros HPa HPb Hsc E. destruct sc as [ev od a1 a2]. destruct (sg_eval_Fxc_pol_ok Pa Pb beta ev od HPa HPb Hsc) as (N & R).
  destruct (R a1 a2) as [[E' _]|(Ha' & Hb' & E' & HM)]; rewrite E' in E; [discriminate|]. injection E as <- <- <-. auto.
Qed.
End Driver.
