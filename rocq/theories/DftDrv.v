(** The exchange-correlation energy and matrices of an atom under every schedule. *)
Require Import Reals ZArith List Bool Arith Lia Lra Permutation.
Require Import Verif.Prelude Verif.FEModel Verif.FESpec Verif.FEProofs Verif.FEProps Verif.AngModel Verif.AngProofs Verif.JKModel Verif.DftModel Verif.DftSpec Verif.DftProofs Verif.DftXc Verif.DftFock Verif.DftFockR Verif.DftAtom Verif.DftPar.
Import ListNotations.
Local Open Scope R_scope.

(** Elements that are not neighbours have no function in common. *)
Lemma far_disjoint b ru e e' mu : at_grid_ok b ru -> (e < get_nelem (ab_fe b))%nat -> (e' < get_nelem (ab_fe b))%nat ->
  (e + 1 < e')%nat -> In mu (el_ind b e) -> In mu (el_ind b e') -> False.
Proof.
  intros HB He He' Hfar H H'. apply (ind_in b ru e HB He) in H. apply (ind_in b ru e' HB He') in H'.
  destruct H as [_ H]. destruct H' as [_ H']. assert (Hv := proj1 HB).
  destruct (elem_facts (ab_fe b) e Hv He) as (f & l & N & Hg & _ & A1 & A2 & _).
  destruct (elem_facts (ab_fe b) e' Hv He') as (f' & l' & N' & Hg' & _ & B1 & B2 & _).
  unfold elem_range in H, H'. rewrite Hg in H. rewrite Hg' in H'. cbn [fst snd] in H, H'.
  apply (fe_far_elements_disjoint (ab_fe b) e e' f l f' l' Hv Hg Hg' Hfar (Z.of_nat (mu mod at_nr b))).
  unfold in_range. cbn [fst snd]. lia.
Qed.
Lemma parity_disjoint b ru e e' mu : at_grid_ok b ru -> (e < get_nelem (ab_fe b))%nat -> (e' < get_nelem (ab_fe b))%nat ->
  Nat.even e = Nat.even e' -> e <> e' -> In mu (el_ind b e) -> In mu (el_ind b e') -> False.
Proof.
  intros HB He He' Hp Hne H H'.
  assert (D : (e + 1 < e' \/ e' + 1 < e)%nat).
  { destruct (Nat.lt_trichotomy e e') as [Hl|[Hl|Hl]]; [left|contradiction|right];
    (destruct (Nat.eq_dec e' (S e)) as [->|]; [rewrite Nat.even_succ, <- Nat.negb_even in Hp; destruct (Nat.even e); discriminate|]);
    (destruct (Nat.eq_dec e (S e')) as [->|]; [rewrite Nat.even_succ, <- Nat.negb_even in Hp; destruct (Nat.even e'); discriminate|lia]). }
  destruct D as [D|D]; [eapply (far_disjoint b ru e e')|eapply (far_disjoint b ru e' e)]; eauto.
Qed.

Lemma even_odd_perm l : Permutation (filter Nat.even l ++ filter Nat.odd l) l.
Proof.
  induction l as [|x l IH]; cbn; auto. rewrite <- Nat.negb_even. destruct (Nat.even x); cbn.
  - constructor. exact IH.
  - eapply perm_trans; [apply Permutation_sym, Permutation_middle|]. constructor. exact IH.
Qed.

(** The two loops *)
Lemma driver_gen {W} (new : flags -> W) lib fn (n nel : nat) (ind : nat -> list nat) (Inv : W -> Prop) : functional_ok lib fn -> Inv (new (fn_flags lib fn)) ->
  (forall e e' mu, (e < nel)%nat -> (e' < nel)%nat -> Nat.even e = Nat.even e' -> e <> e' -> In mu (ind e) -> In mu (ind e') -> False) ->
  forall it S F H, (forall w iel, Inv w -> (iel < nel)%nat -> exists w' us, it w iel = Ok (w', S iel, us) /\ Inv w' /\
    within (ind iel) n us /\ forall k i j, (i < n)%nat -> (j < n)%nat -> effect us k i j = F iel k i j) ->
  forall ev od, schedule_ok nel (mkS ev od [] []) ->
  exists N, forall a1 a2,
    (driver new lib fn it H (mkS ev od a1 a2) = OutOfFuel /\
     exists t, (t < length ev)%nat /\ (count_occ Nat.eq_dec a1 t < N \/ count_occ Nat.eq_dec a2 t < N)%nat) \/
    exists H', driver new lib fn it H (mkS ev od a1 a2) = Ok (H', add3 (seq 0 nel) S) /\
     (forall k, drows (H' k) = drows (H k) /\ dcols (H' k) = dcols (H k)) /\
     forall k i j, (i < n)%nat -> (j < n)%nat -> dent (H' k) i j = dent (H k) i j + lsum (seq 0 nel) (fun e => F e k i j).
Proof.
  intros HF Hnew Hdis it S F H Hit ev od (Hlen & Pe & Po). cbn [s_even s_odd] in *.
  assert (Ine : forall e, In e (concat ev) -> (e < nel)%nat /\ Nat.even e = true).
  { intros e Hi. apply (Permutation_in _ Pe) in Hi. apply filter_In in Hi. destruct Hi as [Hi Hp]. apply in_seq in Hi. split; [lia|auto]. }
  assert (Ino : forall e, In e (concat od) -> (e < nel)%nat /\ Nat.even e = false).
  { intros e Hi. apply (Permutation_in _ Po) in Hi. apply filter_In in Hi. destruct Hi as [Hi Hp]. apply in_seq in Hi.
    rewrite <- Nat.negb_even in Hp. split; [lia|]. destruct (Nat.even e); [discriminate|auto]. }
  assert (NDe : NoDup (concat ev)) by (apply (Permutation_NoDup (Permutation_sym Pe)), NoDup_filter, seq_NoDup).
  assert (NDo : NoDup (concat od)) by (apply (Permutation_NoDup (Permutation_sym Po)), NoDup_filter, seq_NoDup).
  assert (De : forall e e' mu, In e (concat ev) -> In e' (concat ev) -> e <> e' -> In mu (ind e) -> In mu (ind e') -> False).
  { intros e e' mu I I' Hne. apply Ine in I, I'. destruct I as [I1 I2], I' as [I3 I4]. apply (Hdis e e' mu I1 I3); congruence. }
  assert (Do : forall e e' mu, In e (concat od) -> In e' (concat od) -> e <> e' -> In mu (ind e) -> In mu (ind e') -> False).
  { intros e e' mu I I' Hne. apply Ino in I, I'. destruct I as [I1 I2], I' as [I3 I4]. apply (Hdis e e' mu I1 I3); congruence. }
  assert (Pall : Permutation (concat ev ++ concat od) (seq 0 nel)).
  { eapply perm_trans; [apply Permutation_app; [exact Pe|exact Po]|]. apply even_odd_perm. }
  set (ws := map (fun _ : list nat => new (fn_flags lib fn)) ev).
  destruct (parallel_loop_ok it Inv n nel (ind) S F Hit ev ws H) as (N1 & R1); auto.
  { apply map_length. } { intros w Hi. apply in_map_iff in Hi. destruct Hi as (? & <- & _). exact Hnew. } { intros e He. apply Ine; auto. }
  (* the second bound must not depend on what the first loop left in the workers *)
  assert (Second : exists N2, forall ws' H1, length ws' = length od -> (forall w, In w ws' -> Inv w) -> forall sched,
    (parallel_loop it ws' od sched H1 = OutOfFuel /\ (exists a1 ss1 Ha, parallel_loop it ws ev a1 H = Ok (ws', ss1, Ha)) -> exists t, (t < length od)%nat /\ (count_occ Nat.eq_dec sched t < N2)%nat)).
  { destruct (all_threads it ws ev) as [l|] eqn:El.
    - destruct (parallel_loop_ok it Inv n nel (ind) S F Hit od (map (fun o => fst (fst o)) l) H) as (N2 & R2); auto.
      + destruct (all_threads_ok it Inv n nel (ind) S F Hit ev ws) as (l' & E' & L1 & _); [apply map_length| |intros e He; apply Ine; auto|].
        { intros w Hi. apply in_map_iff in Hi. destruct Hi as (? & <- & _). exact Hnew. }
        rewrite El in E'. injection E' as <-. rewrite map_length. lia.
      + destruct (all_threads_ok it Inv n nel (ind) S F Hit ev ws) as (l' & E' & _ & L2 & _); [apply map_length| |intros e He; apply Ine; auto|].
        { intros w Hi. apply in_map_iff in Hi. destruct Hi as (? & <- & _). exact Hnew. }
        rewrite El in E'. injection E' as <-. intros w Hi. apply in_map_iff in Hi. destruct Hi as (o & <- & Ho). auto.
      + intros e He. apply Ino; auto.
      + exists N2. intros ws' H1 Hl Hw sched [Hoof (a1 & ss1 & Ha & Eok)].
        unfold parallel_loop in Eok. rewrite El in Eok. destruct (run_adders a1 H _) as [H' ths]. destruct (all_done ths); [|discriminate].
        injection Eok as <- _ _. destruct (R2 sched) as [[_ X]|(w2 & s2 & H2 & X & _)]; [exact X|]. exfalso.
        unfold parallel_loop in Hoof, X. destruct (all_threads it _ od) as [l2|]; [|discriminate].
        assert (Dn := done_indep sched H1 H (map (fun o : W * sums * list update => (None, snd o)) l2)).
        destruct (run_adders sched H1 _) as [Hq q]. destruct (run_adders sched H _) as [Hr r]. cbn [snd] in Dn.
        destruct (all_done q); [discriminate|]. rewrite <- Dn in X. discriminate.
    - exists 0%nat. intros ws' H1 _ _ sched [_ (a1 & ss1 & Ha & Eok)]. unfold parallel_loop in Eok. rewrite El in Eok. discriminate. }
  destruct Second as (N2 & R2). exists (N1 + N2)%nat. intros a1 a2. unfold driver. rewrite (check_ok lib fn HF).
  cbn [s_even s_odd s_acc1 s_acc2]. fold ws.
  destruct (R1 a1) as [[E1 (t & T1 & T2)]|(ws' & ss1 & H1 & E1 & W1 & W2 & W3 & W4 & W5)]; rewrite E1; cbn [bind].
  { left. split; [reflexivity|]. exists t. split; [auto|]. left. lia. }
  destruct (parallel_loop_ok it Inv n nel (ind) S F Hit od ws' H1) as (N3 & R3); auto; [lia|intros e He; apply Ino; auto|].
  destruct (R3 a2) as [[E2 _]|(ws2 & ss2 & H2 & E2 & V1 & V2 & V3 & V4 & V5)]; rewrite E2; cbn [bind].
  { left. split; [reflexivity|]. destruct (R2 ws' H1 ltac:(lia) W2 a2) as (t & T1 & T2).
    - split; [exact E2|]. exists a1, ss1, H1. exact E1.
    - exists t. split; [lia|]. right. lia. }
  right. exists H2. split; [|split].
  - f_equal. f_equal. rewrite fold_left_app, fold_sums, W3, V3, <- add3_app. apply add3_perm, Pall.
  - intros k. destruct (V4 k) as [-> ->]. apply W4.
  - intros k i j Hi Hj. rewrite V5, W5 by auto. rewrite Rplus_assoc, <- lsum_app. f_equal. apply lsum_perm, Pall.
Qed.

Section Driver.
Variables (lib : libxc) (b : abasis) (ru : rule) (fn : functional).
Hypothesis HB : at_grid_ok b ru.
Hypothesis HF : functional_ok lib fn.
Let n := at_nbf b.
Let nel := get_nelem (ab_fe b).
Let fl := fn_flags lib fn.

(** One iteration *)
Definition it_sums pol Ps (e : nat) : sums :=
  (lsum (at_elem_points b ru e) (fun q => p_w q * e_exc lib pol fn (pargs n pol Ps q) * tot_dens n pol Ps q),
   lsum (at_elem_points b ru e) (fun q => p_w q * tot_dens n pol Ps q),
   if uses fn (is_tau lib) then lsum (at_elem_points b ru e) (fun q => p_w q * tot_tau n pol Ps q) else 0).
Lemma iteration_ok pol fock Ps (F : nat -> nat -> nat -> nat -> R) : (0 < n)%nat -> length Ps = nspin pol ->
  (forall P, In P Ps -> is_density n P) ->
  (forall iel g pts d x, pts = at_elem_points b ru iel -> grid_rep fl n g pts -> dens_rep fl n pts pol Ps d ->
     xc_rep lib fl n pts pol Ps (fn_thr fn) (parts fn) x ->
     exists us, fock (mkW fl g d x) = Ok us /\ within (g_ind g) n us /\
       forall k i j, (i < n)%nat -> (j < n)%nat -> effect us k i j = F iel k i j) ->
  forall w iel, w_fl w = fl -> (iel < nel)%nat -> exists w' us, iteration pol fock lib b ru fn Ps w iel = Ok (w', it_sums pol Ps iel, us) /\
    w_fl w' = fl /\ within (el_ind b iel) n us /\ forall k i j, (i < n)%nat -> (j < n)%nat -> effect us k i j = F iel k i j.
Proof.
  intros Hn Hlen HP Hfock w iel Hw Hiel. unfold iteration. unfold fl in *.
  destruct (compute_bf_ok b ru iel HB Hiel w) as (g & E1 & Hind & HG). rewrite E1, Hw in *. cbn [bind].
  destruct (update_density_ok (fn_flags lib fn) n g _ HG (fn_flags_ok lib fn) pol Ps Hlen HP Hn (mkW (fn_flags lib fn) g (w_d w) (w_x w)) eq_refl eq_refl) as (d & E2 & HD).
  cbn [w_x] in E2. rewrite E2. cbn [bind].
  destruct (run_xc_ok lib fn n g _ pol Ps d (w_x w) HF (gr_n HG) HD) as (x & E3 & HX).
  rewrite (compute_Nel_ok lib fn n g _ pol Ps HG d x HD HX (w_x w)). cbn [bind].
  rewrite (compute_Ekin_ok lib fn n g _ pol Ps HG d x HD HX (w_x w)). cbn [bind].
  rewrite E3. cbn [bind]. rewrite (eval_Exc_ok lib fn n g _ pol Ps HG d x HD HX). cbn [bind].
  destruct (Hfock iel g _ d x eq_refl HG HD HX) as (us & E4 & W & Ef). rewrite E4. cbn [bind].
  eexists _, us. split; [reflexivity|]. split; [reflexivity|]. split; [rewrite <- Hind; exact W|exact Ef].
Qed.

(** The two loops *)
Lemma driver_ok it S F H : (forall w iel, w_fl w = fl -> (iel < nel)%nat -> exists w' us, it w iel = Ok (w', S iel, us) /\ w_fl w' = fl /\
    within (el_ind b iel) n us /\ forall k i j, (i < n)%nat -> (j < n)%nat -> effect us k i j = F iel k i j) ->
  forall ev od, schedule_ok nel (mkS ev od [] []) ->
  exists N, forall a1 a2,
    (driver new_worker lib fn it H (mkS ev od a1 a2) = OutOfFuel /\
     exists t, (t < length ev)%nat /\ (count_occ Nat.eq_dec a1 t < N \/ count_occ Nat.eq_dec a2 t < N)%nat) \/
    exists H', driver new_worker lib fn it H (mkS ev od a1 a2) = Ok (H', add3 (seq 0 nel) S) /\
     (forall k, drows (H' k) = drows (H k) /\ dcols (H' k) = dcols (H k)) /\
     forall k i j, (i < n)%nat -> (j < n)%nat -> dent (H' k) i j = dent (H k) i j + lsum (seq 0 nel) (fun e => F e k i j).
Proof.
  apply (driver_gen new_worker lib fn n nel (el_ind b) (fun w => w_fl w = fl) HF eq_refl).
  intros e e' mu. apply (parity_disjoint b ru e e' mu HB).
Qed.

Lemma add3_it pol Ps : add3 (seq 0 nel) (it_sums pol Ps) =
  (lsum (at_points b ru) (fun q => p_w q * e_exc lib pol fn (pargs n pol Ps q) * tot_dens n pol Ps q),
   lsum (at_points b ru) (fun q => p_w q * tot_dens n pol Ps q),
   if uses fn (is_tau lib) then lsum (at_points b ru) (fun q => p_w q * tot_tau n pol Ps q) else 0).
Proof.
  unfold add3, it_sums, at_points. cbn [fst snd]. fold nel. rewrite !lsum_flat_map.
  destruct (uses fn (is_tau lib)); [reflexivity|]. f_equal. apply lsum_zero. reflexivity.
Qed.

Lemma at_eval_Fxc_ok P ev od : (0 < n)%nat -> is_density n P -> schedule_ok nel (mkS ev od [] []) ->
  exists N, forall a1 a2,
    (at_eval_Fxc lib b ru fn P (mkS ev od a1 a2) = OutOfFuel /\
     exists t, (t < length ev)%nat /\ (count_occ Nat.eq_dec a1 t < N \/ count_occ Nat.eq_dec a2 t < N)%nat) \/
    exists H, at_eval_Fxc lib b ru fn P (mkS ev od a1 a2)
        = Ok (H, (spec_exc1 lib fn n (dent P) (at_points b ru), spec_nel n (dent P) (at_points b ru),
                  if uses fn (is_tau lib) then spec_ekin n (dent P) (at_points b ru) else 0)) /\
      is_mat H n n (spec_fock1 lib fn n (dent P) (at_points b ru)).
Proof.
  intros Hn HP Hsc. destruct HP as (Pr & Pc & Ps).
  destruct (driver_ok (iteration false (fun w => eval_Fxc_restricted w (drows P)) lib b ru fn [P]) (it_sums false [P])
    (fun e k i j => if Nat.eqb 0 k then spec_fock1 lib fn n (dent P) (at_elem_points b ru e) i j else 0)
    (fun _ => dzero (drows P) (drows P))) with (ev := ev) (od := od) as (N & R); auto.
  { apply (iteration_ok false); auto.
    - intros Q [<-|[]]. split; [|split]; auto.
    - intros iel g pts d x -> HG HD HX. rewrite Pr. apply (eval_Fxc_restricted_ok lib fn n g _ P d x HG HD HX). }
  exists N. intros a1 a2. unfold at_eval_Fxc. destruct (R a1 a2) as [[E X]|(H & E & D & V)]; rewrite E; cbn [bind fst snd]; [left; auto|].
  right. exists (H 0%nat). split.
  - rewrite add3_it. reflexivity.
  - destruct (D 0%nat) as [D1 D2]. cbn [drows dcols dzero] in D1, D2. rewrite Pr in D1, D2. split; [exact D1|split; [exact D2|]].
    intros i j Hi Hj. rewrite V by auto. cbn [dzero dent Nat.eqb]. rewrite Rplus_0_l. unfold spec_fock1, at_points. fold nel. rewrite lsum_flat_map. reflexivity.
Qed.

Lemma at_eval_Fxc_pol_ok Pa Pb beta ev od : (0 < n)%nat -> is_density n Pa -> is_density n Pb -> schedule_ok nel (mkS ev od [] []) ->
  uses fn (is_lapl lib) = false \/ beta = true ->
  exists N, forall a1 a2,
    (at_eval_Fxc_pol lib b ru fn Pa Pb beta (mkS ev od a1 a2) = OutOfFuel /\
     exists t, (t < length ev)%nat /\ (count_occ Nat.eq_dec a1 t < N \/ count_occ Nat.eq_dec a2 t < N)%nat) \/
    exists Ha Hb, at_eval_Fxc_pol lib b ru fn Pa Pb beta (mkS ev od a1 a2)
        = Ok (Ha, Hb, (spec_exc2 lib fn n (dent Pa) (dent Pb) (at_points b ru),
              lsum (at_points b ru) (fun q => p_w q * (dens n (dent Pa) q + dens n (dent Pb) q)),
              if uses fn (is_tau lib) then lsum (at_points b ru) (fun q => p_w q * (tau n (dent Pa) q + tau n (dent Pb) q)) else 0)) /\
      is_mat Ha n n (fun i j => lsum (at_points b ru) (fun q => p_w q * (fock2 lib fn n (dent Pa) (dent Pb) 0 q i j - deficit lib fn n (dent Pa) (dent Pb) 0 q i j))) /\
      is_mat Hb n n (fun i j => if beta then lsum (at_points b ru) (fun q => p_w q * (fock2 lib fn n (dent Pa) (dent Pb) 1 q i j - deficit lib fn n (dent Pa) (dent Pb) 1 q i j)) else 0).
Proof.
  intros Hn HPa HPb Hsc Hbeta. assert (Pra := proj1 HPa). assert (Prb := proj1 HPb).
  destruct (driver_ok (iteration true (fun w => eval_Fxc_polarised increment_lda w beta (drows Pa) (drows Pb)) lib b ru fn [Pa; Pb]) (it_sums true [Pa; Pb])
    (fun e k i j => if (Nat.eqb 0 k || (Nat.eqb 1 k && beta))%bool
        then lsum (at_elem_points b ru e) (fun q => p_w q * (fock2 lib fn n (dent Pa) (dent Pb) k q i j - deficit lib fn n (dent Pa) (dent Pb) k q i j)) else 0)
    (fun k => if Nat.eqb k 0 then dzero (drows Pa) (drows Pa) else dzero (drows Pb) (drows Pb))) with (ev := ev) (od := od) as (N & R); auto.
  { apply (iteration_ok true); auto.
    - intros Q [<-|[<-|[]]]; auto.
    - intros iel g pts d x -> HG HD HX. rewrite Pra, Prb. apply (eval_Fxc_polarised_ok lib fn n g _ Pa Pb d x increment_lda beta lda_ok HG HD HX Hbeta). }
  exists N. intros a1 a2. unfold at_eval_Fxc_pol. destruct (R a1 a2) as [[E X]|(H & E & D & V)]; rewrite E; cbn [bind fst snd]; [left; auto|].
  right. exists (H 0%nat), (H 1%nat). split; [|split].
  - rewrite add3_it. reflexivity.
  - destruct (D 0%nat) as [D1 D2]. cbn [drows dcols dzero Nat.eqb] in D1, D2. rewrite Pra in D1, D2. split; [exact D1|split; [exact D2|]].
    intros i j Hi Hj. rewrite V by auto. cbn [dzero dent Nat.eqb orb]. rewrite Rplus_0_l. unfold at_points. fold nel. rewrite lsum_flat_map. reflexivity.
  - destruct (D 1%nat) as [D1 D2]. cbn [drows dcols dzero Nat.eqb] in D1, D2. rewrite Prb in D1, D2. split; [exact D1|split; [exact D2|]].
    intros i j Hi Hj. rewrite V by auto. cbn [dzero dent Nat.eqb orb andb]. rewrite Rplus_0_l. unfold at_points. fold nel.
    destruct beta; [rewrite lsum_flat_map; reflexivity|]. apply lsum_zero. reflexivity.
Qed.
End Driver.
