(** What follows from the values, failures, and a basis that meets the hypotheses. *)
Require Import Reals ZArith List Bool Arith Lia Lra.
Require Import Verif.Prelude Verif.FEModel Verif.FESpec Verif.FEProofs Verif.AngModel Verif.AngSpec Verif.AngProofs Verif.JKModel Verif.JKProofs Verif.DftModel Verif.DftSpec Verif.DftProofs Verif.DftXc Verif.DftGen Verif.DftWit Verif.DdfModel Verif.DdfSpec Verif.DdfProofs Verif.DdfDrv.
Import ListNotations.
Local Open Scope R_scope.

Section More.
Variables (b : abasis) (Rh : R) (ru : rule).
Hypothesis HB : di_grid_ok b Rh ru.

Section Values.
Hypothesis Hn : (0 < at_nbf b)%nat.
Lemma di_value1 lib fn P H s : functional_ok lib fn -> uses fn (is_lapl lib) = false -> is_density (di_nbf b) P ->
  di_eval_Fxc lib b Rh ru fn P = Ok (H, s) -> value1 (di_nbf b) (di_points b Rh ru) lib fn P H s.
Proof.
  intros HF HL HP E. destruct (di_eval_Fxc_ok lib b Rh ru fn HB HF HL Hn P HP) as (H' & E' & M). rewrite E in E'. injection E' as <- ->. split; [reflexivity|exact M].
Qed.
Lemma di_value2 lib fn Pa Pb beta Ha Hb s : functional_ok lib fn -> uses fn (is_lapl lib) = false -> is_density (di_nbf b) Pa -> is_density (di_nbf b) Pb ->
  di_eval_Fxc_pol lib b Rh ru fn Pa Pb beta = Ok (Ha, Hb, s) -> value2 (di_nbf b) (di_points b Rh ru) lib fn Pa Pb beta Ha Hb s.
Proof.
  intros HF HL HPa HPb E. destruct (di_eval_Fxc_pol_ok lib b Rh ru fn HB HF HL Hn Pa Pb beta HPa HPb) as (A & B & E' & M1 & M2).
  rewrite E in E'. injection E' as <- <- ->. split; [reflexivity|split; [exact M1|exact M2]].
Qed.

Lemma di_gradient1 lib fn P D H s E : functional_ok lib fn -> uses fn (is_lapl lib) = false -> is_density (di_nbf b) P -> is_density (di_nbf b) D ->
  (forall q ip, In q (di_points b Rh ru) -> In ip (parts fn) -> xc_derivatives lib false (fn_thr fn) ip (args1 (di_nbf b) (dent P) q)) ->
  di_eval_Fxc lib b Rh ru fn P = Ok (H, s) ->
  (forall t, exists H N K, di_eval_Fxc lib b Rh ru fn (shifted P D t) = Ok (H, (E t, N, K))) ->
  sym_mat (di_nbf b) (dent H) /\ derivable_pt_lim E 0 (contract (di_nbf b) (dent D) (dent H)).
Proof.
  intros HF HL HP HD HX Ev Hr. eapply gen_gradient1; [exact HX|apply di_value1; eauto|].
  intros t. destruct (Hr t) as (H' & N & K & E'). exists H', N, K. apply di_value1; auto using gen_shifted.
Qed.
Lemma di_gradient2 lib fn Pa Pb Da Db Ha Hb s E : functional_ok lib fn -> uses fn (is_lapl lib) = false ->
  is_density (di_nbf b) Pa -> is_density (di_nbf b) Pb -> is_density (di_nbf b) Da -> is_density (di_nbf b) Db ->
  (forall q ip, In q (di_points b Rh ru) -> In ip (parts fn) -> xc_derivatives lib true (fn_thr fn) ip (args2 (di_nbf b) (dent Pa) (dent Pb) q)) ->
  di_eval_Fxc_pol lib b Rh ru fn Pa Pb true = Ok (Ha, Hb, s) ->
  (forall t, exists Ha Hb N K, di_eval_Fxc_pol lib b Rh ru fn (shifted Pa Da t) (shifted Pb Db t) true = Ok (Ha, Hb, (E t, N, K))) ->
  sym_mat (di_nbf b) (dent Ha) /\ sym_mat (di_nbf b) (dent Hb) /\
  derivable_pt_lim E 0 (contract (di_nbf b) (dent Da) (dent Ha) + contract (di_nbf b) (dent Db) (dent Hb)).
Proof.
  intros HF HL HPa HPb HDa HDb HX Ev Hr. eapply gen_gradient2; [exact HX|apply di_value2; eauto|].
  intros t. destruct (Hr t) as (H' & H'' & N & K & E'). exists H', H'', N, K. apply di_value2; auto using gen_shifted.
Qed.
Lemma di_closed_shell lib fn P H Ha Hb s s' : functional_ok lib fn -> uses fn (is_lapl lib) = false -> is_density (di_nbf b) P ->
  (forall ip, In ip (parts fn) -> xc_spin_symmetric lib (fn_thr fn) ip) ->
  di_eval_Fxc lib b Rh ru fn P = Ok (H, s) -> di_eval_Fxc_pol lib b Rh ru fn (half P) (half P) true = Ok (Ha, Hb, s') ->
  s' = s /\ is_mat Ha (di_nbf b) (di_nbf b) (dent H) /\ is_mat Hb (di_nbf b) (di_nbf b) (dent H).
Proof.
  intros HF HL HP HS E E'. eapply gen_closed_shell; [exact HS|apply di_value1; eauto|apply di_value2; eauto using gen_half].
Qed.
Lemma agree_lapl lib lib' pol dom fn : agree pol dom lib lib' -> uses fn (is_lapl lib) = false -> uses fn (is_lapl lib') = false.
Proof. intros HA. destruct (DftMore.agree_tests _ _ _ _ HA) as (_ & _ & A3 & _). rewrite (DftMore.agree_uses lib lib' fn is_lapl is_lapl A3). auto. Qed.
Lemma di_physical1 lib lib' fn no o C P H H' s s' : functional_ok lib fn -> uses fn (is_lapl lib) = false -> is_density (di_nbf b) P ->
  (forall k, (k < no)%nat -> 0 <= o k) -> orbital_density (di_nbf b) no o C (dent P) -> agree false physical1 lib lib' ->
  di_eval_Fxc lib b Rh ru fn P = Ok (H, s) -> di_eval_Fxc lib' b Rh ru fn P = Ok (H', s') ->
  s = s' /\ is_mat H' (di_nbf b) (di_nbf b) (dent H).
Proof.
  intros HF HL HP Ho HO HA E E'. assert (HF' := proj2 (proj2 (proj2 (proj2 (DftMore.agree_tests _ _ _ _ HA)))) fn HF).
  eapply gen_physical1; [exact Ho|exact HO|exact HA|apply di_value1; eauto|apply di_value1; eauto using agree_lapl].
Qed.
Lemma di_physical2 lib lib' fn no o C Pa no' o' C' Pb beta Ha Hb Ha' Hb' s s' : functional_ok lib fn -> uses fn (is_lapl lib) = false ->
  is_density (di_nbf b) Pa -> is_density (di_nbf b) Pb ->
  (forall k, (k < no)%nat -> 0 <= o k) -> orbital_density (di_nbf b) no o C (dent Pa) ->
  (forall k, (k < no')%nat -> 0 <= o' k) -> orbital_density (di_nbf b) no' o' C' (dent Pb) -> agree true physical2 lib lib' ->
  di_eval_Fxc_pol lib b Rh ru fn Pa Pb beta = Ok (Ha, Hb, s) -> di_eval_Fxc_pol lib' b Rh ru fn Pa Pb beta = Ok (Ha', Hb', s') ->
  s = s' /\ is_mat Ha' (di_nbf b) (di_nbf b) (dent Ha) /\ is_mat Hb' (di_nbf b) (di_nbf b) (dent Hb).
Proof.
  intros HF HL HPa HPb Ho HO Ho' HO' HA E E'. assert (HF' := proj2 (proj2 (proj2 (proj2 (DftMore.agree_tests _ _ _ _ HA)))) fn HF).
  eapply gen_physical2; [exact Ho|exact HO|exact Ho'|exact HO'|exact HA|apply di_value2; eauto|apply di_value2; eauto using agree_lapl].
Qed.
End Values.

(** * Failures *)
Lemma di_compute_bf_throws iel irad w : (iel < get_nelem (ab_fe b))%nat -> (irad < length (ab_r b iel))%nat -> f_lapl (w_fl w) = true ->
  di_compute_bf b Rh ru iel irad w = Throw LogicError.
Proof.
  intros Hiel Hir Hl.
  destruct (di_compute_bf_ok b Rh ru iel irad HB Hiel Hir (mkW (mkF (f_grad (w_fl w)) (f_tau (w_fl w)) false) (w_g w) (w_d w) (w_x w)) eq_refl) as (g & E & _).
  revert E. unfold di_compute_bf. cbn [w_fl w_g w_d w_x f_grad f_tau f_lapl]. rewrite Hl.
  destruct (bf_list_full _ _ _); cbn [bind]; try discriminate. destruct (vget (ab_wrad b iel) irad); cbn [bind]; try discriminate.
  destruct (vget (ab_r b iel) irad); cbn [bind]; try discriminate. destruct (existsb _ _); try discriminate.
  destruct (fill_points _ _ _ _); cbn [bind]; try discriminate. destruct (f_grad (w_fl w)); [|reflexivity].
  destruct (fill_points _ _ _ _); cbn [bind]; try discriminate. destruct (fill_points _ _ _ _); cbn [bind]; try discriminate.
  destruct (fill_points _ _ _ _); cbn [bind]; try discriminate. reflexivity.
Qed.
Lemma di_loops_throws pol fock lib fn Qs st : f_lapl (w_fl (fst (fst st))) = true ->
  (exists iel, (iel < get_nelem (ab_fe b))%nat /\ ab_r b iel <> []) ->
  di_loops b (di_point_step pol fock lib b Rh ru fn Qs) st = Throw LogicError.
Proof.
  intros Hl (iel & Hi & Hr). unfold di_loops.
  assert (G : forall l, (forall e, In e l -> (e < get_nelem (ab_fe b))%nat) -> (exists e, In e l /\ ab_r b e <> []) ->
    fold_res (fun st iel => fold_res (fun st irad => di_point_step pol fock lib b Rh ru fn Qs st iel irad) (seq 0 (length (ab_r b iel))) st) l st = Throw LogicError).
  { induction l as [|e l IH]; intros He (e' & Hin & Hr'); [destruct Hin|]. cbn [fold_res].
    destruct (ab_r b e) as [|r rs] eqn:Er.
    - cbn [length seq fold_res bind]. apply IH; [intros; apply He; right; auto|]. destruct Hin as [<-|Hin]; [congruence|eauto].
    - cbn [length seq fold_res]. destruct st as [[w s] H]. cbn [fst] in Hl. unfold di_point_step at 1.
      rewrite di_compute_bf_throws; [reflexivity|apply He; left; auto|rewrite Er; cbn; lia|exact Hl]. }
  apply G; [intros e He; apply in_seq in He; lia|]. exists iel. split; [apply in_seq; lia|exact Hr].
Qed.
Lemma di_driver_throws pol fock lib fn Ps Qs : functional_ok lib fn -> uses fn (is_lapl lib) = true ->
  (exists iel, (iel < get_nelem (ab_fe b))%nat /\ ab_r b iel <> []) ->
  fold_res (fun l P => bind (expand_boundaries (ab_sh b) (at_nr b) P) (fun Q => Ok (l ++ [Q]))) Ps [] = Ok Qs ->
  di_driver pol fock lib b Rh ru fn Ps = Throw LogicError.
Proof.
  intros HF HL Hr EQ. unfold di_driver. destruct (nr_ok b Rh ru HB) as (nb & Enb & Enr). rewrite Enb. cbn [bind].
  rewrite (check_ok lib fn HF). cbn [bind]. rewrite Enr, EQ. cbn [bind]. rewrite di_loops_throws; [reflexivity|exact HL|exact Hr].
Qed.
Lemma di_laplacian lib fn : functional_ok lib fn -> uses fn (is_lapl lib) = true ->
  (exists iel, (iel < get_nelem (ab_fe b))%nat /\ ab_r b iel <> []) ->
  (forall P, is_density (di_nbf b) P -> di_eval_Fxc lib b Rh ru fn P = Throw LogicError) /\
  (forall Pa Pb beta, is_density (di_nbf b) Pa -> is_density (di_nbf b) Pb -> di_eval_Fxc_pol lib b Rh ru fn Pa Pb beta = Throw LogicError).
Proof.
  intros HF HL Hr. split.
  - intros P HP. destruct (expand_density b P HP) as (Q & E & _). unfold di_eval_Fxc.
    rewrite (di_driver_throws _ _ lib fn [P] [Q]); auto. cbn [fold_res]. rewrite E. reflexivity.
  - intros Pa Pb beta HPa HPb. destruct (expand_density b Pa HPa) as (Qa & Ea & _). destruct (expand_density b Pb HPb) as (Qb & Eb & _). unfold di_eval_Fxc_pol.
    rewrite (di_driver_throws _ _ lib fn [Pa; Pb] [Qa; Qb]); auto. cbn [fold_res]. rewrite Ea. cbn [bind fold_res app]. rewrite Eb. reflexivity.
Qed.
Lemma di_size lib fn : functional_ok lib fn ->
  (forall P, drows P <> di_nbf b \/ dcols P <> di_nbf b -> di_eval_Fxc lib b Rh ru fn P = Throw LogicError) /\
  (forall Pa Pb beta, drows Pa <> di_nbf b \/ dcols Pa <> di_nbf b \/ drows Pb <> di_nbf b \/ dcols Pb <> di_nbf b ->
     di_eval_Fxc_pol lib b Rh ru fn Pa Pb beta = Throw LogicError).
Proof.
  intros HF. destruct (nr_ok b Rh ru HB) as (nb & Enb & Enr). split.
  - intros P H. unfold di_eval_Fxc, di_driver. rewrite Enb. cbn [bind]. rewrite (check_ok lib fn HF). cbn [bind fold_res]. rewrite Enr, expand_throws by exact H. reflexivity.
  - intros Pa Pb beta H. unfold di_eval_Fxc_pol, di_driver. rewrite Enb. cbn [bind]. rewrite (check_ok lib fn HF). cbn [bind fold_res]. rewrite Enr.
    destruct (Nat.eq_dec (drows Pa) (di_nbf b)) as [R1|]; [|rewrite expand_throws by (left; auto); reflexivity].
    destruct (Nat.eq_dec (dcols Pa) (di_nbf b)) as [C1|]; [|rewrite expand_throws by (right; auto); reflexivity].
    destruct (expand_ok (ab_sh b) (at_nr b) Pa R1 C1) as (Q & E & _). rewrite E. cbn [bind fold_res].
    rewrite expand_throws; [reflexivity|]. fold (di_functions b). fold (di_nbf b). tauto.
Qed.
End More.

(** * A basis with shells m = 0 and m = 1 *)
Definition wdi : abasis := wbasis (mkFE LIP 2 [0; 1; 2; 3] false false true false) [(0, 0); (1, 1)]%Z.
Lemma wdi_ok : di_grid_ok wdi 1 wru.
Proof.
  split; [lra|]. apply wbasis_ok.
  - split; [cbn; lia|]. split; [cbn; lia|]. intros i j H1 H2. cbn [fe_bval length] in *.
    destruct i as [|[|[|[|i]]]], j as [|[|[|[|j]]]]; try lia; cbn [nth]; lra.
  - intros l m [H|[H|[]]]; injection H as <- <-; lia.
  - intros [|[|ia]] H; cbn in *; [lra|lra|lia].
Qed.
Lemma wdi_n : at_nbf wdi = 6%nat /\ di_nbf wdi = 5%nat /\ map (di_fn wdi) [0; 1; 2; 3; 4]%nat = [0; 1; 2; 4; 5]%nat.
Proof. repeat split; reflexivity. Qed.
Definition wdP : dmat := mkD 5 5 (fun i j => if Nat.eqb i j then 2 else 1).
Definition wdC : mat := fun i k => if Nat.eqb k 5 then 1 else if Nat.eqb i k then 1 else 0.
Lemma wdP_ok : is_density 5 wdP.
Proof. split; [reflexivity|split; [reflexivity|]]. intros i j _ _. cbn. rewrite Nat.eqb_sym. reflexivity. Qed.
Lemma wdP_orbitals : orbital_density 5 6 (fun _ => 1) wdC (dent wdP).
Proof.
  intros i j Hi Hj. destruct i as [|[|[|[|[|i]]]]]; try lia; destruct j as [|[|[|[|[|j]]]]]; try lia; unfold wdC; cbn; ring.
Qed.
Lemma wfn_nolapl : uses wfn (is_lapl wlib) = false. Proof. reflexivity. Qed.
Lemma wdE1 P D : is_density 5 P -> is_density 5 D -> exists E, forall t, exists H N K, di_eval_Fxc wlib wdi 1 wru wfn (shifted P D t) = Ok (H, (E t, N, K)).
Proof.
  intros HP HD. eexists (fun t => spec_exc1 wlib wfn (di_nbf wdi) (dent (shifted P D t)) (di_points wdi 1 wru)). intros t.
  destruct (di_eval_Fxc_ok wlib wdi 1 wru wfn wdi_ok wfn_ok wfn_nolapl ltac:(rewrite (proj1 wdi_n); lia) (shifted P D t)) as (H & E & _).
  { rewrite (proj1 (proj2 wdi_n)). apply gen_shifted; auto. } eexists _, _, _. exact E.
Qed.
Lemma wdE2 Pa Pb Da Db : is_density 5 Pa -> is_density 5 Pb -> is_density 5 Da -> is_density 5 Db -> exists E, forall t, exists Ha Hb N K,
  di_eval_Fxc_pol wlib wdi 1 wru wfn (shifted Pa Da t) (shifted Pb Db t) true = Ok (Ha, Hb, (E t, N, K)).
Proof.
  intros HPa HPb HDa HDb. eexists (fun t => spec_exc2 wlib wfn (di_nbf wdi) (dent (shifted Pa Da t)) (dent (shifted Pb Db t)) (di_points wdi 1 wru)). intros t.
  destruct (di_eval_Fxc_pol_ok wlib wdi 1 wru wfn wdi_ok wfn_ok wfn_nolapl ltac:(rewrite (proj1 wdi_n); lia) (shifted Pa Da t) (shifted Pb Db t) true) as (Ha & Hb & E & _).
  { rewrite (proj1 (proj2 wdi_n)). apply gen_shifted; auto. } { rewrite (proj1 (proj2 wdi_n)). apply gen_shifted; auto. } eexists _, _, _, _. exact E.
Qed.
