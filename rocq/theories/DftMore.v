(** What follows from the values of the exchange-correlation quadrature. *)
Require Import Reals ZArith List Bool Arith Lia Lra Permutation.
Require Import Verif.Prelude Verif.FEModel Verif.FESpec Verif.AngModel Verif.JKModel Verif.DftModel Verif.DftSpec Verif.DftProofs Verif.DftXc Verif.DftFock Verif.DftFockR Verif.DftDrv Verif.DftGrad.
Import ListNotations.
Local Open Scope R_scope.

Section More.
Variables (b : abasis) (ru : rule).
Hypothesis HB : at_grid_ok b ru.
Hypothesis Hn : (0 < at_nbf b)%nat.

Lemma restricted_value lib fn P sc H E N K : functional_ok lib fn -> is_density (at_nbf b) P -> schedule_ok (get_nelem (ab_fe b)) sc ->
  at_eval_Fxc lib b ru fn P sc = Ok (H, (E, N, K)) ->
  E = spec_exc1 lib fn (at_nbf b) (dent P) (at_points b ru) /\ N = spec_nel (at_nbf b) (dent P) (at_points b ru) /\
  K = (if uses fn (is_tau lib) then spec_ekin (at_nbf b) (dent P) (at_points b ru) else 0) /\
  is_mat H (at_nbf b) (at_nbf b) (spec_fock1 lib fn (at_nbf b) (dent P) (at_points b ru)).
Proof.
  intros HF HP Hs Ev. destruct sc as [ev od a1 a2].
  destruct (at_eval_Fxc_ok lib b ru fn HB HF P ev od Hn HP Hs) as (M & R).
  destruct (R a1 a2) as [[E1 _]|(H' & E1 & HM)]; rewrite E1 in Ev; [discriminate|]. injection Ev as <- <- <- <-. auto.
Qed.

Lemma deficit_zero lib fn Pa Pb s q i j : uses fn (is_lapl lib) = false \/ uses fn (is_tau lib) = true ->
  deficit lib fn (at_nbf b) Pa Pb s q i j = 0.
Proof.
  intros [E|E]; unfold deficit; [|rewrite E; reflexivity]. destruct (uses fn (is_tau lib)); [reflexivity|].
  unfold e_vlapl, over. rewrite lsum_zero; [ring|]. intros ip Hip.
  destruct (is_lapl lib (fst ip)) eqn:El; [|reflexivity]. exfalso.
  unfold uses in E. assert (existsb (fun ip => is_lapl lib (fst ip)) (parts fn) = true) by (apply existsb_exists; exists ip; auto). congruence.
Qed.
(** The Laplacian comes with the kinetic energy density and both matrices, or not at all. *)
Lemma unrestricted_ok lib fn Pa Pb beta ev od : functional_ok lib fn -> is_density (at_nbf b) Pa -> is_density (at_nbf b) Pb ->
  schedule_ok (get_nelem (ab_fe b)) (mkS ev od [] []) ->
  uses fn (is_lapl lib) = false \/ uses fn (is_tau lib) = true /\ beta = true ->
  exists N, forall a1 a2,
    (at_eval_Fxc_pol lib b ru fn Pa Pb beta (mkS ev od a1 a2) = OutOfFuel /\
     exists t, (t < length ev)%nat /\ (count_occ Nat.eq_dec a1 t < N \/ count_occ Nat.eq_dec a2 t < N)%nat) \/
    exists Ha Hb, at_eval_Fxc_pol lib b ru fn Pa Pb beta (mkS ev od a1 a2)
        = Ok (Ha, Hb, (spec_exc2 lib fn (at_nbf b) (dent Pa) (dent Pb) (at_points b ru),
              spec_nel (at_nbf b) (dent Pa) (at_points b ru) + spec_nel (at_nbf b) (dent Pb) (at_points b ru),
              if uses fn (is_tau lib) then spec_ekin (at_nbf b) (dent Pa) (at_points b ru) + spec_ekin (at_nbf b) (dent Pb) (at_points b ru) else 0)) /\
      is_mat Ha (at_nbf b) (at_nbf b) (spec_fock2 lib fn (at_nbf b) (dent Pa) (dent Pb) 0 (at_points b ru)) /\
      is_mat Hb (at_nbf b) (at_nbf b) (if beta then spec_fock2 lib fn (at_nbf b) (dent Pa) (dent Pb) 1 (at_points b ru) else fun _ _ => 0).
Proof.
  intros HF HPa HPb Hs Hc.
  assert (Hc' : uses fn (is_lapl lib) = false \/ uses fn (is_tau lib) = true) by tauto.
  destruct (at_eval_Fxc_pol_ok lib b ru fn HB HF Pa Pb beta ev od Hn HPa HPb Hs ltac:(tauto)) as (M & R).
  exists M. intros a1 a2. destruct (R a1 a2) as [O|(Ha & Hb & E1 & MA & MB)]; [left; exact O|right].
  exists Ha, Hb. split; [|split].
  - rewrite E1. do 3 f_equal.
    + f_equal. unfold spec_nel. rewrite <- lsum_plus. apply lsum_ext. intros; ring.
    + destruct (uses fn (is_tau lib)); [|reflexivity]. unfold spec_ekin. rewrite <- lsum_plus. apply lsum_ext. intros; ring.
  - destruct MA as (M1 & M2 & M3). split; [exact M1|split; [exact M2|]]. intros i j Hi Hj. rewrite M3 by auto.
    apply lsum_ext. intros q _. rewrite deficit_zero by exact Hc'. ring.
  - destruct MB as (M1 & M2 & M3). split; [exact M1|split; [exact M2|]]. intros i j Hi Hj. rewrite M3 by auto.
    destruct beta; [|reflexivity]. apply lsum_ext. intros q _. rewrite deficit_zero by exact Hc'. ring.
Qed.
Lemma unrestricted_value lib fn Pa Pb beta sc Ha Hb E N K : functional_ok lib fn -> is_density (at_nbf b) Pa -> is_density (at_nbf b) Pb ->
  schedule_ok (get_nelem (ab_fe b)) sc -> uses fn (is_lapl lib) = false \/ uses fn (is_tau lib) = true /\ beta = true ->
  at_eval_Fxc_pol lib b ru fn Pa Pb beta sc = Ok (Ha, Hb, (E, N, K)) ->
  E = spec_exc2 lib fn (at_nbf b) (dent Pa) (dent Pb) (at_points b ru) /\
  N = spec_nel (at_nbf b) (dent Pa) (at_points b ru) + spec_nel (at_nbf b) (dent Pb) (at_points b ru) /\
  K = (if uses fn (is_tau lib) then spec_ekin (at_nbf b) (dent Pa) (at_points b ru) + spec_ekin (at_nbf b) (dent Pb) (at_points b ru) else 0) /\
  is_mat Ha (at_nbf b) (at_nbf b) (spec_fock2 lib fn (at_nbf b) (dent Pa) (dent Pb) 0 (at_points b ru)) /\
  is_mat Hb (at_nbf b) (at_nbf b) (if beta then spec_fock2 lib fn (at_nbf b) (dent Pa) (dent Pb) 1 (at_points b ru) else fun _ _ => 0).
Proof.
  intros HF HPa HPb Hs Hc Ev. destruct sc as [ev od a1 a2].
  destruct (unrestricted_ok lib fn Pa Pb beta ev od HF HPa HPb Hs Hc) as (M & R).
  destruct (R a1 a2) as [[E1 _]|(H1 & H2 & E1 & MA & MB)]; rewrite E1 in Ev; [discriminate|]. injection Ev as <- <- <- <- <-. auto.
Qed.

Lemma shifted_density P D t : is_density (at_nbf b) P -> is_density (at_nbf b) D -> is_density (at_nbf b) (shifted P D t).
Proof.
  intros (R & C & S) (R' & C' & S'). split; [exact R|split; [exact C|]]. intros i j Hi Hj. cbn. rewrite (S i j), (S' i j) by auto. reflexivity.
Qed.
Lemma contract_mat n D x y : (forall i j, (i < n)%nat -> (j < n)%nat -> x i j = y i j) -> contract n D x = contract n D y.
Proof. intros H. apply sum_ext. intros i Hi. apply sum_ext. intros j Hj. rewrite H by auto. reflexivity. Qed.

Lemma restricted_gradient lib fn P D sc H E0 N0 K0 E : functional_ok lib fn -> is_density (at_nbf b) P -> is_density (at_nbf b) D ->
  (forall q ip, In q (at_points b ru) -> In ip (parts fn) -> xc_derivatives lib false (fn_thr fn) ip (args1 (at_nbf b) (dent P) q)) ->
  schedule_ok (get_nelem (ab_fe b)) sc -> at_eval_Fxc lib b ru fn P sc = Ok (H, (E0, N0, K0)) ->
  (forall t, exists sc H N K, schedule_ok (get_nelem (ab_fe b)) sc /\ at_eval_Fxc lib b ru fn (shifted P D t) sc = Ok (H, (E t, N, K))) ->
  sym_mat (at_nbf b) (dent H) /\ derivable_pt_lim E 0 (contract (at_nbf b) (dent D) (dent H)).
Proof.
  intros HF HP HD HX Hs Ev Hr. destruct (restricted_value lib fn P sc H E0 N0 K0 HF HP Hs Ev) as (_ & _ & _ & _ & _ & HM). split.
  - intros i j Hi Hj. rewrite !HM by auto. apply lsum_ext. intros q _. rewrite fock1_sym. reflexivity.
  - rewrite (contract_mat _ _ _ _ HM).
    eapply dl_ext; [|exact (energy_gradient1 lib fn (at_nbf b) (dent P) (dent D) (at_points b ru) HX)].
    intros t. cbv beta. destruct (Hr t) as (sc' & H' & N & K & Hs' & E').
    destruct (restricted_value lib fn _ sc' H' (E t) N K HF (shifted_density P D t HP HD) Hs' E') as (-> & _). reflexivity.
Qed.
Lemma unrestricted_gradient lib fn Pa Pb Da Db sc Ha Hb E0 N0 K0 E : functional_ok lib fn ->
  is_density (at_nbf b) Pa -> is_density (at_nbf b) Pb -> is_density (at_nbf b) Da -> is_density (at_nbf b) Db ->
  uses fn (is_lapl lib) = false \/ uses fn (is_tau lib) = true ->
  (forall q ip, In q (at_points b ru) -> In ip (parts fn) -> xc_derivatives lib true (fn_thr fn) ip (args2 (at_nbf b) (dent Pa) (dent Pb) q)) ->
  schedule_ok (get_nelem (ab_fe b)) sc -> at_eval_Fxc_pol lib b ru fn Pa Pb true sc = Ok (Ha, Hb, (E0, N0, K0)) ->
  (forall t, exists sc Ha Hb N K, schedule_ok (get_nelem (ab_fe b)) sc /\
     at_eval_Fxc_pol lib b ru fn (shifted Pa Da t) (shifted Pb Db t) true sc = Ok (Ha, Hb, (E t, N, K))) ->
  sym_mat (at_nbf b) (dent Ha) /\ sym_mat (at_nbf b) (dent Hb) /\
  derivable_pt_lim E 0 (contract (at_nbf b) (dent Da) (dent Ha) + contract (at_nbf b) (dent Db) (dent Hb)).
Proof.
  intros HF HPa HPb HDa HDb Hc HX Hs Ev Hr.
  destruct (unrestricted_value lib fn Pa Pb true sc Ha Hb E0 N0 K0 HF HPa HPb Hs ltac:(tauto) Ev) as (_ & _ & _ & (_ & _ & MA) & (_ & _ & MB)). split; [|split].
  - intros i j Hi Hj. rewrite !MA by auto. apply lsum_ext. intros q _. rewrite fock2_sym. reflexivity.
  - intros i j Hi Hj. rewrite !MB by auto. apply lsum_ext. intros q _. rewrite fock2_sym. reflexivity.
  - rewrite (contract_mat _ _ _ _ MA), (contract_mat _ _ _ _ MB).
    eapply dl_ext; [|exact (energy_gradient2 lib fn (at_nbf b) (dent Pa) (dent Pb) (dent Da) (dent Db) (at_points b ru) HX)].
    intros t. cbv beta. destruct (Hr t) as (sc' & H1 & H2 & N & K & Hs' & E').
    destruct (unrestricted_value lib fn _ _ true sc' H1 H2 (E t) N K HF (shifted_density Pa Da t HPa HDa) (shifted_density Pb Db t HPb HDb) Hs' ltac:(tauto) E') as (-> & _). reflexivity.
Qed.

Lemma half_density P : is_density (at_nbf b) P -> is_density (at_nbf b) (half P).
Proof. intros (R & C & S). split; [exact R|split; [exact C|]]. intros i j Hi Hj. cbn. rewrite (S i j) by auto. reflexivity. Qed.
Lemma closed_shell lib fn P sc sc' H Ha Hb s s' : functional_ok lib fn -> is_density (at_nbf b) P ->
  uses fn (is_lapl lib) = false \/ uses fn (is_tau lib) = true ->
  (forall ip, In ip (parts fn) -> xc_spin_symmetric lib (fn_thr fn) ip) ->
  schedule_ok (get_nelem (ab_fe b)) sc -> schedule_ok (get_nelem (ab_fe b)) sc' ->
  at_eval_Fxc lib b ru fn P sc = Ok (H, s) -> at_eval_Fxc_pol lib b ru fn (half P) (half P) true sc' = Ok (Ha, Hb, s') ->
  s' = s /\ is_mat Ha (at_nbf b) (at_nbf b) (dent H) /\ is_mat Hb (at_nbf b) (at_nbf b) (dent H).
Proof.
  intros HF HP Hc HS Hs Hs' Ev Ev'. destruct s as [[E N] K], s' as [[E' N'] K'].
  destruct (restricted_value lib fn P sc H E N K HF HP Hs Ev) as (-> & -> & -> & HM).
  destruct (unrestricted_value lib fn _ _ true sc' Ha Hb E' N' K' HF (half_density P HP) (half_density P HP) Hs' ltac:(tauto) Ev') as (-> & -> & -> & MA & MB).
  split; [|split].
  - f_equal; [f_equal|].
    + apply (half_exc lib fn (at_nbf b) (dent P) HS).
    + unfold spec_nel. rewrite <- lsum_plus. apply lsum_ext. intros q _. unfold dens. cbn [half dent]. rewrite half_contract. field.
    + destruct (uses fn (is_tau lib)); [|reflexivity]. unfold spec_ekin. rewrite <- lsum_plus. apply lsum_ext. intros q _. unfold tau. cbn [half dent]. rewrite half_contract. field.
  - destruct MA as (M1 & M2 & M3), HM as (H1 & H2 & H3). split; [exact M1|split; [exact M2|]]. intros i j Hi Hj. rewrite M3, H3 by auto.
    apply (half_fock lib fn (at_nbf b) (dent P) HS); lia.
  - destruct MB as (M1 & M2 & M3), HM as (H1 & H2 & H3). split; [exact M1|split; [exact M2|]]. intros i j Hi Hj. rewrite M3, H3 by auto.
    apply (half_fock lib fn (at_nbf b) (dent P) HS); lia.
Qed.

(** * Only physical arguments matter *)
Lemma physical1_ok n no o C P q : (forall k, (k < no)%nat -> 0 <= o k) -> orbital_density n no o C P -> physical1 (args1 n P q).
Proof.
  intros Ho HO. eexists _, _, _, _. split; [reflexivity|]. split; [exact (dens_nonneg n no o C P Ho HO q)|].
  split; [exact (tau_nonneg n no o C P Ho HO q)|]. split; [apply dot3_nonneg|exact (weizsacker n no o C P Ho HO q)].
Qed.
Lemma physical2_ok n no o C Pa no' o' C' Pb q : (forall k, (k < no)%nat -> 0 <= o k) -> orbital_density n no o C Pa ->
  (forall k, (k < no')%nat -> 0 <= o' k) -> orbital_density n no' o' C' Pb -> physical2 (args2 n Pa Pb q).
Proof.
  intros Ho HO Ho' HO'. eexists _, _, _, _, _, _, _, _, _. split; [reflexivity|].
  split; [exact (dens_nonneg n no o C Pa Ho HO q)|]. split; [exact (dens_nonneg n no' o' C' Pb Ho' HO' q)|].
  split; [exact (tau_nonneg n no o C Pa Ho HO q)|]. split; [exact (tau_nonneg n no' o' C' Pb Ho' HO' q)|].
  split; [split; [apply dot3_nonneg|exact (weizsacker n no o C Pa Ho HO q)]|].
  split; [split; [apply dot3_nonneg|exact (weizsacker n no' o' C' Pb Ho' HO' q)]|]. apply dot3_cs.
Qed.
Lemma agree_over lib lib' pol dom fn c c' f a : agree pol dom lib lib' -> dom a -> (forall id, c id = c' id) -> over lib pol fn c f a = over lib' pol fn c' f a.
Proof. intros [_ HA] Ha Hc. apply lsum_ext. intros ip _. rewrite Hc, HA by exact Ha. reflexivity. Qed.
Lemma agree_tests lib lib' pol dom : agree pol dom lib lib' ->
  (forall id, is_gga lib id = is_gga lib' id) /\ (forall id, is_tau lib id = is_tau lib' id) /\ (forall id, is_lapl lib id = is_lapl lib' id) /\
  (forall id, xc_have_exc lib id = xc_have_exc lib' id) /\ (forall fn, functional_ok lib fn -> functional_ok lib' fn).
Proof.
  intros [HA _]. split; [|split; [|split; [|split]]].
  - intros id. destruct (HA id) as (_ & E & _). unfold is_gga. rewrite E. reflexivity.
  - intros id. destruct (HA id) as (_ & E & E2 & _). unfold is_tau. rewrite E, E2. reflexivity.
  - intros id. destruct (HA id) as (_ & E & _ & E2 & _). unfold is_lapl. rewrite E, E2. reflexivity.
  - intros id. apply HA.
  - intros fn HF id pars Hi. destruct (HA id) as (E1 & E2 & E3 & E4 & _ & E6). rewrite <- E1, <- E2, <- E3, <- E4, <- E6. apply HF. exact Hi.
Qed.
Lemma agree_uses (lib lib' : libxc) fn (c c' : libxc -> Z -> bool) : (forall id, c lib id = c' lib' id) -> uses fn (c lib) = uses fn (c' lib').
Proof. intros H. unfold uses. induction (parts fn) as [|x l IH]; cbn; [reflexivity|]. rewrite H, IH. reflexivity. Qed.
Lemma restricted_physical lib lib' fn no o C P sc sc' H H' s s' : functional_ok lib fn -> is_density (at_nbf b) P ->
  (forall k, (k < no)%nat -> 0 <= o k) -> orbital_density (at_nbf b) no o C (dent P) -> agree false physical1 lib lib' ->
  schedule_ok (get_nelem (ab_fe b)) sc -> schedule_ok (get_nelem (ab_fe b)) sc' ->
  at_eval_Fxc lib b ru fn P sc = Ok (H, s) -> at_eval_Fxc lib' b ru fn P sc' = Ok (H', s') ->
  s = s' /\ is_mat H' (at_nbf b) (at_nbf b) (dent H).
Proof.
  intros HF HP Ho HO HA Hs Hs' Ev Ev'. destruct s as [[E N] K], s' as [[E' N'] K'].
  destruct (agree_tests _ _ _ _ HA) as (A1 & A2 & A3 & A4 & A5).
  destruct (restricted_value lib fn P sc H E N K HF HP Hs Ev) as (-> & -> & -> & HM).
  destruct (restricted_value lib' fn P sc' H' E' N' K' (A5 _ HF) HP Hs' Ev') as (-> & -> & -> & HM').
  assert (Hph := fun q => physical1_ok (at_nbf b) no o C (dent P) q Ho HO). split.
  - f_equal; [f_equal|].
    + apply lsum_ext. intros q _. unfold e_exc. rewrite (agree_over _ _ _ _ _ _ _ _ _ HA (Hph q) A4). reflexivity.
    + rewrite (agree_uses lib lib' fn is_tau is_tau A2). reflexivity.
  - destruct HM as (H1 & H2 & H3), HM' as (M1 & M2 & M3). split; [exact M1|split; [exact M2|]]. intros i j Hi Hj. rewrite M3, H3 by auto.
    apply lsum_ext. intros q _. unfold fock1, e_vrho, e_vsigma, e_vtau, e_vlapl.
    rewrite (agree_over _ _ _ _ _ _ _ _ _ HA (Hph q) A1), (agree_over _ _ _ _ _ _ _ _ _ HA (Hph q) A2), (agree_over _ _ _ _ _ _ _ _ _ HA (Hph q) A3).
    rewrite (agree_over _ _ _ _ _ (fun _ => true) (fun _ => true) _ _ HA (Hph q)) by reflexivity. reflexivity.
Qed.
Lemma unrestricted_physical lib lib' fn no o C Pa no' o' C' Pb beta sc sc' Ha Hb Ha' Hb' s s' : functional_ok lib fn ->
  is_density (at_nbf b) Pa -> is_density (at_nbf b) Pb ->
  (forall k, (k < no)%nat -> 0 <= o k) -> orbital_density (at_nbf b) no o C (dent Pa) ->
  (forall k, (k < no')%nat -> 0 <= o' k) -> orbital_density (at_nbf b) no' o' C' (dent Pb) -> agree true physical2 lib lib' ->
  uses fn (is_lapl lib) = false \/ uses fn (is_tau lib) = true /\ beta = true ->
  schedule_ok (get_nelem (ab_fe b)) sc -> schedule_ok (get_nelem (ab_fe b)) sc' ->
  at_eval_Fxc_pol lib b ru fn Pa Pb beta sc = Ok (Ha, Hb, s) -> at_eval_Fxc_pol lib' b ru fn Pa Pb beta sc' = Ok (Ha', Hb', s') ->
  s = s' /\ is_mat Ha' (at_nbf b) (at_nbf b) (dent Ha) /\ is_mat Hb' (at_nbf b) (at_nbf b) (dent Hb).
Proof.
  intros HF HPa HPb Ho HO Ho' HO' HA Hc Hs Hs' Ev Ev'. destruct s as [[E N] K], s' as [[E' N'] K'].
  destruct (agree_tests _ _ _ _ HA) as (A1 & A2 & A3 & A4 & A5).
  destruct (unrestricted_value lib fn Pa Pb beta sc Ha Hb E N K HF HPa HPb Hs Hc Ev) as (-> & -> & -> & MA & MB).
  rewrite (agree_uses lib lib' fn is_tau is_tau A2), (agree_uses lib lib' fn is_lapl is_lapl A3) in Hc.
  destruct (unrestricted_value lib' fn Pa Pb beta sc' Ha' Hb' E' N' K' (A5 _ HF) HPa HPb Hs' Hc Ev') as (-> & -> & -> & MA' & MB').
  assert (Hph := fun q => physical2_ok (at_nbf b) no o C (dent Pa) no' o' C' (dent Pb) q Ho HO Ho' HO').
  assert (EF : forall s i j, spec_fock2 lib' fn (at_nbf b) (dent Pa) (dent Pb) s (at_points b ru) i j = spec_fock2 lib fn (at_nbf b) (dent Pa) (dent Pb) s (at_points b ru) i j).
  { intros s i j. apply lsum_ext. intros q _. unfold fock2, e_vrho, e_vsigma, e_vtau, e_vlapl.
    rewrite !(agree_over _ _ _ _ _ _ _ _ _ HA (Hph q) A1), (agree_over _ _ _ _ _ _ _ _ _ HA (Hph q) A2), (agree_over _ _ _ _ _ _ _ _ _ HA (Hph q) A3).
    rewrite (agree_over _ _ _ _ _ (fun _ => true) (fun _ => true) _ _ HA (Hph q)) by reflexivity. reflexivity. }
  split; [|split].
  - f_equal; [f_equal|].
    + apply lsum_ext. intros q _. unfold e_exc. rewrite (agree_over _ _ _ _ _ _ _ _ _ HA (Hph q) A4). reflexivity.
    + rewrite (agree_uses lib lib' fn is_tau is_tau A2). reflexivity.
  - destruct MA as (H1 & H2 & H3), MA' as (M1 & M2 & M3). split; [exact M1|split; [exact M2|]]. intros i j Hi Hj. rewrite M3, H3 by auto. apply EF.
  - destruct MB as (H1 & H2 & H3), MB' as (M1 & M2 & M3). split; [exact M1|split; [exact M2|]]. intros i j Hi Hj. rewrite M3, H3 by auto.
    destruct beta; [apply EF|reflexivity].
Qed.
End More.
