(** What follows from the values of an exchange-correlation quadrature, for every grid. *)
Require Import Reals ZArith List Bool Arith Lia Lra.
Require Import Verif.Prelude Verif.AngModel Verif.JKModel Verif.DftModel Verif.DftSpec Verif.DftProofs Verif.DftXc Verif.DftGrad Verif.DftMore.
Import ListNotations.
Local Open Scope R_scope.

Section Gen.
Variables (n : nat) (pts : list gpoint).
Definition value1 lib fn (P H : dmat) (s : sums) : Prop :=
  s = (spec_exc1 lib fn n (dent P) pts, spec_nel n (dent P) pts, if uses fn (is_tau lib) then spec_ekin n (dent P) pts else 0) /\
  is_mat H n n (spec_fock1 lib fn n (dent P) pts).
Definition value2 lib fn (Pa Pb : dmat) (beta : bool) (Ha Hb : dmat) (s : sums) : Prop :=
  s = (spec_exc2 lib fn n (dent Pa) (dent Pb) pts, spec_nel n (dent Pa) pts + spec_nel n (dent Pb) pts,
       if uses fn (is_tau lib) then spec_ekin n (dent Pa) pts + spec_ekin n (dent Pb) pts else 0) /\
  is_mat Ha n n (spec_fock2 lib fn n (dent Pa) (dent Pb) 0 pts) /\
  is_mat Hb n n (if beta then spec_fock2 lib fn n (dent Pa) (dent Pb) 1 pts else fun _ _ => 0).

Lemma gen_shifted P D t : is_density n P -> is_density n D -> is_density n (shifted P D t).
Proof.
  intros (R & C & S) (R' & C' & S'). split; [exact R|split; [exact C|]]. intros i j Hi Hj. cbn. rewrite (S i j), (S' i j) by auto. reflexivity.
Qed.
Lemma gen_half P : is_density n P -> is_density n (half P).
Proof. intros (R & C & S). split; [exact R|split; [exact C|]]. intros i j Hi Hj. cbn. rewrite (S i j) by auto. reflexivity. Qed.

Lemma gen_gradient1 lib fn P D H s E :
  (forall q ip, In q pts -> In ip (parts fn) -> xc_derivatives lib false (fn_thr fn) ip (args1 n (dent P) q)) ->
  value1 lib fn P H s -> (forall t, exists H N K, value1 lib fn (shifted P D t) H (E t, N, K)) ->
  sym_mat n (dent H) /\ derivable_pt_lim E 0 (contract n (dent D) (dent H)).
Proof.
  intros HX (_ & _ & _ & HM) Hr. split.
  - intros i j Hi Hj. rewrite !HM by auto. apply lsum_ext. intros q _. rewrite fock1_sym. reflexivity.
  - rewrite (contract_mat _ _ _ _ HM).
    eapply dl_ext; [|exact (energy_gradient1 lib fn n (dent P) (dent D) pts HX)].
    intros t. cbv beta. destruct (Hr t) as (H' & N & K & Ev & _). injection Ev as -> _ _. reflexivity.
Qed.
Lemma gen_gradient2 lib fn Pa Pb Da Db Ha Hb s E :
  (forall q ip, In q pts -> In ip (parts fn) -> xc_derivatives lib true (fn_thr fn) ip (args2 n (dent Pa) (dent Pb) q)) ->
  value2 lib fn Pa Pb true Ha Hb s -> (forall t, exists Ha Hb N K, value2 lib fn (shifted Pa Da t) (shifted Pb Db t) true Ha Hb (E t, N, K)) ->
  sym_mat n (dent Ha) /\ sym_mat n (dent Hb) /\ derivable_pt_lim E 0 (contract n (dent Da) (dent Ha) + contract n (dent Db) (dent Hb)).
Proof.
  intros HX (_ & (_ & _ & MA) & (_ & _ & MB)) Hr. split; [|split].
  - intros i j Hi Hj. rewrite !MA by auto. apply lsum_ext. intros q _. rewrite fock2_sym. reflexivity.
  - intros i j Hi Hj. rewrite !MB by auto. apply lsum_ext. intros q _. rewrite fock2_sym. reflexivity.
  - rewrite (contract_mat _ _ _ _ MA), (contract_mat _ _ _ _ MB).
    eapply dl_ext; [|exact (energy_gradient2 lib fn n (dent Pa) (dent Pb) (dent Da) (dent Db) pts HX)].
    intros t. cbv beta. destruct (Hr t) as (H1 & H2 & N & K & Ev & _). injection Ev as -> _ _. reflexivity.
Qed.
Lemma gen_closed_shell lib fn P H Ha Hb s s' :
  (forall ip, In ip (parts fn) -> xc_spin_symmetric lib (fn_thr fn) ip) ->
  value1 lib fn P H s -> value2 lib fn (half P) (half P) true Ha Hb s' ->
  s' = s /\ is_mat Ha n n (dent H) /\ is_mat Hb n n (dent H).
Proof.
  intros HS (-> & HM) (-> & MA & MB). split; [|split].
  - f_equal; [f_equal|].
    + apply (half_exc lib fn n (dent P) HS).
    + unfold spec_nel. rewrite <- lsum_plus. apply lsum_ext. intros q _. unfold dens. cbn [half dent]. rewrite half_contract. field.
    + destruct (uses fn (is_tau lib)); [|reflexivity]. unfold spec_ekin. rewrite <- lsum_plus. apply lsum_ext. intros q _. unfold tau. cbn [half dent]. rewrite half_contract. field.
  - destruct MA as (M1 & M2 & M3), HM as (H1 & H2 & H3). split; [exact M1|split; [exact M2|]]. intros i j Hi Hj. rewrite M3, H3 by auto.
    apply (half_fock lib fn n (dent P) HS); lia.
  - destruct MB as (M1 & M2 & M3), HM as (H1 & H2 & H3). split; [exact M1|split; [exact M2|]]. intros i j Hi Hj. rewrite M3, H3 by auto.
    apply (half_fock lib fn n (dent P) HS); lia.
Qed.
Lemma gen_physical1 lib lib' fn no o C P H H' s s' :
  (forall k, (k < no)%nat -> 0 <= o k) -> orbital_density n no o C (dent P) -> agree false physical1 lib lib' ->
  value1 lib fn P H s -> value1 lib' fn P H' s' -> s = s' /\ is_mat H' n n (dent H).
Proof.
  intros Ho HO HA (-> & HM) (-> & HM'). destruct (agree_tests _ _ _ _ HA) as (A1 & A2 & A3 & A4 & A5).
  assert (Hph := fun q => physical1_ok n no o C (dent P) q Ho HO). split.
  - f_equal; [f_equal|].
    + apply lsum_ext. intros q _. unfold e_exc. rewrite (agree_over _ _ _ _ _ _ _ _ _ HA (Hph q) A4). reflexivity.
    + rewrite (agree_uses lib lib' fn is_tau is_tau A2). reflexivity.
  - destruct HM as (H1 & H2 & H3), HM' as (M1 & M2 & M3). split; [exact M1|split; [exact M2|]]. intros i j Hi Hj. rewrite M3, H3 by auto.
    apply lsum_ext. intros q _. unfold fock1, e_vrho, e_vsigma, e_vtau, e_vlapl.
    rewrite (agree_over _ _ _ _ _ _ _ _ _ HA (Hph q) A1), (agree_over _ _ _ _ _ _ _ _ _ HA (Hph q) A2), (agree_over _ _ _ _ _ _ _ _ _ HA (Hph q) A3).
    rewrite (agree_over _ _ _ _ _ (fun _ => true) (fun _ => true) _ _ HA (Hph q)) by reflexivity. reflexivity.
Qed.
Lemma gen_physical2 lib lib' fn no o C Pa no' o' C' Pb beta Ha Hb Ha' Hb' s s' :
  (forall k, (k < no)%nat -> 0 <= o k) -> orbital_density n no o C (dent Pa) ->
  (forall k, (k < no')%nat -> 0 <= o' k) -> orbital_density n no' o' C' (dent Pb) -> agree true physical2 lib lib' ->
  value2 lib fn Pa Pb beta Ha Hb s -> value2 lib' fn Pa Pb beta Ha' Hb' s' ->
  s = s' /\ is_mat Ha' n n (dent Ha) /\ is_mat Hb' n n (dent Hb).
Proof.
  intros Ho HO Ho' HO' HA (-> & MA & MB) (-> & MA' & MB'). destruct (agree_tests _ _ _ _ HA) as (A1 & A2 & A3 & A4 & A5).
  assert (Hph := fun q => physical2_ok n no o C (dent Pa) no' o' C' (dent Pb) q Ho HO Ho' HO').
  assert (EF : forall s i j, spec_fock2 lib' fn n (dent Pa) (dent Pb) s pts i j = spec_fock2 lib fn n (dent Pa) (dent Pb) s pts i j).
  { intros s i j. apply lsum_ext. intros q _. unfold fock2, e_vrho, e_vsigma, e_vtau, e_vlapl.
    rewrite !(agree_over _ _ _ _ _ _ _ _ _ HA (Hph q) A1), (agree_over _ _ _ _ _ _ _ _ _ HA (Hph q) A2), (agree_over _ _ _ _ _ _ _ _ _ HA (Hph q) A3).
    rewrite (agree_over _ _ _ _ _ (fun _ => true) (fun _ => true) _ _ HA (Hph q)) by reflexivity. reflexivity. }
  split; [|split].
  - f_equal; [f_equal|].
    + apply lsum_ext. intros q _. unfold e_exc. rewrite (agree_over _ _ _ _ _ _ _ _ _ HA (Hph q) A4). reflexivity.
    + rewrite (agree_uses lib lib' fn is_tau is_tau A2). reflexivity.
  - destruct MA as (H1 & H2 & H3), MA' as (M1 & M2 & M3). split; [exact M1|split; [exact M2|]]. intros i j Hi Hj. rewrite M3, H3 by auto. apply EF.
  - destruct MB as (H1 & H2 & H3), MB' as (M1 & M2 & M3). split; [exact M1|split; [exact M2|]]. intros i j Hi Hj. rewrite M3, H3 by auto.
    destruct beta; [apply EF|reflexivity].
Qed.
End Gen.
