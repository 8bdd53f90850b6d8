(** The Fock matrix is the gradient of the energy; spin symmetry; physical arguments. *)
Require Import Reals ZArith List Bool Arith Lia Lra Permutation.
Require Import Verif.Prelude Verif.AngModel Verif.JKModel Verif.DftModel Verif.DftSpec Verif.DftProofs.
Import ListNotations.
Local Open Scope R_scope.

(** * Derivatives *)
Lemma dl_ext f g x l : (forall t, f t = g t) -> derivable_pt_lim f x l -> derivable_pt_lim g x l.
Proof. intros E H eps He. destruct (H eps He) as (del & Hd). exists del. intros h H1 H2. rewrite <- !E. auto. Qed.
Lemma dl_val f x l l' : l = l' -> derivable_pt_lim f x l -> derivable_pt_lim f x l'.
Proof. intros ->; auto. Qed.
Lemma dl_lsum {A} (l : list A) (f : A -> R -> R) d x : (forall a, In a l -> derivable_pt_lim (f a) x (d a)) ->
  derivable_pt_lim (fun t => lsum l (fun a => f a t)) x (lsum l d).
Proof.
  induction l as [|a l IH]; intros H; [apply derivable_pt_lim_const|].
  apply (derivable_pt_lim_plus (f a) (fun t => lsum l (fun a => f a t))); [apply H; left; auto|apply IH; intros; apply H; right; auto].
Qed.
Lemma dl_affine a b : derivable_pt_lim (fun t => a + t * b) 0 b.
Proof.
  apply (dl_val _ _ (0 + (1 * b + 0 * 0))); [ring|].
  apply (derivable_pt_lim_plus (fun _ => a) (fun t => t * b)); [apply derivable_pt_lim_const|].
  apply (derivable_pt_lim_mult (fun t => t) (fun _ => b)); [apply derivable_pt_lim_id|apply derivable_pt_lim_const].
Qed.
Lemma dl_prod a b c d : derivable_pt_lim (fun t => (a + t * b) * (c + t * d)) 0 (b * c + a * d).
Proof.
  apply (dl_val _ _ (b * (c + 0 * d) + (a + 0 * b) * d)); [ring|].
  apply (derivable_pt_lim_mult (fun t => a + t * b) (fun t => c + t * d)); apply dl_affine.
Qed.
Lemma dl_nth1 (f : R -> R) l : derivable_pt_lim f 0 l -> forall k, derivable_pt_lim (fun t => nth k [f t] 0) 0 (nth k [l] 0).
Proof.
  intros H [|k]; [exact H|]. apply (dl_ext (fun _ => 0)); [intros; destruct k; reflexivity|].
  apply (dl_val _ _ 0); [destruct k; reflexivity|apply derivable_pt_lim_const].
Qed.
Lemma dl_nth_cons (f : R -> R) l (g : R -> list R) m : derivable_pt_lim f 0 l ->
  (forall k, derivable_pt_lim (fun t => nth k (g t) 0) 0 (nth k m 0)) ->
  forall k, derivable_pt_lim (fun t => nth k (f t :: g t) 0) 0 (nth k (l :: m) 0).
Proof. intros H Hg [|k]; [exact H|apply Hg]. Qed.

(** * Contractions are linear *)
Lemma contract_shift n P D x t : contract n (fun i j => P i j + t * D i j) x = contract n P x + t * contract n D x.
Proof.
  unfold contract. rewrite <- sum_scal, <- sum_plus. apply sum_ext. intros i _. rewrite <- sum_scal, <- sum_plus.
  apply sum_ext. intros j _. ring.
Qed.
Lemma contract_scal_l n P x c : contract n (fun i j => c * P i j) x = c * contract n P x.
Proof. unfold contract. rewrite <- sum_scal. apply sum_ext. intros i _. rewrite <- sum_scal. apply sum_ext. intros j _. ring. Qed.
Lemma contract_plus n D x y : contract n D (fun i j => x i j + y i j) = contract n D x + contract n D y.
Proof. unfold contract. rewrite <- sum_plus. apply sum_ext. intros i _. rewrite <- sum_plus. apply sum_ext. intros j _. ring. Qed.
Lemma contract_scal n D c x : contract n D (fun i j => c * x i j) = c * contract n D x.
Proof. unfold contract. rewrite <- sum_scal. apply sum_ext. intros i _. rewrite <- sum_scal. apply sum_ext. intros j _. ring. Qed.
Lemma contract_ext n D x y : (forall i j, (i < n)%nat -> (j < n)%nat -> x i j = y i j) -> contract n D x = contract n D y.
Proof. intros H. apply sum_ext. intros i Hi. apply sum_ext. intros j Hj. rewrite H by auto. reflexivity. Qed.
Lemma contract_ext_l n P D x : (forall i j, (i < n)%nat -> (j < n)%nat -> P i j = D i j) -> contract n P x = contract n D x.
Proof. intros H. apply sum_ext. intros i Hi. apply sum_ext. intros j Hj. rewrite H by auto. reflexivity. Qed.
Lemma contract_lsum {A} n D (l : list A) (x : A -> mat) : contract n D (fun i j => lsum l (fun a => x a i j)) = lsum l (fun a => contract n D (x a)).
Proof.
  induction l as [|a l IH]; [|change (contract n D (fun i j => x a i j + lsum l (fun a => x a i j)) = contract n D (x a) + lsum l (fun a => contract n D (x a))); rewrite contract_plus, IH; reflexivity].
  apply sum_zero'. intros i _. apply sum_zero'. intros j _. unfold lsum; cbn. ring.
Qed.
Lemma contract_dot n D u q : contract n D (fun i j => dot3 u (fun c => pair_g q c i j)) = dot3 u (grad n D q).
Proof.
  unfold dot3, grad. cbn [sum]. rewrite !contract_plus, !contract_scal. 
  replace (contract n D (fun _ _ => 0)) with 0; [reflexivity|]. symmetry. apply sum_zero'. intros i _. apply sum_zero'. intros j _. ring.
Qed.

Definition curve1 n P D q t := args1 n (fun i j => P i j + t * D i j) q.
Definition vel1 n P D q := mkA [dens n D q] [2 * dot3 (grad n P q) (grad n D q)] [lapl n D q] [tau n D q].
Lemma dot_shift n P D P' D' q t : dot3 (grad n (fun i j => P i j + t * D i j) q) (grad n (fun i j => P' i j + t * D' i j) q)
  = sum 3 (fun c => (grad n P q c + t * grad n D q c) * (grad n P' q c + t * grad n D' q c)).
Proof. apply sum_ext. intros c _. unfold grad. rewrite !contract_shift. reflexivity. Qed.
Lemma dl_dot n P D P' D' q : derivable_pt_lim
  (fun t => dot3 (grad n (fun i j => P i j + t * D i j) q) (grad n (fun i j => P' i j + t * D' i j) q)) 0
  (dot3 (grad n D q) (grad n P' q) + dot3 (grad n P q) (grad n D' q)).
Proof.
  eapply dl_ext; [intros t; symmetry; apply dot_shift|].
  apply (dl_val _ _ (0 + (grad n D q 0%nat * grad n P' q 0%nat + grad n P q 0%nat * grad n D' q 0%nat)
     + (grad n D q 1%nat * grad n P' q 1%nat + grad n P q 1%nat * grad n D' q 1%nat)
     + (grad n D q 2%nat * grad n P' q 2%nat + grad n P q 2%nat * grad n D' q 2%nat))); [unfold dot3; cbn [sum]; ring|].
  cbn [sum].
  apply (derivable_pt_lim_plus (fun t => 0 + _ + _) (fun t => _ * _)); [|apply dl_prod].
  apply (derivable_pt_lim_plus (fun t => 0 + _) (fun t => _ * _)); [|apply dl_prod].
  apply (derivable_pt_lim_plus (fun t => 0) (fun t => _ * _)); [apply derivable_pt_lim_const|apply dl_prod].
Qed.
Lemma dl_dens n P D q : derivable_pt_lim (fun t => dens n (fun i j => P i j + t * D i j) q) 0 (dens n D q).
Proof. eapply dl_ext; [intros t; symmetry; apply contract_shift|apply dl_affine]. Qed.
Lemma dl_tau n P D q : derivable_pt_lim (fun t => tau n (fun i j => P i j + t * D i j) q) 0 (tau n D q).
Proof. eapply dl_ext; [intros t; symmetry; apply contract_shift|apply dl_affine]. Qed.
Lemma dl_lapl n P D q : derivable_pt_lim (fun t => lapl n (fun i j => P i j + t * D i j) q) 0 (lapl n D q).
Proof. eapply dl_ext; [intros t; symmetry; apply contract_shift|apply dl_affine]. Qed.
Lemma dot3_comm u v : dot3 u v = dot3 v u.
Proof. apply sum_ext. intros; ring. Qed.
Lemma shift0 n P D x : contract n (fun i j => P i j + 0 * D i j) x = contract n P x.
Proof. rewrite contract_shift. ring. Qed.
Lemma dot_shift0 n P D P' D' q : dot3 (grad n (fun i j => P i j + 0 * D i j) q) (grad n (fun i j => P' i j + 0 * D' i j) q)
  = dot3 (grad n P q) (grad n P' q).
Proof. rewrite dot_shift. apply sum_ext. intros; ring. Qed.
Lemma curve1_ok n P D q : curve (curve1 n P D q) (args1 n P q) (vel1 n P D q).
Proof.
  unfold curve, curve1, vel1. split; [|split; [reflexivity|split; [reflexivity|split; [reflexivity|split; [reflexivity|]]]]].
  - unfold args1. rewrite dot_shift0. unfold dens, lapl, tau. rewrite !shift0. reflexivity.
  - intros k. cbn [args1 a_rho a_sigma a_lapl a_tau]. split; [|split; [|split]].
    + apply (dl_nth1 (fun t => dens n (fun i j => P i j + t * D i j) q)). apply dl_dens.
    + apply (dl_nth1 (fun t => dot3 (grad n (fun i j => P i j + t * D i j) q) (grad n (fun i j => P i j + t * D i j) q))).
      apply (dl_val _ _ (dot3 (grad n D q) (grad n P q) + dot3 (grad n P q) (grad n D q))); [rewrite (dot3_comm (grad n D q)); ring|]. apply dl_dot.
    + apply (dl_nth1 (fun t => lapl n (fun i j => P i j + t * D i j) q)). apply dl_lapl.
    + apply (dl_nth1 (fun t => tau n (fun i j => P i j + t * D i j) q)). apply dl_tau.
Qed.
Lemma contract_fock1 lib fn n P D q : contract n D (fock1 lib fn n P q)
  = e_vrho lib false fn (args1 n P q) 0 * dens n D q + e_vsigma lib false fn (args1 n P q) 0 * (2 * dot3 (grad n P q) (grad n D q))
    + e_vtau lib false fn (args1 n P q) 0 * tau n D q + e_vlapl lib false fn (args1 n P q) 0 * lapl n D q.
Proof.
  unfold fock1. rewrite !contract_plus, !contract_scal, contract_dot. reflexivity.
Qed.
Lemma exc_edens lib pol fn (a : xargs) : (forall ip, In ip (parts fn) -> xc_have_exc lib (fst ip) = true) ->
  e_exc lib pol fn a * sum (length (a_rho a)) (fun s => nth s (a_rho a) 0)
  = lsum (parts fn) (fun ip => edens lib pol (fn_thr fn) (fst ip) (snd ip) a).
Proof.
  intros H. unfold e_exc, over. rewrite Rmult_comm, <- lsum_scal. apply lsum_ext. intros ip Hip. rewrite (H ip Hip). unfold edens. ring.
Qed.
(** The derivative of the energy in one point *)
Lemma dl_parts lib pol fn (c : R -> xargs) a d :
  curve c a d -> (forall ip, In ip (parts fn) -> xc_derivatives lib pol (fn_thr fn) ip a) ->
  derivable_pt_lim (fun t => e_exc lib pol fn (c t) * sum (length (a_rho (c t))) (fun s => nth s (a_rho (c t)) 0)) 0
    (sum (length (a_rho a)) (fun s => e_vrho lib pol fn a s * nth s (a_rho d) 0)
     + sum (length (a_sigma a)) (fun s => e_vsigma lib pol fn a s * nth s (a_sigma d) 0)
     + sum (length (a_tau a)) (fun s => e_vtau lib pol fn a s * nth s (a_tau d) 0)
     + sum (length (a_lapl a)) (fun s => e_vlapl lib pol fn a s * nth s (a_lapl d) 0)).
Proof.
  intros Hc Hx.
  eapply dl_ext; [intros t; symmetry; apply exc_edens|].
  { intros [id pars] Hip. apply (proj1 (Hx _ Hip)). }
  assert (G : forall m (cc : Z -> bool) (f : nat -> xcout -> R) (v : list R),
    sum m (fun s => over lib pol fn cc (f s) a * nth s v 0)
    = lsum (parts fn) (fun ip => if cc (fst ip) then sum m (fun s => f s (xc_at lib pol (fn_thr fn) (fst ip) (snd ip) a) * nth s v 0) else 0)).
  { intros m cc f v. unfold over. rewrite (sum_ext m _ (fun s => lsum (parts fn) (fun ip => nth s v 0 * (if cc (fst ip) then f s (xc_at lib pol (fn_thr fn) (fst ip) (snd ip) a) else 0)))).
    2:{ intros s _. rewrite lsum_scal. ring. }
    rewrite <- lsum_sum_swap. apply lsum_ext. intros ip _. destruct (cc (fst ip)).
    - apply sum_ext. intros; ring.
    - apply sum_zero'. intros; ring. }
  unfold e_vrho, e_vsigma, e_vtau, e_vlapl.
  rewrite (G _ (fun _ => true) (fun s o => o_vrho o s)), (G _ (is_gga lib) (fun s o => o_vsigma o s)),
    (G _ (is_tau lib) (fun s o => o_vtau o s)), (G _ (is_lapl lib) (fun s o => o_vlapl o s)).
  rewrite <- !lsum_plus. apply dl_lsum. intros [id pars] Hip. cbn [fst snd].
  apply (proj2 (Hx _ Hip) c d Hc).
Qed.

(** One density *)
Lemma energy_gradient1 lib fn n P D pts :
  (forall q ip, In q pts -> In ip (parts fn) -> xc_derivatives lib false (fn_thr fn) ip (args1 n P q)) ->
  derivable_pt_lim (fun t => spec_exc1 lib fn n (fun i j => P i j + t * D i j) pts) 0 (contract n D (spec_fock1 lib fn n P pts)).
Proof.
  intros H. unfold spec_fock1. rewrite contract_lsum. unfold spec_exc1. apply dl_lsum. intros q Hq.
  rewrite contract_scal, contract_fock1.
  apply (dl_ext (fun t => p_w q * (e_exc lib false fn (curve1 n P D q t) * sum (length (a_rho (curve1 n P D q t))) (fun s => nth s (a_rho (curve1 n P D q t)) 0)))).
  { intros t. unfold curve1 at 1. cbn [curve1 args1 a_rho length sum nth]. ring. }
  eapply dl_val; [|apply (derivable_pt_lim_scal _ _ _ _ (dl_parts lib false fn _ _ _ (curve1_ok n P D q) (fun ip Hip => H q ip Hq Hip)))].
  unfold vel1. cbn [args1 a_rho a_sigma a_tau a_lapl length sum nth]. ring.
Qed.

(** Two densities *)
Definition curve2 n Pa Da Pb Db q t := args2 n (fun i j => Pa i j + t * Da i j) (fun i j => Pb i j + t * Db i j) q.
Definition vel2 n Pa Da Pb Db q := mkA [dens n Da q; dens n Db q]
  [2 * dot3 (grad n Pa q) (grad n Da q); dot3 (grad n Da q) (grad n Pb q) + dot3 (grad n Pa q) (grad n Db q); 2 * dot3 (grad n Pb q) (grad n Db q)]
  [lapl n Da q; lapl n Db q] [tau n Da q; tau n Db q].
Lemma curve2_ok n Pa Da Pb Db q : curve (curve2 n Pa Da Pb Db q) (args2 n Pa Pb q) (vel2 n Pa Da Pb Db q).
Proof.
  unfold curve, curve2, vel2. split; [|split; [reflexivity|split; [reflexivity|split; [reflexivity|split; [reflexivity|]]]]].
  - unfold args2. rewrite !dot_shift0. unfold dens, lapl, tau. rewrite !shift0. reflexivity.
  - intros k. cbn [args2 a_rho a_sigma a_lapl a_tau].
    assert (Z : forall k, derivable_pt_lim (fun t : R => nth k [] 0) 0 (nth k [] 0)) by (intros k0; apply (dl_val _ _ 0); [destruct k0; reflexivity|apply (derivable_pt_lim_const (nth k0 [] 0))]).
    assert (S : forall P D, derivable_pt_lim (fun t => dot3 (grad n (fun i j => P i j + t * D i j) q) (grad n (fun i j => P i j + t * D i j) q)) 0 (2 * dot3 (grad n P q) (grad n D q))).
    { intros P D. apply (dl_val _ _ (dot3 (grad n D q) (grad n P q) + dot3 (grad n P q) (grad n D q))); [rewrite (dot3_comm (grad n D q)); ring|]. apply dl_dot. }
    split; [|split; [|split]]; revert k.
    + apply (dl_nth_cons _ _ (fun t => [_])); [apply dl_dens|]. apply (dl_nth_cons _ _ (fun t => [])); [apply dl_dens|apply Z].
    + apply (dl_nth_cons _ _ (fun t => [_; _])); [apply S|]. apply (dl_nth_cons _ _ (fun t => [_])); [apply dl_dot|].
      apply (dl_nth_cons _ _ (fun t => [])); [apply S|apply Z].
    + apply (dl_nth_cons _ _ (fun t => [_])); [apply dl_lapl|]. apply (dl_nth_cons _ _ (fun t => [])); [apply dl_lapl|apply Z].
    + apply (dl_nth_cons _ _ (fun t => [_])); [apply dl_tau|]. apply (dl_nth_cons _ _ (fun t => [])); [apply dl_tau|apply Z].
Qed.
Lemma contract_fock2 lib fn n Pa Pb s D q : contract n D (fock2 lib fn n Pa Pb s q)
  = e_vrho lib true fn (args2 n Pa Pb q) s * dens n D q
    + e_vsigma lib true fn (args2 n Pa Pb q) (2 * s) * (2 * dot3 (grad n (if Nat.eqb s 0 then Pa else Pb) q) (grad n D q))
    + e_vsigma lib true fn (args2 n Pa Pb q) 1 * dot3 (grad n (if Nat.eqb s 0 then Pb else Pa) q) (grad n D q)
    + e_vtau lib true fn (args2 n Pa Pb q) s * tau n D q + e_vlapl lib true fn (args2 n Pa Pb q) s * lapl n D q.
Proof.
  unfold fock2. rewrite !contract_plus, !contract_scal, !contract_dot. reflexivity.
Qed.
Lemma energy_gradient2 lib fn n Pa Pb Da Db pts :
  (forall q ip, In q pts -> In ip (parts fn) -> xc_derivatives lib true (fn_thr fn) ip (args2 n Pa Pb q)) ->
  derivable_pt_lim (fun t => spec_exc2 lib fn n (fun i j => Pa i j + t * Da i j) (fun i j => Pb i j + t * Db i j) pts) 0
    (contract n Da (spec_fock2 lib fn n Pa Pb 0 pts) + contract n Db (spec_fock2 lib fn n Pa Pb 1 pts)).
Proof.
  intros H. unfold spec_fock2. rewrite !contract_lsum, <- lsum_plus. unfold spec_exc2. apply dl_lsum. intros q Hq.
  rewrite !contract_scal, !contract_fock2.
  apply (dl_ext (fun t => p_w q * (e_exc lib true fn (curve2 n Pa Da Pb Db q t) * sum (length (a_rho (curve2 n Pa Da Pb Db q t))) (fun s => nth s (a_rho (curve2 n Pa Da Pb Db q t)) 0)))).
  { intros t. unfold curve2 at 1. cbn [curve2 args2 a_rho length sum nth]. ring. }
  eapply dl_val; [|apply (derivable_pt_lim_scal _ _ _ _ (dl_parts lib true fn _ _ _ (curve2_ok n Pa Da Pb Db q) (fun ip Hip => H q ip Hq Hip)))].
  unfold vel2. cbn [args2 a_rho a_sigma a_tau a_lapl length sum nth Nat.eqb Nat.mul Nat.add].
  rewrite (dot3_comm (grad n Da q) (grad n Pb q)). ring.
Qed.

(** * Symmetry *)
Lemma fock1_sym lib fn n P q i j : fock1 lib fn n P q i j = fock1 lib fn n P q j i.
Proof.
  assert (Gg : pair_gg q i j = pair_gg q j i) by (apply sum_ext; intros; unfold reprod; ring).
  unfold fock1, pair_t, pair_l. rewrite Gg. unfold pair_n, dot3, pair_g, reprod. cbn [sum]. ring.
Qed.
Lemma fock2_sym lib fn n Pa Pb s q i j : fock2 lib fn n Pa Pb s q i j = fock2 lib fn n Pa Pb s q j i.
Proof.
  assert (Gg : pair_gg q i j = pair_gg q j i) by (apply sum_ext; intros; unfold reprod; ring).
  unfold fock2, pair_t, pair_l. rewrite Gg. unfold pair_n, dot3, pair_g, reprod. cbn [sum]. ring.
Qed.

(** * Half of the density for each spin *)
Section Half.
Variables (lib : libxc) (fn : functional) (n : nat) (P : mat).
Hypothesis HS : forall ip, In ip (parts fn) -> xc_spin_symmetric lib (fn_thr fn) ip.
Let Ph : mat := fun i j => P i j / 2.
Lemma half_contract x : contract n Ph x = contract n P x / 2.
Proof.
  unfold Ph. rewrite (contract_ext_l n _ (fun i j => / 2 * P i j)) by (intros; unfold Rdiv; ring).
  rewrite contract_scal_l. unfold Rdiv; ring.
Qed.
Lemma half_args q : args2 n Ph Ph q = half_spins (dens n P q) (dot3 (grad n P q) (grad n P q)) (lapl n P q) (tau n P q).
Proof.
  unfold args2, half_spins. unfold dens, lapl, tau. rewrite !half_contract.
  assert (E : dot3 (grad n Ph q) (grad n Ph q) = dot3 (grad n P q) (grad n P q) / 4).
  { unfold dot3, grad. cbn [sum]. rewrite !half_contract. field. }
  rewrite E. reflexivity.
Qed.
Lemma half_over c f g q : (forall ip, In ip (parts fn) -> c (fst ip) = true ->
    f (xc_at lib true (fn_thr fn) (fst ip) (snd ip) (args2 n Ph Ph q)) = g (xc_at lib false (fn_thr fn) (fst ip) (snd ip) (args1 n P q))) ->
  over lib true fn c f (args2 n Ph Ph q) = over lib false fn c g (args1 n P q).
Proof.
  intros H. apply lsum_ext. intros ip Hip. destruct (c (fst ip)) eqn:E; [apply H; auto|reflexivity].
Qed.
Lemma half_sym ip q : In ip (parts fn) ->
    let o1 := xc_at lib false (fn_thr fn) (fst ip) (snd ip) (args1 n P q) in
    let o2 := xc_at lib true (fn_thr fn) (fst ip) (snd ip) (args2 n Ph Ph q) in
    o_exc o2 = o_exc o1 /\
    (forall s, (s < 2)%nat -> o_vrho o2 s = o_vrho o1 0%nat) /\
    (is_gga lib (fst ip) = true -> o_vsigma o2 2%nat = o_vsigma o2 0%nat /\ 2 * o_vsigma o2 0%nat + o_vsigma o2 1%nat = 4 * o_vsigma o1 0%nat) /\
    (is_tau lib (fst ip) = true -> forall s, (s < 2)%nat -> o_vtau o2 s = o_vtau o1 0%nat) /\
    (is_lapl lib (fst ip) = true -> forall s, (s < 2)%nat -> o_vlapl o2 s = o_vlapl o1 0%nat).
Proof.
  intros Hip. rewrite half_args. destruct ip as [id pars]. apply (HS (id, pars) Hip).
Qed.
Lemma half_exc pts : spec_exc2 lib fn n Ph Ph pts = spec_exc1 lib fn n P pts.
Proof.
  apply lsum_ext. intros q _. unfold e_exc. rewrite (half_over _ _ o_exc) by (intros; apply half_sym; auto).
  unfold dens. rewrite half_contract. field.
Qed.
Lemma half_fock s pts i j : (s < 2)%nat -> spec_fock2 lib fn n Ph Ph s pts i j = spec_fock1 lib fn n P pts i j.
Proof.
  intros Hs. apply lsum_ext. intros q _. f_equal. unfold fock2, fock1.
  replace (if Nat.eqb s 0 then Ph else Ph) with Ph by (destruct (Nat.eqb s 0); reflexivity).
  set (x := fun c => pair_g q c i j).
  assert (Ed : dot3 (grad n Ph q) x = dot3 (grad n P q) x / 2). { unfold dot3, grad. cbn [sum]. rewrite !half_contract. field. }
  rewrite Ed.
  assert (E1 : e_vrho lib true fn (args2 n Ph Ph q) s = e_vrho lib false fn (args1 n P q) 0).
  { apply half_over. intros ip Hip _. apply (half_sym ip q Hip); auto. }
  assert (E2 : e_vtau lib true fn (args2 n Ph Ph q) s = e_vtau lib false fn (args1 n P q) 0).
  { apply half_over. intros ip Hip Hc. apply (half_sym ip q Hip); auto. }
  assert (E3 : e_vlapl lib true fn (args2 n Ph Ph q) s = e_vlapl lib false fn (args1 n P q) 0).
  { apply half_over. intros ip Hip Hc. apply (half_sym ip q Hip); auto. }
  assert (E4 : e_vsigma lib true fn (args2 n Ph Ph q) (2 * s) + / 2 * e_vsigma lib true fn (args2 n Ph Ph q) 1
     = 2 * e_vsigma lib false fn (args1 n P q) 0).
  { unfold e_vsigma, over. rewrite <- !lsum_scal, <- lsum_plus. apply lsum_ext. intros ip Hip.
    destruct (is_gga lib (fst ip)) eqn:E; [|ring].
    destruct (half_sym ip q Hip) as (_ & _ & Hg & _). destruct (Hg E) as [G1 G2]. destruct s as [|[|s]]; [| |lia]; cbn [Nat.mul Nat.add]; lra. }
  rewrite E1, E2, E3.
  replace (e_vsigma lib true fn (args2 n Ph Ph q) (2 * s) * (2 * (dot3 (grad n P q) x / 2)))
    with (dot3 (grad n P q) x * e_vsigma lib true fn (args2 n Ph Ph q) (2 * s)) by field.
  assert (E5 : e_vsigma lib true fn (args2 n Ph Ph q) (2 * s) = 2 * e_vsigma lib false fn (args1 n P q) 0 - / 2 * e_vsigma lib true fn (args2 n Ph Ph q) 1) by lra.
  rewrite E5. field.
Qed.
End Half.

(** * Physical arguments *)
Definition orb (n : nat) (C : mat) (f : nat -> R * R) (k : nat) : R * R :=
  (sum n (fun i => C i k * fst (f i)), sum n (fun i => C i k * snd (f i))).
Lemma quadratic_disc A B C : 0 <= A -> (forall x, 0 <= A * x * x - 2 * B * x + C) -> B * B <= A * C.
Proof.
  intros HA H. destruct HA as [HA|HA].
  - assert (Hx := H (B / A)). replace (A * (B / A) * (B / A) - 2 * B * (B / A) + C) with (C - B * B / A) in Hx by (field; lra).
    apply (Rmult_le_reg_l (/ A)); [apply Rinv_0_lt_compat; auto|]. replace (/ A * (A * C)) with C by (field; lra). unfold Rdiv in Hx. lra.
  - subst A. destruct (Req_dec B 0) as [->|Hb]; [lra|]. exfalso. assert (Hx := H ((C + 1) / (2 * B))).
    replace (0 * ((C + 1) / (2 * B)) * ((C + 1) / (2 * B)) - 2 * B * ((C + 1) / (2 * B)) + C) with (-1) in Hx by (field; auto). lra.
Qed.
Section Psd.
Variables (n no : nat) (o : vec) (C : mat) (P : mat).
Hypothesis Ho : forall k, (k < no)%nat -> 0 <= o k.
Hypothesis HP : orbital_density n no o C P.
Lemma psd_contract f g : contract n P (fun i j => reprod (f i) (g j)) = sum no (fun k => o k * reprod (orb n C f k) (orb n C g k)).
Proof.
  rewrite (contract_ext_l n P (fun i j => sum no (fun k => o k * C i k * C j k))) by (intros; apply HP; auto).
  unfold contract, orb, reprod. cbn [fst snd].
  rewrite (sum_ext n _ (fun i => sum no (fun k => o k * ((C i k * fst (f i)) * sum n (fun j => C j k * fst (g j)) + (C i k * snd (f i)) * sum n (fun j => C j k * snd (g j)))))).
  - rewrite sum_swap. apply sum_ext. intros k _. rewrite sum_scal, sum_plus, !sum_scal_r. reflexivity.
  - intros i _. rewrite (sum_ext n _ (fun j => sum no (fun k => (o k * C i k * C j k) * (fst (f i) * fst (g j) + snd (f i) * snd (g j))))).
    2:{ intros j _. rewrite sum_scal_r. reflexivity. }
    rewrite sum_swap. apply sum_ext. intros k _. rewrite <- !sum_scal, <- sum_plus, <- sum_scal. apply sum_ext. intros j _. ring.
Qed.
Let phi q := orb n C (p_f q).
Let dphi q c := orb n C (p_g q c).
Lemma psd_dens q : dens n P q = sum no (fun k => o k * reprod (phi q k) (phi q k)).
Proof. apply psd_contract. Qed.
Lemma psd_tau q : tau n P q = / 2 * sum 3 (fun c => sum no (fun k => o k * reprod (dphi q c k) (dphi q c k))).
Proof.
  unfold tau, pair_t, pair_gg. rewrite contract_scal. f_equal. cbn [sum]. rewrite !contract_plus, !psd_contract.
  replace (contract n P (fun _ _ => 0)) with 0; [reflexivity|]. symmetry. apply sum_zero'. intros i _. apply sum_zero'. intros j _. ring.
Qed.
Lemma reprod_sym x y : reprod x y = reprod y x.
Proof. unfold reprod. ring. Qed.
Lemma psd_grad q c : grad n P q c = 2 * sum no (fun k => o k * reprod (phi q k) (dphi q c k)).
Proof.
  unfold grad, pair_g. rewrite contract_plus, !psd_contract. rewrite (sum_ext no (fun k => o k * reprod (orb n C (p_g q c) k) (orb n C (p_f q) k)) (fun k => o k * reprod (phi q k) (dphi q c k))).
  - unfold phi, dphi. ring.
  - intros k _. rewrite reprod_sym. reflexivity.
Qed.
Lemma reprod_nonneg x : 0 <= reprod x x.
Proof. unfold reprod. nra. Qed.
Lemma wsum_nonneg f : 0 <= sum no (fun k => o k * reprod (f k) (f k)).
Proof. apply sum_nonneg. intros k Hk. apply Rmult_le_pos; [auto|apply reprod_nonneg]. Qed.
Lemma wcs f g : (sum no (fun k => o k * reprod (f k) (g k))) * (sum no (fun k => o k * reprod (f k) (g k)))
  <= sum no (fun k => o k * reprod (f k) (f k)) * sum no (fun k => o k * reprod (g k) (g k)).
Proof.
  apply quadratic_disc; [apply wsum_nonneg|]. intros x.
  assert (H := wsum_nonneg (fun k => (x * fst (f k) - fst (g k), x * snd (f k) - snd (g k)))). 
  rewrite (sum_ext no _ (fun k => x * x * (o k * reprod (f k) (f k)) + (- 2 * x * (o k * reprod (f k) (g k)) + o k * reprod (g k) (g k)))) in H.
  2:{ intros k _. unfold reprod; cbn [fst snd]. ring. }
  rewrite !sum_plus, !sum_scal in H. lra.
Qed.
Lemma dens_nonneg q : 0 <= dens n P q.
Proof. rewrite psd_dens. apply wsum_nonneg. Qed.
Lemma tau_nonneg q : 0 <= tau n P q.
Proof. rewrite psd_tau. cbn [sum]. assert (H0 := wsum_nonneg (dphi q 0)). assert (H1 := wsum_nonneg (dphi q 1)). assert (H2 := wsum_nonneg (dphi q 2)). lra. Qed.
Lemma weizsacker q : dot3 (grad n P q) (grad n P q) <= 8 * dens n P q * tau n P q.
Proof.
  rewrite psd_dens, psd_tau. unfold dot3. cbn [sum]. rewrite !psd_grad.
  assert (H0 := wcs (phi q) (dphi q 0)). assert (H1 := wcs (phi q) (dphi q 1)). assert (H2 := wcs (phi q) (dphi q 2)). lra.
Qed.
End Psd.
Lemma dot3_cs u v : dot3 u v * dot3 u v <= dot3 u u * dot3 v v.
Proof.
  unfold dot3. cbn [sum].
  assert (H1 : 0 <= (u 0%nat * v 1%nat - u 1%nat * v 0%nat)²) by apply Rle_0_sqr.
  assert (H2 : 0 <= (u 0%nat * v 2%nat - u 2%nat * v 0%nat)²) by apply Rle_0_sqr.
  assert (H3 : 0 <= (u 1%nat * v 2%nat - u 2%nat * v 1%nat)²) by apply Rle_0_sqr.
  unfold Rsqr in *. lra.
Qed.
Lemma dot3_nonneg u : 0 <= dot3 u u.
Proof. unfold dot3. cbn [sum]. assert (H0 := Rle_0_sqr (u 0%nat)). assert (H1 := Rle_0_sqr (u 1%nat)). assert (H2 := Rle_0_sqr (u 2%nat)). unfold Rsqr in *. lra. Qed.
