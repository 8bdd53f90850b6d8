(** Normalisation of Slater and Gaussian functions, and cases that meet the hypotheses of the
    theorems. *)
Require Import Reals ZArith List Bool Arith Lia Lra.
Require Import Verif.Prelude Verif.SadSpec Verif.SadAtom Verif.PotModel Verif.PotSpec Verif.PotOrb Verif.PotWit Verif.ErfcShort
  Verif.FEModel Verif.AngModel Verif.JKModel Verif.JKSpec Verif.JKProofs
  Verif.NaoModel Verif.NaoSpec Verif.NaoProofs Verif.NaoExtent Verif.NaoMake.
Import ListNotations.
Local Open Scope R_scope.

Lemma fact_pos n : 0 < INR (fact n).
Proof. apply lt_0_INR, lt_O_fact. Qed.
Lemma nao_fact m : fold_left (fun f k => f * INR k) (seq 2 (m - 1)) 1 = INR (fact m).
Proof. exact (fact_fold m). Qed.
Lemma sto_unit p : valid_prim 1 p -> is_improper (fun r => sto_u (mkContr [p] [1]) r * sto_u (mkContr [p] [1]) r) 0 1.
Proof.
  intros [H1 H2]. set (n := Z.to_nat (p_n p)). assert (Hn : (1 <= n)%nat) by (unfold n; lia). set (k := 2 * p_exp p).
  assert (Hk : 0 < k) by (unfold k; lra). pose proof (gamma_int k (2 * n - 1) Hk) as G. replace (S (2 * n - 1)) with (2 * n)%nat in G by lia.
  eapply improper_ext; [|exact G]. intros r. cbv beta. rewrite sto_u_sum. unfold contraction. cbn [c_prims c_coef combine lsum fst snd].
  unfold slater_shape, NaoModel.sto_norm. fold n. rewrite nao_fact. fold k.
  set (N2 := k ^ (2 * n + 1) / INR (fact (2 * n))). assert (HN : 0 <= N2). { unfold N2. left. apply Rdiv_lt_0_compat; [now apply pow_lt|apply fact_pos]. }
  transitivity ((sqrt N2 * sqrt N2) * (r ^ n * r ^ n) * (exp (- (p_exp p * r)) * exp (- (p_exp p * r)))); [|ring].
  rewrite sqrt_sqrt by exact HN. rewrite <- exp_plus, <- pow_add. replace (- (p_exp p * r) + - (p_exp p * r)) with (- (k * r)) by (unfold k; ring).
  unfold N2. rewrite Rpow_mult_distr, Nat.add_1_r. replace (n + n)%nat with (2 * n)%nat by lia. cbn [pow]. field.
  pose proof (fact_pos (2 * n)). lra.
Qed.

Lemma gamma_half g : is_gamma g -> forall n, g (INR n + 3 / 2) = double_factorial (2 * n + 1) * sqrt PI / 2 ^ (n + 1).
Proof.
  intros [G1 G2]. induction n.
  - cbn [INR]. replace (0 + 3 / 2) with (1 / 2 + 1) by field. rewrite G2, G1 by lra. cbn. field.
  - rewrite S_INR. replace (INR n + 1 + 3 / 2) with ((INR n + 3 / 2) + 1) by field. pose proof (pos_INR n). rewrite G2, IHn by lra.
    rewrite df_S. replace (S n + 1)%nat with (S (n + 1)) by lia. cbn [pow]. rewrite plus_INR, mult_INR. cbn [INR]. field.
    apply pow_nonzero. lra.
Qed.
Lemma improper_scal c f v : is_improper f 0 v -> is_improper (fun r => c * f r) 0 (c * v).
Proof.
  intros H e He. destruct (Req_dec c 0) as [->|Hc].
  - destruct (H 1 ltac:(lra)) as (X0 & HX). exists (Rmax 0 X0). intros X Hx. pose proof (Rmax_l 0 X0). pose proof (Rmax_r 0 X0).
    destruct (HX X ltac:(lra)) as (w & Hw & _). exists (0 * w). split; [apply int_scal; [lra|auto]|]. rewrite !Rmult_0_l, Rminus_0_r, Rabs_R0. lra.
  - assert (0 < Rabs c) by now apply Rabs_pos_lt.
    destruct (H (e / Rabs c)) as (X0 & HX). { apply Rdiv_lt_0_compat; auto. }
    exists (Rmax 0 X0). intros X Hx. pose proof (Rmax_l 0 X0). pose proof (Rmax_r 0 X0).
    destruct (HX X ltac:(lra)) as (w & Hw & B). exists (c * w). split; [apply int_scal; [lra|auto]|].
    rewrite <- Rmult_minus_distr_l, Rabs_mult. apply Rmult_lt_compat_l with (r := Rabs c) in B; auto. replace (Rabs c * (e / Rabs c)) with e in B by (field; lra). exact B.
Qed.
Lemma gto_unit g p : is_gamma g -> valid_prim 0 p -> is_improper (fun r => gto_u g (mkContr [p] [1]) r * gto_u g (mkContr [p] [1]) r) 0 1.
Proof.
  intros Hg [H1 H2]. set (n := Z.to_nat (p_n p)). set (b := 2 * p_exp p). assert (Hb : 0 < b) by (unfold b; lra).
  pose proof (bell_int _ erf_exists b (S n) Hb) as G. pose proof (total_df b n Hb) as ET.
  pose proof (sqrt_lt_R0 b Hb) as Sb. pose proof (df_pos n) as HD. assert (SP : 0 < sqrt PI) by (apply sqrt_lt_R0, PI_RGT_0).
  assert (EI : gto_I g (2 * n + 2) b = total b (S n)).
  { unfold gto_I. replace (1 / 2 * (INR (2 * n + 2) + 1)) with (INR n + 3 / 2). 2:{ rewrite plus_INR, mult_INR. cbn [INR]. field. }
    rewrite (gamma_half g Hg), ET. replace (INR n + 3 / 2) with (INR (n + 1) + / 2) by (rewrite plus_INR; cbn [INR]; field).
    rewrite Rpower_plus, Rpower_pow, Rpower_sqrt by lra. replace (n + 2)%nat with (S (n + 1)) by lia. cbn [pow]. field.
    repeat split; try lra; apply pow_nonzero; lra. }
  assert (HT : 0 < total b (S n)).
  { rewrite ET. apply Rdiv_lt_0_compat; [now apply Rmult_lt_0_compat|]. repeat apply Rmult_lt_0_compat; auto; apply pow_lt; lra. }
  apply (improper_scal (/ total b (S n))) in G. rewrite Rinv_l in G by lra.
  eapply improper_ext; [|exact G]. intros r. cbv beta. rewrite gto_u_sum. unfold contraction. cbn [c_prims c_coef combine lsum fst snd].
  unfold gauss_shape, NaoModel.gto_norm. fold n. fold b. rewrite EI.
  set (T := total b (S n)) in *. pose proof (sqrt_lt_R0 T HT). pose proof (sqrt_sqrt T ltac:(lra)) as ST.
  transitivity ((1 / (sqrt T * sqrt T)) * (r ^ S n * r ^ S n) * (exp (- (p_exp p * (r * r))) * exp (- (p_exp p * (r * r))))).
  - rewrite ST, <- exp_plus, <- pow_add. replace (S n + S n)%nat with (2 * S n)%nat by lia.
    replace (- (p_exp p * (r * r)) + - (p_exp p * (r * r))) with (- (b * (r * r))) by (unfold b; ring). field. lra.
  - field. lra.
Qed.

(** Tails of the contracted functions. *)
Lemma sto_norm_nonneg p : 0 <= NaoModel.sto_norm p.
Proof. apply sqrt_pos. Qed.
Lemma sto_contracted tol c rmax : Forall (valid_prim 1) (c_prims c) ->
  (forall p, In p (c_prims c) -> negligible_from (slater_shape p) (sto_peak p) tol rmax) ->
  (forall r, sto_u c r = contraction (fun p => NaoModel.sto_norm p * slater_shape p r) c) /\
  forall r, 0 <= r -> rmax <= r -> Rabs (sto_u c r) <= tol * abs_contraction (fun p => NaoModel.sto_norm p * slater_shape p (sto_peak p)) c.
Proof.
  intros Hv H. split; [apply sto_u_sum|]. intros r H0 Hr. rewrite sto_u_sum. apply (contraction_tail slater_shape sto_peak).
  - apply sto_norm_nonneg.
  - intros p Hp. split; [|now apply H]. unfold slater_shape. apply Rmult_le_pos; [now apply pow_le|left; apply exp_pos].
Qed.
Lemma gto_norm_pos g p : 0 <= NaoModel.gto_norm g p.
Proof.
  unfold NaoModel.gto_norm. apply Rmult_le_pos; [lra|]. set (x := gto_I _ _ _). destruct (Req_dec (sqrt x) 0) as [E|E].
  - rewrite E, Rinv_0. lra.
  - left. apply Rinv_0_lt_compat. pose proof (sqrt_pos x). lra.
Qed.
Lemma gto_contracted g tol c rmax : Forall (valid_prim 0) (c_prims c) ->
  (forall p, In p (c_prims c) -> negligible_from (gauss_shape p) (gto_peak p) tol rmax) ->
  (forall r, gto_u g c r = contraction (fun p => NaoModel.gto_norm g p * gauss_shape p r) c) /\
  forall r, 0 <= r -> rmax <= r -> Rabs (gto_u g c r) <= tol * abs_contraction (fun p => NaoModel.gto_norm g p * gauss_shape p (gto_peak p)) c.
Proof.
  intros Hv H. split; [apply gto_u_sum|]. intros r H0 Hr. rewrite gto_u_sum. apply (contraction_tail gauss_shape gto_peak).
  - apply gto_norm_pos.
  - intros p Hp. split; [|now apply H]. unfold gauss_shape. apply Rmult_le_pos; [now apply pow_le|left; apply exp_pos].
Qed.

(** The two factories. *)
Section Make.
Variables (radial_of : fe -> radial) (bf_of : fe -> nat -> R -> nat -> R).
Variables (nq : nat) (xq wq : vec) (ldlt : dmat -> vec -> vec).
Lemma make_sto_ok h a bas tol nelem nnodes : valid_basis 1 bas -> exp (- (10 ^ 40)) <= tol -> (1 <= nelem)%Z -> (2 <= nnodes)%Z ->
  (forall rmax, 0 < rmax -> let u := radial_of (nao_fe rmax nelem nnodes) in square (r_nbf u) (r_overlap u) /\ solves (r_overlap u) ldlt) ->
  exists fuel0, forall fuel, (fuel0 <= fuel)%nat -> exists rmax,
    largest (sto_extent fuel tol) bas rmax /\
    (forall p, In p (primitives bas) -> maximum_at (slater_shape p) (sto_peak p) /\ negligible_from (slater_shape p) (sto_peak p) tol rmax) /\
    spans (nao_fe rmax nelem nnodes) rmax (Z.to_nat nelem) /\
    projected radial_of bf_of nq xq wq h a (nao_fe rmax nelem nnodes) (map sto_u bas)
      (make_nao_sto radial_of bf_of nq xq wq ldlt fuel h a bas tol nelem nnodes).
Proof.
  intros. apply (make_ok radial_of bf_of nq xq wq ldlt 1 (fun fuel tol => sto_extent fuel tol) (map sto_u) slater_shape sto_peak); auto.
  - intros p t Hp Ht. now apply sto_extent_ok.
  - intros. apply map_length.
Qed.
Lemma make_gto_ok tg h a bas tol nelem nnodes : valid_basis 0 bas -> exp (- (10 ^ 40)) <= tol -> (1 <= nelem)%Z -> (2 <= nnodes)%Z ->
  (forall rmax, 0 < rmax -> let u := radial_of (nao_fe rmax nelem nnodes) in square (r_nbf u) (r_overlap u) /\ solves (r_overlap u) ldlt) ->
  exists fuel0, forall fuel, (fuel0 <= fuel)%nat -> exists rmax,
    largest (gto_extent fuel tol) bas rmax /\
    (forall p, In p (primitives bas) -> maximum_at (gauss_shape p) (gto_peak p) /\ negligible_from (gauss_shape p) (gto_peak p) tol rmax) /\
    spans (nao_fe rmax nelem nnodes) rmax (Z.to_nat nelem) /\
    projected radial_of bf_of nq xq wq h a (nao_fe rmax nelem nnodes) (map (gto_u tg) bas)
      (make_nao_gto radial_of bf_of nq xq wq ldlt tg fuel h a bas tol nelem nnodes).
Proof.
  intros. apply (make_ok radial_of bf_of nq xq wq ldlt 0 (fun fuel tol => gto_extent fuel tol) (map (gto_u tg)) gauss_shape gto_peak); auto.
  - intros p t Hp Ht. now apply gto_extent_ok.
  - intros. apply map_length.
Qed.
Lemma make_throws_ok tg fuel h a bas tol nelem nnodes :
  (~ valid_basis 1 bas -> make_nao_sto radial_of bf_of nq xq wq ldlt fuel h a bas tol nelem nnodes = Throw LogicError) /\
  (~ valid_basis 0 bas -> make_nao_gto radial_of bf_of nq xq wq ldlt tg fuel h a bas tol nelem nnodes = Throw LogicError).
Proof.
  split; intros H; [apply (make_throws radial_of bf_of nq xq wq ldlt 1 (fun fuel tol => sto_extent fuel tol) (map sto_u))|
    apply (make_throws radial_of bf_of nq xq wq ldlt 0 (fun fuel tol => gto_extent fuel tol) (map (gto_u tg)))]; auto.
Qed.
Lemma make_nodes_ok tg h a bas tol nelem nnodes : exp (- (10 ^ 40)) <= tol -> (1 <= nelem)%Z -> (nnodes < 2)%Z -> exists fuel0, forall fuel, (fuel0 <= fuel)%nat ->
  (valid_basis 1 bas -> make_nao_sto radial_of bf_of nq xq wq ldlt fuel h a bas tol nelem nnodes = Throw LogicError) /\
  (valid_basis 0 bas -> make_nao_gto radial_of bf_of nq xq wq ldlt tg fuel h a bas tol nelem nnodes = Throw LogicError).
Proof.
  intros Ht Hn Hk.
  assert (G1 : valid_basis 1 bas -> exists f0, forall f, (f0 <= f)%nat -> exists M, r_max (sto_extent f tol) bas = Ok M).
  { intros Hv. destruct (fuel_all (fun f p => exists e, sto_extent f tol p = Ok e /\ 0 < e) (primitives bas)) as (f0 & Hf).
    - intros p Hp. destruct (sto_extent_ok p (valid_prims _ _ _ Hv Hp) tol Ht) as [[P _] (f0 & Hf)]. exists f0. intros f Hle.
      destruct (Hf f Hle) as (e & E & T & _). exists e. split; auto. lra.
    - exists f0. intros f Hle. destruct (r_max_ok 1 (sto_extent f tol) bas Hv (Hf f Hle)) as (M & E & _). eauto. }
  assert (G0 : valid_basis 0 bas -> exists f0, forall f, (f0 <= f)%nat -> exists M, r_max (gto_extent f tol) bas = Ok M).
  { intros Hv. destruct (fuel_all (fun f p => exists e, gto_extent f tol p = Ok e /\ 0 < e) (primitives bas)) as (f0 & Hf).
    - intros p Hp. destruct (gto_extent_ok p (valid_prims _ _ _ Hv Hp) tol Ht) as [[P _] (f0 & Hf)]. exists f0. intros f Hle.
      destruct (Hf f Hle) as (e & E & T & _). exists e. split; auto. lra.
    - exists f0. intros f Hle. destruct (r_max_ok 0 (gto_extent f tol) bas Hv (Hf f Hle)) as (M & E & _). eauto. }
  assert (D : forall n0, valid_basis n0 bas \/ ~ valid_basis n0 bas).
  { intros n0. destruct (validate_ok n0 bas) as [V1 V2]. unfold validate in *. destruct (length bas =? 0)%nat; [right; intros X; apply V1 in X; discriminate|].
    destruct (existsb (bad_contr n0) bas); [right; intros X; apply V1 in X; discriminate|left; now apply V1]. }
  assert (Q : exists f0, forall f, (f0 <= f)%nat -> (valid_basis 1 bas -> exists M, r_max (sto_extent f tol) bas = Ok M) /\ (valid_basis 0 bas -> exists M, r_max (gto_extent f tol) bas = Ok M)).
  { destruct (D 1%Z) as [V1|V1]; destruct (D 0%Z) as [V0|V0].
    - destruct (G1 V1) as (a1 & A1). destruct (G0 V0) as (a0 & A0). exists (Nat.max a1 a0). intros f Hf. split; intros _; [apply A1|apply A0]; lia.
    - destruct (G1 V1) as (a1 & A1). exists a1. intros f Hf. split; [auto|tauto].
    - destruct (G0 V0) as (a1 & A1). exists a1. intros f Hf. split; [tauto|auto].
    - exists 0%nat. tauto. }
  destruct Q as (f0 & Hf). exists f0. intros f Hle. destruct (Hf f Hle) as [Q1 Q0]. split; intros Hv.
  - destruct (Q1 Hv) as (M & E). apply (make_nodes radial_of bf_of nq xq wq ldlt 1 (fun fuel tol => sto_extent fuel tol) (map sto_u) f h a bas tol nelem nnodes M Hv E Hn Hk).
  - destruct (Q0 Hv) as (M & E). apply (make_nodes radial_of bf_of nq xq wq ldlt 0 (fun fuel tol => gto_extent fuel tol) (map (gto_u tg)) f h a bas tol nelem nnodes M Hv E Hn Hk).
Qed.
End Make.

Lemma negative_tol tol p fuel : tol < 0 -> (valid_prim 1 p -> sto_extent fuel tol p = OutOfFuel).
Proof.
  intros Ht Hv. unfold sto_extent. pose proof (sto_peak_pos p Hv) as Hp. unfold extent.
  assert (E : forall fuel h, 0 < h -> grow fuel (sto_over_peak p) tol h = OutOfFuel).
  { induction fuel0; intros h Hh; cbn [grow];
    (destruct (Rltb_spec tol (sto_over_peak p h)) as [L|L];
     [|exfalso; apply L; unfold sto_over_peak; apply Rlt_le_trans with 0; [lra|]; apply Rmult_le_pos; [apply pow_le; left; now apply Rdiv_lt_0_compat|left; apply exp_pos]]).
    - reflexivity.
    - apply IHfuel0. lra. }
  rewrite E; [reflexivity|]. destruct Hv as [_ Hz]. assert (0 < 200 / p_exp p) by (apply Rdiv_lt_0_compat; lra). lra.
Qed.
Lemma negative_tol_g tol p fuel : tol < 0 -> (valid_prim 0 p -> gto_extent fuel tol p = OutOfFuel).
Proof.
  intros Ht Hv. unfold gto_extent. pose proof (gto_peak_pos p Hv) as Hp. unfold extent.
  assert (E : forall fuel h, 0 < h -> grow fuel (gto_over_peak p) tol h = OutOfFuel).
  { induction fuel0; intros h Hh; cbn [grow];
    (destruct (Rltb_spec tol (gto_over_peak p h)) as [L|L];
     [|exfalso; apply L; unfold gto_over_peak; apply Rlt_le_trans with 0; [lra|]; apply Rmult_le_pos; [apply pow_le; left; now apply Rdiv_lt_0_compat|left; apply exp_pos]]).
    - reflexivity.
    - apply IHfuel0. lra. }
  rewrite E; [reflexivity|]. destruct Hv as [_ Hz]. assert (0 < 20 / sqrt (p_exp p)) by (apply Rdiv_lt_0_compat; [lra|now apply sqrt_lt_R0]). lra.
Qed.
Lemma negative_ok tol p fuel : tol < 0 ->
  (valid_prim 1 p -> sto_extent fuel tol p = OutOfFuel) /\ (valid_prim 0 p -> gto_extent fuel tol p = OutOfFuel).
Proof. intros H. split; [now apply negative_tol|now apply negative_tol_g]. Qed.

(* ------------------------------------------------------------------ *)
(** * Cases *)

(** Two functions over three, on a finite element basis of two elements. *)
Definition u3 : radial := mkRadial 3 (mkD 3 3 mid) (mkD 3 3 (fun i j => INR (i + j))) (mkD 3 3 mid) (mkD 3 3 (fun _ _ => -1))
  (fun C r => Ok (map (fun j => combination 3 (column C j) (fun i r => r ^ i) r) (seq 0 (dcols C))))
  (Some (mkFem lay2 kernel2 (fun _ => kernel2))).
Definition heap3 : heap := fun a => if (a =? 7)%nat then Some u3 else None.
Definition nao3 : nao := mkNao 7 (mkD 3 2 (fun i j => INR (i + 2 * j))).
Lemma nao3_ok : nao_new heap3 (Some 7%nat) (n_C nao3) = Ok nao3 /\ wraps heap3 nao3 u3.
Proof. split; [reflexivity|]. repeat split; cbn; lia. Qed.
Lemma nao3_fem k : fem_ok u3 lay2 kernel2 k.
Proof. split; [reflexivity|]. split; [exact lay2_fits|apply kernel2_ok]. Qed.
Lemma nao3_eval r : evaluates u3 (fun i r => r ^ i) r.
Proof.
  intros C HC. eexists; split; [reflexivity|]. split; [now rewrite map_length, seq_length|].
  intros j Hj. set (f := fun j => combination 3 (column C j) (fun i r => r ^ i) r).
  rewrite (nth_indep _ 0 (f 0%nat)) by (rewrite map_length, seq_length; auto). rewrite map_nth, seq_nth by auto. reflexivity.
Qed.
Lemma nao3_kinetic : exists M, nao_kinetic heap3 nao3 = Ok M /\ dent M 0%nat 1%nat = 78.
Proof. eexists; split; [reflexivity|]. cbn. ring. Qed.
Lemma nao3_exchange : exists M J, exchange_radial heap3 nao3 0 nao3 (mkD 2 2 mid) = Ok M /\ coulomb_radial heap3 nao3 0 nao3 (mkD 2 2 mid) = Ok J /\
  dent M 0%nat 0%nat = 776 /\ dent J 0%nat 0%nat = 840.
Proof. eexists. eexists. split; [reflexivity|]. split; [reflexivity|]. cbn. unfold mscal, mzero, madd, mmul, mT, mid. cbn. split; ring. Qed.

(** A function with the two properties of Gamma that are used. *)
Definition gamma_w (x : R) : R :=
  let k := Z.to_nat (up x - 1) in let f := x - INR k in
  (if Req_EM_T f (1 / 2) then sqrt PI else 1) * fold_left (fun v j => v * (f + INR j)) (seq 0 k) 1.
Lemma up_half : up (1 / 2) = 1%Z.
Proof. symmetry. apply tech_up; lra. Qed.
Lemma gamma_w_ok : is_gamma gamma_w.
Proof.
  split.
  - unfold gamma_w. rewrite up_half. cbn [Z.sub Z.to_nat Z.add Z.opp Z.pos_sub seq fold_left INR]. replace (1 / 2 - 0) with (1 / 2) by ring.
    destruct (Req_EM_T (1 / 2) (1 / 2)); [ring|contradiction].
  - intros x Hx. unfold gamma_w. destruct (archimed x) as [A1 A2].
    assert (E : up (x + 1) = (up x + 1)%Z) by (symmetry; apply tech_up; rewrite plus_IZR; lra). rewrite E.
    assert (0 < up x)%Z by (apply lt_IZR; lra).
    replace (Z.to_nat (up x + 1 - 1)) with (S (Z.to_nat (up x - 1))) by lia. set (k := Z.to_nat (up x - 1)).
    rewrite S_INR. replace (x + 1 - (INR k + 1)) with (x - INR k) by ring. rewrite seq_S, fold_left_app. cbn [fold_left plus].
    set (F := fold_left _ _ _). destruct (Req_EM_T (x - INR k) (1 / 2)); ring.
Qed.

(** A Slater basis and a Gaussian basis, with a diagonal overlap matrix. *)
Definition two_stos : list contracted := [mkContr [mkPrim 1 1; mkPrim 2 (1 / 2)] [1; -1]; mkContr [mkPrim 3 2] [1]].
Lemma two_stos_ok : valid_basis 1 two_stos /\ valid_basis 0 two_stos.
Proof. split; (split; [discriminate|]; repeat constructor; cbn; try discriminate; try lia; lra). Qed.
Lemma tol_ok : exp (- (10 ^ 40)) <= 1 / 10 ^ 12.
Proof.
  rewrite exp_Ropp. unfold Rdiv. rewrite Rmult_1_l. apply Rinv_le_contravar; [apply pow_lt; lra|].
  apply Rle_trans with (10 ^ 40); [apply Rle_pow; [lra|lia]|]. pose proof (exp_ineq1_le (10 ^ 40)). lra.
Qed.
Definition diag_radial (b : fe) : radial :=
  mkRadial (get_nelem b) (mkD (get_nelem b) (get_nelem b) (fun i j => if (i =? j)%nat then 2 else 0))
    (mkD (get_nelem b) (get_nelem b) mzero) (mkD (get_nelem b) (get_nelem b) mzero) (mkD (get_nelem b) (get_nelem b) mzero)
    (fun _ _ => Throw LogicError) None.
Definition half_solver (S : dmat) (v : vec) : vec := fun j => v j / 2.
Lemma diag_ok b : let u := diag_radial b in square (r_nbf u) (r_overlap u) /\ solves (r_overlap u) half_solver.
Proof.
  split; [split; reflexivity|]. intros v i Hi. cbn [diag_radial r_overlap drows dcols dent] in *.
  rewrite (sum_single _ i); auto.
  - rewrite Nat.eqb_refl. unfold half_solver. field.
  - intros j Hj Hne. destruct (Nat.eqb_spec i j); [congruence|ring].
Qed.

(** The projection of r^2 on 1 and r, with the inner product of the values at 0, 1, 2. *)
Definition three_points (f g : R -> R) : R := f 0 * g 0 + f 1 * g 1 + f 2 * g 2.
Definition lines (i : nat) (r : R) : R := match i with O => 1 | _ => r end.
Definition line_fit : vec := fun i => match i with O => -1 / 3 | _ => 2 end.
Lemma three_inner : inner three_points.
Proof.
  unfold inner, bilinear, three_points. repeat split; intros; try ring; try (rewrite !H; ring).
  pose proof (Rle_0_sqr (f 0)). pose proof (Rle_0_sqr (f 1)). pose proof (Rle_0_sqr (f 2)). unfold Rsqr in *. lra.
Qed.
Lemma line_case : (forall i, (i < 2)%nat -> sum 2 (fun j => three_points (lines i) (lines j) * line_fit j) = three_points (lines i) (fun r => r * r)) /\
  nonsingular 2 (fun i j => three_points (lines i) (lines j)).
Proof.
  unfold three_points, line_fit, nonsingular. split.
  - intros [|[|i]] Hi; cbn [sum lines]; try lia; field.
  - intros x H i Hi. pose proof (H 0%nat ltac:(lia)) as H0. pose proof (H 1%nat ltac:(lia)) as H1. cbn [sum lines] in H0, H1.
    destruct i as [|[|i]]; [lra|lra|lia].
Qed.
