(** What the two-dimensional quadrature computes, and examples. *)
Require Import Reals ZArith List Bool Arith Lia Lra Psatz.
Require Import Verif.Prelude Verif.FEModel Verif.FESpec Verif.AngModel Verif.AngSpec Verif.JKModel Verif.DftModel Verif.DftSpec Verif.DftProofs Verif.DftAtom Verif.DftWit Verif.DdfSpec Verif.DdfDrv Verif.PmModel Verif.PmSpec Verif.PmBf Verif.PmDrv Verif.PmMore Verif.PotModel Verif.CbModel Verif.CbProofs Verif.TqModel Verif.TqSpec Verif.TqProofs Verif.TqDrv.
Import ListNotations.
Local Open Scope R_scope.

(** * Sums over the points *)
Section Sums.
Variables (b : abasis) (N : nat).
Definition L (F : nat -> nat -> nat -> R) : R := lsum2 b (fun iel ir => sum N (fun ia => F iel ir ia)).
Definition at_pt (iel ir ia : nat) : Prop := (iel < get_nelem (ab_fe b))%nat /\ (ir < length (ab_r b iel))%nat /\ (ia < N)%nat.
Lemma L_ext F G : (forall iel ir ia, at_pt iel ir ia -> F iel ir ia = G iel ir ia) -> L F = L G.
Proof. intros H. apply lsum2_ext. intros. apply sum_ext. intros. apply H. split; [|split]; assumption. Qed.
Lemma L_plus F G : L (fun e r a => F e r a + G e r a) = L F + L G.
Proof.
  unfold L, lsum2. rewrite <- lsum_plus. apply lsum_ext. intros. rewrite <- lsum_plus. apply lsum_ext. intros. apply sum_plus.
Qed.
Lemma L_scal c F : L (fun e r a => c * F e r a) = c * L F.
Proof.
  unfold L, lsum2. rewrite <- lsum_scal. apply lsum_ext. intros. rewrite <- lsum_scal. apply lsum_ext. intros. apply sum_scal.
Qed.
Lemma L_zero : L (fun _ _ _ => 0) = 0.
Proof. unfold L. transitivity (lsum2 b (fun _ _ => 0)); [apply lsum2_ext; intros; apply sum_zero'; auto|apply lsum2_zero]. Qed.
Lemma L_sum k (F : nat -> nat -> nat -> nat -> R) : sum k (fun i => L (F i)) = L (fun e r a => sum k (fun i => F i e r a)).
Proof. induction k as [|k IH]; cbn [sum]; [symmetry; apply L_zero|]. rewrite IH. symmetry. apply (L_plus (fun e r a => sum k (fun i => F i e r a)) (F k)). Qed.
Lemma lsum_ge0 {A} (l : list A) f : (forall a, In a l -> 0 <= f a) -> 0 <= lsum l f.
Proof.
  induction l as [|a l IH]; intros H; cbn [lsum]; [lra|]. assert (H1 := H a (or_introl eq_refl)). assert (H2 : 0 <= lsum l f) by (apply IH; intros; apply H; right; assumption). lra.
Qed.
Lemma lsum_pos {A} (l : list A) f a : (forall a, In a l -> 0 <= f a) -> In a l -> 0 < f a -> 0 < lsum l f.
Proof.
  induction l as [|x l IH]; intros H Hi Hp; [contradiction|]. cbn [lsum]. assert (H1 := H x (or_introl eq_refl)).
  assert (H2 : 0 <= lsum l f) by (apply lsum_ge0; intros; apply H; right; assumption).
  destruct Hi as [->|Hi]; [lra|]. assert (0 < lsum l f) by (apply IH; auto; intros; apply H; right; assumption). lra.
Qed.
Lemma L_ge0 F : (forall e r a, at_pt e r a -> 0 <= F e r a) -> 0 <= L F.
Proof.
  intros H. apply lsum_ge0. intros e He. apply in_seq in He. apply lsum_ge0. intros r Hr. apply in_seq in Hr. rewrite <- lsum_seq0. apply lsum_ge0.
  intros a Ha. apply in_seq in Ha. apply H. split; [|split]; lia.
Qed.
Lemma L_pos F e r a : (forall e r a, at_pt e r a -> 0 <= F e r a) -> at_pt e r a -> 0 < F e r a -> 0 < L F.
Proof.
  intros H (H1 & H2 & H3) Hp. assert (G : forall e r, (e < get_nelem (ab_fe b))%nat -> (r < length (ab_r b e))%nat -> 0 <= sum N (fun a => F e r a)).
  { intros e' r' He Hr. rewrite <- lsum_seq0. apply lsum_ge0. intros x Hx. apply in_seq in Hx. apply H. split; [|split]; lia. }
  apply (lsum_pos _ _ e); [|apply in_seq; lia|].
  - intros e' He. apply in_seq in He. apply lsum_ge0. intros r' Hr. apply in_seq in Hr. apply G; lia.
  - apply (lsum_pos _ _ r); [|apply in_seq; lia|].
    + intros r' Hr. apply in_seq in Hr. apply G; lia.
    + rewrite <- lsum_seq0. apply (lsum_pos _ _ a); [|apply in_seq; lia|exact Hp]. intros x Hx. apply in_seq in Hx. apply H. split; [|split]; lia.
Qed.
Lemma L_schwarz w u v : (forall e r a, at_pt e r a -> 0 <= w e r a) ->
  Rsqr (L (fun e r a => w e r a * u e r a * v e r a)) <= L (fun e r a => w e r a * u e r a * u e r a) * L (fun e r a => w e r a * v e r a * v e r a).
Proof.
  intros Hw. set (A := L (fun e r a => w e r a * u e r a * u e r a)). set (B := L (fun e r a => w e r a * u e r a * v e r a)). set (C := L (fun e r a => w e r a * v e r a * v e r a)).
  assert (Q : forall s t, 0 <= s * s * A + 2 * (s * t) * B + t * t * C).
  { intros s t. unfold A, B, C. rewrite <- !L_scal, <- !L_plus. apply L_ge0. intros e r a H. assert (W := Hw e r a H).
    replace (_ + _ + _) with (w e r a * ((s * u e r a + t * v e r a) * (s * u e r a + t * v e r a))) by ring. apply Rmult_le_pos; [exact W|]. apply Rle_0_sqr. }
  assert (A0 : 0 <= A) by (specialize (Q 1 0); lra). assert (C0 : 0 <= C) by (specialize (Q 0 1); lra).
  unfold Rsqr. destruct (Req_dec A 0) as [E|E].
  - rewrite E. assert (Q1 := Q (- (C + 1)) B). assert (Q2 := Q (C + 1) B). rewrite E in Q1, Q2. 
    assert (0 <= - (B * B * (C + 2))) by (ring_simplify in Q1; ring_simplify; lra). assert (0 <= B * B) by (apply Rle_0_sqr). nra.
  - assert (Q1 := Q (- B) A). assert (0 < A) by lra.
    assert (Q2 : 0 <= A * (A * C - B * B)) by (ring_simplify in Q1; ring_simplify; lra).
    assert (0 <= A * C - B * B) by (apply (Rmult_le_reg_l A); lra). lra.
Qed.
End Sums.

Section Basis.
Variables (b : abasis) (Rh : R) (lang : nat).
Hypothesis HB : di_basis_ok b Rh.
Let ru := cheb_rule lang.
Let nbf := di_nbf b.
Let P e r a := di_raw_point b Rh (plane ru) e r a.
Let S e r a := spot Rh (nth r (ab_r b e) 0) (fst (nth a ru (0, 0))).
Lemma gsum_L F : gsum b Rh ru F = L b (length ru) (fun e r a => F (P e r a) (S e r a)).
Proof. apply gsum_eq. Qed.
Lemma weight_ge0 e r a : weights_ok b -> at_pt b (length ru) e r a -> 0 <= p_w (P e r a).
Proof.
  intros HW (H1 & H2 & H3). assert (HG := cheb_grid b Rh lang HB). unfold P. rewrite (P_w b Rh ru HG e r a H3).
  destruct (place_ok b Rh ru HG e r a H1 H2 H3) as (R1 & R2 & R3). destruct (cheb_in lang _ (nth_In ru (0, 0) H3)) as [_ W].
  destruct (HA b Rh ru HG) as (_ & _ & _ & HT). destruct (HT e H1) as (_ & Hl & _).
  assert (W2 : 0 <= nth r (ab_wrad b e) 0) by (apply (HW e); [exact H1|apply nth_In; rewrite Hl; exact H2]).
  unfold tq_weight. fold (nu ru a) in W. assert (PI0 := PI_RGT_0). assert (R3' : 0 < Rh ^ 3) by (apply pow_lt; exact R1).
  apply Rmult_le_pos; [|assert (X := pow2_ge_0 (sinh (nth r (ab_r b e) 0))); assert (X' := pow2_ge_0 (sqrt (1 - fst (nu ru a) * fst (nu ru a)))); lra].
  apply Rmult_le_pos; [|lra]. apply Rmult_le_pos; [|lra]. apply Rmult_le_pos; [|exact W2]. apply Rmult_le_pos; lra.
Qed.

Lemma potential_symmetric p1 p2 V : tq_model_potential b Rh lang p1 p2 = Ok V -> forall i j, (i < nbf)%nat -> (j < nbf)%nat -> dent V i j = dent V j i.
Proof.
  intros E i j Hi Hj. destruct (potential_ok b Rh lang HB p1 p2) as (V' & E' & H). rewrite E in E'. injection E' as <-. destruct H as (_ & _ & H).
  rewrite !H by assumption. rewrite (Z.eqb_sym (fn_m b j)). destruct (_ =? _)%Z; [|reflexivity].
  rewrite !gsum_L. apply L_ext. intros e r a _. rewrite (reprod_sym (p_f _ (di_fn b j))). ring.
Qed.

Section Proj.
Variables (Y : nat -> nat -> R -> R) (g : nat -> R -> R) (k : nat) (ao : R -> res (list R)) (l : nat) (m : Z) (p : probe).
Hypothesis Hao : forall r, ao r = Ok (map (fun a => g a r) (seq 0 k)).
(** The code has the right angle. *)
Hypothesis Hp : p <> PROBE_MIDDLE \/ forall t t', Y l (Z.abs_nat m) t = Y l (Z.abs_nat m) t'.
Let fn a s := g a (from (centre Rh p) s) * Y l (Z.abs_nat m) (polar Rh p s).
Lemma gval_ok a s c : gval Rh Y g l m p a s c = fn a s.
Proof. unfold gval, fn. f_equal. destruct Hp as [H|H]; [|apply H]. unfold code_angle. destruct p; [reflexivity|contradiction|reflexivity]. Qed.
Lemma projection_val : exists S, tq_projection b Rh lang Y k ao l m p = Ok S /\
  is_mat S k nbf (fun a j => if (fn_m b j =? m)%Z then gsum b Rh ru (fun q s => p_w q * fn a s * fst (p_f q (di_fn b j))) else 0).
Proof.
  destruct (projection_ok b Rh lang HB Y g k ao l m p Hao) as (S0 & E & H). exists S0. split; [exact E|]. apply (is_mat_ext _ _ _ _ _ H).
  intros a j _ _. destruct (_ =? _)%Z; [|reflexivity]. rewrite gsum_L. apply L_ext. intros e r i _. rewrite gval_ok. reflexivity.
Qed.
Lemma overlap_val : exists S, tq_overlap b Rh lang Y k ao l m p = Ok S /\
  is_mat S k k (fun a c => gsum b Rh ru (fun q s => p_w q * fn a s * fn c s)).
Proof.
  destruct (overlap_ok b Rh lang HB Y g k ao l m p Hao) as (S0 & E & H). exists S0. split; [exact E|]. apply (is_mat_ext _ _ _ _ _ H).
  intros a c _ _. rewrite gsum_L. apply L_ext. intros e r i _. rewrite !gval_ok. reflexivity.
Qed.
End Proj.

(** Whatever the angle, the overlap is that of functions on the points. *)
Section Over.
Variables (Y : nat -> nat -> R -> R) (g : nat -> R -> R) (k : nat) (ao : R -> res (list R)) (l : nat) (m : Z) (p : probe).
Hypothesis Hao : forall r, ao r = Ok (map (fun a => g a r) (seq 0 k)).
Hypothesis HW : weights_ok b.
Let gv i e r a := gval Rh Y g l m p i (S e r a) (fst (nth a ru (0, 0))).
Lemma overlap_psd O : tq_overlap b Rh lang Y k ao l m p = Ok O ->
  (forall i j, (i < k)%nat -> (j < k)%nat -> dent O i j = dent O j i) /\
  forall x, 0 <= sum k (fun i => sum k (fun j => x i * x j * dent O i j)).
Proof.
  intros E. destruct (overlap_ok b Rh lang HB Y g k ao l m p Hao) as (O' & E' & H). rewrite E in E'. injection E' as <-. destruct H as (_ & _ & H). split.
  - intros i j Hi Hj. rewrite !H by assumption. apply L_ext. intros. ring.
  - intros x.
    apply Rle_trans with (L b (length ru) (fun e r a => p_w (P e r a) * (sum k (fun i => x i * gv i e r a) * sum k (fun j => x j * gv j e r a)))).
    + apply L_ge0. intros e r a Ha. apply Rmult_le_pos; [apply weight_ge0; assumption|apply Rle_0_sqr].
    + right. transitivity (sum k (fun i => L b (length ru) (fun e r a => p_w (P e r a) * (x i * gv i e r a * sum k (fun j => x j * gv j e r a))))).
      * rewrite L_sum. apply L_ext. intros e r a _. rewrite sum_scal. f_equal. rewrite <- sum_scal_r. reflexivity.
      * apply sum_ext. intros i Hi. transitivity (sum k (fun j => L b (length ru) (fun e r a => x i * x j * (p_w (P e r a) * gv i e r a * gv j e r a)))).
        -- rewrite L_sum. apply L_ext. intros e r a _. rewrite <- !sum_scal. apply sum_ext. intros. ring.
        -- apply sum_ext. intros j Hj. rewrite L_scal, H by assumption. reflexivity.
Qed.
Lemma overlap_bound O Q : tq_overlap b Rh lang Y k ao l m p = Ok O -> tq_projection b Rh lang Y k ao l m p = Ok Q ->
  forall i j, (i < k)%nat -> (j < nbf)%nat -> Rsqr (dent Q i j) <= dent O i i * gsum b Rh ru (fun q _ => p_w q * reprod (p_f q (di_fn b j)) (p_f q (di_fn b j))).
Proof.
  intros E1 E2 i j Hi Hj. destruct (overlap_ok b Rh lang HB Y g k ao l m p Hao) as (O' & E' & H). rewrite E1 in E'. injection E' as <-. destruct H as (_ & _ & H).
  destruct (projection_ok b Rh lang HB Y g k ao l m p Hao) as (Q' & E' & H'). rewrite E2 in E'. injection E' as <-. destruct H' as (_ & _ & H').
  rewrite H, H' by assumption. rewrite gsum_L.
  assert (C := L_schwarz b (length ru) (fun e r a => p_w (P e r a)) (gv i) (fun e r a => fst (p_f (P e r a) (di_fn b j))) (fun e r a => weight_ge0 e r a HW)).
  assert (E : L b (length ru) (fun e r a => p_w (P e r a) * reprod (p_f (P e r a) (di_fn b j)) (p_f (P e r a) (di_fn b j)))
    = L b (length ru) (fun e r a => p_w (P e r a) * fst (p_f (P e r a) (di_fn b j)) * fst (p_f (P e r a) (di_fn b j)))).
  { apply L_ext. intros e r a (H1 & H2 & H3). unfold reprod. unfold P. rewrite (P_snd b Rh ru (cheb_grid b Rh lang HB) e r H1 H2 a (di_fn b j) H3 (di_fn_lt b j Hj)). ring. }
  rewrite E. destruct (_ =? _)%Z; [exact C|]. rewrite Rsqr_0. apply Rle_trans with (2 := C). apply Rle_0_sqr.
Qed.
End Over.
End Basis.

(** * Gaussian and Slater functions *)
Lemma gto_ao l expn r : tq_gto l expn r = Ok (map (fun a => radial_GTO r l (nth a expn 0)) (seq 0 (length expn))).
Proof.
  unfold tq_gto. f_equal. apply nth_ext with (d := 0) (d' := 0); [rewrite !map_length, seq_length; reflexivity|].
  intros i Hi. rewrite map_length in Hi. rewrite nth_map_seq by exact Hi. rewrite (nth_indep _ 0 (radial_GTO r l 0)) by (rewrite map_length; exact Hi). apply map_nth.
Qed.
Lemma sto_ao l expn r : tq_sto l expn r = Ok (map (fun a => radial_STO r l (nth a expn 0)) (seq 0 (length expn))).
Proof.
  unfold tq_sto. f_equal. apply nth_ext with (d := 0) (d' := 0); [rewrite !map_length, seq_length; reflexivity|].
  intros i Hi. rewrite map_length in Hi. rewrite nth_map_seq by exact Hi. rewrite (nth_indep _ 0 (radial_STO r l 0)) by (rewrite map_length; exact Hi). apply map_nth.
Qed.

(** * An example *)
Lemma wpm_basis : di_basis_ok wpm 1.
Proof.
  split; [|intros c Hc; apply wpm_harmonics; exact Hc]. destruct wpm_ok as ((R1 & H1 & H2 & _ & H4) & H5 & _).
  split; [split; [lra|]|split; [exact H5|intros q []]]. split; [exact H1|split; [exact H2|split; [|exact H4]]]. intros ia H. cbn in H. lia.
Qed.
Lemma wpm_weights : weights_ok wpm.
Proof. intros iel w _ [<-|[]]. lra. Qed.
Lemma gto_pos r l al : 0 < r -> 0 < radial_GTO r l al.
Proof.
  intros Hr. unfold radial_GTO. unfold Rdiv. assert (PI0 := PI_RGT_0).
  assert (D : forall n, 0 < double_factorial n /\ 0 < double_factorial (Datatypes.S n)).
  { induction n as [|n [I1 I2]]; [cbn; lra|]. split; [exact I2|]. cbn [double_factorial]. apply Rmult_lt_0_compat; [apply lt_0_INR; lia|exact I1]. }
  apply Rmult_lt_0_compat.
  - repeat apply Rmult_lt_0_compat; try apply exp_pos; [apply pow_lt; lra|apply pow_lt; exact Hr].
  - apply Rinv_0_lt_compat. apply Rmult_lt_0_compat; [apply exp_pos|]. apply sqrt_lt_R0. apply D.
Qed.
Lemma middle_wrong : exists Q, gto_projection wpm 1 2 wPl 1 0 [1] PROBE_MIDDLE = Ok Q /\ fn_m wpm 4 = 0%Z /\
  dent Q 0%nat 4%nat <> gsum wpm 1 (cheb_rule 2) (fun q s => p_w q * (radial_GTO (from (centre 1 PROBE_MIDDLE) s) 1 1 * wPl 1 0 (polar 1 PROBE_MIDDLE s)) * fst (p_f q (di_fn wpm 4))).
Proof.
  assert (HG := cheb_grid wpm 1 2 wpm_basis).
  destruct (projection_ok wpm 1 2 wpm_basis wPl (fun a r => radial_GTO r 1 (nth a [1] 0)) 1 (tq_gto 1 [1]) 1 0 PROBE_MIDDLE (gto_ao 1 [1])) as (Q & E & H).
  exists Q. split; [exact E|]. split; [reflexivity|]. destruct H as (_ & _ & H). rewrite (H 0%nat 4%nat) by (first [apply Nat.ltb_lt; vm_compute; reflexivity]).
  change (fn_m wpm 4 =? 0)%Z with true. cbv iota.
  rewrite gsum_L. set (ru := cheb_rule 2) in *.
  match goal with |- ?A <> _ => change A with (L wpm (length ru) (fun e r a => p_w (di_raw_point wpm 1 (plane ru) e r a)
    * gval 1 wPl (fun a r => radial_GTO r 1 (nth a [1] 0)) 1 0 PROBE_MIDDLE 0 (spot 1 (nth r (ab_r wpm e) 0) (fst (nth a ru (0, 0)))) (fst (nth a ru (0, 0)))
    * fst (p_f (di_raw_point wpm 1 (plane ru) e r a) (di_fn wpm 4)))) end.
  apply Rlt_not_eq.
  match goal with |- L _ _ ?f < L _ _ ?h => set (F := f); set (K := h) end.
  assert (Z : L wpm (length ru) K = L wpm (length ru) F + L wpm (length ru) (fun e r a => K e r a + -1 * F e r a)) by (rewrite L_plus, L_scal; ring).
  rewrite Z. assert (PI0 := PI_RGT_0). set (s0 := sqrt (3 / (4 * PI))).
  assert (S0 : 0 < s0) by (apply sqrt_lt_R0; apply Rmult_lt_0_compat; [lra|apply Rinv_0_lt_compat; lra]).
  assert (S2 : 0 < sqrt 2) by (apply sqrt_lt_R0; lra).
  assert (V : forall e r a, at_pt wpm (length ru) e r a -> exists X, 0 < X /\ K e r a + -1 * F e r a = X * radial_value wpm (ab_f wpm) e r 1 * (fst (nth a ru (0, 0)) * fst (nth a ru (0, 0)))).
  { intros e r a (H1 & H2 & H3). destruct (place_ok wpm 1 ru HG e r a H1 H2 H3) as (R1 & R2 & R3).
    set (c := fst (nth a ru (0, 0))) in *. set (mu := nth r (ab_r wpm e) 0) in *. assert (C1 := ch_gt mu R2).
    set (D := sqrt (cosh mu * cosh mu + c * c - 1)). assert (D1 : D * D = cosh mu * cosh mu + c * c - 1) by (apply sqrt_sqrt; nra).
    assert (D0 : 0 < D) by (apply sqrt_lt_R0; nra). assert (D2 : D < cosh mu) by nra.
    assert (PW : 0 < p_w (di_raw_point wpm 1 (plane ru) e r a)).
    { rewrite (P_w wpm 1 ru HG e r a H3). destruct (cheb_in 2 _ (nth_In ru (0, 0) H3)) as [_ W]. fold mu. unfold tq_weight. fold (nu ru a) in W.
      assert (WR : nth r (ab_wrad wpm e) 0 = 1) by (cbn [wpm ab_r length] in H2; destruct r; [reflexivity|lia]). rewrite WR.
      assert (0 < sinh mu ^ 2) by (apply pow_lt; exact R2). assert (X' := pow2_ge_0 (sqrt (1 - fst (nu ru a) * fst (nu ru a)))).
      assert (G : forall pi s w x, 0 < pi -> 0 < s -> 0 < w -> 0 <= x -> 0 < 2 * pi * w * 1 * 1 ^ 3 * s * (s ^ 2 + x)).
      { intros pi s w x Hpi Hs Hw Hx. assert (0 < s ^ 2) by (apply pow_lt; exact Hs). repeat apply Rmult_lt_0_compat; lra. }
      apply G; assumption. }
    assert (FR : from 0 (spot 1 mu c) = D) by (rewrite from_middle by (auto; lra); fold D; ring).
    assert (GP := gto_pos D 1 1 D0).
    exists (p_w (di_raw_point wpm 1 (plane ru) e r a) * radial_GTO D 1 1 * s0 * sqrt 2 * (cosh mu / D - 1)). split.
    - apply Rmult_lt_0_compat; [apply Rmult_lt_0_compat; [apply Rmult_lt_0_compat; [apply Rmult_lt_0_compat; assumption|exact S0]|exact S2]|]. assert (I := Rinv_0_lt_compat D D0). assert (I2 : D * / D = 1) by (apply Rinv_r; lra). unfold Rdiv. nra.
    - unfold K, F. fold mu c. rewrite (P_f wpm 1 ru e r a (di_fn wpm 4) H3).
      change (raw_l wpm (di_fn wpm 4)) with 1%Z. change (raw_m wpm (di_fn wpm 4)) with 0%Z. change (raw_k wpm (di_fn wpm 4)) with 1%nat.
      change (ab_Y wpm 1 0 (fst (nu ru a)) 0) with (sqrt 2 * c, 0). unfold cscal. cbn [fst].
      unfold gval. cbn [centre code_angle nth Z.abs_nat]. rewrite FR. unfold wPl. cbn [Nat.eqb andb]. fold s0.
      assert (CL : clamp1 c = c) by (unfold clamp1; destruct (Rltb_spec c (-1)); [lra|]; destruct (Rltb_spec 1 c); [lra|reflexivity]).
      rewrite CL, cos_acos by lra. unfold polar. cbn [axis centre]. rewrite FR. cbn [spot snd].
      replace (1 * (1 * cosh mu * c - 0) / D) with (cosh mu * c / D) by (field; lra).
      rewrite cos_acos.
      + field. lra.
      + assert (I := Rinv_0_lt_compat D D0). assert (I2 : D * / D = 1) by (apply Rinv_r; lra).
        assert (B : Rsqr (cosh mu * c) <= Rsqr D).
        { unfold Rsqr. rewrite D1. assert (B1 : 0 <= (cosh mu * cosh mu - 1) * (1 - c * c)) by (apply Rmult_le_pos; nra). lra. }
        apply Rsqr_le_abs_0 in B. rewrite (Rabs_pos_eq D) in B by lra. assert (B2 := Rle_abs (cosh mu * c)). assert (B3 := Rle_abs (- (cosh mu * c))). rewrite Rabs_Ropp in B3.
        unfold Rdiv. split; nra. }
  assert (RV : forall e r, 0 <= radial_value wpm (ab_f wpm) e r 1).
  { intros e r. unfold radial_value. destruct (elem_range (ab_fe wpm) e) as [f n0]. destruct (_ && _)%bool; [cbn; lra|lra]. }
  assert (PQ : 0 < L wpm (length ru) (fun e r a => K e r a + -1 * F e r a)); [|lra].
  assert (A0 : at_pt wpm (length ru) 0 0 0) by (split; [cbn; lia|split; [cbn; lia|unfold ru; rewrite cheb_len; lia]]).
  apply (L_pos _ _ _ 0 0 0)%nat.
  - intros e r a Ha. destruct (V e r a Ha) as (X & X0 & ->). apply Rmult_le_pos; [apply Rmult_le_pos; [lra|apply RV]|apply Rle_0_sqr].
  - exact A0.
  - destruct (V _ _ _ A0) as (X & X0 & ->). apply Rmult_lt_0_compat; [apply Rmult_lt_0_compat; [exact X0|change (radial_value wpm (ab_f wpm) 0 0 1) with 1; lra]|].
    assert (N : fst (nth 0 ru (0, 0)) < 0).
    { change (fst (nth 0 ru (0, 0))) with (fst (chebyshev 2) 0%nat).
      assert (I := cheb_increasing 2 0 1 ltac:(lia) ltac:(lia)). destruct (cheb_sym 2 0 ltac:(lia)) as [Y1 _]. cbn [Nat.sub] in Y1. lra. }
    nra.
Qed.

(** * Atoms *)
Definition row_ok (z : Z) : bool :=
  match per_l_occ z with
  | Ok occ => ((fold_left Z.add occ 0 =? z) && forallb (Z.leb 0) occ && (0 <? last occ 0) && Nat.leb (length occ) 4)%Z%bool
  | _ => false
  end.
Lemma table_ok z : (1 <= z <= 118)%Z -> row_ok z = true.
Proof.
  intros H. assert (A : forallb (fun k => row_ok (Z.of_nat k)) (seq 1 118) = true) by (vm_compute; reflexivity).
  rewrite forallb_forall in A. rewrite <- (Z2Nat.id z) by lia. apply A. apply in_seq. lia.
Qed.
Lemma occ_ok z : (1 <= z <= 118)%Z -> exists occ, per_l_occ z = Ok occ /\ fold_left Z.add occ 0%Z = z /\
  (forall n, In n occ -> 0 <= n)%Z /\ (0 < last occ 0)%Z /\ (length occ <= 4)%nat.
Proof.
  intros H. assert (T := table_ok z H). unfold row_ok in T. destruct (per_l_occ z) as [occ| | |]; try discriminate. exists occ.
  rewrite !andb_true_iff in T. destruct T as (((T1 & T2) & T3) & T4). rewrite forallb_forall in T2.
  split; [reflexivity|]. split; [lia|]. split; [intros n Hn; apply Z.leb_le, T2, Hn|]. split; [lia|apply Nat.leb_le; exact T4].
Qed.
Lemma options_ok z : (1 <= z <= 118)%Z -> exists o, side_options z = Ok o /\ so_Z o = z /\ fold_left Z.add (so_fixed o) 0%Z = z /\
  (so_nela o + so_nelb o = 2 * (z / 2))%Z /\ Z.of_nat (length (so_fixed o)) = (so_lmax o + 1)%Z.
Proof.
  intros H. destruct (occ_ok z H) as (occ & E & S & _). unfold side_options.
  assert (EL : exists lm, lmax_for_Z z = Ok lm) by (unfold per_l_occ in E; destruct (lmax_for_Z z) as [lm| | |]; try discriminate; eauto).
  destruct EL as (lm & EL). rewrite EL. cbn [bind]. rewrite E. cbn [bind]. eexists. split; [reflexivity|]. cbn [so_Z so_fixed so_nela so_nelb so_lmax].
  split; [reflexivity|]. split; [exact S|]. rewrite S, Z.quot_div_nonneg by lia. split; [lia|].
  assert (A : forallb (fun k => match per_l_occ (Z.of_nat k), lmax_for_Z (Z.of_nat k) with Ok o, Ok lm => (Z.of_nat (length o) =? lm + 1)%Z | _, _ => false end) (seq 1 118) = true) by (vm_compute; reflexivity).
  rewrite forallb_forall in A. specialize (A (Z.to_nat z)). rewrite Z2Nat.id in A by lia. rewrite E, EL in A. apply Z.eqb_eq, A, in_seq. lia.
Qed.
Lemma outside_ub z : (z < 1 \/ 118 < z)%Z -> side_options z = UB.
Proof.
  intros H. unfold side_options, lmax_for_Z. cbn [fold_right]. assert (E : pbe z 3 = UB); [|rewrite E; reflexivity].
  unfold pbe. destruct (Z.ltb_spec z 1); cbn [orb]; [reflexivity|]. cbn [Z.ltb]. cbn. unfold vget.
  assert (N : nth_error pbe_ground_states (Z.to_nat (z - 1)) = None) by (apply nth_error_None; change (length pbe_ground_states) with 118%nat; lia).
  rewrite N. reflexivity.
Qed.
Lemma ceil_holds l n : holds l n (ceil_div n (2 * (2 * Z.of_nat l + 1))).
Proof.
  unfold holds, ceil_div. set (d := (2 * (2 * Z.of_nat l + 1))%Z). assert (D : (0 < d)%Z) by (unfold d; lia).
  assert (E := Z.div_mod (- n) d ltac:(lia)). assert (B := Z.mod_pos_bound (- n) d D). nia.
Qed.
Lemma orbitals_ok g l p occ C k : p <> PROBE_MIDDLE -> nth_error (s_occs (side_of g p)) l = Some occ -> nth_error (s_orbs (side_of g p)) l = Some C ->
  (0 < occ)%Z -> holds l occ k -> (k <= Z.of_nat (dcols C))%Z ->
  tq_orbitals g l p = Ok (Some (side_of g p, mkD (drows C) (Z.to_nat k) (dent C))).
Proof.
  intros Hp Ho HC Hpos Hk Hc. unfold tq_orbitals.
  assert (K : k = ceil_div occ (2 * (2 * Z.of_nat l + 1))) by (assert (A := ceil_holds l occ); unfold holds in *; nia).
  assert (K1 : (1 <= k)%Z) by (unfold holds in Hk; nia).
  assert (G : forall s, nth_error (s_occs s) l = Some occ -> nth_error (s_orbs s) l = Some C ->
    (if Nat.leb (length (s_occs s)) l then Ok None else bind (vget (s_occs s) l) (fun occ0 => let nocc := ceil_div occ0 (2 * (2 * Z.of_nat l + 1)) in
      if (nocc =? 0)%Z then Ok None else bind (vget (s_orbs s) l) (fun o => bind (left_cols o nocc) (fun C0 => Ok (Some (s, C0)))))) = Ok (Some (s, mkD (drows C) (Z.to_nat k) (dent C)))).
  { intros s H1 H2. assert (Hl : (l < length (s_occs s))%nat) by (apply nth_error_Some; rewrite H1; discriminate).
    destruct (Nat.leb_spec (length (s_occs s)) l); [lia|]. unfold vget. rewrite H1. cbn [bind]. cbv zeta. rewrite <- K.
    destruct (Z.eqb_spec k 0); [lia|]. rewrite H2. cbn [bind]. unfold left_cols. destruct (Z.ltb_spec k 0); [lia|]. destruct (Z.ltb_spec (Z.of_nat (dcols C)) k); [lia|]. reflexivity. }
  destruct p; [apply G; assumption|contradiction|apply G; assumption].
Qed.
Lemma orbitals_none g l p : p <> PROBE_MIDDLE -> (length (s_occs (side_of g p)) <= l)%nat \/ nth_error (s_occs (side_of g p)) l = Some 0%Z -> tq_orbitals g l p = Ok None.
Proof.
  intros Hp H. unfold tq_orbitals.
  assert (G : forall s, (length (s_occs s) <= l)%nat \/ nth_error (s_occs s) l = Some 0%Z ->
    (if Nat.leb (length (s_occs s)) l then Ok None else bind (vget (s_occs s) l) (fun occ0 => let nocc := ceil_div occ0 (2 * (2 * Z.of_nat l + 1)) in
      if (nocc =? 0)%Z then Ok None else bind (vget (s_orbs s) l) (fun o => bind (left_cols o nocc) (fun C0 => Ok (Some (s, C0)))))) = Ok None).
  { intros s Hs. destruct (Nat.leb_spec (length (s_occs s)) l); [reflexivity|]. destruct Hs as [Hs|Hs]; [lia|]. unfold vget. rewrite Hs. reflexivity. }
  destruct p; [apply G; assumption|contradiction|apply G; assumption].
Qed.
Lemma atomic_none b Rh lang Y g l m p : p <> PROBE_MIDDLE -> (length (s_occs (side_of g p)) <= l)%nat \/ nth_error (s_occs (side_of g p)) l = Some 0%Z ->
  atomic_projection b Rh lang Y g l m p = Ok dempty.
Proof. intros Hp H. unfold atomic_projection. rewrite orbitals_none by assumption. reflexivity. Qed.
Lemma atomic_ok b Rh lang Y g l m p occ C k phi : di_basis_ok b Rh -> p <> PROBE_MIDDLE ->
  nth_error (s_occs (side_of g p)) l = Some occ -> nth_error (s_orbs (side_of g p)) l = Some C -> (0 < occ)%Z -> holds l occ (Z.of_nat k) -> (k <= dcols C)%nat ->
  (forall r, s_eval (side_of g p) (mkD (drows C) k (dent C)) r = Ok (map (fun a => phi a r) (seq 0 k))) ->
  exists S, atomic_projection b Rh lang Y g l m p = Ok S /\
  is_mat S k (di_nbf b) (fun a j => if (fn_m b j =? m)%Z then gsum b Rh (cheb_rule lang) (fun q s => p_w q * (phi a (from (centre Rh p) s) * Y l (Z.abs_nat m) (polar Rh p s)) * fst (p_f q (di_fn b j))) else 0).
Proof.
  intros HB Hp Ho HC Hpos Hk Hc He. unfold atomic_projection. rewrite (orbitals_ok g l p occ C (Z.of_nat k)) by (try assumption; lia). cbn [bind dcols]. rewrite Nat2Z.id.
  apply (projection_val b Rh lang HB Y phi k _ l m p He). left. exact Hp.
Qed.
Lemma atomic_middle b Rh lang Y g l m : atomic_projection b Rh lang Y g l m PROBE_MIDDLE = Throw LogicError.
Proof. reflexivity. Qed.
Lemma atoms_left scf Zl Zr g g' : compute_atoms scf Zl Zr g = Ok g' ->
  ((Zl <= 0)%Z -> g_lh g' = g_lh g) /\ ((Zr <= 0)%Z -> g_rh g' = g_rh g) /\
  ((0 < Zl)%Z -> exists o, side_options Zl = Ok o /\ scf o = Ok (g_lh g')) /\ ((0 < Zr)%Z -> exists o, side_options Zr = Ok o /\ scf o = Ok (g_rh g')).
Proof.
  unfold compute_atoms. intros E.
  assert (R : forall z s s', (if (0 <? z)%Z then bind (side_options z) scf else Ok s) = Ok s' ->
     ((z <= 0)%Z -> s' = s) /\ ((0 < z)%Z -> exists o, side_options z = Ok o /\ scf o = Ok s')).
  { intros z s s'. destruct (Z.ltb_spec 0 z); intros X.
    - split; [lia|]. intros _. destruct (side_options z) as [o| | |]; try discriminate. eauto.
    - injection X as <-. split; [reflexivity|lia]. }
  destruct (if (0 <? Zl)%Z then _ else _) as [lh| | |] eqn:El; cbn [bind] in E; try discriminate.
  destruct (if (0 <? Zr)%Z then bind (side_options Zr) scf else _) as [rh| | |] eqn:Er; cbn [bind] in E; try discriminate.
  injection E as <-. cbn [g_lh g_rh]. destruct (R _ _ _ El) as [A1 A2]. destruct (R _ _ _ Er) as [B1 B2]. auto.
Qed.
Lemma atoms_ub scf Zl Zr g : (118 < Zl)%Z -> compute_atoms scf Zl Zr g = UB.
Proof. intros H. unfold compute_atoms. destruct (Z.ltb_spec 0 Zl); [|lia]. rewrite outside_ub by lia. reflexivity. Qed.
