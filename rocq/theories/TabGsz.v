(** Screened charges: the GSZ and Thomas-Fermi models. *)
Require Import Reals Lra Lia List Arith Bool ZArith.
Require Import Verif.Prelude Verif.TabModel Verif.TabSpec.
Import ListNotations.
Open Scope R_scope.

Lemma gsz_len : List.length d_Z_GSZ = 103%nat.
Proof. reflexivity. Qed.
Lemma gsz_throws z : (- 2 ^ 31 <= z)%Z -> (z < 0 \/ 103 < z)%Z -> GSZ_parameters z = Throw LogicError.
Proof.
  intros H0 H. unfold GSZ_parameters. rewrite gsz_len. destruct (Z.ltb_spec z 0).
  - destruct (Z.ltb_spec (Z.of_nat 103) (z + 2 ^ 64)); [reflexivity|lia].
  - destruct (Z.ltb_spec (Z.of_nat 103) z); [reflexivity|lia].
Qed.
Lemma gsz_entry z : (0 <= z <= 102)%Z -> GSZ_parameters z =
  let d := IZR (nth (Z.to_nat z) d_Z_GSZ 0%Z) / 1000 in
  Ok (d, if (z - 1 <? 0)%Z then NaN else if (z - 1 =? 0)%Z then Fin (d * 0) else Fin (d * Rpower (IZR (z - 1)) (4 / 10))).
Proof.
  intros H. unfold GSZ_parameters. rewrite gsz_len. destruct (Z.ltb_spec z 0); [lia|].
  destruct (Z.ltb_spec (Z.of_nat 103) z); [lia|].
  unfold at_. destruct (Z.ltb_spec z 0); [lia|].
  rewrite (nth_error_nth' d_Z_GSZ 0%Z) by (rewrite gsz_len; lia). reflexivity.
Qed.
Lemma gsz_bounds z : (0 <= z <= 102)%Z -> (215 <= nth (Z.to_nat z) d_Z_GSZ 0 <= 1154)%Z.
Proof.
  intros H. assert (A : forallb (fun d => (215 <=? d) && (d <=? 1154))%Z%bool d_Z_GSZ = true) by (vm_compute; reflexivity).
  rewrite forallb_forall in A. specialize (A (nth (Z.to_nat z) d_Z_GSZ 0%Z) ltac:(apply nth_In; rewrite gsz_len; lia)).
  rewrite andb_true_iff, !Z.leb_le in A. exact A.
Qed.
Lemma gsz_table z : (1 <= z <= 102)%Z ->
  exists d H, GSZ_parameters z = Ok (d, Fin H) /\ d = IZR (nth (Z.to_nat z) d_Z_GSZ 0%Z) / 1000 /\ 0 < d /\
    (z = 1%Z -> H = 0) /\ ((2 <= z)%Z -> H = d * Rpower (IZR z - 1) (2 / 5)).
Proof.
  intros Hz. rewrite gsz_entry by lia. pose proof (gsz_bounds z ltac:(lia)) as B. cbv zeta.
  set (d := IZR (nth (Z.to_nat z) d_Z_GSZ 0%Z) / 1000).
  assert (Hd : 0 < d) by (unfold d; apply Rdiv_lt_0_compat; [apply IZR_lt; lia|lra]).
  destruct (Z.ltb_spec (z - 1) 0); [lia|]. destruct (Z.eqb_spec (z - 1) 0) as [E|E].
  - exists d, (d * 0). split; [reflexivity|]. split; [reflexivity|]. split; [exact Hd|]. split; [intros; ring|lia].
  - exists d, (d * Rpower (IZR (z - 1)) (4 / 10)). split; [reflexivity|]. split; [reflexivity|]. split; [exact Hd|]. split; [lia|].
    intros _. rewrite minus_IZR. f_equal. f_equal. lra.
Qed.
Lemma gsz_zero : exists d, GSZ_parameters 0 = Ok (d, NaN) /\ d = 1.
Proof. rewrite gsz_entry by lia. cbn. eexists. split; [reflexivity|lra]. Qed.
Lemma gsz_out : GSZ_parameters 103 = UB.
Proof. reflexivity. Qed.

Lemma gsz_denominator r d H : 0 <= r -> 0 < d -> 0 <= H -> 1 <= 1 + (exp (r / d) - 1) * H.
Proof.
  intros Hr Hd HH. assert (0 <= r / d) by (apply Rle_mult_inv_pos; assumption).
  pose proof (exp_ineq1_le (r / d)). assert (0 <= (exp (r / d) - 1) * H) by (apply Rmult_le_pos; lra). lra.
Qed.
Lemma inv_le1 y : 1 <= y -> 0 < / y <= 1.
Proof. intros H. split; [apply Rinv_0_lt_compat; lra|]. rewrite <- Rinv_1. apply Rinv_le_contravar; lra. Qed.
Lemma gsz_unfold r z d H : Z_GSZ r z d H = 1 + (z - 1) * / (1 + (exp (r / d) - 1) * H).
Proof. unfold Z_GSZ, Rdiv at 1. rewrite Rmult_1_r. reflexivity. Qed.
Lemma gsz_between r z d H : 0 <= r -> 0 < d -> 0 <= H -> 1 <= z -> 1 <= Z_GSZ r z d H <= z.
Proof.
  intros Hr Hd HH Hz. rewrite gsz_unfold. pose proof (inv_le1 _ (gsz_denominator r d H Hr Hd HH)) as [I1 I2].
  set (q := / (1 + (exp (r / d) - 1) * H)) in *. nra.
Qed.
Lemma gsz_origin z d H : Z_GSZ 0 z d H = z.
Proof.
  unfold Z_GSZ. replace (0 / d) with 0 by (unfold Rdiv; ring). rewrite exp_0. replace (1 + (1 - 1) * H) with 1 by ring. field.
Qed.
Lemma gsz_decreasing r s z d H : 0 <= r <= s -> 0 < d -> 0 <= H -> 1 <= z -> Z_GSZ s z d H <= Z_GSZ r z d H.
Proof.
  intros Hr Hd HH Hz. rewrite !gsz_unfold. apply Rplus_le_compat_l, Rmult_le_compat_l; [lra|].
  pose proof (gsz_denominator r d H ltac:(lra) Hd HH). apply Rinv_le_contravar; [lra|].
  apply Rplus_le_compat_l, Rmult_le_compat_r; [exact HH|]. apply Rplus_le_compat_r.
  assert (r / d <= s / d) by (apply Rmult_le_compat_r; [left; apply Rinv_0_lt_compat; exact Hd|lra]).
  destruct H1 as [H1|H1]; [left; apply exp_increasing; exact H1|rewrite H1; lra].
Qed.
Lemma gsz_far z d H e : 0 < d -> 0 < H -> 1 <= z -> 0 < e -> exists R0, forall r, R0 < r -> 0 < r -> Z_GSZ r z d H < 1 + e.
Proof.
  intros Hd HH Hz He. exists (d * (z / (H * e))). intros r Hr Hr0. rewrite gsz_unfold. apply Rplus_lt_compat_l.
  pose proof (gsz_denominator r d H ltac:(lra) Hd ltac:(lra)) as D.
  apply Rmult_lt_reg_r with (1 + (exp (r / d) - 1) * H); [lra|]. rewrite Rmult_assoc, Rinv_l by lra.
  assert (r / d > z / (H * e)). { unfold Rdiv in *. apply Rmult_lt_reg_l with d; [exact Hd|]. replace (d * (r * / d)) with r by (field; lra). exact Hr. }
  pose proof (exp_ineq1_le (r / d)). assert (z / (H * e) * (H * e) = z) by (field; lra).
  assert (z < r / d * (H * e)). { rewrite <- H2. apply Rmult_lt_compat_r; [apply Rmult_lt_0_compat; assumption|exact H0]. }
  assert (r / d * (H * e) <= (exp (r / d) - 1) * (H * e)) by (apply Rmult_le_compat_r; [left; apply Rmult_lt_0_compat; assumption|lra]).
  nra.
Qed.

(** The charge of an element, for every Z with parameters. *)
Lemma gsz_element z : (1 <= z <= 102)%Z ->
  (Z_GSZ_element 0 z = Ok (Fin (IZR z))) /\
  (forall r, 0 <= r -> exists c, Z_GSZ_element r z = Ok (Fin c) /\ 1 <= c <= IZR z) /\
  (forall r s a b, 0 <= r <= s -> Z_GSZ_element r z = Ok (Fin a) -> Z_GSZ_element s z = Ok (Fin b) -> b <= a) /\
  (forall e, 0 < e -> exists R0, forall r c, R0 < r -> Z_GSZ_element r z = Ok (Fin c) -> c < 1 + e).
Proof.
  intros Hz. destruct (gsz_table z Hz) as (d & H & E & _ & Hd & H1 & H2). unfold Z_GSZ_element. rewrite E. cbn [bind snd fst].
  assert (HH : 0 <= H). { destruct (Z.eq_dec z 1) as [Ez|Ez]; [rewrite (H1 Ez); lra|]. rewrite (H2 ltac:(lia)). apply Rmult_le_pos; [lra|]. left. unfold Rpower. apply exp_pos. }
  assert (H1z : 1 <= IZR z) by (apply IZR_le; lia).
  split; [rewrite gsz_origin; reflexivity|]. split; [|split].
  - intros r Hr. eexists. split; [reflexivity|]. apply gsz_between; assumption.
  - intros r s a b Hrs Ea Eb. injection Ea as <-. injection Eb as <-. apply gsz_decreasing; assumption.
  - intros e He. destruct (Z.eq_dec z 1) as [Ez|Ez].
    + exists 0. intros r c Hr Ec. injection Ec as <-. subst z. unfold Z_GSZ, Rdiv. lra.
    + assert (0 < H). { rewrite (H2 ltac:(lia)). apply Rmult_lt_0_compat; [exact Hd|]. unfold Rpower. apply exp_pos. }
      destruct (gsz_far (IZR z) d H e Hd H0 H1z He) as (R0 & HR). exists (Rmax R0 0). intros r c Hr Ec. injection Ec as <-. 
      pose proof (Rmax_l R0 0). pose proof (Rmax_r R0 0). apply HR; lra.
Qed.

(* ---- Thomas-Fermi ---- *)
Lemma exp_quad y : 0 <= y -> 1 + y + y * y / 2 <= exp y.
Proof.
  intros Hy. pose (f := fun x => exp x - (1 + x + x * x / 2)).
  assert (D : forall x, derivable_pt_lim f x (exp x - (0 + 1 + (1 * x + x * 1) / 2))).
  { intros x. unfold f. apply (derivable_pt_lim_minus exp (fun x => 1 + x + x * x / 2)); [apply derivable_pt_lim_exp|].
    apply (derivable_pt_lim_plus (fun x => 1 + x) (fun x => x * x / 2)).
    - apply (derivable_pt_lim_plus (fun _ => 1) (fun x => x)); [apply derivable_pt_lim_const|apply derivable_pt_lim_id].
    - unfold Rdiv. replace ((1 * x + x * 1) * / 2) with ((1 * x + x * 1) * / 2 + (x * x) * 0) by ring.
      apply (derivable_pt_lim_mult (fun x => x * x) (fun _ => / 2)); [|apply derivable_pt_lim_const].
      apply (derivable_pt_lim_mult (fun x => x) (fun x => x)); apply derivable_pt_lim_id. }
  destruct Hy as [Hy|Hy].
  - destruct (MVT_cor2 f (fun x => exp x - (0 + 1 + (1 * x + x * 1) / 2)) 0 y Hy) as (c & Ec & Hc); [intros; apply D|].
    unfold f at 2 in Ec. rewrite exp_0 in Ec. pose proof (exp_ineq1_le c). unfold f in Ec.
    assert (0 <= (exp c - (0 + 1 + (1 * c + c * 1) / 2)) * (y - 0)) by (apply Rmult_le_pos; lra). lra.
  - subst y. rewrite exp_0. lra.
Qed.
Definition tf_shape (s : R) : R :=
  1 + 7280642371 / 10 ^ 10 * s + - (5430794693 / 10 ^ 10) * (s * s) * exp (- (3612163121 / 10 ^ 10) * s).
Lemma tf_shape_bounds s : 0 <= s -> 0 < tf_shape s <= 1 + 7280642371 / 10 ^ 10 * s.
Proof.
  intros Hs. unfold tf_shape. set (g := 3612163121 / 10 ^ 10). set (y := g * s).
  assert (Hg : g = 3612163121 / 10000000000) by (unfold g; lra).
  assert (Hy : 0 <= y) by (unfold y; apply Rmult_le_pos; [rewrite Hg; lra|exact Hs]).
  replace (- g * s) with (- y) by (unfold y; ring). rewrite exp_Ropp.
  pose proof (exp_quad y Hy) as Q. pose proof (exp_pos y) as P.
  assert (I : y * / exp y <= 42 / 100).
  { apply Rmult_le_reg_r with (exp y); [exact P|]. rewrite Rmult_assoc, Rinv_l by lra. pose proof (pow2_ge_0 (y - 138 / 100)) as W. cbn [pow] in W. nra. }
  assert (I0 : 0 < / exp y) by (apply Rinv_0_lt_compat; exact P).
  assert (S1 : s * / exp y <= 12 / 10).
  { unfold y in I at 1. rewrite Hg in I. nra. }
  assert (S2 : s * s * / exp y <= 12 / 10 * s) by (rewrite Rmult_assoc, (Rmult_comm s (s * / exp y)); apply Rmult_le_compat_r; assumption).
  assert (S3 : 0 <= s * s * / exp y) by (apply Rmult_le_pos; [nra|lra]).
  split; lra.
Qed.
Lemma tf_sqrt r z : (0 <= z)%Z -> 0 <= r -> 0 <= r * cbrt (128 * IZR z / (9 * PI * PI)).
Proof.
  intros Hz Hr. apply Rmult_le_pos; [exact Hr|]. pose proof PI_RGT_0. assert (0 <= IZR z) by (apply IZR_le; lia).
  assert (0 <= 128 * IZR z / (9 * PI * PI)) by (apply Rle_mult_inv_pos; nra).
  unfold cbrt. destruct (Rltb_spec 0 (128 * IZR z / (9 * PI * PI))); [left; unfold Rpower; apply exp_pos|].
  destruct (Rltb_spec (128 * IZR z / (9 * PI * PI)) 0); lra.
Qed.
Lemma tf_value r z : (0 <= z)%Z -> 0 <= r -> exists s, 0 <= s /\ s * s = r * cbrt (128 * IZR z / (9 * PI * PI)) /\
  Z_thomasfermi r z = Fin (IZR z * (tf_shape s) ^ 2 * exp (- 2 * (7280642371 / 10 ^ 10) * s)).
Proof.
  intros Hz Hr. pose proof (tf_sqrt r z Hz Hr) as Hx. unfold Z_thomasfermi. cbv zeta. set (x := r * cbrt _) in *.
  exists (sqrt x). split; [apply sqrt_pos|]. pose proof (sqrt_sqrt x Hx) as E. split; [exact E|].
  destruct (Rltb_spec x 0); [lra|]. unfold tf_shape. rewrite E. reflexivity.
Qed.
Lemma tf_between r z : (0 <= z)%Z -> 0 <= r -> exists c, Z_thomasfermi r z = Fin c /\ 0 <= c <= IZR z /\ ((1 <= z)%Z -> 0 < c).
Proof.
  intros Hz Hr. destruct (tf_value r z Hz Hr) as (s & Hs & _ & E). rewrite E. eexists. split; [reflexivity|].
  destruct (tf_shape_bounds s Hs) as [B1 B2]. set (a := 7280642371 / 10 ^ 10) in *. assert (Ha : 0 < a) by (unfold a; lra).
  assert (Hz0 : 0 <= IZR z) by (apply IZR_le; lia).
  replace (- 2 * a * s) with (- (a * s) + - (a * s)) by ring. rewrite exp_plus.
  pose proof (exp_pos (- (a * s))) as P. pose proof (exp_ineq1_le (a * s)) as Q.
  assert (F : tf_shape s * exp (- (a * s)) <= 1).
  { apply Rle_trans with (exp (a * s) * exp (- (a * s))); [apply Rmult_le_compat_r; lra|]. rewrite <- exp_plus, Rplus_opp_r, exp_0. lra. }
  set (q := tf_shape s * exp (- (a * s))) in *.
  assert (F0 : 0 < q) by (unfold q; apply Rmult_lt_0_compat; assumption).
  replace (IZR z * tf_shape s ^ 2 * (exp (- (a * s)) * exp (- (a * s)))) with (IZR z * (q * q)) by (unfold q; ring).
  assert (0 < q * q <= 1) by (split; nra).
  split; [split; nra|]. intros H1. apply Rmult_lt_0_compat; [apply IZR_lt; lia|lra].
Qed.
Lemma tf_origin z : (0 <= z)%Z -> Z_thomasfermi 0 z = Fin (IZR z).
Proof.
  intros Hz. unfold Z_thomasfermi. cbv zeta. rewrite Rmult_0_l, sqrt_0, !Rmult_0_r, Rmult_0_l, exp_0. destruct (Rltb_spec 0 0); [lra|]. f_equal. ring.
Qed.
Lemma cbrt_pos x : 0 < x -> 0 < cbrt x.
Proof. intros H. unfold cbrt. destruct (Rltb_spec 0 x); [|lra]. unfold Rpower. apply exp_pos. Qed.
Lemma cbrt_cube x : cbrt x ^ 3 = x.
Proof.
  assert (P : forall y, 0 < y -> Rpower y (1 / 3) ^ 3 = y).
  { intros y Hy. rewrite <- Rpower_pow by (unfold Rpower; apply exp_pos). rewrite Rpower_mult. replace (1 / 3 * INR 3) with 1 by (cbn; field). apply Rpower_1. exact Hy. }
  unfold cbrt. destruct (Rltb_spec 0 x); [apply P; assumption|]. destruct (Rltb_spec x 0) as [H|H].
  - replace ((- Rpower (- x) (1 / 3)) ^ 3) with (- Rpower (- x) (1 / 3) ^ 3) by ring. rewrite P by lra. ring.
  - replace x with 0 by lra. ring.
Qed.
(** It vanishes at infinity. *)
Lemma tf_far z e : (1 <= z)%Z -> 0 < e -> exists R0, forall r c, R0 < r -> Z_thomasfermi r z = Fin c -> c < e.
Proof.
  intros Hz He. set (k := cbrt (128 * IZR z / (9 * PI * PI))).
  assert (Hz0 : 1 <= IZR z) by (apply IZR_le; lia).
  assert (Hk : 0 < k). { apply cbrt_pos. pose proof PI_RGT_0. apply Rdiv_lt_0_compat; [lra|]. apply Rmult_lt_0_compat; lra. }
  set (a := 7280642371 / 10 ^ 10). assert (Ha : a = 7280642371 / 10000000000) by (unfold a; lra).
  (* q <= (1 + as) e^{-as} <= (1+as)/(1+as+(as)^2/2) <= 2/(as) *)
  set (M := 4 / a * (1 + IZR z / e)).
  assert (Hw : 0 < IZR z / e) by (apply Rdiv_lt_0_compat; lra).
  assert (HM : 0 < M). { unfold M. apply Rmult_lt_0_compat; [apply Rdiv_lt_0_compat; lra|lra]. }
  exists (M * M / k). intros r c Hr Ec.
  assert (Hr0 : 0 < r). { apply Rlt_trans with (M * M / k); [apply Rdiv_lt_0_compat; [nra|exact Hk]|exact Hr]. }
  destruct (tf_value r z ltac:(lia) ltac:(lra)) as (s & Hs & Es & E). fold k in Es. fold a in E.
  assert (Ev : IZR z * tf_shape s ^ 2 * exp (- 2 * a * s) = c) by congruence. rewrite <- Ev. clear Ev Ec E.
  assert (HsM : M < s).
  { destruct (Rlt_le_dec M s) as [H|H]; [exact H|]. exfalso. assert (s * s <= M * M) by nra.
    assert (M * M < r * k). { apply Rmult_lt_reg_r with (/ k); [apply Rinv_0_lt_compat; exact Hk|]. replace (r * k * / k) with r by (field; lra). exact Hr. }
    lra. }
  destruct (tf_shape_bounds s Hs) as [B1 B2]. fold a in B2.
  replace (- 2 * a * s) with (- (a * s) + - (a * s)) by ring. rewrite exp_plus.
  set (y := a * s) in *. assert (Hy : 4 * (1 + IZR z / e) < y).
  { unfold y. replace (4 * (1 + IZR z / e)) with (a * M) by (unfold M; field; split; lra). apply Rmult_lt_compat_l; lra. }
  pose proof (exp_pos (- y)) as P. pose proof (exp_quad y ltac:(lra)) as Q.
  set (q := tf_shape s * exp (- y)).
  assert (Eq : exp y * exp (- y) = 1) by (rewrite <- exp_plus, Rplus_opp_r; apply exp_0).
  assert (F0 : 0 < q) by (unfold q; apply Rmult_lt_0_compat; assumption).
  assert (F1 : q * y <= 2).
  { unfold q. apply Rle_trans with ((1 + y) * exp (- y) * y).
    - apply Rmult_le_compat_r; [lra|]. apply Rmult_le_compat_r; [lra|exact B2].
    - assert (H : (1 + y + y * y / 2) * exp (- y) <= 1) by (rewrite <- Eq; apply Rmult_le_compat_r; lra).
      assert (0 <= exp (- y) * y) by (apply Rmult_le_pos; lra). nra. }
  assert (F2 : q < / 2). { apply Rmult_lt_reg_r with y; [lra|]. apply Rle_lt_trans with 2; [exact F1|]. lra. }
  replace (IZR z * tf_shape s ^ 2 * (exp (- y) * exp (- y))) with (IZR z * (q * q)) by (unfold q; ring).
  assert (F3 : q * (4 * (1 + IZR z / e)) < 2) by (apply Rlt_le_trans with (q * y); [apply Rmult_lt_compat_l; assumption|exact F1]).
  assert (F4 : q * (IZR z / e) < / 2) by nra.
  assert (F5 : q * IZR z < e / 2). { replace (q * IZR z) with (q * (IZR z / e) * e) by (field; lra). nra. }
  nra.
Qed.
