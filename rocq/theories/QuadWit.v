(** Concrete cases for the quadrature properties. *)
Require Import Reals List Arith Bool ZArith Lia Lra Psatz.
Require Import Verif.Prelude Verif.FEModel Verif.QuadModel Verif.QuadSpec Verif.QuadProofs Verif.QuadInt Verif.QuadCross.
Import ListNotations.
Open Scope R_scope.

Definition d_abs (a b : R) : fp := Fin (Rabs (a - b)).
Definition s_abs (a : R) : fp := Fin (Rabs a).
Lemma d_abs_mag a b : magnitude (d_abs a b).
Proof. right. apply fle_fin. apply Rabs_pos. Qed.
Lemma s_abs_mag a : magnitude (s_abs a).
Proof. right. apply fle_fin. apply Rabs_pos. Qed.

(** A quantity that jumps from 0 to 1 at order 8. *)
Definition jump (n : nat) : R := if (n <? 8)%nat then 0 else 1.
Lemma jump_loop nm f : (16 <= nm)%nat ->
  rule_loop R d_abs s_abs (1 / 1000) (1 / 30) jump nm (S (S (S f))) 4 None (Fin (-1)) (Fin (-1)) [] = Ok ([16; 8; 4]%nat, 1).
Proof.
  intros Hn.
  assert (E1 : rule_stop R d_abs s_abs (1 / 1000) (1 / 30) 1 0 (Fin (-1)) (Fin (-1)) = false).
  { unfold rule_stop, d_abs, s_abs. cbn [fscal fplus fleb fltb].
    rewrite Rabs_right by lra. replace (Rabs 1) with 1 by (symmetry; apply Rabs_right; lra).
    repeat match goal with |- context [Rleb ?a ?b] => destruct (Rleb_spec a b); [exfalso; lra|] end. reflexivity. }
  assert (E2 : rule_stop R d_abs s_abs (1 / 1000) (1 / 30) 1 1 (d_abs 1 0) (Fin (-1)) = true).
  { unfold rule_stop. unfold d_abs at 1, s_abs at 1. cbn [fscal fplus fleb fltb].
    replace (1 - 1) with 0 by lra. rewrite Rabs_R0. replace (Rabs 1) with 1 by (symmetry; apply Rabs_right; lra).
    destruct (Rleb_spec 0 (1 / 1000 * (1 + 1 / 1000))); [reflexivity|lra]. }
  cbn [rule_loop]. cbv zeta.
  destruct (Nat.leb_spec nm 4); [lia|]. replace (Nat.min (2 * 4) nm) with 8%nat by lia.
  change (jump 8) with 1. change (jump 4) with 0. rewrite E1.
  destruct (Nat.leb_spec nm 8); [lia|]. replace (Nat.min (2 * 8) nm) with 16%nat by lia. change (jump 16) with 1.
  rewrite E2. reflexivity.
Qed.
Lemma jump_run nm : (16 <= nm)%nat -> converge_rule R d_abs s_abs (1 / 1000) (1 / 30) jump nm 4 = Ok ([16; 8; 4]%nat, 1).
Proof.
  intros H. unfold converge_rule. change (Z.to_nat (Z.max 4 2)) with 4%nat.
  destruct nm as [|[|nm]]; [lia|lia|]. apply jump_loop. exact H.
Qed.

Lemma block_wit : (forall a b, magnitude (d_abs a b)) /\ (forall a, magnitude (s_abs a)) /\ 0 <= 1 / 1000 /\ 1 / 1000 <= 1 / 30.
Proof. split; [apply d_abs_mag|]. split; [apply s_abs_mag|]. lra. Qed.

Lemma exact_wit nm : (14 <= nm)%nat ->
  exists n1, converge_rule R d_abs s_abs (1 / 1000) (1 / 30) (fun n => if (n <? 7)%nat then INR n else 5) nm 7 = Ok ([n1; 7]%nat, 5).
Proof.
  intros Hn.
  apply (rule_exact R d_abs s_abs (1 / 1000) (1 / 30) (fun n => if (n <? 7)%nat then INR n else 5) nm 7 5).
  - apply d_abs_mag.
  - lra.
  - intros a. unfold d_abs. rewrite Rminus_diag_eq, Rabs_R0 by reflexivity. reflexivity.
  - apply fle_fin. apply Rabs_pos.
  - change (Z.to_nat (Z.max 7 2)) with 7%nat. lia.
  - change (Z.to_nat (Z.max 7 2)) with 7%nat. intros n H. destruct (Nat.ltb_spec n 7); [lia|reflexivity].
Qed.

(** |t| on [-1, 1] split at 0: the trapezoidal rule is exact on either side. *)
Lemma kink_wit : forall a b, -1 <= a -> a <= b -> b <= 1 -> smooth 0 1 [0; 5] a b ->
  (b - a) * (Rabs a + Rabs b) / 2 = b * Rabs b / 2 - a * Rabs a / 2.
Proof.
  intros a b H1 H2 H3 Hs. specialize (Hs 0 (or_introl eq_refl)).
  destruct (Rle_lt_dec 0 a).
  - rewrite !Rabs_right by lra. field.
  - assert (b <= 0) by lra. rewrite !Rabs_left1 by lra. field.
Qed.
Lemma kink_run i j : matrix_element_auto (fun a b _ _ => (b - a) * (Rabs a + Rabs b) / 2) 0 1 (-1) 1 [0; 5] i j = 1.
Proof.
  rewrite (auto_exact 0 1 (-1) 1 [0; 5] ltac:(lra) ltac:(lra) _ (fun t => t * Rabs t / 2)).
  - rewrite (Rabs_right 1) by lra. rewrite (Rabs_left1 (-1)) by lra. field.
  - exact kink_wit.
Qed.
(** Without the break point the same rule gives a different number. *)
Lemma kink_missed i j : matrix_element_auto (fun a b _ _ => (b - a) * (Rabs a + Rabs b) / 2) 0 1 (-1) 1 [] i j = 2.
Proof.
  unfold matrix_element_auto, panels, panel_bounds. cbn [map filter app sortR fold_right insertR].
  destruct (Rleb_spec (-1) 1); [|lra]. cbn [consecutive filter fst snd].
  destruct (Rltb_spec (-1) 1); [|lra]. cbn [fold_left fst snd].
  rewrite (Rabs_right 1) by lra. rewrite (Rabs_left1 (-1)) by lra. field.
Qed.

(** One constant function on [0, 2], the midpoint rule, L = 0: the integral of 1 / r_>
    over the square is 4. *)
Definition mx : vec := fun _ => 0.
Definition mw : vec := fun _ => 2.
Definition one (t : R) (i : nat) : R := 1.
Lemma mid_node lo hi q : node mx lo hi q = (hi + lo) / 2.
Proof. unfold node, mx. field. Qed.
Lemma mid_quad lo hi g : quad 1 mx mw lo hi g = (hi - lo) * g ((hi + lo) / 2).
Proof. unfold quad. cbn [sum]. unfold mx, mw. rewrite Rmult_0_r, Rplus_0_r. field. Qed.
Lemma one_sep : separates 1 mx 0 2 (coul_sb 0) (fun t => t ^ 0) (coul_big 0).
Proof. intros p Hp. right. apply (coul_kernel mx 0 2). rewrite mid_node. lra. Qed.
Lemma one_run : twoe_integral 1 mx mw 1 one 0 2 (coul_sb 0) (coul_big 0) 0%nat 0%nat = 4.
Proof.
  assert (Hpos : 0 < (2 + 0) / 2) by lra.
  rewrite (twoe_exact 1 mx mw 1 one 0 2 (coul_sb 0) (coul_big 0) (fun t => t ^ 0) (fun t => t) (fun t => t) (fun t => t) (fun t => t)).
  - field.
  - lra.
  - exact one_sep.
  - intros p Hp. assert (p = 0)%nat by lia. subst p. rewrite mid_quad, mid_node. cbn [piece_lo]. unfold pair_density, one. cbn [pow]. field.
  - intros p Hp. assert (p = 0)%nat by lia. subst p. rewrite mid_quad, mid_node. cbn [piece_lo]. unfold pair_density, one. cbn [pow]. field.
  - rewrite mid_quad. unfold coul_big, pair_density, one. cbn [pow Nat.add]. field.
  - rewrite mid_quad. unfold coul_big, pair_density, one. cbn [pow Nat.add]. field.
Qed.

(** Simpson's rule includes the end points. *)
Definition sx : vec := fun q => match q with O => -1 | S O => 0 | _ => 1 end.
Definition sw : vec := fun q => match q with O => 1 / 3 | S O => 4 / 3 | _ => 1 / 3 end.
Lemma simpson_node lo hi q : (q < 3)%nat -> node sx lo hi q = match q with O => lo | S O => (hi + lo) / 2 | _ => hi end.
Proof. intros H. destruct q as [|[|q]]; unfold node, sx; field. Qed.
Lemma simpson_quad lo hi g : quad 3 sx sw lo hi g = (hi - lo) / 6 * (g lo + 4 * g ((hi + lo) / 2) + g hi).
Proof.
  unfold quad. cbn [sum]. unfold sx, sw.
  replace ((hi + lo) / 2 + (hi - lo) / 2 * -1) with lo by field.
  replace ((hi + lo) / 2 + (hi - lo) / 2 * 0) with ((hi + lo) / 2) by field.
  replace ((hi + lo) / 2 + (hi - lo) / 2 * 1) with hi by field. field.
Qed.
(** On the innermost element the first point is the origin and the kernel separates. *)
Lemma simpson_sep L : separates 3 sx 0 2 (coul_sb L) (fun t => t ^ L) (coul_big L).
Proof.
  intros p Hp. destruct p as [|p]; [left; split; [reflexivity|apply simpson_node; lia]|right].
  apply (coul_kernel sx 0 2). rewrite simpson_node by exact Hp. destruct p; lra.
Qed.
(** The function t on [1, 3]: V(2) = (1/2) int_1^2 t^2 + int_2^3 t. *)
Definition ramp (t : R) (i : nat) : R := t + 2.
Lemma ramp_density t : pair_density 1 ramp 1 3 0 t = t * t.
Proof. unfold pair_density, ramp. field. Qed.
Lemma sph_run : spherical_potential 3 sx sw 1 ramp 1 3 1 0 = (8 / 3 - 1 / 3) / 2 + (9 / 2 - 4 / 2).
Proof.
  assert (E0 := simpson_node 1 3 0 ltac:(lia)). assert (E1 := simpson_node 1 3 1 ltac:(lia)). assert (E2 := simpson_node 1 3 2 ltac:(lia)).
  rewrite (spherical_exact 3 sx sw 1 ramp 1 3 (fun t => t ^ 3 / 3) (fun t => t ^ 2 / 2)).
  - rewrite E1. cbv beta iota. replace ((3 + 1) / 2) with 2 by field. field.
  - lia.
  - intros p Hp. rewrite simpson_node by lia. destruct p as [|[|p]]; lra.
  - intros p Hp. rewrite (quad_ext _ _ _ _ _ _ (fun t => t * t)) by (intros; apply ramp_density).
    rewrite simpson_quad. rewrite simpson_node by lia. destruct p as [|[|p]]; cbn [piece_lo]; [field| |lia].
    rewrite E0. field.
  - intros p Hp. rewrite simpson_quad, !ramp_density.
    destruct p as [|[|[|p]]]; [| | |lia]; cbn [Nat.eqb Nat.sub]; rewrite ?E0, ?E1, ?E2; field.
Qed.

(** Two grids. *)
Definition ga : vec := fun i => match i with O => 0 | S O => 1 | _ => 3 end.
Definition gb : vec := fun i => match i with O => 1 / 2 | S O => 2 | _ => 4 end.
Lemma ga_incr : increasing_upto 2 ga.
Proof. intros i Hi. destruct i as [|[|i]]; unfold ga; try lra; lia. Qed.
Lemma gb_incr : increasing_upto 2 gb.
Proof. intros i Hi. destruct i as [|[|i]]; unfold gb; try lra; lia. Qed.
Lemma cross_run : cross_matrix 2 2 ga gb (fun _ => 0%nat) (fun _ => 1%nat) (fun _ => 0%nat) (fun _ => 1%nat)
   (fun i j => cross_block ga gb 1 mx mw (fun _ => 1) one one i j) 0%nat 0%nat = 3 - 1 / 2.
Proof.
  rewrite (cross_exact 2 2 ga gb _ _ _ _ ga_incr gb_incr _ _ _ (fun t => t)).
  - unfold ga, gb. replace (Rmax 0 (1 / 2)) with (1 / 2) by (rmm; lra). replace (Rmin 3 4) with 3 by (rmm; lra).
    destruct (Rltb_spec (1 / 2) 3); lra.
  - intros i j Hi Hj. unfold QuadCross.share. cbn [Nat.leb Nat.ltb Nat.add andb Nat.sub].
    rewrite (block_quad 2 2 ga gb ga_incr gb_incr 1 mx mw _ _ _ i j 0 0 Hi Hj).
    + rewrite mid_quad. unfold one. field.
    + intros q Hq. unfold mx. lra.
Qed.
Lemma range_wit : Rmax (ga 0%nat) (gb 0%nat) <= 1 < Rmin (ga 2%nat) (gb 2%nat).
Proof. unfold ga, gb. rmm; lra. Qed.

(** Combined forms used by the property file. *)
Lemma exact_separated Phi L mu nqi xi wi Ni bfi rmini rmaxi nqk xk wk Nk bfk rmink rmaxk a b :
  (forall u v, Phi L u v = Phi L v u) -> (a < Ni * Ni)%nat ->
  erfc_integral Phi L mu nqi xi wi Ni bfi rmini rmaxi nqk xk wk Nk bfk rmink rmaxk a b =
  erfc_integral Phi L mu nqk xk wk Nk bfk rmink rmaxk nqi xi wi Ni bfi rmini rmaxi b a /\
  erfc_integral Phi L mu nqi xi wi Ni bfi rmini rmaxi nqk xk wk Nk bfk rmink rmaxk (flip Ni a) b =
  erfc_integral Phi L mu nqi xi wi Ni bfi rmini rmaxi nqk xk wk Nk bfk rmink rmaxk a b.
Proof. intros H1 H2. split; [apply erfc_swap; exact H1|apply erfc_flip; exact H2]. Qed.

Lemma twoe_syms nq x w N bf lo hi k big a b : (a < N * N)%nat -> (b < N * N)%nat ->
  let T := twoe_integral nq x w N bf lo hi k big in
  T a b = T b a /\ T (flip N a) b = T a b /\ T a (flip N b) = T a b.
Proof.
  intros Ha Hb T. split; [apply twoe_sym|]. split; [apply twoe_flip; exact Ha|].
  unfold T. rewrite twoe_sym, twoe_flip by exact Hb. apply twoe_sym.
Qed.
Lemma d_twoe_syms nq x w N bf P Q ch sh lo hi k l a b : (a < N * N)%nat -> (b < N * N)%nat ->
  let T := d_twoe nq x w N bf P Q ch sh lo hi in
  T k l a b = T l k b a /\ T k l (flip N a) b = T k l a b /\ T k l a (flip N b) = T k l a b.
Proof.
  intros Ha Hb T. split; [apply d_twoe_transpose|]. split; [apply d_twoe_flip; exact Ha|].
  unfold T. rewrite d_twoe_transpose, d_twoe_flip by exact Hb. apply d_twoe_transpose.
Qed.
Lemma compound_points n xc wc nphi i j : (i < n)%nat -> (j < nphi)%nat ->
  let '(cth, phi, w) := compound_rule n xc wc nphi in
  cth (i * nphi + j)%nat = xc i /\ phi (i * nphi + j)%nat = INR j * (2 * PI / INR nphi) /\
  w (i * nphi + j)%nat = wc i * (2 * PI / INR nphi).
Proof.
  intros Hi Hj. assert (H : (i * nphi + j < n * nphi)%nat) by nia.
  pose proof (all_fill xc wc nphi n ltac:(lia) _ H) as A.
  destruct (compound_rule n xc wc nphi) as [[cth phi] w]. cbn [fst snd] in A.
  replace (i * nphi + j)%nat with (j + i * nphi)%nat in A by lia.
  rewrite Nat.div_add, Nat.mod_add in A by lia. rewrite Nat.div_small, Nat.mod_small in A by lia.
  cbn [Nat.add] in A. replace (i * nphi + j)%nat with (j + i * nphi)%nat by lia. exact A.
Qed.
Lemma compound_weights n xc wc nphi : (1 <= nphi)%nat ->
  sum n wc = 2 -> let '(cth, phi, w) := compound_rule n xc wc nphi in sum (n * nphi) w = 4 * PI.
Proof.
  intros Hp Hw. pose proof (compound_sum xc wc nphi n (fun _ _ => 1) Hp) as E.
  destruct (compound_rule n xc wc nphi) as [[cth phi] w].
  rewrite (sum_ext _ _ (fun k => w k * 1)) by (intros; ring). rewrite E.
  rewrite (sum_ext _ _ (fun i => wc i * (2 * PI))).
  - rewrite sum_scal_r, Hw. ring.
  - intros i _. rewrite sum_one. f_equal. field. apply not_0_INR. lia.
Qed.
Lemma compound_harmonics n xc wc nphi m (g : R -> R) : (m < nphi)%nat ->
  let '(cth, phi, w) := compound_rule n xc wc nphi in
  sum (n * nphi) (fun k => w k * (g (cth k) * cos (INR m * phi k))) = (if (m =? 0)%nat then 2 * PI * sum n (fun i => wc i * g (xc i)) else 0) /\
  sum (n * nphi) (fun k => w k * (g (cth k) * sin (INR m * phi k))) = 0.
Proof.
  intros Hm.
  pose proof (compound_sum xc wc nphi n (fun c p => g c * cos (INR m * p)) ltac:(lia)) as E1.
  pose proof (compound_sum xc wc nphi n (fun c p => g c * sin (INR m * p)) ltac:(lia)) as E2.
  destruct (compound_rule n xc wc nphi) as [[cth phi] w].
  destruct (phi_exact nphi m Hm) as [P1 P2]. rewrite E1, E2. split.
  - rewrite (sum_ext _ _ (fun i => (wc i * g (xc i)) * (if (m =? 0)%nat then 2 * PI else 0))).
    + rewrite sum_scal_r. destruct (m =? 0)%nat; ring.
    + intros i _. rewrite sum_scal. rewrite <- P1. ring.
  - apply sum_zero'. intros i _. rewrite sum_scal.
    replace (wc i * (2 * PI / INR nphi * (g (xc i) * sum nphi (fun j => sin (INR m * (INR j * (2 * PI / INR nphi)))))))
      with (wc i * g (xc i) * (2 * PI / INR nphi * sum nphi (fun j => sin (INR m * (INR j * (2 * PI / INR nphi)))))) by ring.
    rewrite P2. ring.
Qed.
Lemma panel_list mid sf xl xr bps : 0 < sf -> xl <= xr ->
  tiles xl xr (panels mid sf xl xr bps) /\
  (forall p, In p (panels mid sf xl xr bps) -> smooth mid sf bps (fst p) (snd p)).
Proof. intros H1 H2. split; [apply panels_tile; assumption|intros p Hp; apply (panels_smooth mid sf xl xr bps H1 H2 p Hp)]. Qed.
Lemma upto_inner nq x w N bf lo hi k small big q c : separates nq x lo hi k small big -> (q < nq)%nat ->
  inner_row nq x w N bf lo hi k big q c =
  big (node x lo hi q) * upto nq x w lo hi (fun t => small t * pair_density N bf lo hi c t) q.
Proof. intros H Hq. apply (inner_running nq x w N bf lo hi k big small q c). intros p Hp. apply H. lia. Qed.
Lemma coul_separates nq x lo hi L : 0 <= lo -> lo < hi ->
  (forall p, (p < nq)%nat -> -1 <= x p) -> (forall p, (0 < p < nq)%nat -> -1 < x p) ->
  separates nq x lo hi (coul_sb L) (fun t => t ^ L) (coul_big L).
Proof.
  intros H0 H1 H2 H3. apply (coul_ok nq x lo hi L H0).
  - intros p Hp. specialize (H2 p Hp). unfold node. nra.
  - intros p Hp Hp0. specialize (H3 p (conj Hp0 Hp)). unfold node. nra.
Qed.
