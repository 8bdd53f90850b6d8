(** Proofs about densities along a line. *)
Require Import Reals ZArith List Bool Arith Lia Lra Psatz Sorted.
Require Import Verif.Prelude Verif.AngModel Verif.AngSpec Verif.AngProofs Verif.BsModel Verif.BsProofs Verif.DlModel Verif.DlSpec.
Import ListNotations.
Open Scope R_scope.

Lemma find_some l mu : forall i0 iel, find_el l mu i0 = Some iel ->
  (i0 <= iel)%nat /\ (S (iel - i0) < length l)%nat /\ nth (iel - i0) l 0 <= mu <= nth (S (iel - i0)) l 0.
Proof.
  induction l as [|a [|c t] IH]; intros i0 iel; cbn [find_el]; try discriminate.
  destruct (Rleb_spec a mu) as [A|A]; destruct (Rleb_spec mu c) as [B|B]; cbn [andb].
  1:{ intros E. injection E as <-. rewrite Nat.sub_diag. cbn. repeat split; try lia; lra. }
  all: intros E; apply IH in E; destruct E as (E1 & E2 & E3);
    replace (iel - i0)%nat with (S (iel - S i0)) by lia; cbn [length nth] in *; repeat split; try lia; apply E3.
Qed.
Lemma find_none l mu : forall i0, find_el l mu i0 = None -> forall j, (S j < length l)%nat -> ~ (nth j l 0 <= mu <= nth (S j) l 0).
Proof.
  induction l as [|a [|c t] IH]; intros i0 E j Hj; cbn [length] in Hj; try lia.
  cbn [find_el] in E. destruct (Rleb_spec a mu) as [A|A]; destruct (Rleb_spec mu c) as [B|B]; cbn [andb] in E; try discriminate;
  (destruct j as [|j]; [cbn [nth]; lra | apply (IH _ E j); cbn [length]; lia]).
Qed.
Lemma find_in l mu : forall i0, (2 <= length l)%nat -> nth 0 l 0 <= mu <= last l 0 -> exists iel, find_el l mu i0 = Some iel.
Proof.
  induction l as [|a [|c t] IH]; intros i0 HL [H1 H2]; cbn [length] in HL; try lia.
  cbn [find_el]. destruct (Rleb_spec a mu) as [A|A]; [|cbn in H1; lra].
  destruct (Rleb_spec mu c) as [B|B]; cbn [andb]; [eexists; reflexivity|].
  destruct t as [|d t]; [cbn in H2; lra|]. apply IH; [cbn; lia|]. split; [cbn; lra | exact H2].
Qed.
Lemma sorted_nth l : StronglySorted Rlt l -> forall i j, (i < j < length l)%nat -> nth i l 0 < nth j l 0.
Proof.
  induction 1 as [|a l Hs IH Hf]; intros i j [H1 H2]; cbn [length] in H2; [lia|].
  destruct j as [|j]; [lia|]. destruct i as [|i]; cbn [nth].
  - rewrite Forall_forall in Hf. apply Hf, nth_In. lia.
  - apply IH. lia.
Qed.
Lemma last_is_nth (l : list R) : last l 0 = nth (length l - 1) l 0.
Proof.
  induction l as [|a [|c t] IH]; try reflexivity.
  change (last (a :: c :: t) 0) with (last (c :: t) 0). rewrite IH. cbn [length]. replace (S (S (length t)) - 1)%nat with (S (S (length t) - 1)) by lia. reflexivity.
Qed.
Lemma in_range l mu iel : StronglySorted Rlt l -> find_el l mu 0 = Some iel -> (2 <= length l)%nat -> nth 0 l 0 <= mu <= last l 0.
Proof.
  intros Hs E HL. apply find_some in E. rewrite Nat.sub_0_r in E. destruct E as (_ & E2 & E3). rewrite last_is_nth.
  assert (A : nth 0 l 0 <= nth iel l 0) by (destruct iel; [lra | left; apply sorted_nth; [assumption | lia]]).
  assert (B : nth (S iel) l 0 <= nth (length l - 1) l 0).
  { destruct (Nat.eq_dec (S iel) (length l - 1)) as [e|e]; [rewrite e; lra | left; apply sorted_nth; [assumption | lia]]. }
  lra.
Qed.
Lemma outside b mu cth phi : mesh (pb_bval b) -> fits b ->
  (eval_point b mu cth phi = Throw LogicError <-> mu < 0 \/ get_mumax b < mu).
Proof.
  intros (HL & H0 & Hs) Hf. unfold eval_point, get_mumax. destruct (find_el (pb_bval b) mu 0) as [iel|] eqn:E.
  - pose proof (in_range _ _ _ Hs E HL) as HR. apply find_some in E. rewrite Nat.sub_0_r in E. destruct E as (_ & E2 & _).
    specialize (Hf iel E2). destruct (pb_idx b iel) as [i1 i2]. cbn [fst snd] in Hf.
    rewrite (proj2 (Nat.leb_le i1 i2)), (proj2 (Nat.ltb_lt i2 _)) by lia. cbn [andb]. split; [discriminate | lra].
  - split; [|reflexivity]. intros _. destruct (Rlt_dec mu 0) as [|A]; [tauto|]. destruct (Rlt_dec (last (pb_bval b) 0) mu) as [|B]; [tauto|]. exfalso.
    destruct (find_in (pb_bval b) mu 0 HL ltac:(lra)) as [iel F]. congruence.
Qed.

(** Spherical harmonics. *)
Lemma sph_form b l m eta phi : spherical_harmonics (pb_leg b) l m eta phi = dl_scal (amplitude b l m eta) (phase m phi).
Proof.
  unfold spherical_harmonics, amplitude, phase, sph_pos, dl_conj, dl_scal. destruct (Z.ltb_spec m 0) as [H|H]; cbn [fst snd].
  - rewrite opp_IZR, Z.abs_neq by lia. replace (- IZR m * phi) with (- (IZR m * phi)) by ring. rewrite cos_neg, sin_neg. f_equal; ring.
  - rewrite Z.abs_eq by lia. f_equal; ring.
Qed.
Lemma phase_period m phi : phase m (phi + 2 * PI) = phase m phi.
Proof.
  assert (G : forall n : nat, phase (Z.of_nat n) (phi + 2 * PI) = phase (Z.of_nat n) phi).
  { intros n. unfold phase. rewrite <- INR_IZR_INZ. replace (INR n * (phi + 2 * PI)) with (INR n * phi + 2 * INR n * PI) by ring.
    rewrite cos_period, sin_period. reflexivity. }
  destruct (Z_lt_le_dec m 0) as [H|H]; [|rewrite <- (Z2Nat.id m H); apply G].
  specialize (G (Z.to_nat (- m))). rewrite Z2Nat.id in G by lia. unfold phase in *. rewrite !opp_IZR in G.
  replace (- IZR m * (phi + 2 * PI)) with (- (IZR m * (phi + 2 * PI))) in G by ring. replace (- IZR m * phi) with (- (IZR m * phi)) in G by ring.
  rewrite !cos_neg, !sin_neg in G. injection G as G1 G2. f_equal; lra.
Qed.
Lemma harmonics leg l m eta phi :
  (spherical_harmonics leg l (- m) eta phi = dl_scal ((-1) ^ Z.abs_nat m) (dl_conj (spherical_harmonics leg l m eta phi))) /\
  spherical_harmonics leg l m eta (phi + 2 * PI) = spherical_harmonics leg l m eta phi /\
  norm2 (spherical_harmonics leg l m eta phi) = (leg l (Z.abs m) (acos eta)) ^ 2.
Proof.
  pose (b := mkPB [] 0 [] (fun _ _ _ => 0) (fun _ => (0%nat, 0%nat)) leg).
  assert (SQ : (-1) ^ Z.abs_nat m * (-1) ^ Z.abs_nat m = 1).
  { rewrite <- Rpow_mult_distr. replace (-1 * -1) with 1 by ring. apply pow1. }
  assert (F : forall m phi, spherical_harmonics leg l m eta phi = dl_scal (amplitude b l m eta) (phase m phi)) by (intros; apply (sph_form b)).
  rewrite !F. repeat split.
  - unfold amplitude, phase, dl_scal, dl_conj; cbn [fst snd pb_leg]. rewrite opp_IZR, Z.abs_opp. cbn [b pb_leg].
    replace (- IZR m * phi) with (- (IZR m * phi)) by ring. rewrite cos_neg, sin_neg. replace (Z.abs_nat (- m)) with (Z.abs_nat m) by lia.
    set (s := (-1) ^ Z.abs_nat m) in *. set (Q := leg l (Z.abs m) (acos eta)). set (c := cos _). set (d := sin _).
    destruct (Z.ltb_spec (- m) 0) as [H|H]; destruct (Z.ltb_spec m 0) as [K|K]; try lia; f_equal; try ring.
    + transitivity (s * s * (Q * c)); [rewrite SQ; ring | ring].
    + transitivity (s * s * (- (Q * d))); [rewrite SQ; ring | ring].
    + assert (m = 0)%Z by lia. subst m. cbn in s. subst s. ring.
    + assert (m = 0)%Z by lia. subst m. cbn in s. subst s d. rewrite Rmult_0_l, sin_0. ring.
  - rewrite phase_period. reflexivity.
  - unfold norm2, dl_scal, phase, amplitude; cbn [fst snd]. set (th := IZR m * phi). cbn [b pb_leg]. set (Q := leg l (Z.abs m) (acos eta)).
    pose proof (sin2_cos2 th) as T. unfold Rsqr in T. set (s := (-1) ^ Z.abs_nat m) in *. destruct (Z.ltb_spec m 0).
    + transitivity (s * s * (Q * Q * (sin th * sin th + cos th * cos th))); [ring | rewrite SQ, T; ring].
    + transitivity (Q * Q * (sin th * sin th + cos th * cos th)); [ring | rewrite T; ring].
Qed.

(** The functions at a point. *)
Lemma map_flat {A B C} (g : B -> C) (f : A -> list B) l : map g (flat_map f l) = flat_map (fun x => map g (f x)) l.
Proof. induction l as [|a l IH]; cbn; [reflexivity|]. rewrite map_app, IH. reflexivity. Qed.
Lemma filter_flat {A B} (p : B -> bool) (f : A -> list B) l : filter p (flat_map f l) = flat_map (fun x => filter p (f x)) l.
Proof. induction l as [|a l IH]; cbn; [reflexivity|]. rewrite filter_app, IH. reflexivity. Qed.
Lemma flat_ext {A B} (f g : A -> list B) l : (forall x, In x l -> f x = g x) -> flat_map f l = flat_map g l.
Proof. intros H. induction l as [|a l IH]; cbn; [reflexivity|]. rewrite H by (left; reflexivity). rewrite IH; [reflexivity|]. intros; apply H; right; assumption. Qed.
Lemma pure_map {A} (G : nat -> A) (H : bfun -> A) sh Nrad :
  (forall i k, (i < length sh)%nat -> (k < Nrad)%nat -> G (i * Nrad + k)%nat = H (shell sh i, k)) ->
  map G (pure_indices sh Nrad) = map H (pure_functions sh Nrad).
Proof.
  intros E. rewrite pure_functions_nth. unfold pure_indices. rewrite !map_flat. apply flat_ext.
  intros i Hi. apply in_seq in Hi. rewrite filter_survives. destruct (snd (shell sh i) =? 0)%Z; rewrite !map_map.
  - apply map_ext_in. intros k Hk. apply in_seq in Hk. apply E; lia.
  - rewrite <- seq_shift, map_map. apply map_ext_in. intros k Hk. apply in_seq in Hk.
    replace (i * Nrad + 1 + k)%nat with (i * Nrad + S k)%nat by lia. apply E; lia.
Qed.
Lemma entry_value b iel mu eta phi i k : (k < pb_Nrad b)%nat ->
  dl_entry b iel (2 * (mu - nth iel (pb_bval b) 0) / (nth (S iel) (pb_bval b) 0 - nth iel (pb_bval b) 0) - 1) eta phi (i * pb_Nrad b + k)
  = point_value b iel mu eta phi (shell (pb_sh b) i, k).
Proof.
  intros Hk. unfold dl_entry, point_value, radial_value, bf_k, bf_m; cbn [fst snd].
  replace ((i * pb_Nrad b + k) / pb_Nrad b)%nat with i by (rewrite Nat.div_add_l, Nat.div_small by lia; lia).
  replace ((i * pb_Nrad b + k) mod pb_Nrad b)%nat with k by (rewrite Nat.add_comm, Nat.mod_add, Nat.mod_small by lia; lia).
  destruct (pb_idx b iel) as [i1 i2]; cbn [fst snd]. destruct ((i1 <=? k) && (k <=? i2))%nat%bool.
  - rewrite sph_form. unfold dl_scal; cbn [fst snd]. f_equal; ring.
  - unfold dl_scal; cbn [fst snd]. f_equal; ring.
Qed.
Lemma point_ok b mu eta : mesh (pb_bval b) -> fits b -> 0 <= mu <= get_mumax b ->
  exists iel, (S iel < length (pb_bval b))%nat /\ nth iel (pb_bval b) 0 <= mu <= nth (S iel) (pb_bval b) 0 /\
  (forall ph, eval_point b mu eta ph = Ok (map (point_value b iel mu eta ph) (pure_functions (pb_sh b) (pb_Nrad b)))) /\
  let x := 2 * (mu - nth iel (pb_bval b) 0) / (nth (S iel) (pb_bval b) 0 - nth iel (pb_bval b) 0) - 1 in
  -1 <= x <= 1 /\ mu = nth iel (pb_bval b) 0 + (nth (S iel) (pb_bval b) 0 - nth iel (pb_bval b) 0) * (x + 1) / 2.
Proof.
  intros (HL & H0 & Hs) Hf [M1 M2]. unfold get_mumax in M2. destruct (find_in (pb_bval b) mu 0 HL ltac:(lra)) as [iel F]. exists iel.
  pose proof (find_some _ _ _ _ F) as FS. rewrite Nat.sub_0_r in FS. destruct FS as (_ & S1 & S2). specialize (Hf iel S1).
  split; [exact S1|]. split; [exact S2|]. split.
  - intros ph. unfold eval_point. rewrite F. destruct (pb_idx b iel) as [i1 i2] eqn:EI. cbn [fst snd] in Hf.
    rewrite (proj2 (Nat.leb_le i1 i2)), (proj2 (Nat.ltb_lt i2 _)) by lia. cbn [andb]. f_equal. apply pure_map.
    intros i k _ Hk. apply entry_value. exact Hk.
  - pose proof (sorted_nth _ Hs iel (S iel) ltac:(lia)) as LT. set (lo := nth iel (pb_bval b) 0) in *. set (hi := nth (S iel) (pb_bval b) 0) in *.
    cbv zeta. assert (D : 0 <= (mu - lo) / (hi - lo) <= 1).
    { split; [apply Rmult_le_pos; [lra | left; apply Rinv_0_lt_compat; lra]|]. apply (Rmult_le_reg_r (hi - lo)); [lra|].
      unfold Rdiv. rewrite Rmult_assoc, Rinv_l by lra. lra. }
    replace (2 * (mu - lo) / (hi - lo)) with (2 * ((mu - lo) / (hi - lo))) by (unfold Rdiv; ring). split; [lra|]. field. lra.
Qed.

(** Densities. *)
Lemma psd_rho n P bf : length bf = n -> psd n P -> 0 <= dl_rho P bf.
Proof.
  intros <- H. unfold dl_rho. set (n := length bf). pose proof (H (fun i => fst (nth i bf (0, 0)))) as A. pose proof (H (fun i => snd (nth i bf (0, 0)))) as B.
  cbv beta in A, B. fold n in A, B.
  match goal with |- 0 <= ?x => replace x with
    (sum n (fun i => sum n (fun j => fst (nth i bf (0, 0)) * P i j * fst (nth j bf (0, 0)))) + sum n (fun i => sum n (fun j => snd (nth i bf (0, 0)) * P i j * snd (nth j bf (0, 0))))) end; [lra|].
  rewrite <- sum_plus. apply sum_ext; intros i _. rewrite <- sum_plus. apply sum_ext; intros j _. ring.
Qed.
Lemma sq_sum n (f : nat -> R) : sum n f * sum n f = sum n (fun i => sum n (fun j => f i * f j)).
Proof. rewrite <- sum_scal_r. apply sum_ext; intros i _. rewrite <- sum_scal. reflexivity. Qed.
Lemma rho_orbitals n C bf : dl_rho (dmat n C) bf = sum n (fun o => norm2 (orbital bf C o)).
Proof.
  unfold dl_rho, dmat, norm2, orbital; cbn [fst snd]. set (N := length bf).
  transitivity (sum N (fun i => sum N (fun j => sum n (fun o => C i o * fst (nth i bf (0,0)) * (C j o * fst (nth j bf (0,0))) + C i o * snd (nth i bf (0,0)) * (C j o * snd (nth j bf (0,0))))))).
  - apply sum_ext; intros i _. apply sum_ext; intros j _. rewrite <- sum_scal_r. apply sum_ext; intros o _. ring.
  - rewrite (sum_ext N _ (fun i => sum n (fun o => sum N (fun j => C i o * fst (nth i bf (0,0)) * (C j o * fst (nth j bf (0,0))) + C i o * snd (nth i bf (0,0)) * (C j o * snd (nth j bf (0,0))))))) by (intros i _; apply sum_swap).
    rewrite sum_swap. apply sum_ext; intros o _. rewrite !sq_sum. rewrite <- sum_plus. apply sum_ext; intros i _. rewrite <- sum_plus. reflexivity.
Qed.
Lemma nth_values b iel mu eta ph i : (i < length (pure_functions (pb_sh b) (pb_Nrad b)))%nat ->
  nth i (map (point_value b iel mu eta ph) (pure_functions (pb_sh b) (pb_Nrad b))) (0, 0) = point_value b iel mu eta ph (fnth (pure_functions (pb_sh b) (pb_Nrad b)) i).
Proof.
  intros H. unfold fnth. rewrite (nth_indep _ (0, 0) (point_value b iel mu eta ph (0%Z, 0%Z, 0%nat))) by (rewrite map_length; exact H). apply map_nth.
Qed.
Lemma rho_phase b P iel mu eta p1 p2 : m_diagonal b P ->
  dl_rho P (map (point_value b iel mu eta p1) (pure_functions (pb_sh b) (pb_Nrad b))) = dl_rho P (map (point_value b iel mu eta p2) (pure_functions (pb_sh b) (pb_Nrad b))).
Proof.
  intros H. unfold dl_rho. rewrite !map_length. set (N := length (pure_functions (pb_sh b) (pb_Nrad b))).
  apply sum_ext; intros i Hi. apply sum_ext; intros j Hj. rewrite !nth_values by assumption.
  specialize (H i j Hi Hj). set (f := fnth _ i) in *. set (g := fnth _ j) in *.
  destruct (Z.eq_dec (bf_m f) (bf_m g)) as [E|E]; [|rewrite H by exact E; ring]. clear H.
  f_equal. unfold point_value, dl_scal, phase; cbn [fst snd]. rewrite <- E.
  set (c := radial_value _ _ _ _ * amplitude _ _ _ _). set (d := radial_value _ _ _ _ * amplitude _ _ _ _).
  pose proof (sin2_cos2 (IZR (bf_m f) * p1)) as A. pose proof (sin2_cos2 (IZR (bf_m f) * p2)) as B. unfold Rsqr in A, B.
  transitivity (c * d * (sin (IZR (bf_m f) * p1) * sin (IZR (bf_m f) * p1) + cos (IZR (bf_m f) * p1) * cos (IZR (bf_m f) * p1))); [ring|].
  rewrite A. rewrite <- B. ring.
Qed.

(** Geometry. *)
Lemma sq_le_abs a b : 0 <= b -> a * a <= b * b -> - b <= a <= b.
Proof. intros Hb H. split; [destruct (Rle_dec (- b) a) as [|N] | destruct (Rle_dec a b) as [|N]]; try assumption; exfalso; nra. Qed.
Lemma geo Rh s z : 0 < Rh -> 0 <= s ->
  let a := dl_ra Rh s z in let b := dl_rb Rh s z in
  0 <= a /\ 0 <= b /\ a * a = (z + Rh) * (z + Rh) + s /\ b * b = (z - Rh) * (z - Rh) + s /\ 2 * Rh <= a + b /\ - (2 * Rh) <= a - b <= 2 * Rh.
Proof.
  intros HR Hs a b. assert (A0 : 0 <= a) by apply sqrt_pos. assert (B0 : 0 <= b) by apply sqrt_pos.
  assert (A2 : a * a = (z + Rh) * (z + Rh) + s) by (unfold a, dl_ra; rewrite sqrt_sqrt by (pose proof (pow2_ge_0 (z + Rh)); lra); ring).
  assert (B2 : b * b = (z - Rh) * (z - Rh) + s) by (unfold b, dl_rb; rewrite sqrt_sqrt by (pose proof (pow2_ge_0 (z - Rh)); lra); ring).
  destruct (sq_le_abs (z + Rh) a A0 ltac:(lra)) as [A3 A4]. destruct (sq_le_abs (z - Rh) b B0 ltac:(lra)) as [B3 B4].
  assert (LE : forall u v, 0 <= v -> u * u <= v * v -> u <= v) by (intros u v Hv H; destruct (Rle_dec u v) as [|N]; [assumption | exfalso; nra]).
  assert (P1 : 0 <= Rh * (b - (z - Rh))) by (apply Rmult_le_pos; lra). assert (P2 : 0 <= Rh * (a + (z + Rh))) by (apply Rmult_le_pos; lra).
  split; [exact A0|]. split; [exact B0|]. split; [exact A2|]. split; [exact B2|]. split; [lra|]. split.
  - enough (b <= a + 2 * Rh) by lra. apply LE; [lra|]. nra.
  - enough (a <= b + 2 * Rh) by lra. apply LE; [lra|]. nra.
Qed.
Lemma eta_raw Rh s z : 0 < Rh -> 0 <= s -> dl_eta Rh s z = (dl_ra Rh s z - dl_rb Rh s z) / (2 * Rh) /\ -1 <= dl_eta Rh s z <= 1.
Proof.
  intros HR Hs. destruct (geo Rh s z HR Hs) as (_ & _ & _ & _ & _ & D1 & D2). unfold dl_eta. set (d := dl_ra Rh s z - dl_rb Rh s z) in *.
  assert (E : -1 <= d / (2 * Rh) <= 1).
  { split; apply (Rmult_le_reg_r (2 * Rh)); try lra; unfold Rdiv; rewrite Rmult_assoc, Rinv_l by lra; lra. }
  cbv zeta. destruct (Rltb_spec (d / (2 * Rh)) (-1)); [lra|]. destruct (Rltb_spec 1 (d / (2 * Rh))); [lra|]. split; [reflexivity | lra].
Qed.
Lemma xi_ge_1 Rh s z : 0 < Rh -> 0 <= s -> 1 <= dl_xi Rh s z.
Proof.
  intros HR Hs. destruct (geo Rh s z HR Hs) as (_ & _ & _ & _ & D & _). unfold dl_xi.
  apply (Rmult_le_reg_r (2 * Rh)); [lra|]. unfold Rdiv. rewrite Rmult_assoc, Rinv_l by lra. lra.
Qed.
Lemma sinh_nonneg m : 0 <= m -> 0 <= sinh m.
Proof.
  intros H. unfold sinh. assert (exp (- m) <= exp m) by (destruct (Req_dec m 0) as [->|]; [rewrite Ropp_0; lra | left; apply exp_increasing; lra]). lra.
Qed.
Lemma cosh_sinh m : cosh m * cosh m - sinh m * sinh m = 1.
Proof. unfold cosh, sinh. assert (exp m * exp (- m) = 1) by (rewrite <- exp_plus, Rplus_opp_r; apply exp_0). nra. Qed.
Lemma coordinates at2 Rh x y z : is_atan2 at2 -> 0 < Rh ->
  let mu := arcosh (dl_xi Rh (x * x + y * y) z) in let eta := dl_eta Rh (x * x + y * y) z in
  0 <= mu /\ -1 <= eta <= 1 /\ prolate_point Rh mu eta (at2 y x) = (x, y, z) /\
  Rh * (cosh mu + eta) = dl_ra Rh (x * x + y * y) z /\ Rh * (cosh mu - eta) = dl_rb Rh (x * x + y * y) z.
Proof.
  intros HA HR mu eta. set (s := x * x + y * y) in *. assert (Hs : 0 <= s) by (unfold s; nra).
  destruct (eta_raw Rh s z HR Hs) as [E1 E2]. fold eta in E1, E2.
  assert (M : 0 <= mu) by apply arcosh_pos.
  assert (C : cosh mu = dl_xi Rh s z) by (unfold mu; rewrite cosh_arcosh, Rmax_left by (apply xi_ge_1; assumption); reflexivity).
  destruct (geo Rh s z HR Hs) as (A0 & B0 & A2 & B2 & _ & _). set (a := dl_ra Rh s z) in *. set (b := dl_rb Rh s z) in *.
  assert (C' : cosh mu = (a + b) / (2 * Rh)) by exact C.
  assert (CE : Rh * cosh mu * eta = z).
  { rewrite C', E1. transitivity ((a * a - b * b) / (4 * Rh)); [field; lra|]. rewrite A2, B2. field. lra. }
  assert (SS : Rh * sinh mu * sqrt (1 - eta * eta) = sqrt s).
  { symmetry. apply sqrt_lem_1; [exact Hs | |].
    - apply Rmult_le_pos; [apply Rmult_le_pos; [lra | apply sinh_nonneg; exact M] | apply sqrt_pos].
    - transitivity (Rh * Rh * (sinh mu * sinh mu) * (sqrt (1 - eta * eta) * sqrt (1 - eta * eta))); [ring|]. rewrite sqrt_sqrt by nra.
      pose proof (cosh_sinh mu) as CS. replace (sinh mu * sinh mu) with (cosh mu * cosh mu - 1) by lra. rewrite C', E1.
      transitivity ((4 * (a * a) * (b * b) - (a * a + b * b - 4 * Rh * Rh) * (a * a + b * b - 4 * Rh * Rh)) / (16 * Rh * Rh)); [field; lra|]. rewrite A2, B2. field. lra. }
  split; [exact M|]. split; [exact E2|]. split.
  - unfold prolate_point. rewrite SS, CE. destruct (HA x y) as [H1 H2]. fold s in H1, H2. rewrite <- H1, <- H2. reflexivity.
  - rewrite C', E1. split; field; lra.
Qed.

(** The table. *)
Lemma each_rows (f : R -> res (list R)) (g : R -> list R) zs : (forall z, f z = Ok (g z)) -> dl_each f zs = Ok (map g zs).
Proof. intros H. induction zs as [|z zs IH]; cbn; [reflexivity|]. rewrite H; cbn. rewrite IH. reflexivity. Qed.
Lemma lin_at n lo hi i : (2 <= n)%nat -> (i < n)%nat -> nth i (lin_spaced n lo hi) 0 = lo + INR i * (hi - lo) / INR (n - 1).
Proof.
  intros Hn Hi. unfold lin_spaced. set (f := fun i : nat => _). rewrite (nth_indep _ 0 (f 0%nat)) by (rewrite map_length, seq_length; exact Hi).
  rewrite map_nth, seq_nth by exact Hi. unfold f. cbn [Nat.add]. assert (INR (n - 1) <> 0) by (apply not_0_INR; lia).
  destruct (Nat.eqb_spec (S i) n) as [E|E]; [replace i with (n - 1)%nat by lia; field; assumption | field; assumption].
Qed.
Lemma row_ok at2 b Rh P Q x y z : is_atan2 at2 -> 0 < Rh -> mesh (pb_bval b) -> fits b ->
  exists row mu eta phi, dl_row at2 b Rh P Q x y z = Ok row /\ 0 <= mu /\ -1 <= eta <= 1 /\ prolate_point Rh mu eta phi = (x, y, z) /\ row_of b P Q mu eta phi z row.
Proof.
  intros HA HR HM HF. pose proof (coordinates at2 Rh x y z HA HR) as CO. cbv zeta in CO. destruct CO as (C1 & C2 & C3 & _).
  unfold dl_row. cbv zeta. set (mu := arcosh _) in *. set (eta := dl_eta _ _ _) in *.
  destruct (Rltb_spec (get_mumax b) mu) as [L|L].
  - exists [z; 0; 0; 0], mu, eta, (at2 y x). repeat split; try assumption; try apply C2. left. split; [exact L | reflexivity].
  - destruct (point_ok b mu eta HM HF ltac:(lra)) as (iel & _ & _ & E & _). rewrite E. cbn [bind].
    eexists. exists mu, eta, (at2 y x). split; [reflexivity|]. repeat split; try assumption; try apply C2. right. split; [lra|].
    eexists. split; [apply E|]. split; [apply map_length | reflexivity].
Qed.
Lemma each_all (f : R -> res (list R)) zs : (forall z, exists r, f z = Ok r) -> exists rows, dl_each f zs = Ok rows /\ length rows = length zs /\
  forall i, (i < length zs)%nat -> f (nth i zs 0) = Ok (nth i rows []).
Proof.
  intros H. induction zs as [|z zs IH]; cbn [dl_each].
  - exists []. repeat split. cbn. lia.
  - destruct (H z) as [r E]. destruct IH as (rows & E2 & L & IH). exists (r :: rows). rewrite E; cbn [bind]. rewrite E2; cbn [bind]. split; [reflexivity|].
    split; [cbn; lia|]. intros [|i] Hi; cbn [nth]; [exact E | apply IH; cbn in Hi; lia].
Qed.
Lemma lin_length n lo hi : length (lin_spaced n lo hi) = n.
Proof. unfold lin_spaced. rewrite map_length, seq_length. reflexivity. Qed.
Lemma line_table at2 b Rh P Q x y zmin zmax Nz : is_atan2 at2 -> 0 < Rh -> mesh (pb_bval b) -> fits b -> (2 <= Nz)%nat ->
  exists rows, density_line at2 b Rh P Q x y zmin zmax Nz = Ok rows /\ length rows = Nz /\
  forall i, (i < Nz)%nat -> let z := zmin + INR i * (zmax - zmin) / INR (Nz - 1) in
    exists mu eta phi, 0 <= mu /\ -1 <= eta <= 1 /\ prolate_point Rh mu eta phi = (x, y, z) /\ row_of b P Q mu eta phi z (nth i rows []).
Proof.
  intros HA HR HM HF HN. unfold density_line.
  destruct (each_all (dl_row at2 b Rh P Q x y) (lin_spaced Nz zmin zmax)) as (rows & E & L & H).
  { intros z. destruct (row_ok at2 b Rh P Q x y z HA HR HM HF) as (row & _ & _ & _ & E & _). exists row. exact E. }
  exists rows. rewrite lin_length in *. split; [exact E|]. split; [exact L|]. intros i Hi. pose proof (H i Hi) as Hz. rewrite lin_at in Hz by assumption. cbv zeta. set (z := zmin + _) in *.
  destruct (row_ok at2 b Rh P Q x y z HA HR HM HF) as (row & mu & eta & phi & E1 & E2). rewrite Hz in E1. injection E1 as E1. rewrite E1. exists mu, eta, phi. exact E2.
Qed.
Lemma line_psd at2 b Rh P Q x y zmin zmax Nz rows : is_atan2 at2 -> 0 < Rh -> mesh (pb_bval b) -> fits b -> (2 <= Nz)%nat ->
  psd (length (pure_functions (pb_sh b) (pb_Nrad b))) P -> psd (length (pure_functions (pb_sh b) (pb_Nrad b))) Q ->
  density_line at2 b Rh P Q x y zmin zmax Nz = Ok rows -> forall i, (i < Nz)%nat -> exists z ra rb, nth i rows [] = [z; ra; rb; ra + rb] /\ 0 <= ra /\ 0 <= rb.
Proof.
  intros HA HR HM HF HN HP HQ E i Hi. destruct (line_table at2 b Rh P Q x y zmin zmax Nz HA HR HM HF HN) as (rows' & E' & _ & T). rewrite E in E'. injection E' as <-.
  specialize (T i Hi). cbv zeta in T. destruct T as (mu & eta & phi & _ & _ & _ & [[_ T]|(_ & bf & _ & L & T)]); rewrite T.
  - eexists _, 0, 0. rewrite Rplus_0_r. repeat split; lra.
  - eexists _, _, _. split; [reflexivity|]. split; eapply psd_rho; eauto.
Qed.
Lemma row_rotation at2 b Rh P Q x y x' y' z : mesh (pb_bval b) -> fits b -> m_diagonal b P -> m_diagonal b Q ->
  x * x + y * y = x' * x' + y' * y' -> dl_row at2 b Rh P Q x y z = dl_row at2 b Rh P Q x' y' z.
Proof.
  intros HM HF HP HQ E. unfold dl_row. cbv zeta. rewrite <- E. set (mu := arcosh _) in *. set (eta := dl_eta _ _ _) in *.
  destruct (Rltb_spec (get_mumax b) mu) as [L|L]; [reflexivity|].
  destruct (point_ok b mu eta HM HF) as (iel & _ & _ & EP & _); [split; [apply arcosh_pos | lra]|].
  rewrite !EP. cbn [bind]. rewrite (rho_phase b P iel mu eta (at2 y x) (at2 y' x') HP), (rho_phase b Q iel mu eta (at2 y x) (at2 y' x') HQ). reflexivity.
Qed.
Lemma line_rotation at2 b Rh P Q x y x' y' zmin zmax Nz : mesh (pb_bval b) -> fits b -> m_diagonal b P -> m_diagonal b Q ->
  x * x + y * y = x' * x' + y' * y' -> density_line at2 b Rh P Q x y zmin zmax Nz = density_line at2 b Rh P Q x' y' zmin zmax Nz.
Proof.
  intros HM HF HP HQ E. unfold density_line. induction (lin_spaced Nz zmin zmax) as [|z zs IH]; cbn [dl_each]; [reflexivity|].
  rewrite (row_rotation at2 b Rh P Q x y x' y' z HM HF HP HQ E), IH. reflexivity.
Qed.

(** A function with the promise of atan2. *)
Definition at2_ex (y x : R) : R :=
  if Rle_dec 0 y then acos (x / sqrt (x * x + y * y)) else - acos (x / sqrt (x * x + y * y)).
Lemma at2_ex_ok : is_atan2 at2_ex.
Proof.
  intros x y. unfold at2_ex. destruct (Req_dec (x * x + y * y) 0) as [E|E].
  - assert (x = 0) by nra. assert (y = 0) by nra. subst. rewrite E, sqrt_0, !Rmult_0_l. split; reflexivity.
  - set (r := sqrt (x * x + y * y)). assert (P : 0 < x * x + y * y) by nra. assert (Hr : 0 < r) by (apply sqrt_lt_R0; exact P).
    assert (R2 : r * r = x * x + y * y) by (apply sqrt_sqrt; lra).
    assert (B : -1 <= x / r <= 1).
    { split; apply (Rmult_le_reg_r r); try lra; unfold Rdiv; rewrite Rmult_assoc, Rinv_l by lra; nra. }
    assert (C : cos (acos (x / r)) = x / r) by (apply cos_acos; exact B).
    assert (T : sin (acos (x / r)) = sqrt (1 - (x / r)²)) by (apply sin_acos; exact B).
    assert (Q : sqrt (1 - (x / r)²) = Rabs y / r).
    { apply sqrt_lem_1.
      - unfold Rsqr. nra.
      - apply Rmult_le_pos; [apply Rabs_pos | left; apply Rinv_0_lt_compat; exact Hr].
      - assert (Y2 : Rabs y * Rabs y = y * y) by (rewrite <- Rabs_mult, Rabs_right by nra; reflexivity).
        unfold Rsqr. transitivity ((Rabs y * Rabs y) / (r * r)); [field; lra|]. rewrite Y2. replace (y * y) with (r * r - x * x) by lra. field. lra. }
    destruct (Rle_dec 0 y) as [Y|Y].
    + rewrite C, T, Q, Rabs_right by lra. split; field; lra.
    + rewrite cos_neg, sin_neg, C, T, Q, Rabs_left by lra. split; field; lra.
Qed.
