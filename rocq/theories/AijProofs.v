(** Proofs about the jellium program. *)
Require Import Reals ZArith List Bool Arith Lia Lra Permutation Sorted.
Require Import Verif.Prelude Verif.GridModel Verif.GridSpec Verif.GridProofs Verif.FEProofs Verif.TabModel Verif.AijModel Verif.AijSpec.
Import ListNotations.
Open Scope R_scope.

(* ---------- magic numbers ---------- *)

Lemma first_above_ok nj l : forall i, Sorted.StronglySorted Z.lt l ->
  first_above nj i l = if (forallb (fun m => (m <=? nj)%Z) l) then Throw LogicError else Ok (i + count_upto nj l)%Z.
Proof.
  induction l as [|m l IH]; intros i Hs; [reflexivity|]. inversion Hs as [|? ? Hs' Hm]; subst. cbn [first_above forallb].
  destruct (Z.ltb_spec nj m) as [H|H].
  - destruct (Z.leb_spec m nj); [lia|]. cbn [andb]. unfold count_upto. cbn [filter]. destruct (Z.leb_spec m nj); [lia|].
    assert (E : filter (fun x => (x <=? nj)%Z) l = []).
    { clear -H Hm. induction l as [|a l IH]; [reflexivity|]. inversion Hm; subst. cbn [filter]. destruct (Z.leb_spec a nj); [lia|]. auto. }
    rewrite E. cbn. f_equal. lia.
  - rewrite IH by auto. destruct (Z.leb_spec m nj); [|lia]. cbn [andb]. destruct (forallb _ l); [reflexivity|].
    f_equal. unfold count_upto. cbn [filter]. destruct (Z.leb_spec m nj); [|lia]. cbn [length]. lia.
Qed.

Lemma magic_sorted : Sorted.StronglySorted Z.lt magic.
Proof. apply Sorted.Sorted_StronglySorted; [intros x y z; lia|]. unfold magic. repeat constructor. Qed.

Lemma magic_all nj : forallb (fun m => (m <=? nj)%Z) magic = (99284 <=? nj)%Z.
Proof.
  destruct (Z.leb_spec 99284 nj) as [H|H].
  - apply forallb_forall. intros m Hm. apply Z.leb_le.
    assert (forallb (fun m => (m <=? 99284)%Z) magic = true) as E by reflexivity. rewrite forallb_forall in E. apply E in Hm. apply Z.leb_le in Hm. lia.
  - apply not_true_iff_false. intros E. rewrite forallb_forall in E. assert (In 99284%Z magic) as I.
    { apply (nth_In magic 0%Z (n := 99)). cbn. lia. }
    apply E, Z.leb_le in I. lia.
Qed.

Lemma lmax_ok nj :
  ((nj < 99284)%Z -> consistent_lmax nj = Ok (count_upto nj magic)) /\
  ((99284 <= nj)%Z -> consistent_lmax nj = Throw LogicError).
Proof.
  unfold consistent_lmax. rewrite first_above_ok by (auto using magic_sorted). rewrite magic_all.
  destruct (Z.leb_spec 99284 nj); split; intros; try lia; reflexivity.
Qed.

Lemma count_upto_mono x y l : (x <= y)%Z -> (count_upto x l <= count_upto y l)%Z.
Proof.
  intros H. unfold count_upto. induction l as [|m l IH]; [cbn; lia|]. cbn [filter].
  destruct (Z.leb_spec m x), (Z.leb_spec m y); cbn [length]; lia.
Qed.

Lemma lmax_mono n1 n2 l1 l2 : (n1 <= n2)%Z -> consistent_lmax n1 = Ok l1 -> consistent_lmax n2 = Ok l2 -> (0 <= l1 <= l2 /\ l2 <= 99)%Z.
Proof.
  intros H E1 E2. destruct (lmax_ok n1) as [A1 B1], (lmax_ok n2) as [A2 B2].
  destruct (Z.lt_ge_cases n1 99284) as [G1|G1]; [|rewrite B1 in E1 by lia; discriminate].
  destruct (Z.lt_ge_cases n2 99284) as [G2|G2]; [|rewrite B2 in E2 by lia; discriminate].
  rewrite A1 in E1 by lia. rewrite A2 in E2 by lia. injection E1 as <-. injection E2 as <-.
  split; [split; [unfold count_upto; lia | now apply count_upto_mono]|].
  transitivity (count_upto 99283 magic); [apply count_upto_mono; lia | vm_compute; discriminate].
Qed.

(* ---------- geometry ---------- *)

Lemma Rpower_third x : 0 < x -> Rpower x (1 / 3) ^ 3 = x.
Proof.
  intros H. rewrite <- Rpower_pow by (unfold Rpower; apply exp_pos). rewrite Rpower_mult. replace (1 / 3 * INR 3) with 1 by (cbn; field). now apply Rpower_1.
Qed.

Lemma cbrt_cube x : cbrt x ^ 3 = x.
Proof.
  unfold cbrt. destruct (Rltb_spec 0 x) as [H|H]; [now apply Rpower_third|]. destruct (Rltb_spec x 0) as [G|G].
  - replace ((- Rpower (- x) (1 / 3)) ^ 3) with (- (Rpower (- x) (1 / 3) ^ 3)) by ring. rewrite Rpower_third by lra. ring.
  - assert (x = 0) by lra. subst. ring.
Qed.

Lemma cube_lt a b : a ^ 3 < b ^ 3 -> a < b.
Proof.
  intros H. destruct (Rlt_le_dec a b) as [G|G]; [assumption|]. exfalso.
  assert (0 <= (a - b) * (a * a + a * b + b * b)); [|replace (a ^ 3) with (b ^ 3 + (a - b) * (a * a + a * b + b * b)) in H by ring; lra].
  apply Rmult_le_pos; [lra|]. pose proof (Rle_0_sqr (a + b / 2)) as P1. pose proof (Rle_0_sqr b) as P2. unfold Rsqr in *. lra.
Qed.
Lemma cube_le a b : a ^ 3 <= b ^ 3 -> a <= b.
Proof.
  intros [H|H]; [left; now apply cube_lt|]. destruct (Rle_lt_dec a b) as [G|G]; [assumption|]. exfalso.
  assert (0 < (a - b) * (a * a + a * b + b * b)); [|replace (a ^ 3) with (b ^ 3 + (a - b) * (a * a + a * b + b * b)) in H by ring; lra].
  apply Rmult_lt_0_compat; [lra|]. pose proof (Rle_0_sqr (a + b / 2)) as P1. pose proof (Rle_0_sqr (a / 2 + b)) as P2. pose proof (Rle_0_sqr (a + b)) as P3. unfold Rsqr in *.
  destruct (Req_dec b 0) as [->|Hb]; [assert (0 < a * a) by (apply Rmult_lt_0_compat; lra); lra|].
  pose proof (Rsqr_pos_lt b Hb) as P4. unfold Rsqr in P4. lra.
Qed.
Lemma cube_inj a b : a ^ 3 = b ^ 3 -> a = b.
Proof. intros H. apply Rle_antisym; apply cube_le; lra. Qed.

Lemma cbrt_le x y : x <= y -> cbrt x <= cbrt y.
Proof. intros H. apply cube_le. rewrite !cbrt_cube. exact H. Qed.
Lemma cbrt_lt x y : x < y -> cbrt x < cbrt y.
Proof. intros H. apply cube_lt. rewrite !cbrt_cube. exact H. Qed.
Lemma cbrt_0 : cbrt 0 = 0.
Proof. apply cube_inj. rewrite cbrt_cube. ring. Qed.

Lemma shell_ok j : physical j ->
  0 <= fst (shell j) <= snd (shell j) /\ snd (shell j) ^ 3 - fst (shell j) ^ 3 = IZR (j_nj j) * j_rs j ^ 3.
Proof.
  intros (Hr & Hn & Hv). unfold shell. destruct (j_vac j); cbn [fst snd].
  - assert (Hq := Hv eq_refl). rewrite !Rpow_mult_distr, !cbrt_cube. split; [split|].
    + apply Rmult_le_pos; [|lra]. rewrite <- cbrt_0. apply cbrt_le. apply (IZR_le 0). lia.
    + apply Rmult_le_compat_r; [lra|]. apply cbrt_le, IZR_le. lia.
    + rewrite !plus_IZR. ring.
  - rewrite Rpow_mult_distr, cbrt_cube. split; [split; [lra|]|ring]. apply Rmult_le_pos; [|lra]. rewrite <- cbrt_0. apply cbrt_le. now apply (IZR_le 0).
Qed.

Lemma charge_ok j : physical j -> charge_check j = Ok tt.
Proof.
  intros H. destruct (shell_ok j H) as [_ E]. destruct H as (Hr & Hn & _). unfold charge_check. destruct (Rltb_spec 0 (j_rs j)); [|lra]. cbv zeta.
  replace ((snd (shell j) / j_rs j) ^ 3 - (fst (shell j) / j_rs j) ^ 3) with ((snd (shell j) ^ 3 - fst (shell j) ^ 3) / j_rs j ^ 3) by (field; lra).
  rewrite E. replace (IZR (j_nj j) * j_rs j ^ 3 / j_rs j ^ 3 - IZR (j_nj j)) with 0 by (field; lra). rewrite Rabs_R0.
  match goal with |- (if Rltb ?a 0 then _ else _) = _ => destruct (Rltb_spec a 0) as [H|H]; [exfalso|reflexivity] end.
  assert (0 <= / 10 ^ 8 * Rmax 1 (IZR (j_nj j))); [|lra]. apply Rmult_le_pos; [left; apply Rinv_0_lt_compat; apply pow_lt; lra|].
  apply Rle_trans with 1; [lra | apply Rmax_l].
Qed.

Lemma friedel_ok rs kF : 0 < rs -> kF ^ 3 = 3 * PI ^ 2 * (3 / (4 * PI * rs ^ 3)) -> friedel rs * kF = PI.
Proof.
  intros H E. apply cube_inj. unfold friedel. rewrite !Rpow_mult_distr, cbrt_cube, E. pose proof PI_RGT_0. field. split; lra.
Qed.

Lemma friedel_pos rs : 0 < rs -> 0 < friedel rs.
Proof.
  intros H. unfold friedel. apply Rmult_lt_0_compat; [|assumption]. rewrite <- cbrt_0. apply cbrt_lt. pose proof PI_RGT_0.
  apply Rmult_lt_0_compat; [|lra]. apply Rmult_lt_0_compat; lra.
Qed.

(* ---------- potential of the background ---------- *)

Lemma deriv_local f g r l d : 0 < d -> (forall x, Rabs (x - r) < d -> f x = g x) -> derivable_pt_lim g r l -> derivable_pt_lim f r l.
Proof.
  intros Hd He Hg eps Heps. destruct (Hg eps Heps) as [[d1 Hd1] H1]. assert (Hm : 0 < Rmin d d1) by (apply Rmin_pos; assumption).
  exists (mkposreal _ Hm). intros h Hh Hl. cbn in Hl. rewrite !He.
  - apply H1; [assumption|]. cbn. eapply Rlt_le_trans; [exact Hl | apply Rmin_r].
  - rewrite Rminus_diag_eq by reflexivity. rewrite Rabs_R0. assumption.
  - replace (r + h - r) with h by ring. eapply Rlt_le_trans; [exact Hl | apply Rmin_l].
Qed.

Lemma deriv_glued f g h a l : (forall x, x < a -> f x = g x) -> (forall x, a <= x -> f x = h x) -> g a = h a ->
  derivable_pt_lim g a l -> derivable_pt_lim h a l -> derivable_pt_lim f a l.
Proof.
  intros Hg Hh E Dg Dh eps Heps. destruct (Dg eps Heps) as [[d1 Hd1] H1]. destruct (Dh eps Heps) as [[d2 Hd2] H2].
  assert (Hm : 0 < Rmin d1 d2) by (apply Rmin_pos; assumption). exists (mkposreal _ Hm). intros x Hx Hl. cbn in Hl.
  rewrite (Hh a) by lra. destruct (Rlt_le_dec (a + x) a) as [G|G].
  - rewrite Hg by assumption. rewrite <- E. apply H1; [assumption|]. cbn. eapply Rlt_le_trans; [exact Hl | apply Rmin_l].
  - rewrite Hh by assumption. apply H2; [assumption|]. cbn. eapply Rlt_le_trans; [exact Hl | apply Rmin_r].
Qed.

Lemma deriv_scal_pow c n r : derivable_pt_lim (fun x => c * x ^ n) r (c * (INR n * r ^ pred n)).
Proof. apply (derivable_pt_lim_scal (fun x => x ^ n)). apply derivable_pt_lim_pow. Qed.

Lemma deriv_inner rs R0 r : 0 < rs -> 0 < R0 ->
  derivable_pt_lim (fun x => (R0 / rs) ^ 3 * (3 - (x / R0) ^ 2) / (2 * R0)) r (- (r / rs ^ 3)).
Proof.
  intros H1 H2. apply (deriv_local _ (fun x => 3 * R0 ^ 2 / (2 * rs ^ 3) + - / (2 * rs ^ 3) * x ^ 2) r _ 1); [lra | intros x _; field; lra|].
  replace (- (r / rs ^ 3)) with (0 + - / (2 * rs ^ 3) * (INR 2 * r ^ pred 2)) by (cbn; field; lra).
  apply (derivable_pt_lim_plus (fun _ => 3 * R0 ^ 2 / (2 * rs ^ 3)) (fun x => - / (2 * rs ^ 3) * x ^ 2)); [apply derivable_pt_lim_const | apply deriv_scal_pow].
Qed.

Lemma deriv_outer c r : 0 < r -> derivable_pt_lim (fun x => c / x) r (- (c / r ^ 2)).
Proof.
  intros H. replace (- (c / r ^ 2)) with ((0 * r - 1 * c) / Rsqr r) by (unfold Rsqr; field; lra).
  apply (derivable_pt_lim_div (fun _ => c) (fun x => x)); [apply derivable_pt_lim_const | apply derivable_pt_lim_id | lra].
Qed.

Lemma deriv_sphere rs R0 r : 0 < rs -> 0 < R0 -> 0 < r ->
  derivable_pt_lim (fun x => sphere_pot rs x R0) r (- (Rmin R0 r ^ 3 / rs ^ 3 / r ^ 2)).
Proof.
  intros H1 H2 H3. destruct (Rtotal_order r R0) as [H|[H|H]].
  - rewrite Rmin_right by lra. replace (- (r ^ 3 / rs ^ 3 / r ^ 2)) with (- (r / rs ^ 3)) by (field; lra).
    apply (deriv_local _ (fun x => (R0 / rs) ^ 3 * (3 - (x / R0) ^ 2) / (2 * R0)) r _ (R0 - r)); [lra| |now apply deriv_inner].
    intros x Hx. unfold sphere_pot. cbv zeta. apply Rabs_def2 in Hx. destruct (Rltb_spec x R0); [reflexivity | lra].
  - subst r. rewrite Rmin_left by lra.
    apply (deriv_glued _ (fun x => (R0 / rs) ^ 3 * (3 - (x / R0) ^ 2) / (2 * R0)) (fun x => (R0 / rs) ^ 3 / x)).
    + intros x Hx. unfold sphere_pot. cbv zeta. destruct (Rltb_spec x R0); [reflexivity | lra].
    + intros x Hx. unfold sphere_pot. cbv zeta. destruct (Rltb_spec x R0); [lra | reflexivity].
    + field. lra.
    + replace (- (R0 ^ 3 / rs ^ 3 / R0 ^ 2)) with (- (R0 / rs ^ 3)) by (field; lra). now apply deriv_inner.
    + replace (R0 ^ 3 / rs ^ 3 / R0 ^ 2) with ((R0 / rs) ^ 3 / R0 ^ 2) by (field; lra). now apply deriv_outer.
  - rewrite Rmin_left by lra. replace (R0 ^ 3 / rs ^ 3 / r ^ 2) with ((R0 / rs) ^ 3 / r ^ 2) by (field; lra).
    apply (deriv_local _ (fun x => (R0 / rs) ^ 3 / x) r _ (r - R0)); [lra| |now apply deriv_outer].
    intros x Hx. unfold sphere_pot. cbv zeta. apply Rabs_def2 in Hx. destruct (Rltb_spec x R0); [lra | reflexivity].
Qed.

Lemma enclosed_split rs ri ro r : 0 < rs -> 0 <= ri <= ro -> 0 < r -> enclosed rs ri ro r = Rmin ro r ^ 3 / rs ^ 3 - Rmin ri r ^ 3 / rs ^ 3.
Proof.
  intros H1 H2 H3. unfold enclosed. destruct (Rle_dec r ri).
  - rewrite (Rmax_left ri r), (Rmin_right ro ri), (Rmin_right ro r), (Rmin_right ri r) by lra. field. lra.
  - rewrite (Rmax_right ri r), (Rmin_left ri r) by lra. field. lra.
Qed.

Lemma background_ok rs ri ro : 0 < rs -> 0 <= ri <= ro -> potential_of rs ri ro (fun r => - potfunc rs ri ro r).
Proof.
  intros Hs Hi. unfold potential_of. split; [|split].
  - intros r Hr. rewrite enclosed_split by assumption. unfold potfunc. destruct (Rltb_spec 0 ri) as [G|G].
    + apply (deriv_local _ (fun x => sphere_pot rs x ro + -1 * sphere_pot rs x ri) r _ 1); [lra | intros; ring|].
      replace (- ((Rmin ro r ^ 3 / rs ^ 3 - Rmin ri r ^ 3 / rs ^ 3) / r ^ 2)) with (- (Rmin ro r ^ 3 / rs ^ 3 / r ^ 2) + -1 * - (Rmin ri r ^ 3 / rs ^ 3 / r ^ 2)) by (field; lra).
      apply (derivable_pt_lim_plus (fun x => sphere_pot rs x ro) (fun x => -1 * sphere_pot rs x ri)); [apply deriv_sphere; lra|].
      apply (derivable_pt_lim_scal (fun x => sphere_pot rs x ri)). apply deriv_sphere; lra.
    + assert (ri = 0) by lra. subst ri. rewrite (Rmin_left 0 r) by lra. destruct (Rltb_spec 0 ro) as [F|F].
      * apply (deriv_local _ (fun x => sphere_pot rs x ro) r _ 1); [lra | intros; ring|].
        replace ((Rmin ro r ^ 3 / rs ^ 3 - 0 ^ 3 / rs ^ 3) / r ^ 2) with (Rmin ro r ^ 3 / rs ^ 3 / r ^ 2) by (field; lra). apply deriv_sphere; lra.
      * assert (ro = 0) by lra. subst ro. rewrite (Rmin_left 0 r) by lra.
        replace (- ((0 ^ 3 / rs ^ 3 - 0 ^ 3 / rs ^ 3) / r ^ 2)) with 0 by (field; lra). apply derivable_pt_lim_const.
  - intros r Hr H0. rewrite enclosed_split by assumption. rewrite (Rmin_left ro r), (Rmin_left ri r) by lra. unfold potfunc, sphere_pot. cbv zeta.
    destruct (Rltb_spec r ro); [lra|]. destruct (Rltb_spec r ri); [lra|]. destruct (Rltb_spec 0 ri); [field; lra|]. assert (ri = 0) by lra. subst ri.
    destruct (Rltb_spec 0 ro); [field; lra|]. assert (ro = 0) by lra. subst ro. field; lra.
  - intros eps He. assert (H3 : 0 < rs ^ 3) by (apply pow_lt; assumption). unfold potfunc, sphere_pot. cbv zeta. destruct (Rltb_spec 0 ri) as [G|G].
    + exists ri. split; [assumption|]. intros r Hr. destruct (Rltb_spec r ro); [|lra]. destruct (Rltb_spec r ri); [|lra]. destruct (Rltb_spec 0 ro); [|lra].
      destruct (Rltb_spec 0 ri); [|lra].
      match goal with |- Rabs ?x < _ => replace x with 0 by (field; lra) end. rewrite Rabs_R0. assumption.
    + destruct (Rltb_spec 0 ro) as [F|F].
      * exists (Rmin ro (Rmin 1 (eps * rs ^ 3))). split; [repeat apply Rmin_pos; try lra; apply Rmult_lt_0_compat; lra|]. intros r [Hr Hd].
        assert (r < ro) by (eapply Rlt_le_trans; [exact Hd | apply Rmin_l]). assert (D2 : r < Rmin 1 (eps * rs ^ 3)) by (eapply Rlt_le_trans; [exact Hd | apply Rmin_r]).
        assert (r < 1) by (eapply Rlt_le_trans; [exact D2 | apply Rmin_l]). assert (r < eps * rs ^ 3) by (eapply Rlt_le_trans; [exact D2 | apply Rmin_r]).
        destruct (Rltb_spec r ro); [|lra]. replace (- - ((ro / rs) ^ 3 * (3 - (r / ro) ^ 2) / (2 * ro)) - - - ((ro / rs) ^ 3 * (3 - (0 / ro) ^ 2) / (2 * ro))) with (- (r * r / (2 * rs ^ 3))) by (field; lra).
        rewrite Rabs_Ropp, Rabs_pos_eq.
        -- apply (Rmult_lt_reg_r (2 * rs ^ 3)); [lra|]. replace (r * r / (2 * rs ^ 3) * (2 * rs ^ 3)) with (r * r) by (field; lra).
           assert (r * r <= r * 1) by (apply Rmult_le_compat_l; lra). assert (0 < eps * rs ^ 3) by (apply Rmult_lt_0_compat; lra). lra.
        -- apply Rmult_le_pos; [apply Rmult_le_pos; lra|]. left. apply Rinv_0_lt_compat. lra.
      * exists 1. split; [lra|]. intros. rewrite Rminus_diag_eq by reflexivity. rewrite Rabs_R0. assumption.
Qed.

(* ---------- energies of the background ---------- *)

Lemma antiderivative_unique f F G a b : a <= b -> (forall r, a <= r <= b -> derivable_pt_lim F r (f r)) -> (forall r, a <= r <= b -> derivable_pt_lim G r (f r)) -> F b - F a = G b - G a.
Proof.
  intros [H|H] HF HG; [|subst; ring].
  assert (D : forall r, a <= r <= b -> derivable_pt_lim (F - G)%F r 0).
  { intros r Hr. replace 0 with (f r - f r) by ring. apply derivable_pt_lim_minus; auto. }
  assert (pr : forall x, a < x < b -> derivable_pt (F - G)%F x) by (intros x Hx; exists 0; apply D; lra).
  destruct (MVT_cor2 (F - G)%F (fun _ => 0) a b H D) as (c & Ec & _). unfold minus_fct in Ec. lra.
Qed.

Lemma integral_by f F a b E : a <= b -> (forall r, a <= r <= b -> derivable_pt_lim F r (f r)) -> F b - F a = E -> integral_is f a b E.
Proof. intros H HF HE. split; [now exists F|]. intros G HG. rewrite <- HE. now apply (antiderivative_unique f G F). Qed.

Lemma erep_ok rs ri ro : 0 < rs -> 0 <= ri <= ro ->
  integral_is (fun r => / 2 * radial_charge rs r * - potfunc rs ri ro r) ri ro (erep rs ri ro).
Proof.
  intros Hs Hi. apply (integral_by _ (fun x => 3 * ro ^ 2 / (4 * rs ^ 6) * x ^ 3 + (- (3 / (20 * rs ^ 6)) * x ^ 5 + - (3 * ri ^ 3 / (4 * rs ^ 6)) * x ^ 2))); [lra| |].
  - intros r Hr.
    assert (E : / 2 * radial_charge rs r * - potfunc rs ri ro r = 3 * ro ^ 2 / (4 * rs ^ 6) * (INR 3 * r ^ pred 3) + (- (3 / (20 * rs ^ 6)) * (INR 5 * r ^ pred 5) + - (3 * ri ^ 3 / (4 * rs ^ 6)) * (INR 2 * r ^ pred 2))).
    { replace (INR 3) with 3 by (cbn; ring). replace (INR 5) with 5 by (cbn; ring). replace (INR 2) with 2 by (cbn; ring). cbn [pred]. unfold radial_charge, potfunc, sphere_pot. cbv zeta.
      destruct (Rltb_spec r ri); [lra|]. destruct (Rltb_spec r ro), (Rltb_spec 0 ri), (Rltb_spec 0 ro); try lra.
      - field. lra.
      - assert (ri = 0) by lra. subst. field. lra.
      - assert (r = ro) by lra. subst. field. lra.
      - assert (r = ro) by lra. assert (ri = 0) by lra. subst. field. lra.
      - assert (r = 0) by lra. assert (ri = 0) by lra. assert (ro = 0) by lra. subst. field. lra. }
    rewrite E. apply (derivable_pt_lim_plus (fun x => 3 * ro ^ 2 / (4 * rs ^ 6) * x ^ 3)); [apply deriv_scal_pow|].
    apply (derivable_pt_lim_plus (fun x => - (3 / (20 * rs ^ 6)) * x ^ 5)); apply deriv_scal_pow.
  - unfold erep. destruct (Rltb_spec 0 rs); [|lra]. field. lra.
Qed.

Lemma erep_nonneg rs ri ro : 0 < rs -> 0 <= ri <= ro -> 0 <= erep rs ri ro.
Proof.
  intros Hs Hi. unfold erep. destruct (Rltb_spec 0 rs); [|lra]. apply Rmult_le_pos; [|left; apply Rinv_0_lt_compat; apply Rmult_lt_0_compat; [lra | apply pow_lt; lra]].
  replace (3 * ro ^ 5 + 9 / 2 * ri ^ 5 - 15 / 2 * ri ^ 3 * ro ^ 2) with (/ 2 * ((ro - ri) ^ 2 * (6 * ro ^ 3 + 12 * ro ^ 2 * ri + 18 * ro * ri ^ 2 + 9 * ri ^ 3))) by field.
  apply Rmult_le_pos; [lra|]. apply Rmult_le_pos; [apply pow2_ge_0|].
  assert (0 <= ro ^ 3) by (apply pow_le; lra). assert (0 <= ri ^ 3) by (apply pow_le; lra).
  assert (0 <= ro ^ 2 * ri) by (apply Rmult_le_pos; [apply pow_le|]; lra). assert (0 <= ro * ri ^ 2) by (apply Rmult_le_pos; [|apply pow_le]; lra). lra.
Qed.

Lemma erep_balls rs ri ro : 0 < rs -> 0 < ri <= ro ->
  let Qo := (ro / rs) ^ 3 in let Qi := (ri / rs) ^ 3 in
  erep rs ri ro = 3 / 5 * Qo ^ 2 / ro + 3 / 5 * Qi ^ 2 / ri - 3 * Qi * Qo / (2 * ro) * (1 - ri ^ 2 / (5 * ro ^ 2)).
Proof. intros Hs Hi. cbv zeta. unfold erep. destruct (Rltb_spec 0 rs); [|lra]. field. lra. Qed.

Lemma enucfield_ok Z0 rs ri ro : 0 < rs -> 0 <= ri <= ro ->
  integral_is (fun r => IZR Z0 * (3 * r / rs ^ 3)) ri ro (enucfield Z0 rs ri ro).
Proof.
  intros Hs Hi. apply (integral_by _ (fun x => IZR Z0 * 3 / (2 * rs ^ 3) * x ^ 2)); [lra| |].
  - intros r Hr. replace (IZR Z0 * (3 * r / rs ^ 3)) with (IZR Z0 * 3 / (2 * rs ^ 3) * (INR 2 * r ^ pred 2)) by (cbn; field; lra). apply deriv_scal_pow.
  - unfold enucfield, potfunc, sphere_pot. cbv zeta. destruct (Rltb_spec 0 ri); destruct (Rltb_spec 0 ro); try lra.
    + field. lra.
    + assert (ri = 0) by lra. subst. field. lra.
    + assert (ri = 0) by lra. assert (ro = 0) by lra. subst. field. lra.
Qed.

(* ---------- grid ---------- *)

Lemma rceil_ok x : IZR (rceil x - 1) < x <= IZR (rceil x).
Proof. unfold rceil. destruct (archimed (- x)) as [H1 H2]. rewrite !minus_IZR. lra. Qed.

Lemma rceil_fewest len fp f : 0 < fp -> 0 < f -> fewest len (fp / f) (rceil (len / fp * f)).
Proof.
  intros Hp Hf. destruct (rceil_ok (len / fp * f)) as [H1 H2]. unfold fewest. assert (Hq : 0 < fp / f) by (apply Rdiv_lt_0_compat; lra).
  replace len with (len / fp * f * (fp / f)) at 2 3 by (field; lra). split; [now apply Rmult_lt_compat_r | apply Rmult_le_compat_r; lra].
Qed.

Lemma fewest_pos len h n : 0 < len -> 0 < h -> fewest len h n -> (0 < n)%Z.
Proof.
  intros Hl Hh [_ H]. apply lt_IZR. destruct (Rlt_le_dec 0 (IZR n)) as [G|G]; [assumption|]. exfalso.
  assert (IZR n * h <= 0 * h) by (apply Rmult_le_compat_r; lra). lra.
Qed.

Lemma get_linear r n : 0 < r -> (0 < n)%Z -> get_grid r n 1 0 = Ok (linear_values r (Z.to_nat n)) /\ grid_from_0_to r n (linear_values r (Z.to_nat n)).
Proof.
  intros Hr Hn. assert (G : grid_from_0_to r n (linear_values r (Z.to_nat n))).
  { replace n with (Z.of_nat (Z.to_nat n)) at 1 by lia. apply linear_ok; [assumption|lia]. }
  split; [|exact G]. transitivity (snap r (linear_values r (Z.to_nat n))); [|now apply (snap_id r n)].
  unfold get_grid. destruct (Z.ltb_spec n 0); [lia|]. reflexivity.
Qed.

Lemma linear_map r n : (0 < n)%nat -> linear_values r n = map (fun i => INR i * (r / INR n)) (seq 0 (n + 1)).
Proof.
  intros H. unfold linear_values, lin_spaced. destruct (Nat.eqb_spec (n + 1) 1); [lia|]. replace (n + 1 - 1)%nat with n by lia.
  apply map_ext. intros i. rewrite Rminus_0_r, Rplus_0_l. reflexivity.
Qed.

Lemma body_ok j : 0 < j_rs j -> 0 < snd (shell j) -> 0 < j_nufreq j -> (0 < j_nelem j)%Z -> admissible (j_igrid j) (j_zexp j) ->
  exists g, bind (uniform_part j) (glued j) = Ok g /\ grid_from_0_to (snd (shell j)) (j_nelem j + nuelem j - 1) g /\
    fewest (snd (shell j)) (friedel (j_rs j) / j_nufreq j) (nuelem j) /\ (0 < nuelem j)%Z /\
    (forall k, (1 <= k <= nuelem j)%Z -> In (IZR k * (snd (shell j) / IZR (nuelem j))) g).
Proof.
  intros Hs HR Hf Hn Ha. pose proof (friedel_pos _ Hs) as Hp. set (R0 := snd (shell j)) in *.
  assert (F : fewest R0 (friedel (j_rs j) / j_nufreq j) (nuelem j)).
  { unfold nuelem. destruct (Rltb_spec 0 (j_rs j)); [|lra]. now apply rceil_fewest. }
  assert (P : (0 < nuelem j)%Z) by (apply (fewest_pos R0 (friedel (j_rs j) / j_nufreq j)); [assumption | apply Rdiv_lt_0_compat; lra | exact F]).
  unfold uniform_part. destruct (Z.eqb_spec (nuelem j) 0) as [E0|_]; [lia|]. rewrite form_grid_plain by tauto. fold R0.
  destruct (get_linear R0 (nuelem j) HR P) as [EG GG]. rewrite EG. cbn [bind]. set (n := Z.to_nat (nuelem j)) in *.
  assert (Pn : (0 < n)%nat) by (unfold n; lia). assert (Pr : 0 < INR n) by (now apply INR_pos).
  rewrite linear_map in * by assumption. set (h := R0 / INR n) in *. assert (Hh : 0 < h) by (apply Rdiv_lt_0_compat; assumption).
  assert (EN : IZR (nuelem j) = INR n) by (unfold n; rewrite INR_IZR_INZ; f_equal; lia).
  unfold glued. destruct (Z.ltb_spec 0 (j_nelem j)); [|lia]. destruct (Z.ltb_spec 0 (nuelem j)); [|lia].
  assert (E2 : seq 0 (n + 1) = 0%nat :: 1%nat :: seq 2 (n - 1)) by (replace (n + 1)%nat with (S (S (n - 1))) by lia; reflexivity).
  assert (E1 : at_index 1 (map (fun i => INR i * h) (seq 0 (n + 1))) = Ok h).
  { unfold at_index. rewrite E2. cbn [map length nth]. destruct (Nat.ltb_spec 1 (S (S (length (map (fun i => INR i * h) (seq 2 (n - 1))))))); [|lia]. f_equal. cbn. ring. }
  rewrite E1. cbn [bind]. rewrite form_grid_plain by tauto. destruct (get_grid_ok h (j_nelem j) _ _ Hh Hn Ha) as (atom & EA & (AL & AI & AH & AE)). rewrite EA. cbn [bind].
  assert (NA : atom <> []) by (intros ->; discriminate). assert (LA : last atom 0 = h) by (rewrite <- AE; now apply last_indep).
  set (tl2 := map (fun i => INR i * h) (seq 2 (n - 1))).
  exists (atom ++ tl2). split; [|split; [|split; [exact F | split; [exact P|]]]].
  - unfold glue. rewrite E2 at 1. cbn [map]. rewrite E1. destruct (Nat.ltb_spec 0 (length atom)); [|destruct atom; [congruence | cbn in *; lia]]. cbn [bind]. rewrite LA.
    destruct (Reqb_spec h h); [|congruence]. cbn [negb]. rewrite E2. reflexivity.
  - split; [|split; [|split]].
    + unfold tl2. rewrite app_length, map_length, seq_length. unfold n. lia.
    + apply increasing_app; [assumption | | ].
      * apply increasing_map_seq. intros a b _ Hab _. apply Rmult_lt_compat_r; [assumption | now apply lt_INR].
      * intros a b Ia Ib. unfold tl2 in Ib. apply in_map_iff in Ib. destruct Ib as (k & <- & Ik). apply in_seq in Ik.
        apply Rle_lt_trans with h; [rewrite <- LA; now apply increasing_le_last|]. apply Rlt_le_trans with (2 * h); [lra|]. apply Rmult_le_compat_r; [lra|].
        replace 2 with (INR 2) by reflexivity. apply le_INR. lia.
    + destruct atom; [congruence | exact AH].
    + unfold tl2. destruct (Nat.eq_dec n 1) as [E|E].
      * rewrite E. cbn [seq map Nat.sub]. rewrite app_nil_r, AE. unfold h. rewrite E. cbn. field.
      * rewrite last_app_r by (destruct (n - 1)%nat eqn:Q; [lia | discriminate]). replace (n - 1)%nat with ((n - 2) + 1)%nat by lia. rewrite seq_app, map_app. cbn [seq map].
        rewrite last_last. replace (2 + (n - 2))%nat with n by lia. unfold h. field. lra.
  - intros k Hk. rewrite EN. fold h. apply in_or_app. destruct (Z.eq_dec k 1) as [->|].
    + left. rewrite Rmult_1_l, <- LA. now apply last_in.
    + right. unfold tl2. apply in_map_iff. exists (Z.to_nat k). split; [rewrite INR_IZR_INZ; do 2 f_equal; lia | apply in_seq; unfold n; lia].
Qed.

Lemma vacuum_ok j : 0 < j_rs j -> 0 < j_nufreq j -> (0 < nuelem j)%Z ->
  exists tl nv, (forall bval, bval <> [] -> last bval 0 = snd (shell j) -> add_vacuum j bval = Ok (bval ++ tl)) /\
    increasing tl /\ (forall x, In x tl -> snd (shell j) < x) /\ Z.of_nat (length tl) = nv /\
    (tl = [] -> j_Rmax j <= 0) /\ (tl <> [] -> last tl (-1) = snd (shell j) + j_Rmax j) /\
    (0 < j_Rmax j -> fewest (j_Rmax j) (friedel (j_rs j) / j_nufreq j) nv) /\ (j_Rmax j <= 0 -> nv = 0%Z).
Proof.
  intros Hs Hf Hn. pose proof (friedel_pos _ Hs) as Hp. destruct (Rlt_le_dec 0 (j_Rmax j)) as [Hm|Hm].
  - set (nv := rceil (j_Rmax j / friedel (j_rs j) * j_nufreq j)). assert (F := rceil_fewest (j_Rmax j) _ _ Hp Hf). fold nv in F.
    assert (P : (0 < nv)%Z) by (apply (fewest_pos (j_Rmax j) (friedel (j_rs j) / j_nufreq j)); [assumption | apply Rdiv_lt_0_compat; lra | exact F]).
    destruct (get_linear (j_Rmax j) nv Hm P) as [EG (GL & GI & GH & GE)]. destruct (linear_values (j_Rmax j) (Z.to_nat nv)) as [|v0 vs] eqn:EV; [discriminate|]. injection GH as ->.
    apply increasing_inv_cons in GI as [GI G0]. assert (NV : vs <> []) by (intros ->; cbn [length] in GL; lia).
    exists (map (fun x => x + snd (shell j)) vs), nv. split; [|split; [|split; [|split; [|split; [|split; [|split]]]]]].
    + intros bval HB HL. unfold add_vacuum. destruct (Z.ltb_spec 0 (nuelem j)); [|lia]. destruct (Rltb_spec 0 (j_Rmax j)); [|lra]. cbn [andb]. fold nv.
      rewrite form_grid_plain by tauto. rewrite EG. cbn [bind]. destruct (Nat.ltb_spec 0 (length bval)); [|destruct bval; [congruence | cbn in *; lia]]. cbn [bind map].
      rewrite HL. unfold at_index. cbn [length Nat.ltb Nat.leb nth bind]. destruct (Reqb_spec (snd (shell j)) (0 + snd (shell j))); [reflexivity | lra].
    + apply increasing_map; [intros; lra | exact GI].
    + intros x Hx. apply in_map_iff in Hx. destruct Hx as (y & <- & Hy). apply G0 in Hy. lra.
    + rewrite map_length. cbn [length] in GL. lia.
    + intros E. apply map_eq_nil in E. congruence.
    + intros _. rewrite (last_indep _ _ ((-1) + snd (shell j))) by (intros E; apply map_eq_nil in E; congruence).
      rewrite (last_map (fun x => x + snd (shell j))) by assumption. replace (last vs (-1)) with (j_Rmax j); [ring|]. rewrite <- GE. destruct vs; [congruence | reflexivity].
    + intros _. exact F.
    + lra.
  - exists [], 0%Z. split; [|split; [|split; [|split; [|split; [|split; [|split]]]]]].
    + intros bval _ _. unfold add_vacuum. destruct (Rltb_spec 0 (j_Rmax j)); [lra|]. rewrite andb_false_r, app_nil_r. reflexivity.
    + intros i k _ H. cbn in H. lia.
    + intros x [].
    + reflexivity.
    + intros _. exact Hm.
    + congruence.
    + lra.
    + reflexivity.
Qed.

Lemma jellium_unfold j : (j_nj j < 99284)%Z -> physical j ->
  jellium_grid j = bind (bind (uniform_part j) (glued j)) (fun g => add_vacuum j (insert_vacancy j g)).
Proof.
  intros H1 H2. unfold jellium_grid. rewrite (proj1 (lmax_ok (j_nj j))) by assumption. cbn [bind]. rewrite charge_ok by assumption. cbn [bind].
  destruct (uniform_part j); reflexivity.
Qed.

Lemma outer_pos j : physical j -> (0 < j_nj j)%Z -> 0 < snd (shell j).
Proof.
  intros (Hr & Hn & Hv) Hp. unfold shell. destruct (j_vac j); cbn [snd]; (apply Rmult_lt_0_compat; [|assumption]); rewrite <- cbrt_0; apply cbrt_lt; apply (IZR_lt 0); [specialize (Hv eq_refl)|]; lia.
Qed.

Lemma plain_grid_ok j : asks_grid j -> j_vac j = false ->
  exists Nu Nv l, jellium_grid j = Ok l /\ grid_from_0_to (snd (shell j) + Rmax 0 (j_Rmax j)) (j_nelem j + Nu - 1 + Nv) l /\
    fewest (snd (shell j)) (friedel (j_rs j) / j_nufreq j) Nu /\
    (0 < j_Rmax j -> fewest (j_Rmax j) (friedel (j_rs j) / j_nufreq j) Nv) /\ (j_Rmax j <= 0 -> Nv = 0%Z) /\
    (forall k, (1 <= k <= Nu)%Z -> In (IZR k * (snd (shell j) / IZR Nu)) l).
Proof.
  intros (Hp & Hn & Hf & He & Ha) Hv. destruct (body_ok j) as (g & Eg & (GL & GI & GH & GE) & F & P & IN); try assumption; [apply Hp | apply outer_pos; [assumption | lia]|].
  destruct (vacuum_ok j) as (tl & nv & EV & TI & TG & TL & T0 & T1 & TF & TZ); try assumption; [apply Hp|].
  assert (NG : g <> []) by (intros ->; discriminate). assert (LG : last g 0 = snd (shell j)) by (rewrite <- GE; now apply last_indep).
  exists (nuelem j), nv, (g ++ tl). split; [|split; [|split; [|split; [|split]]]]; try assumption.
  - rewrite jellium_unfold by (assumption || lia). rewrite Eg. cbn [bind]. unfold insert_vacancy. rewrite Hv. now apply EV.
  - split; [|split; [|split]].
    + rewrite app_length. lia.
    + apply increasing_app; try assumption. intros a b A B. apply TG in B. apply Rle_lt_trans with (snd (shell j)); [|assumption]. rewrite <- LG. now apply increasing_le_last.
    + destruct g; [congruence | exact GH].
    + destruct tl as [|t tl].
      * rewrite app_nil_r, GE, Rmax_left by auto. ring.
      * rewrite last_app_r by discriminate. rewrite T1 by discriminate. destruct (Rle_lt_dec (j_Rmax j) 0) as [G|G]; [apply TZ in G; cbn in TL; lia|]. rewrite Rmax_right by lra. reflexivity.
  - intros k Hk. apply in_or_app. left. now apply IN.
Qed.

Lemma filled_same j : j_vac j = true -> nuelem (filled j) = nuelem j /\ snd (shell (filled j)) = snd (shell j) /\ uniform_part (filled j) = uniform_part j /\
  (forall u, glued (filled j) u = glued j u) /\ (forall b, add_vacuum (filled j) b = add_vacuum j b).
Proof.
  intros Hv. assert (ES : snd (shell (filled j)) = snd (shell j)) by (unfold shell, filled; cbn; rewrite Hv; reflexivity).
  assert (EN : nuelem (filled j) = nuelem j) by (unfold nuelem; rewrite ES; reflexivity).
  split; [assumption|]. split; [assumption|]. unfold uniform_part, glued, add_vacuum. rewrite EN, ES. split; [reflexivity|]. split; reflexivity.
Qed.

Lemma vacancy_grid_ok j : asks_grid j -> j_vac j = true -> (j_nj (filled j) < 99284)%Z ->
  exists l l', jellium_grid j = Ok l /\ jellium_grid (filled j) = Ok l' /\ ascending l /\ Permutation (fst (shell j) :: l') l /\
    (increasing l <-> ~ In (fst (shell j)) l').
Proof.
  intros (Hp & Hn & Hf & He & Ha) Hv Hm. destruct (body_ok j) as (g & Eg & (GL & GI & GH & GE) & F & P & IN); try assumption; [apply Hp | apply outer_pos; [assumption | lia]|].
  destruct (vacuum_ok j) as (tl & nv & EV & TI & TG & TL & T0 & T1 & TF & TZ); try assumption; [apply Hp|].
  destruct (filled_same j Hv) as (SN & SS & SU & SG & SV).
  assert (NG : g <> []) by (intros ->; discriminate). assert (LG : last g 0 = snd (shell j)) by (rewrite <- GE; now apply last_indep).
  destruct (shell_ok j Hp) as [HI _]. set (ri := fst (shell j)) in *. set (s := sortR (g ++ [ri])).
  assert (PS : Permutation (ri :: g) s) by (etransitivity; [apply Permutation_cons_append | apply sortR_perm]).
  assert (BS : forall x, In x s -> x <= snd (shell j)).
  { intros x Hx. apply (Permutation_in _ (Permutation_sym PS)) in Hx. destruct Hx as [<-|Hx]; [lra|]. rewrite <- LG. now apply increasing_le_last. }
  assert (SS' : sorted_le s) by apply sortR_sorted.
  assert (NS : s <> []) by (intros E; rewrite E in PS; apply Permutation_sym, Permutation_nil in PS; discriminate).
  assert (LS : last s 0 = snd (shell j)).
  { apply Rle_antisym; [apply BS; now apply last_in|]. assert (I : In (snd (shell j)) s) by (apply (Permutation_in _ PS); right; rewrite <- LG; now apply last_in).
    apply (In_nth _ _ 0) in I. destruct I as (k & Hk & <-). rewrite last_nth. destruct (Nat.eq_dec k (length s - 1)) as [->|]; [lra|]. apply SS'; lia. }
  exists (s ++ tl), (g ++ tl). split; [|split; [|split; [|split]]].
  - rewrite jellium_unfold by (assumption || lia). rewrite Eg. cbn [bind]. unfold insert_vacancy. rewrite Hv. now apply EV.
  - assert (Hp' : physical (filled j)).
    { destruct Hp as (A & B & C). specialize (C Hv). unfold physical, filled. cbn. split; [assumption|]. split; [lia | discriminate]. }
    rewrite jellium_unfold by (assumption || exact Hm). rewrite SU. replace (bind (uniform_part j) (glued (filled j))) with (bind (uniform_part j) (glued j)) by (destruct (uniform_part j); cbn [bind]; rewrite ?SG; reflexivity).
    rewrite Eg. cbn [bind]. unfold insert_vacancy. cbn [filled j_vac]. rewrite SV. now apply EV.
  - intros i k Hik Hk. rewrite app_length in Hk. destruct (lt_dec k (length s)).
    + rewrite !app_nth1 by lia. apply SS'; lia.
    + rewrite (@app_nth2 R s tl 0 k) by lia. assert (TK : snd (shell j) < nth (k - length s) tl 0) by (apply TG, nth_In; lia). destruct (lt_dec i (length s)).
      * rewrite app_nth1 by lia. assert (nth i s 0 <= snd (shell j)) by (apply BS, nth_In; lia). lra.
      * rewrite app_nth2 by lia. left. apply TI; lia.
  - change (ri :: g ++ tl) with ((ri :: g) ++ tl). apply Permutation_app_tail. exact PS.
  - assert (PL : Permutation (ri :: g ++ tl) (s ++ tl)) by (change (ri :: g ++ tl) with ((ri :: g) ++ tl); apply Permutation_app_tail; exact PS). split.
    + intros I. apply increasing_nodup in I. apply (Permutation_NoDup (Permutation_sym PL)) in I. now inversion I.
    + intros I. assert (NI : ~ In ri g) by (intros Q; apply I, in_or_app; auto).
      apply increasing_app; [|assumption|intros a b A B; apply BS in A; apply TG in B; lra].
      apply sorted_nodup_increasing; [assumption|]. apply (Permutation_NoDup PS). constructor; [assumption | now apply increasing_nodup].
Qed.

Lemma atom_grid_ok j : j_vac j = false -> (0 < j_nelem j)%Z -> 0 < j_Rmax j -> admissible (j_igrid j) (j_zexp j) -> (j_nj j < 99284)%Z ->
  j_rs j = 0 \/ (0 < j_rs j /\ j_nj j = 0%Z) -> exists l, jellium_grid j = Ok l /\ grid_from_0_to (j_Rmax j) (j_nelem j) l.
Proof.
  intros Hv He Hm Ha Hn Hc.
  assert (EN : nuelem j = 0%Z).
  { unfold nuelem. destruct (Rltb_spec 0 (j_rs j)) as [G|G]; [|reflexivity]. destruct Hc as [Hc|[_ Hc]]; [lra|].
    unfold shell. rewrite Hv, Hc. cbn [snd]. rewrite cbrt_0. replace (0 * j_rs j / friedel (j_rs j) * j_nufreq j) with 0 by (unfold Rdiv; ring).
    destruct (rceil_ok 0) as [A B]. apply (lt_IZR _ 0) in A. apply (le_IZR 0) in B. lia. }
  assert (EC : charge_check j = Ok tt).
  { destruct Hc as [Hc|[Hc H0]]; [unfold charge_check; destruct (Rltb_spec 0 (j_rs j)); [lra | reflexivity]|]. apply charge_ok. split; [assumption|]. split; [lia|]. congruence. }
  destruct (get_grid_ok (j_Rmax j) (j_nelem j) _ _ Hm He Ha) as (l & El & Gl). exists l. split; [|exact Gl].
  unfold jellium_grid. rewrite (proj1 (lmax_ok (j_nj j))) by assumption. cbn [bind]. rewrite EC. cbn [bind]. unfold uniform_part. rewrite EN. cbn [Z.eqb bind].
  unfold glued. destruct (Z.ltb_spec 0 (j_nelem j)); [|lia]. rewrite EN. cbn [Z.ltb Z.compare bind]. rewrite form_grid_plain by tauto. rewrite El. cbn [bind glue].
  unfold insert_vacancy. rewrite Hv. unfold add_vacuum. rewrite EN. reflexivity.
Qed.

(* ---------- density matrices ---------- *)

Lemma over_cons b bs f : over_orbitals (b :: bs) f = sum (length (snd b)) (fun o => nth o (snd b) 0 * f 0%nat (fst b) o) + over_orbitals bs (fun l => f (S l)).
Proof. unfold over_orbitals. cbn [length]. rewrite sum_shift. reflexivity. Qed.

Lemma over_ext bs f g : (forall l C o, f l C o = g l C o) -> over_orbitals bs f = over_orbitals bs g.
Proof. intros H. unfold over_orbitals. apply sum_ext. intros l _. apply sum_ext. intros o _. rewrite H. reflexivity. Qed.

Lemma unoccupied_nth b : unoccupied b = true -> forall o, nth o (snd b) 0 = 0.
Proof.
  unfold unoccupied. intros H o. rewrite forallb_forall in H. destruct (lt_dec o (length (snd b))) as [L|L]; [|apply nth_overflow; lia].
  specialize (H _ (nth_In _ 0 L)). destruct (Reqb_spec (Rabs (nth o (snd b) 0)) 0) as [E|]; [|discriminate].
  destruct (Req_dec (nth o (snd b) 0) 0) as [G|G]; [assumption|]. now apply Rabs_no_R0 in G.
Qed.

Lemma unoccupied_sum b f : unoccupied b = true -> sum (length (snd b)) (fun o => nth o (snd b) 0 * f o) = 0.
Proof. intros H. apply sum_zero'. intros o _. rewrite unoccupied_nth by assumption. ring. Qed.

Lemma block_density_sum b i k : block_density b i k = sum (length (snd b)) (fun o => nth o (snd b) 0 * (fst b i o * fst b k o)).
Proof. unfold block_density. apply sum_ext. intros. ring. Qed.

Lemma restricted_ok bs i k : restricted_density bs i k = over_orbitals bs (fun _ C o => C i o * C k o).
Proof.
  unfold restricted_density. enough (G : forall P, fold_left (fun P b => if unoccupied b then P else madd P (block_density b)) bs P i k = P i k + over_orbitals bs (fun _ C o => C i o * C k o)) by (rewrite G; unfold mzero; ring).
  induction bs as [|b bs IH]; intros P; [cbn; ring|]. cbn [fold_left]. rewrite IH, over_cons. destruct (unoccupied b) eqn:E.
  - rewrite (unoccupied_sum b (fun o => fst b i o * fst b k o) E). ring.
  - unfold madd. rewrite block_density_sum. ring.
Qed.

Lemma trace_block n A b : trace2 n (block_density b) A = sum (length (snd b)) (fun o => nth o (snd b) 0 * expect n A (fst b) o).
Proof.
  unfold trace2, mmul, expect. 
  transitivity (sum n (fun i => sum n (fun k => sum (length (snd b)) (fun o => nth o (snd b) 0 * (fst b i o * A k i * fst b k o))))).
  { apply sum_ext. intros i _. apply sum_ext. intros k _. rewrite block_density_sum, <- sum_scal_r. apply sum_ext. intros. ring. }
  rewrite sum_swap.
  transitivity (sum n (fun k => sum (length (snd b)) (fun o => sum n (fun i => nth o (snd b) 0 * (fst b i o * A k i * fst b k o))))).
  { apply sum_ext. intros k _. apply sum_swap. }
  rewrite sum_swap. apply sum_ext. intros o _. rewrite <- sum_scal. apply sum_ext. intros k _. rewrite <- sum_scal. apply sum_ext. intros i _. ring.
Qed.

Lemma trace_madd n P Q A : trace2 n (madd P Q) A = trace2 n P A + trace2 n Q A.
Proof.
  unfold trace2, mmul, madd. rewrite <- sum_plus. apply sum_ext. intros i _. rewrite <- sum_plus. apply sum_ext. intros. ring.
Qed.

Lemma restricted_trace n A bs : trace2 n (restricted_density bs) A = over_orbitals bs (fun _ C o => expect n A C o).
Proof.
  unfold restricted_density. enough (G : forall P, trace2 n (fold_left (fun P b => if unoccupied b then P else madd P (block_density b)) bs P) A = trace2 n P A + over_orbitals bs (fun _ C o => expect n A C o)).
  { rewrite G. replace (trace2 n mzero A) with 0; [ring|]. symmetry. unfold trace2, mmul, mzero. apply sum_zero'. intros. apply sum_zero'. intros. ring. }
  induction bs as [|b bs IH]; intros P; [cbn; ring|]. cbn [fold_left]. rewrite IH, over_cons. destruct (unoccupied b) eqn:E.
  - rewrite (unoccupied_sum b (expect n A (fst b)) E). ring.
  - rewrite trace_madd, trace_block. ring.
Qed.

Lemma kinetic_ok n T Tl bs : restricted_kinetic n T Tl 0 bs = over_orbitals bs (fun l C o => expect n T C o + INR l * (INR l + 1) * expect n Tl C o).
Proof.
  enough (G : forall l0, restricted_kinetic n T Tl l0 bs = over_orbitals bs (fun l C o => expect n T C o + INR (l0 + l) * (INR (l0 + l) + 1) * expect n Tl C o)) by (rewrite G; reflexivity).
  induction bs as [|b bs IH]; intros l0; [reflexivity|]. cbn [restricted_kinetic]. rewrite IH, over_cons. f_equal.
  - rewrite Nat.add_0_r. destruct (unoccupied b) eqn:E; [now rewrite unoccupied_sum|].
    fold (trace2 n (block_density b) T) (trace2 n (block_density b) Tl). rewrite !trace_block, <- sum_scal, <- sum_plus. apply sum_ext. intros o _.
    rewrite mult_INR, plus_INR. cbn [INR]. ring.
  - apply over_ext. intros l C o. replace (S l0 + l)%nat with (l0 + S l)%nat by lia. reflexivity.
Qed.

Lemma count_ok n A bs : (forall l, (l < length bs)%nat -> forall o, (o < length (snd (nth l bs (mzero, []))))%nat -> expect n A (fst (nth l bs (mzero, []))) o = 1) ->
  trace2 n (restricted_density bs) A = over_orbitals bs (fun _ _ _ => 1).
Proof.
  intros H. rewrite restricted_trace. unfold over_orbitals. apply sum_ext. intros l Hl. apply sum_ext. intros o Ho. rewrite H by assumption. reflexivity.
Qed.

Lemma unrestricted_ok bs i k : (forall p, In p bs -> unoccupied (fst p) = true -> unoccupied (snd p) = true) ->
  unrestricted_density bs i k = over_orbitals (map fst bs) (fun _ C o => C i o * C k o) + over_orbitals (map snd bs) (fun _ C o => C i o * C k o).
Proof.
  intros HS. unfold unrestricted_density.
  enough (G : forall P, fold_left (fun P ab => if unoccupied (fst ab) then P else madd P (madd (block_density (fst ab)) (block_density (snd ab)))) bs P i k =
    P i k + (over_orbitals (map fst bs) (fun _ C o => C i o * C k o) + over_orbitals (map snd bs) (fun _ C o => C i o * C k o))) by (rewrite G; unfold mzero; ring).
  induction bs as [|[a b] bs IH]; intros P; [cbn; ring|]. cbn [fold_left map fst snd]. rewrite IH by (intros; apply HS; [right|]; assumption). rewrite !over_cons.
  destruct (unoccupied a) eqn:E.
  - rewrite (unoccupied_sum a (fun o => fst a i o * fst a k o) E). rewrite (unoccupied_sum b (fun o => fst b i o * fst b k o) (HS (a, b) (or_introl eq_refl) E)). ring.
  - unfold madd. rewrite !block_density_sum. ring.
Qed.

Lemma beta_lost : ~ (forall bs i k, unrestricted_density bs i k = over_orbitals (map fst bs) (fun _ C o => C i o * C k o) + over_orbitals (map snd bs) (fun _ C o => C i o * C k o)).
Proof.
  intros H. specialize (H [((mid, [1]), (mid, [1])); ((mid, [0]), (mid, [1]))] 0%nat 0%nat). unfold unrestricted_density, unoccupied in H. cbn [fold_left fst snd forallb] in H.
  rewrite Rabs_R1, Rabs_R0 in H. destruct (Reqb_spec 1 0); [lra|]. destruct (Reqb_spec 0 0); [|lra]. cbn [andb] in H. unfold over_orbitals, madd, mzero, block_density, mid in H. cbn in H. lra.
Qed.

(* ---------- cases ---------- *)

Definition jex (vac : bool) (nf : R) : jin := mkJ 1 0 7 1 vac nf 40 3 1 2.
Lemma jex_asks vac nf : 0 < nf -> asks_grid (jex vac nf).
Proof.
  intros H. split; [split; [cbn; lra | split; [cbn; lia | intros _; cbn; lia]]|]. split; [cbn; lia|]. split; [assumption|]. split; [cbn; lia|]. left. left. reflexivity.
Qed.
Lemma cbrt_8 : cbrt 8 = 2.
Proof. apply cube_inj. rewrite cbrt_cube. ring. Qed.
Lemma cbrt_1 : cbrt 1 = 1.
Proof. apply cube_inj. rewrite cbrt_cube. ring. Qed.
Lemma jex_shell nf : shell (jex true nf) = (1, 2).
Proof. unfold shell, jex. cbn. rewrite cbrt_8, cbrt_1. f_equal; ring. Qed.

Lemma friedel_bounds : 1 < friedel 1 < 2.
Proof.
  unfold friedel. rewrite Rmult_1_r. pose proof PI2_3_2 as H3. pose proof PI_4 as H4.
  assert (9 < PI * PI) by (apply Rlt_trans with (3 * PI); [lra | apply Rmult_lt_compat_r; lra]).
  assert (PI * PI <= 4 * 4) by (apply Rmult_le_compat; lra).
  split; [rewrite <- cbrt_1 | rewrite <- cbrt_8]; apply cbrt_lt; lra.
Qed.

(** A hydrogen atom in 7 jellium electrons: the cavity ends at a boundary of the uniform grid. *)
Lemma repeated_boundary : exists j, asks_grid j /\ j_vac j = true /\ j_Z j = 1%Z /\ j_Q j = 0%Z /\ j_nj j = 7%Z /\ j_nufreq j = 1 /\ exists l, jellium_grid j = Ok l /\ ~ increasing l.
Proof.
  exists (jex true 1). assert (A := jex_asks true 1 Rlt_0_1). split; [exact A|]. do 5 (split; [reflexivity|]).
  destruct (vacancy_grid_ok _ A eq_refl) as (l & l' & E & E' & _ & _ & I); [cbn; lia|]. exists l. split; [exact E|]. rewrite I. intros N. apply N. clear N.
  assert (A' : asks_grid (filled (jex true 1))) by (split; [split; [cbn; lra | split; [cbn; lia | discriminate]]|]; split; [cbn; lia|]; split; [cbn; lra|]; split; [cbn; lia|]; left; left; reflexivity).
  destruct (plain_grid_ok _ A' eq_refl) as (Nu & Nv & l2 & E2 & _ & F & _ & _ & IN). rewrite E' in E2. injection E2 as <-.
  destruct (filled_same (jex true 1) eq_refl) as (_ & SS & _). rewrite SS, jex_shell in F, IN. cbn [snd fst] in F, IN. rewrite jex_shell. cbn [fst].
  cbn [filled j_rs j_nufreq jex] in F. replace (friedel 1 / 1) with (friedel 1) in F by field. destruct friedel_bounds as [B1 B2]. destruct F as [F1 F2].
  assert (Nu = 2%Z).
  { assert (Nu - 1 < 2)%Z by (apply lt_IZR; destruct (Rlt_le_dec (IZR (Nu - 1)) 2) as [G|G]; [assumption|]; assert (2 * friedel 1 <= IZR (Nu - 1) * friedel 1) by (apply Rmult_le_compat_r; lra); lra).
    assert (1 < Nu)%Z by (apply lt_IZR; destruct (Rlt_le_dec 1 (IZR Nu)) as [G|G]; [assumption|]; assert (IZR Nu * friedel 1 <= 1 * friedel 1) by (apply Rmult_le_compat_r; lra); lra). lia. }
  subst Nu. specialize (IN 1%Z). replace (1 * (2 / 2)) with 1 in IN by field. apply IN. lia.
Qed.
