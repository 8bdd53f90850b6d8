(** Corollaries and concrete cases for the exchange-correlation screening. *)
Require Import Reals Lra Lia List Arith Bool ZArith Sorted.
Require Import Verif.Prelude Verif.FEModel Verif.FESpec Verif.LegMath Verif.DftModel Verif.DftWit.
Require Import Verif.SadModel Verif.SadSpec Verif.SadProofs Verif.SadField Verif.SadAtom Verif.SadDens Verif.SadWit.
Require Import Verif.XsModel Verif.XsSpec Verif.XsProofs Verif.XsAtom.
Import ListNotations.
Open Scope R_scope.

Lemma lda_potential fx fs na nb ga gb s r sg : existsb snd fs = false ->
  is_potential fx fs na nb ga gb s r (d_rho fx fs (two (na r) (nb r)) sg s).
Proof.
  intros E. exists 0. split.
  - apply (lim_ext (fun _ => 0)).
    + intros q. assert (Z0 : forall g : Z * bool -> R, lsum fs (fun f => if snd f then g f else 0) = 0).
      { intros g. apply lsum_zero. intros f Hf. destruct (snd f) eqn:Es; [|reflexivity].
        assert (existsb snd fs = true) by (apply existsb_exists; exists f; auto). congruence. }
      unfold flux, d_sigma. cbv zeta. rewrite !Z0. destruct (s =? 0)%nat; ring.
    + eapply lim_eq; [|exact (lim_const 0 r)]. ring.
  - rewrite (d_rho_lda fx fs _ sg (three (ga r * ga r) (ga r * gb r) (gb r * gb r)) s E). ring.
Qed.

Lemma grid_lda nel npts xq rad first len bf df lf nuc lib fx Pa Pb x c fs : (1 <= nel)%nat ->
  ask_both lib x c = Ok fs -> existsb snd fs = false ->
  exists V, xc_screening nel npts xq rad first len bf df lf nuc lib fx Pa Pb x c = Ok V /\ (forall s, V s 0%nat = 0) /\
  forall e i, (e < nel)%nat -> (i < npts)%nat -> rad e (xq i) <> 0 ->
  forall s na nb ga gb, na (rad e (xq i)) = point_density first len bf Pa e (xq i) -> nb (rad e (xq i)) = point_density first len bf Pb e (xq i) ->
  exists v, is_potential fx fs na nb ga gb s (rad e (xq i)) v /\ V s (1 + e * npts + i)%nat = rad e (xq i) * v.
Proof.
  intros Hn Hfs E. destruct (grid_ok nel npts xq rad first len bf df lf nuc lib fx Hn Pa Pb x c fs Hfs) as (V & EV & V0 & HV).
  exists V. split; [exact EV|]. split; [exact V0|]. intros e i He Hi Hr s na nb ga gb Ha Hb.
  eexists. split; [apply (lda_potential fx fs na nb ga gb s _ (fun _ => 0) E)|].
  rewrite (HV e i He Hi (fun _ => xq i) _ eq_refl eq_refl Hr s). f_equal. rewrite point_unfold. cbv zeta. rewrite Ha, Hb.
  unfold nfun, point_density.
  assert (Z0 : forall g : Z * bool -> R, lsum fs (fun f => if snd f then g f else 0) = 0).
  { intros g. apply lsum_zero. intros f Hf. destruct (snd f) eqn:Es; [|reflexivity].
    assert (existsb snd fs = true) by (apply existsb_exists; exists f; auto). congruence. }
  unfold correction, rs_of, d_sigma, d_sigma2. rewrite !Z0.
  rewrite (d_rho_lda fx fs _ _ (fun _ => 0) s E). destruct (s =? 0)%nat; cbv zeta; unfold Rdiv; ring.
Qed.

(** Which functionals are accepted. *)
Lemma both_ok lib x c : match ask_both lib x c with
  | Ok fs => forall id g, In (id, g) fs <-> (0 < id)%Z /\ (id = x \/ id = c) /\ xc_known lib id = true /\
                 ((g = true /\ xc_family lib id = GGA) \/ (g = false /\ xc_family lib id = LDA))
  | Throw RuntimeError => exists id, (0 < id)%Z /\ (id = x \/ id = c) /\ (xc_known lib id = false \/ xc_family lib id = OtherFamily)
  | Throw LogicError => exists id, (0 < id)%Z /\ (id = x \/ id = c) /\ xc_known lib id = true /\ xc_family lib id = MGGA /\ (xc_tau lib id = true \/ xc_lapl lib id = true)
  | UB => exists id, (0 < id)%Z /\ (id = x \/ id = c) /\ xc_known lib id = true /\ xc_family lib id = MGGA /\ xc_tau lib id = false /\ xc_lapl lib id = false
  | _ => False
  end.
Proof.
  unfold ask_both.
  destruct (Z_lt_le_dec 0 x) as [Hx|Hx].
  - pose proof (ask_cases lib x Hx) as A. destruct (ask lib x) as [o|[]| |]; cbn [bind]; try (exists x; tauto); try tauto.
    destruct (Z_lt_le_dec 0 c) as [Hc|Hc].
    + pose proof (ask_cases lib c Hc) as B. destruct (ask lib c) as [o'|[]| |]; cbn [bind]; try (exists c; tauto); try tauto.
      destruct A as (Kx & [[Fx ->]|[Fx ->]]), B as (Kc & [[Fc ->]|[Fc ->]]); cbn [opt_list app In]; intros id g; split;
      (intros [H|[H|[]]] || intros (H1 & [->| ->] & H3 & [[-> H4]|[-> H4]])); try (injection H as <- <-); try congruence; tauto.
    + rewrite (ask_none lib c Hc). cbn [bind]. destruct A as (Kx & [[Fx ->]|[Fx ->]]); cbn [opt_list app In]; intros id g; split;
      (intros [H|[]] || intros (H1 & [->| ->] & H3 & [[-> H4]|[-> H4]])); try (injection H as <- <-); try congruence; try lia; tauto.
  - rewrite (ask_none lib x Hx). cbn [bind]. destruct (Z_lt_le_dec 0 c) as [Hc|Hc].
    + pose proof (ask_cases lib c Hc) as B. destruct (ask lib c) as [o'|[]| |]; cbn [bind]; try (exists c; tauto); try tauto.
      destruct B as (Kx & [[Fx ->]|[Fx ->]]); cbn [opt_list app In]; intros id g; split;
      (intros [H|[]] || intros (H1 & [->| ->] & H3 & [[-> H4]|[-> H4]])); try (injection H as <- <-); try congruence; try lia; tauto.
    + rewrite (ask_none lib c Hc). cbn [bind opt_list app In]. intros id g. split; [tauto|]. intros (H1 & [->| ->] & _); lia.
Qed.

(** A functional with energy sigma_aa + sigma_bb, and one with sigma_ab^2 / 2. *)
Definition fx_grad : fxc := mkFx (fun _ _ _ => 0) (fun _ _ _ _ => 0) (fun _ _ _ => three 1 0 1) (fun _ _ _ _ => 0) (fun _ _ _ _ => 0).
Definition fx_mixed : fxc := mkFx (fun _ _ _ => 0) (fun _ _ _ _ => 0) (fun _ _ sg => three 0 (sg 1%nat) 0) (fun _ _ _ _ => 0)
  (fun _ _ _ k => if (k =? 3)%nat then 1 else 0).
Lemma fx_grad_second id a b s0 s1 s2 : second_derivatives fx_grad id a b s0 s1 s2.
Proof.
  unfold second_derivatives. cbv zeta. intros. cbn [fx_grad fx_vsigma fx_v2rhosigma fx_v2sigma2].
  eapply lim_eq; [|exact (lim_const (three 1 0 1 k) t)]. ring.
Qed.
Lemma fx_mixed_second id a b s0 s1 s2 : second_derivatives fx_mixed id a b s0 s1 s2.
Proof.
  unfold second_derivatives. cbv zeta. intros na nb u0 u1 u2 t na' nb' u0' u1' u2' _ _ _ _ _ Da Db D0 D1 D2 k Hk.
  cbn [fx_mixed fx_vsigma fx_v2rhosigma fx_v2sigma2]. destruct k as [|[|[|k]]]; [| | |lia]; cbn [three pair_index Nat.eqb Nat.add].
  - eapply lim_eq; [|exact (lim_const 0 t)]. ring.
  - eapply lim_eq; [|exact D1]. ring.
  - eapply lim_eq; [|exact (lim_const 0 t)]. ring.
Qed.

Lemma wg_prim r : prim_of wgrid 0 r = 2 * r - 1.
Proof. unfold prim_of, left_end, right_end. cbn [wgrid fe_bval nth Nat.add]. field. Qed.
Lemma wg_dens q : point_density wfirst wlen1 fall wP1 0 (prim_of wgrid 0 q) = (2 - q) * (2 - q) / (4 * PI).
Proof.
  unfold point_density, pairing, wfirst, wlen1, wP1, fall. cbn [sum]. rewrite wg_prim.
  unfold radius_of, left_end, right_end. cbn [wgrid fe_bval nth Nat.add]. field. apply PI_neq0.
Qed.
Lemma ask_gga : ask_both wlib 2 0 = Ok [(2%Z, true)].
Proof. reflexivity. Qed.

Lemma grad_excess na ga r s : r <> 0 -> laplacian_excess fx_grad [(2%Z, true)] na na ga ga r s = 4 * ga / r /\
  mixed_excess fx_grad [(2%Z, true)] na na ga ga 0 0 s = 0.
Proof.
  intros Hr. unfold laplacian_excess, mixed_excess, along, d_sigma, d_sigma2. cbn [lsum fst snd fx_grad fx_vsigma fx_v2sigma2 three].
  destruct (s =? 0)%nat; split; field; exact Hr.
Qed.
Lemma grad_mixed na ga ha s : mixed_excess fx_grad [(2%Z, true)] na na ga ga ha ha s = 0.
Proof. unfold mixed_excess, along, d_sigma2. cbn [lsum fst snd fx_grad fx_v2sigma2]. destruct (s =? 0)%nat; ring. Qed.

Lemma slope n r g : (forall q, n q = (2 - q) * (2 - q) / (4 * PI)) -> derivable_pt_lim n r g -> g = - (2 - r) / (2 * PI).
Proof.
  intros En D. apply (uniqueness_limite n r _ _ D).
  apply (lim_ext (fun q => / (4 * PI) * ((2 - q) * (2 - q)))); [intros y; rewrite En; unfold Rdiv; ring|].
  eapply lim_eq; [|apply lim_scal; apply (lim_mul (fun q => 2 - q) (fun q => 2 - q)); apply lim_minus; [exact (lim_const 2 r)|apply lim_id|exact (lim_const 2 r)|apply lim_id]].
  cbv beta. field. apply PI_neq0.
Qed.
Lemma slope2 n r g : (forall q, n q = (2 - q) * (2 - q) / (4 * PI) / 2) -> derivable_pt_lim n r g -> g = - (2 - r) / (4 * PI).
Proof.
  intros En D. assert (D2 : derivable_pt_lim (fun q => 2 * n q) r (2 * g)) by (apply lim_scal; exact D).
  apply slope in D2; [|intros q; rewrite En; field; apply PI_neq0].
  apply Rmult_eq_reg_l with 2; [|lra]. rewrite D2. field. apply PI_neq0.
Qed.

Lemma gga_wrong : exists fx r n g h v V,
  (forall id a b s0 s1 s2, second_derivatives fx id a b s0 s1 s2) /\ 0 < r /\
  (forall q, n q = point_density wfirst wlen1 fall wP1 0 (prim_of wgrid 0 q)) /\ derivable_pt_lim n r (g r) /\ derivable_pt_lim g r h /\
  is_potential fx [(2%Z, true)] n n g g 0 r v /\
  xc_screening 2 1 wmid (radius_of wgrid) wfirst wlen1 fall fall1 fall2 (fun _ => 0) wlib fx wP1 wP1 2 0 = Ok V /\
  radius_of wgrid 0 (wmid 0) = r /\ V 0%nat (1 + 0 * 1 + 0)%nat <> r * v.
Proof.
  destruct (grid_gga 2 1 wmid (radius_of wgrid) wfirst wlen1 fall fall1 fall2 (fun _ => 0) wlib fx_grad ltac:(lia) wP1 wP1 2 0 _ ask_gga) as (V & EV & _ & HV).
  assert (Er : radius_of wgrid 0 (wmid 0) = / 2).
  { unfold radius_of, left_end, right_end, wmid. cbn [wgrid fe_bval nth Nat.add]. field. }
  destruct (HV 0%nat 0%nat ltac:(lia) ltac:(lia) (prim_of wgrid 0) (/ 2)) as (na & nb & ga & gb & ha & hb & Ea & Eb & D1 & D2 & D3 & D4 & HH).
  { rewrite wg_prim. unfold wmid. field. } { exact Er. } { lra. } { apply wP1_sym. } { apply wP1_sym. }
  { intros a _. apply (fall_der 0 (/ 2) a). lia. } { intros a _. apply (fall_der 0 (/ 2) a). lia. }
  destruct (HH (fun id _ => fx_grad_second id _ _ _ _ _) 0%nat) as (v & Hv & E).
  assert (Eq : forall q, na q = nb q) by (intros q; rewrite Ea, Eb; reflexivity).
  assert (G1 : ga (/ 2) = - (2 - / 2) / (2 * PI)) by (apply (slope na); [intros q; rewrite Ea; apply wg_dens|exact D1]).
  assert (G2 : gb (/ 2) = - (2 - / 2) / (2 * PI)) by (apply (slope nb); [intros q; rewrite Eb; apply wg_dens|exact D2]).
  assert (Hpi : 0 < PI) by apply PI_RGT_0.
  exists fx_grad, (/ 2), na, ga, ha.
  (* the flux of this functional contains the first spin only *)
  assert (Hp : is_potential fx_grad [(2%Z, true)] na na ga ga 0 (/ 2) v).
  { destruct Hv as (d & Dd & ->). exists d. split; [|unfold d_rho; cbn [lsum fst snd fx_grad fx_vrho]; ring].
    eapply lim_ext; [|exact Dd]. intros q. unfold flux, d_sigma. cbn [lsum fst snd fx_grad fx_vsigma three Nat.eqb]. ring. }
  exists v, V. split; [intros; apply fx_grad_second|]. split; [lra|]. split; [exact Ea|]. split; [exact D1|]. split; [exact D3|].
  split; [exact Hp|]. split; [exact EV|]. split; [exact Er|].
  rewrite E. unfold laplacian_excess, mixed_excess, along, d_sigma, d_sigma2. cbn [lsum fst snd fx_grad fx_vsigma fx_v2sigma2 three Nat.eqb].
  rewrite G1. intros Hc. assert (Hz : (2 - / 2) / (2 * PI) <> 0).
  { unfold Rdiv. apply Rmult_integral_contrapositive. split; [lra|]. apply Rinv_neq_0_compat. lra. }
  apply Hz. replace (- (2 - / 2) / (2 * PI)) with (- ((2 - / 2) / (2 * PI))) in Hc by (unfold Rdiv; ring).
  set (z := (2 - / 2) / (2 * PI)) in *.
  replace (2 / / 2) with 4 in Hc by field. ring_simplify in Hc. lra.
Qed.

Definition wt : atom := mkAtom (fun _ => 0) (fun _ => 0) 1 2.
Lemma atom_wrong : exists fx r n g h v z,
  (forall id a b s0 s1 s2, second_derivatives fx id a b s0 s1 s2) /\ 0 < r /\
  (forall q, n q = point_density wfirst wlen1 fall wP1 0 (prim_of wgrid 0 q) / 2) /\ derivable_pt_lim n r (g r) /\ derivable_pt_lim g r h /\
  is_potential fx [(2%Z, true)] n n g g 0 r v /\ is_potential fx [(2%Z, true)] n n g g 1 r v /\
  snd (atom_xc_screening wgrid wfirst wlen1 fall fall1 fall2 wP1 2 wt wlib fx None r 2 0) = Ok z /\ z <> r * v.
Proof.
  assert (Hpi : 0 < PI) by apply PI_RGT_0.
  destruct (atom_gga wgrid wfirst wlen1 fall fall1 fall2 wP1 2 wt wlib fx_grad wgrid_ok (le_n 2) eq_refl (Rle_refl 0)
    0 (/ 2) 2 0 [(2%Z, true)] None) as (n & g & h & En & D1 & D2 & HH).
  { cbn. lia. } { unfold left_end, right_end. cbn [wgrid fe_bval nth Nat.add]. lra. }
  { rewrite wg_dens. apply Rdiv_lt_0_compat; lra. } { exact I. } { exact ask_gga. } { lia. } { apply wP1_sym. }
  { intros a _. apply (fall_der 0 (/ 2) a). lia. } { intros a _. apply (fall_der 0 (/ 2) a). lia. }
  destruct (HH (fun id _ => fx_grad_second id _ _ _ _ _)) as (v0 & v1 & P0 & P1 & E).
  assert (G : g (/ 2) = - (2 - / 2) / (4 * PI)) by (apply (slope2 n); [intros q; rewrite En, wg_dens; reflexivity|exact D1]).
  assert (Ev : v1 = v0).
  { apply (potential_unique fx_grad [(2%Z, true)] n n g g 1 (/ 2)); [lra|exact P1|]. destruct P0 as (d & Dd & ->). exists d.
    split; [|unfold d_rho; cbn [lsum fst snd fx_grad fx_vrho]; ring].
    eapply lim_ext; [|exact Dd]. intros q. unfold flux, d_sigma. cbn [lsum fst snd fx_grad fx_vsigma three Nat.eqb]. ring. }
  exists fx_grad, (/ 2), n, g, h, v0. eexists. split; [intros; apply fx_grad_second|]. split; [lra|]. split; [exact En|]. split; [exact D1|]. split; [exact D2|].
  split; [exact P0|]. split; [rewrite <- Ev; exact P1|]. split; [exact E|].
  rewrite !grad_mixed. destruct (grad_excess (n (/ 2)) (g (/ 2)) (/ 2) 0 ltac:(lra)) as [-> _].
  destruct (grad_excess (n (/ 2)) (g (/ 2)) (/ 2) 1 ltac:(lra)) as [-> _]. rewrite G, Ev. intros Hc.
  assert (Hz : (2 - / 2) / (4 * PI) <> 0).
  { unfold Rdiv. apply Rmult_integral_contrapositive. split; [lra|]. apply Rinv_neq_0_compat. lra. }
  apply Hz. replace (- (2 - / 2) / (4 * PI)) with (- ((2 - / 2) / (4 * PI))) in Hc by (unfold Rdiv; ring).
  set (z := (2 - / 2) / (4 * PI)) in *.
  replace (4 * - z / / 2) with (- (8 * z)) in Hc by field. lra.
Qed.

Lemma mixed_wrong : exists fx r n g h v,
  (forall id a b s0 s1 s2, second_derivatives fx id a b s0 s1 s2) /\ 0 < r /\
  (forall q, derivable_pt_lim n q (g q)) /\ (forall q, derivable_pt_lim g q h) /\
  is_potential fx [(2%Z, true)] n n g g 0 r v /\
  point_vxc fx [(2%Z, true)] r (n r) (n r) (g r) (g r) h h 0 <> v.
Proof.
  assert (D1 : forall q, derivable_pt_lim (fun q => q * q) q (2 * q)).
  { intros q. eapply lim_eq; [|apply (lim_x (fun q => q)); apply lim_id]. cbv beta. ring. }
  assert (D2 : forall q, derivable_pt_lim (fun q => 2 * q) q 2).
  { intros q. eapply lim_eq; [|apply lim_scal; apply lim_id]. ring. }
  exists fx_mixed, 1, (fun q => q * q), (fun q => 2 * q), 2. eexists.
  split; [intros; apply fx_mixed_second|]. split; [lra|]. split; [exact D1|]. split; [exact D2|].
  split; [apply (point_potential fx_mixed [(2%Z, true)] (fun q => q * q) (fun q => q * q) (fun q => 2 * q) (fun q => 2 * q) 1 2 2 0 0 ltac:(lra)
     (D1 1) (D1 1) (D2 1) (D2 1) (fun id _ => fx_mixed_second id _ _ _ _ _))|].
  cbv beta. replace (2 + 0 * (2 * (2 * 1) / 1)) with 2 by field.
  unfold mixed_excess, along, d_sigma2. cbn [lsum fst snd fx_mixed fx_v2sigma2 pair_index Nat.eqb].
  match goal with |- ?a <> ?a + _ => generalize a; intros z end. lra.
Qed.

(** A call history with a functional that is rejected in between. *)
Lemma cache_case : let calls := [(1, 1%Z, 0%Z); (1, 3%Z, 0%Z); (1, 1%Z, 0%Z); (1, 1%Z, 2%Z)] in
  evaluations wgrid wfirst wlen1 fall fall1 fall2 wP1 2 wt wlib fx_grad None calls
  = map (fun k => snd (atom_xc_screening wgrid wfirst wlen1 fall fall1 fall2 wP1 2 wt wlib fx_grad None (fst (fst k)) (snd (fst k)) (snd k))) calls.
Proof. intros calls. exact (cache_ok wgrid wfirst wlen1 fall fall1 fall2 wP1 2 wt wlib fx_grad calls None I). Qed.
Lemma agree_case : valid_fe wgrid /\ Rlast wt = last_end wgrid /\ -1 < wmid 0 < 1 /\ radius_of wgrid 0 (wmid 0) = / 2 /\
  0 < point_density wfirst wlen1 fall wP1 0 (wmid 0) /\ ask_both wlib 2 1 = Ok [(2%Z, true); (1%Z, false)].
Proof.
  split; [exact wgrid_ok|]. split; [reflexivity|]. split; [unfold wmid; lra|]. split.
  { unfold radius_of, left_end, right_end, wmid. cbn [wgrid fe_bval nth Nat.add]. field. }
  split; [|reflexivity]. assert (E : wmid 0 = prim_of wgrid 0 (/ 2)) by (rewrite wg_prim; unfold wmid; field).
  rewrite E, wg_dens. assert (0 < PI) by apply PI_RGT_0. apply Rdiv_lt_0_compat; lra.
Qed.

Lemma charge_value b first len bf df lf P fuel t lib fx Z_ nq xq wq hd r x c s v :
  hartree_screening b first len bf P nq xq wq fuel t r = Ok s ->
  snd (atom_xc_screening b first len bf df lf P fuel t lib fx hd r x c) = Ok v ->
  snd (effective_charge b first len bf df lf P nq xq wq fuel t lib fx Z_ hd r x c) = Ok (Z_ - s - v).
Proof.
  intros Hs Hx. unfold effective_charge. destruct (atom_xc_screening b first len bf df lf P fuel t lib fx hd r x c) as [h' w].
  cbn [snd] in *. rewrite Hs, Hx. reflexivity.
Qed.
Lemma charge_case : exists s v, hartree_screening wgrid wfirst wlen1 wbf1 wP1 3 lx lw 2 wt 3 = Ok s /\ snd (atom_xc_screening wgrid wfirst wlen1 wbf1 wbf1 wbf1 wP1 2 wt wlib fx_grad None 3 2 0) = Ok v.
Proof.
  unfold hartree_screening, atom_xc_screening, density, radial_density. cbn [Rlast wt].
  destruct (Rleb_spec 3 0); [lra|]. destruct (Rleb_spec 2 3); [|lra]. destruct (Rltb_spec 2 3); [|lra].
  cbn [orb Z.leb Z.compare andb bind]. destruct (Rltb_spec 0 3); [|lra].
  destruct (Rleb_spec (/ 2 * (0 / (4 * PI * 3 * 3))) 0) as [_|Hn]; [eexists; eexists; split; reflexivity|].
  exfalso. apply Hn. unfold Rdiv. rewrite Rmult_0_l. lra.
Qed.
