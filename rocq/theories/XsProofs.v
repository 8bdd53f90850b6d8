(** Proofs about the exchange-correlation screening. *)
Require Import Reals Lra Lia List Arith Bool ZArith.
Require Import Verif.Prelude Verif.FEModel Verif.FESpec Verif.LegMath Verif.DftModel.
Require Import Verif.SadModel Verif.SadSpec Verif.SadProofs Verif.SadField Verif.SadDens Verif.SadWit.
Require Import Verif.XsModel Verif.XsSpec.
Import ListNotations.
Open Scope R_scope.

(** * The accumulators *)
Section Acc.
Variables (fx : fxc) (n sg : vec).
Lemma fold_acc fs : forall a, let z := fold_left (add_func fx n sg) fs a in
  (forall s, ac_v z s = ac_v a s + d_rho fx fs n sg s) /\ (forall k, ac_s z k = ac_s a k + d_sigma fx fs n sg k) /\
  (forall k, ac_rs z k = ac_rs a k + lsum fs (fun f => if snd f then fx_v2rhosigma fx (fst f) n sg k else 0)) /\
  (forall k, ac_ss z k = ac_ss a k + d_sigma2 fx fs n sg k) /\ ac_gga z = (ac_gga a || existsb snd fs)%bool.
Proof.
  unfold d_rho, d_sigma, d_sigma2.
  induction fs as [|[id g] fs IH]; intros a; cbv zeta; cbn [fold_left lsum existsb snd fst].
  - repeat split; intros; try ring. rewrite orb_false_r. reflexivity.
  - specialize (IH (add_func fx n sg a (id, g))). cbv zeta in IH. destruct IH as (I1 & I2 & I3 & I4 & I5).
    destruct g; cbn [add_func ac_v ac_s ac_rs ac_ss ac_gga] in *; unfold vplus in *;
      (split; [intros s; rewrite I1; ring|]); (split; [intros k; rewrite I2; ring|]); (split; [intros k; rewrite I3; ring|]);
      (split; [intros k; rewrite I4; ring|]); rewrite I5; destruct (ac_gga a); reflexivity.
Qed.
End Acc.

Definition rs_of fx fs n sg k := lsum fs (fun f : Z * bool => if snd f then fx_v2rhosigma fx (fst f) n sg k else 0).
Lemma point_unfold fx fs r na nb ga gb la lb s :
  let n := two na nb in let sg := three (ga * ga) (ga * gb) (gb * gb) in
  point_vxc fx fs r na nb ga gb la lb s
  = d_rho fx fs n sg s - correction r ga gb la lb (d_sigma fx fs n sg) (rs_of fx fs n sg) (d_sigma2 fx fs n sg) s.
Proof.
  intros n sg. unfold point_vxc. destruct (fold_acc fx n sg fs acc0) as (I1 & I2 & I3 & I4 & I5).
  fold n sg. cbn [ac_v ac_s ac_rs ac_ss ac_gga acc0 orb] in *. cbv zeta. rewrite I1, I5.
  destruct (existsb snd fs) eqn:E.
  - unfold correction. rewrite !I2, !I3, !I4. fold (rs_of fx fs n sg). unfold rs_of. destruct (s =? 0)%nat; cbv zeta; ring.
  - assert (Z0 : forall g : Z * bool -> R, lsum fs (fun f => if snd f then g f else 0) = 0).
    { intros g. apply lsum_zero. intros f Hf. destruct (snd f) eqn:Es; [|reflexivity].
      assert (existsb snd fs = true) by (apply existsb_exists; exists f; auto). congruence. }
    unfold correction, rs_of, d_sigma, d_sigma2. rewrite !Z0.
    destruct (s =? 0)%nat; cbv zeta; unfold Rdiv; ring.
Qed.

(** * The divergence *)
Lemma dsigma_der fx fs (na nb ga gb : R -> R) r ha hb :
  derivable_pt_lim na r (ga r) -> derivable_pt_lim nb r (gb r) -> derivable_pt_lim ga r ha -> derivable_pt_lim gb r hb ->
  (forall id, In (id, true) fs -> second_derivatives fx id (na r) (nb r) (ga r * ga r) (ga r * gb r) (gb r * gb r)) ->
  let n := two (na r) (nb r) in let sg := three (ga r * ga r) (ga r * gb r) (gb r * gb r) in
  forall k, (k < 3)%nat ->
  derivable_pt_lim (fun q => d_sigma fx fs (two (na q) (nb q)) (three (ga q * ga q) (ga q * gb q) (gb q * gb q)) k) r
    (rs_of fx fs n sg k * ga r + rs_of fx fs n sg (3 + k) * gb r + d_sigma2 fx fs n sg (pair_index 0 k) * (2 * ga r * ha)
     + d_sigma2 fx fs n sg (pair_index 1 k) * (ha * gb r + ga r * hb) + d_sigma2 fx fs n sg (pair_index 2 k) * (2 * gb r * hb)).
Proof.
  intros Dna Dnb Dga Dgb H2 n sg k Hk. unfold d_sigma, d_sigma2, rs_of.
  induction fs as [|[id g] fs IH]; cbn [lsum fst snd].
  - eapply lim_eq; [|exact (lim_const 0 r)]. ring.
  - assert (IH' := IH (fun i Hi => H2 i (or_intror Hi))). clear IH.
    destruct g.
    + specialize (H2 id (or_introl eq_refl)). unfold second_derivatives in H2. cbv zeta in H2.
      specialize (H2 na nb (fun q => ga q * ga q) (fun q => ga q * gb q) (fun q => gb q * gb q) r (ga r) (gb r)
        (ha * ga r + ga r * ha) (ha * gb r + ga r * hb) (hb * gb r + gb r * hb) eq_refl eq_refl eq_refl eq_refl eq_refl Dna Dnb
        (lim_mul _ _ _ _ _ Dga Dga) (lim_mul _ _ _ _ _ Dga Dgb) (lim_mul _ _ _ _ _ Dgb Dgb) k Hk).
      eapply lim_eq; [|apply lim_plus; [exact H2|exact IH']]. subst n sg. cbv beta. ring.
    + eapply lim_eq; [|apply lim_plus; [exact (lim_const 0 r)|exact IH']]. ring.
Qed.

Lemma flux_along fx fs na nb ga gb s q :
  flux fx fs na nb ga gb s q = along s (d_sigma fx fs (two (na q) (nb q)) (three (ga q * ga q) (ga q * gb q) (gb q * gb q))) (ga q) (gb q).
Proof. reflexivity. Qed.

(** The value with any la, lb = second derivative plus 2/r times c times the first. *)
Lemma point_potential fx fs (na nb ga gb : R -> R) r ha hb c s : r <> 0 ->
  derivable_pt_lim na r (ga r) -> derivable_pt_lim nb r (gb r) -> derivable_pt_lim ga r ha -> derivable_pt_lim gb r hb ->
  (forall id, In (id, true) fs -> second_derivatives fx id (na r) (nb r) (ga r * ga r) (ga r * gb r) (gb r * gb r)) ->
  is_potential fx fs na nb ga gb s r
    (point_vxc fx fs r (na r) (nb r) (ga r) (gb r) (ha + c * (2 * ga r / r)) (hb + c * (2 * gb r / r)) s
     + (c * laplacian_excess fx fs (na r) (nb r) (ga r) (gb r) r s + mixed_excess fx fs (na r) (nb r) (ga r) (gb r) ha hb s)).
Proof.
  intros Hr Dna Dnb Dga Dgb H2. set (n := two (na r) (nb r)). set (sg := three (ga r * ga r) (ga r * gb r) (gb r * gb r)).
  pose proof (dsigma_der fx fs na nb ga gb r ha hb Dna Dnb Dga Dgb H2) as D. cbv zeta in D. fold n sg in D.
  set (d k := rs_of fx fs n sg k * ga r + rs_of fx fs n sg (3 + k) * gb r + d_sigma2 fx fs n sg (pair_index 0 k) * (2 * ga r * ha)
     + d_sigma2 fx fs n sg (pair_index 1 k) * (ha * gb r + ga r * hb) + d_sigma2 fx fs n sg (pair_index 2 k) * (2 * gb r * hb)).
  set (vs := d_sigma fx fs n sg).
  set (fl := if (s =? 0)%nat then 2 * (d 0%nat * ga r + vs 0%nat * ha) + (d 1%nat * gb r + vs 1%nat * hb)
             else (d 1%nat * ga r + vs 1%nat * ha) + 2 * (d 2%nat * gb r + vs 2%nat * hb)).
  assert (Df : derivable_pt_lim (flux fx fs na nb ga gb s) r fl).
  { unfold flux. cbv zeta. unfold fl. destruct (s =? 0)%nat.
    - apply (lim_ext (fun q => 2 * (d_sigma fx fs (two (na q) (nb q)) (three (ga q * ga q) (ga q * gb q) (gb q * gb q)) 0 * ga q)
         + d_sigma fx fs (two (na q) (nb q)) (three (ga q * ga q) (ga q * gb q) (gb q * gb q)) 1 * gb q)); [intros; ring|].
      apply lim_plus; [apply lim_scal|].
      + exact (lim_mul _ _ _ _ _ (D 0%nat ltac:(lia)) Dga).
      + exact (lim_mul _ _ _ _ _ (D 1%nat ltac:(lia)) Dgb).
    - apply (lim_ext (fun q => d_sigma fx fs (two (na q) (nb q)) (three (ga q * ga q) (ga q * gb q) (gb q * gb q)) 1 * ga q
         + 2 * (d_sigma fx fs (two (na q) (nb q)) (three (ga q * ga q) (ga q * gb q) (gb q * gb q)) 2 * gb q))); [intros; ring|].
      apply lim_plus; [|apply lim_scal].
      + exact (lim_mul _ _ _ _ _ (D 1%nat ltac:(lia)) Dga).
      + exact (lim_mul _ _ _ _ _ (D 2%nat ltac:(lia)) Dgb). }
  exists (fl + 2 * flux fx fs na nb ga gb s r / r). split; [exact (laplacian_der r _ fl Hr Df)|].
  rewrite point_unfold. cbv zeta. fold n sg vs.
  unfold laplacian_excess, mixed_excess, flux, along, correction. cbv zeta. fold n sg vs. unfold fl, d. clear.
  destruct (s =? 0)%nat; cbn [pair_index Nat.add]; unfold Rdiv; ring.
Qed.

Lemma potential_unique fx fs na nb ga gb s r v w : r <> 0 ->
  is_potential fx fs na nb ga gb s r v -> is_potential fx fs na nb ga gb s r w -> v = w.
Proof.
  intros Hr (d & D & ->) (d' & D' & ->). assert (E := uniqueness_limite _ _ _ _ D D').
  assert (d = d') as -> by (apply Rmult_eq_reg_l with (r * r); [exact E|apply Rmult_integral_contrapositive; split; exact Hr]).
  reflexivity.
Qed.
Lemma no_gga_excess fx fs na nb ga gb ha hb r s : existsb snd fs = false ->
  laplacian_excess fx fs na nb ga gb r s = 0 /\ mixed_excess fx fs na nb ga gb ha hb s = 0.
Proof.
  intros E. assert (Z0 : forall g : Z * bool -> R, lsum fs (fun f => if snd f then g f else 0) = 0).
  { intros g. apply lsum_zero. intros f Hf. destruct (snd f) eqn:Es; [|reflexivity].
    assert (existsb snd fs = true) by (apply existsb_exists; exists f; auto). congruence. }
  unfold laplacian_excess, mixed_excess, along, d_sigma, d_sigma2. cbv zeta. rewrite !Z0.
  destruct (s =? 0)%nat; split; ring.
Qed.

(** * The functionals *)
Lemma ask_cases lib id : (0 < id)%Z -> match ask lib id with
  | Ok o => xc_known lib id = true /\ ((xc_family lib id = GGA /\ o = Some (id, true)) \/ (xc_family lib id = LDA /\ o = Some (id, false)))
  | Throw RuntimeError => xc_known lib id = false \/ xc_family lib id = OtherFamily
  | Throw LogicError => xc_known lib id = true /\ xc_family lib id = MGGA /\ (xc_tau lib id = true \/ xc_lapl lib id = true)
  | UB => xc_known lib id = true /\ xc_family lib id = MGGA /\ xc_tau lib id = false /\ xc_lapl lib id = false
  | _ => False
  end.
Proof.
  intros H. unfold ask, is_gga_mgga, with_func. destruct (Z.leb_spec id 0); [lia|].
  destruct (xc_known lib id) eqn:K; cbn [negb bind]; [|auto].
  destruct (xc_family lib id) eqn:F; cbn [bind orb]; auto 6.
  destruct (xc_tau lib id) eqn:T, (xc_lapl lib id) eqn:L; cbn [orb]; auto 6.
Qed.
Lemma ask_none lib id : (id <= 0)%Z -> ask lib id = Ok None.
Proof. intros H. unfold ask. destruct (Z.leb_spec id 0); [reflexivity|lia]. Qed.

(** * The grid *)
Section GridProofs.
Variables (nel npts : nat) (xq : vec) (rad : nat -> R -> R) (first len : nat -> nat).
Variables (bf df lf : nat -> R -> vec).
Variables (nuc : mat -> R) (lib : libxc) (fx : fxc).
Hypothesis Hnel : (1 <= nel)%nat.

Definition nfun (P : mat) (e : nat) (X : R -> R) (q : R) : R := pairing (first e) (len e) P (bf e (X q)) (bf e (X q)) / (4 * PI).
Definition gfun (P : mat) (e : nat) (X : R -> R) (q : R) : R := 2 * pairing (first e) (len e) P (bf e (X q)) (df e (X q)) / (4 * PI).
Definition hval (P : mat) (e : nat) (x : R) : R :=
  2 * (pairing (first e) (len e) P (df e x) (df e x) + pairing (first e) (len e) P (bf e x) (lf e x)) / (4 * PI).

Lemma grid_ok Pa Pb x c fs : ask_both lib x c = Ok fs ->
  exists V, xc_screening nel npts xq rad first len bf df lf nuc lib fx Pa Pb x c = Ok V /\ (forall s, V s 0%nat = 0) /\
  forall e i, (e < nel)%nat -> (i < npts)%nat -> forall X r, X r = xq i -> rad e (xq i) = r -> r <> 0 -> forall s,
    V s (1 + e * npts + i)%nat = r * point_vxc fx fs r (nfun Pa e X r) (nfun Pb e X r) (gfun Pa e X r) (gfun Pb e X r)
      (hval Pa e (X r) + 1 * (2 * gfun Pa e X r / r)) (hval Pb e (X r) + 1 * (2 * gfun Pb e X r / r)) s.
Proof.
  intros Hfs. unfold xc_screening.
  destruct (layout_ok nel npts xq rad first len bf df lf (fun _ _ => 0) Pa (fun _ => 0) (nuc Pa) Hnel) as
    (w & r & o & o1 & o2 & na & ga & la & _ & Er & _ & _ & _ & En & Eg & El & _ & Zr & _ & _ & _ & _ & _ & _ & I).
  destruct (layout_ok nel npts xq rad first len bf df lf (fun _ _ => 0) Pb (fun _ => 0) (nuc Pb) Hnel) as
    (w' & r' & o' & o1' & o2' & nb & gb & lb & _ & _ & _ & _ & _ & En' & Eg' & El' & _ & _ & _ & _ & _ & _ & _ & _ & I').
  rewrite En, En', Eg, Eg', El, El', Er, Hfs. cbn [bind]. eexists. split; [reflexivity|]. split.
  - intros s. cbn [Nat.eqb]. rewrite Zr. ring.
  - intros e i He Hi X q HX Hq Hq0 s. specialize (I e i He Hi). specialize (I' e i He Hi).
    destruct I as (_ & Ir & _ & _ & _ & In & Ig & Il). destruct I' as (_ & _ & _ & _ & _ & In' & Ig' & Il').
    cbn [Nat.add Nat.eqb] in *. rewrite Ir, In, Ig, Il, In', Ig', Il', Hq. unfold nfun, gfun, hval. rewrite HX.
    assert (PI <> 0) by apply PI_neq0.
    match goal with |- point_vxc _ _ _ _ _ _ _ ?a ?b _ * _ = _ * point_vxc _ _ _ _ _ _ _ ?a' ?b' _ =>
      replace a with a' by (field; auto); replace b with b' by (field; auto) end. ring.
Qed.

Lemma fun_der P e X r : symmetric_block (first e) (len e) P ->
  (forall a, (a < len e)%nat -> derivable_pt_lim (fun q => bf e (X q) a) r (df e (X r) a)) ->
  (forall a, (a < len e)%nat -> derivable_pt_lim (fun q => df e (X q) a) r (lf e (X r) a)) ->
  derivable_pt_lim (nfun P e X) r (gfun P e X r) /\ derivable_pt_lim (gfun P e X) r (hval P e (X r)).
Proof.
  intros Hs Hb Hd. unfold nfun, gfun, hval, Rdiv. split.
  - apply (lim_ext (fun q => / (4 * PI) * pairing (first e) (len e) P (bf e (X q)) (bf e (X q)))); [intros; ring|].
    eapply lim_eq; [|apply lim_scal; apply (density_der first len bf df P e X Hs r Hb)]. ring.
  - apply (lim_ext (fun q => / (4 * PI) * (2 * pairing (first e) (len e) P (bf e (X q)) (df e (X q))))); [intros; ring|].
    eapply lim_eq; [|apply lim_scal; apply (gradient_der first len bf df lf P e X r Hb Hd)]. ring.
Qed.

Lemma grid_gga Pa Pb x c fs : ask_both lib x c = Ok fs ->
  exists V, xc_screening nel npts xq rad first len bf df lf nuc lib fx Pa Pb x c = Ok V /\ (forall s, V s 0%nat = 0) /\
  forall e i, (e < nel)%nat -> (i < npts)%nat -> forall X r, X r = xq i -> rad e (xq i) = r -> r <> 0 ->
  symmetric_block (first e) (len e) Pa -> symmetric_block (first e) (len e) Pb ->
  (forall a, (a < len e)%nat -> derivable_pt_lim (fun q => bf e (X q) a) r (df e (X r) a)) ->
  (forall a, (a < len e)%nat -> derivable_pt_lim (fun q => df e (X q) a) r (lf e (X r) a)) ->
  exists na nb ga gb ha hb,
    (forall q, na q = point_density first len bf Pa e (X q)) /\ (forall q, nb q = point_density first len bf Pb e (X q)) /\
    derivable_pt_lim na r (ga r) /\ derivable_pt_lim nb r (gb r) /\ derivable_pt_lim ga r ha /\ derivable_pt_lim gb r hb /\
    ((forall id, In (id, true) fs -> second_derivatives fx id (na r) (nb r) (ga r * ga r) (ga r * gb r) (gb r * gb r)) ->
     forall s, exists v, is_potential fx fs na nb ga gb s r v /\
       V s (1 + e * npts + i)%nat = r * (v - laplacian_excess fx fs (na r) (nb r) (ga r) (gb r) r s
                                           - mixed_excess fx fs (na r) (nb r) (ga r) (gb r) ha hb s)).
Proof.
  intros Hfs. destruct (grid_ok Pa Pb x c fs Hfs) as (V & EV & V0 & HV). exists V. split; [exact EV|]. split; [exact V0|].
  intros e i He Hi X r HX Hr Hr0 Sa Sb Hb Hd.
  destruct (fun_der Pa e X r Sa Hb Hd) as [D1 D2]. destruct (fun_der Pb e X r Sb Hb Hd) as [D3 D4].
  exists (nfun Pa e X), (nfun Pb e X), (gfun Pa e X), (gfun Pb e X), (hval Pa e (X r)), (hval Pb e (X r)).
  split; [reflexivity|]. split; [reflexivity|]. do 4 (split; [assumption|]).
  intros H2 s. eexists. split; [apply (point_potential fx fs _ _ _ _ r _ _ 1 s Hr0 D1 D3 D2 D4 H2)|].
  rewrite (HV e i He Hi X r HX Hr Hr0 s). ring.
Qed.

Lemma grid_total P x c fs : ask_both lib x c = Ok fs ->
  exists V v, xc_screening nel npts xq rad first len bf df lf nuc lib fx (fun i j => P i j / 2) (fun i j => P i j / 2) x c = Ok V /\
    xc_screening_total nel npts xq rad first len bf df lf nuc lib fx P x c = Ok v /\
    v 0%nat = 0 /\ forall k, v k = (V 0%nat k + V 1%nat k) / 2.
Proof.
  intros Hfs. destruct (grid_ok (fun i j => P i j / 2) (fun i j => P i j / 2) x c fs Hfs) as (V & E & V0 & _).
  unfold xc_screening_total. rewrite E. cbn [bind]. exists V. eexists. split; [reflexivity|]. split; [reflexivity|].
  split; [rewrite !V0; ring|]. intros k. field.
Qed.
Lemma grid_fail Pa Pb x c : match ask_both lib x c with
  | Ok _ => True
  | Throw e => xc_screening nel npts xq rad first len bf df lf nuc lib fx Pa Pb x c = Throw e
  | UB => xc_screening nel npts xq rad first len bf df lf nuc lib fx Pa Pb x c = UB
  | OutOfFuel => True
  end.
Proof.
  unfold xc_screening.
  destruct (layout_ok nel npts xq rad first len bf df lf (fun _ _ => 0) Pa (fun _ => 0) (nuc Pa) Hnel) as
    (w & r & o & o1 & o2 & na & ga & la & _ & Er & _ & _ & _ & En & Eg & El & _).
  destruct (layout_ok nel npts xq rad first len bf df lf (fun _ _ => 0) Pb (fun _ => 0) (nuc Pb) Hnel) as
    (w' & r' & o' & o1' & o2' & nb & gb & lb & _ & _ & _ & _ & _ & En' & Eg' & El' & _).
  rewrite En, En', Eg, Eg', El, El', Er. cbn [bind]. destruct (ask_both lib x c); cbn [bind]; auto.
Qed.
End GridProofs.
