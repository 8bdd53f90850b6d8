(** Concrete cases for the spherically averaged atom. *)
Require Import Reals Lra Lia List Arith Bool ZArith.
Require Import Verif.Prelude Verif.FEModel Verif.FESpec Verif.LegMath.
Require Import Verif.SadModel Verif.SadSpec Verif.SadProofs Verif.SadRoot Verif.SadField Verif.SadAtom Verif.SadDens.
Import ListNotations.
Open Scope R_scope.

(** Three points; two functions 1 and f whose product carries the density. *)
Definition wx (i : nat) : R := match i with O => -(1/2) | S O => 0 | _ => 1/2 end.
Definition wbf (f : R -> R) (e : nat) (x : R) (a : nat) : R := match a with O => 1 | _ => f x end.
Definition wP (p : R) (i j : nat) : R := if (i =? j)%nat then 0 else p.
Definition wfirst (e : nat) : nat := 0%nat.
Definition wlen2 (e : nat) : nat := 2%nat.
Definition wlen1 (e : nat) : nat := 1%nat.

Lemma wx_ok : points_ok 3 wx.
Proof.
  split.
  - intros i Hi. destruct i as [|[|[|i]]]; [| | |lia]; cbn [wx]; lra.
  - intros i j H1 H2. destruct i as [|[|[|i]]], j as [|[|[|j]]]; try lia; cbn [wx]; lra.
Qed.
Lemma wpairing f p e x : pairing (wfirst e) (wlen2 e) (wP p) (wbf f e x) (wbf f e x) = 2 * p * f x.
Proof. unfold pairing, wfirst, wlen2, wP, wbf. cbn [sum Nat.add Nat.eqb]. ring. Qed.
Lemma wdens f e x : point_density wfirst wlen2 (wbf f) (wP (2 * PI)) e x = f x.
Proof. unfold point_density. rewrite wpairing. field. apply PI_neq0. Qed.

(** A decreasing density. *)
Definition ramp (x : R) : R := (1 - x) / 2.
Definition shift_rad (e : nat) (x : R) : R := 1 + x.
Lemma ramp_cont : continuous_on ramp (-1) 1.
Proof. intros x _. unfold ramp. reg. Qed.
Lemma ramp_decr : decreasing_on ramp (-1) 1.
Proof. intros s t _ H _. unfold ramp. lra. Qed.

Lemma continuous_ext f g a b : (forall x, f x = g x) -> continuous_on f a b -> continuous_on g a b.
Proof.
  intros E H x Hx eps He. destruct (H x Hx eps He) as (al & Ha & Hl). exists al. split; [exact Ha|].
  intros y Hy. rewrite <- !E. apply Hl. exact Hy.
Qed.

Lemma small_wit n : (n <= 1000)%nat -> small n.
Proof. intros H. unfold small. assert (Z.of_nat n <= 1000)%Z by lia. lia. Qed.

Definition wvdw := vdw_radius 1 3 wx shift_rad wfirst wlen2 (wbf ramp) (wP (2 * PI)).
Lemma vdw_wrong : exists r, wvdw (1 / 2) (1 / 16) = Ok r /\
  forall y, -1 <= y <= 1 -> point_density wfirst wlen2 (wbf ramp) (wP (2 * PI)) 0 y = 1 / 2 -> 7 * (1 / 16) < Rabs (r - shift_rad 0 y).
Proof.
  destruct (vdw_returns 1 3 wx shift_rad wfirst wlen2 (wbf ramp) (wP (2 * PI)) (1 / 2) (1 / 16)) as (r & Er); try lia.
  { apply small_wit. lia. } { exact wx_ok. } { lra. }
  exists r. split; [exact Er|].
  destruct (vdw_some 1 3 wx shift_rad wfirst wlen2 (wbf ramp) (wP (2 * PI)) (1 / 2) (1 / 16) r) as (e & i & a & b & x & He & _ & _ & Hi & Hmin & _ & [Ha Hb] & Hx & -> & _ & Hall); try lia.
  { apply small_wit. lia. } { exact wx_ok. }
  { exists 0%nat. split; [lia|]. exists 0%nat. split; [lia|]. rewrite wdens. unfold ramp. cbn [wx]. lra. }
  { exact Er. }
  assert (e = 0%nat) as -> by lia.
  assert (i = 1%nat) as ->.
  { specialize (Hmin 1%nat ltac:(lia)). rewrite !wdens in Hmin. unfold ramp in Hmin.
    replace ((1 - wx 1) / 2 - 1 / 2) with 0 in Hmin by (cbn [wx]; field). rewrite Rabs_R0 in Hmin.
    destruct i as [|[|[|i]]]; [exfalso|reflexivity|exfalso|lia]; cbn [wx] in Hmin.
    - replace ((1 - - (1 / 2)) / 2 - 1 / 2) with (1 / 4) in Hmin by field. rewrite Rabs_right in Hmin; lra.
    - replace ((1 - 1 / 2) / 2 - 1 / 2) with (- (1 / 4)) in Hmin by field. rewrite Rabs_left in Hmin; lra. }
  cbn [Nat.eqb Nat.sub Nat.add wx] in Ha, Hb. subst a b.
  assert (Hx2 : 1 / 2 - x < 1 / 16 / 2).
  { apply Hall. intros z Hz. rewrite wdens. unfold ramp. lra. }
  intros y Hy E. rewrite wdens in E. unfold ramp in E. unfold shift_rad. rewrite Rabs_right; lra.
Qed.

(** Electron count: two elements of one electron each. *)
Definition wS (e : nat) : mat := fun _ _ => 1.
Definition wpart (e : nat) (m : R) : mat := fun _ _ => (1 - m) / 2.
Definition wP1 : mat := fun _ _ => 1.
Lemma wq e : block_trace (wfirst e) (wlen1 e) wP1 (wS e) = 1.
Proof. unfold block_trace, wlen1, wP1, wS. cbn [sum]. ring. Qed.
Lemma wout e m : block_trace (wfirst e) (wlen1 e) wP1 (wpart e m) = (1 - m) / 2.
Proof. unfold block_trace, wlen1, wP1, wpart. cbn [sum]. field. Qed.
Lemma count_wit : small 2 /\ 0 < 3 / 2 <= sum 2 (fun e => block_trace (wfirst e) (wlen1 e) wP1 (wS e)) /\
  forall e, (e < 2)%nat -> continuous_on (fun m => block_trace (wfirst e) (wlen1 e) wP1 (wpart e m)) (-1) 1 /\
    block_trace (wfirst e) (wlen1 e) wP1 (wpart e (-1)) = block_trace (wfirst e) (wlen1 e) wP1 (wS e) /\
    block_trace (wfirst e) (wlen1 e) wP1 (wpart e 1) = 0.
Proof.
  split; [apply small_wit; lia|]. split; [cbn [sum]; rewrite !wq; lra|]. intros e He. split; [|rewrite !wout, wq; lra].
  apply (continuous_ext (fun m => (1 - m) / 2)); [intros m; symmetry; apply wout|]. intros x _. reg.
Qed.
Lemma count_wit_beyond fuel : electron_count_radius 2 shift_rad wfirst wlen1 fuel wS wpart wP1 3 (1 / 8) = UB.
Proof.
  apply count_beyond; [apply small_wit; lia|intros e He; rewrite wq; lra|lra|]. cbn [sum]. rewrite !wq. lra.
Qed.

(** A peak off the points. *)
Definition hump (x : R) : R := 1 - (x - 1 / 8) * (x - 1 / 8).
Lemma hump_peak : peak hump (-(1/2)) (1/2) (1/8).
Proof. split; [lra|]. split; intros s t H1 H2 H3; unfold hump; nra. Qed.

(** Integrals of polynomials. *)
Lemma ftc F f a b : (forall x, derivable_pt_lim F x (f x)) -> continuity f -> a <= b -> is_int f a b (F b - F a).
Proof.
  intros HF Hc Hab. set (pr := (fun x => exist _ (f x) (HF x)) : derivable F).
  assert (E : forall x, derive F pr x = f x) by (intros x; reflexivity).
  assert (Hc1 : continuity (derive F pr)).
  { intros x eps He. destruct (Hc x eps He) as (al & Ha & Hl). exists al. split; [exact Ha|]. intros y Hy. rewrite !E. apply Hl. exact Hy. }
  assert (p1 : Riemann_integrable f a b) by (apply continuity_implies_RiemannInt; [exact Hab|intros x _; apply Hc]).
  assert (p2 : Riemann_integrable (derive F pr) a b) by (apply continuity_implies_RiemannInt; [exact Hab|intros x _; apply Hc1]).
  exists p1. rewrite (RiemannInt_P18 p1 p2 Hab); [|intros x _; symmetry; apply E].
  exact (FTC_Riemann (mkC1 Hc1) p2).
Qed.
Definition one (s : R) : R := 1.
Lemma charge_int a b : a <= b -> is_int (charge one) a b ((b ^ 3 - a ^ 3) / 3).
Proof.
  intros H. replace ((b ^ 3 - a ^ 3) / 3) with (1 / 3 * (b * (b * b)) - 1 / 3 * (a * (a * a))) by field.
  apply (ftc (fun s => 1 / 3 * (s * (s * s))) (charge one)); [|unfold charge, one; reg|exact H]. intros x.
  eapply lim_eq; [|apply lim_scal; apply lim_x; apply lim_x; apply lim_id]. unfold charge, one. cbv beta. field.
Qed.
Lemma moment_int a b : a <= b -> is_int (moment one) a b ((b ^ 2 - a ^ 2) / 2).
Proof.
  intros H. replace ((b ^ 2 - a ^ 2) / 2) with (1 / 2 * (b * b) - 1 / 2 * (a * a)) by field.
  apply (ftc (fun s => 1 / 2 * (s * s)) (moment one)); [|unfold moment, one; reg|exact H]. intros x.
  eapply lim_eq; [|apply lim_scal; apply lim_x; apply lim_id]. unfold moment, one. cbv beta. field.
Qed.
Definition lx (q : nat) : R := match q with O => -1 | S O => 0 | _ => 1 end.
Definition lw (q : nat) : R := match q with S O => 4/3 | _ => 1/3 end.
Lemma lx_ok q : (q < 3)%nat -> -1 <= lx q <= 1.
Proof. intros H. destruct q as [|[|[|q]]]; [| | |lia]; cbn [lx]; lra. Qed.
Lemma charge_rule b : rule_error b 3 lx lw (charge one) 0.
Proof.
  intros e s t v He H1 H2 H3 Hi. rewrite (int_unique _ _ _ _ _ Hi (charge_int s t ltac:(lra))).
  match goal with |- Rabs ?X <= 0 => replace X with 0; [rewrite Rabs_R0; lra|] end.
  unfold charge, one. cbn [sum lx lw]. field.
Qed.
Lemma moment_rule b : rule_error b 3 lx lw (moment one) 0.
Proof.
  intros e s t v He H1 H2 H3 Hi. rewrite (int_unique _ _ _ _ _ Hi (moment_int s t ltac:(lra))).
  match goal with |- Rabs ?X <= 0 => replace X with 0; [rewrite Rabs_R0; lra|] end.
  unfold moment, one. cbn [sum lx lw]. field.
Qed.

(** Two elements [0, 1], [1, 2]. *)
Definition wgrid : fe := mkFE LIP 2 [0; 1; 2] true false true false.
Lemma wgrid_ok : valid_fe wgrid.
Proof.
  split; [cbn; lia|]. split; [cbn; lia|]. intros i j H1 H2. cbn [fe_bval wgrid length] in *.
  destruct i as [|[|[|i]]], j as [|[|[|j]]]; try lia; cbn [nth]; lra.
Qed.
Definition wbf1 (e : nat) (x : R) (a : nat) : R := 1.
Lemma wone : represents wgrid (rho4 wfirst wlen1 wbf1 wP1) one.
Proof. intros e x _ _. unfold rho4, form, wlen1, wbf1, wP1, one. cbn [sum]. ring. Qed.
Lemma wgrid_charge : is_int (charge one) (nth 0 (fe_bval wgrid) 0) (last_end wgrid) (8 / 3).
Proof. unfold last_end. cbn [get_nelem wgrid fe_bval length Nat.sub nth]. replace (8 / 3) with ((2 ^ 3 - 0 ^ 3) / 3) by field. apply charge_int. lra. Qed.
Lemma wgrid_moment : is_int (moment one) (nth 0 (fe_bval wgrid) 0) (last_end wgrid) 2.
Proof. unfold last_end. cbn [get_nelem wgrid fe_bval length Nat.sub nth]. replace 2 with ((2 ^ 2 - 0 ^ 2) / 2) at 2 by field. apply moment_int. lra. Qed.

(** Screening of the same density from per-element matrices, one point per element. *)
Definition wzm (e : nat) : mat := fun _ _ => match e with O => 1 / 3 | _ => 7 / 3 end.
Definition wmo (e : nat) : mat := fun _ _ => match e with O => 1 / 2 | _ => 3 / 2 end.
Definition wpot (e i c : nat) : R := match e with O => 1 / 12 + 3 / 8 | _ => (19 / 24) / (3 / 2) + 7 / 8 end.
Definition wmid (i : nat) : R := 0.
Lemma screening_wit :
  (forall i, (i < 1)%nat -> -1 <= wmid i <= 1) /\
  (forall e i, (e < get_nelem wgrid)%nat -> (i < 1)%nat -> radius_of wgrid e (wmid i) <> 0) /\
  (forall e, (e < get_nelem wgrid)%nat ->
     is_int (charge one) (left_end wgrid e) (right_end wgrid e) (block_trace (wfirst e) (wlen1 e) wP1 (wzm e)) /\
     is_int (moment one) (left_end wgrid e) (right_end wgrid e) (block_trace (wfirst e) (wlen1 e) wP1 (wmo e))) /\
  (forall e i, (e < get_nelem wgrid)%nat -> (i < 1)%nat -> exists qi mi,
     is_int (charge one) (left_end wgrid e) (radius_of wgrid e (wmid i)) qi /\
     is_int (moment one) (radius_of wgrid e (wmid i)) (right_end wgrid e) mi /\
     sum (wlen1 e) (fun a => sum (wlen1 e) (fun c => wpot e i (c * wlen1 e + a)%nat * wP1 (wfirst e + a)%nat (wfirst e + c)%nat))
       = qi / radius_of wgrid e (wmid i) + mi).
Proof.
  assert (Hn : get_nelem wgrid = 2%nat) by reflexivity. rewrite Hn.
  assert (Hr : forall e i, radius_of wgrid e (wmid i) = (left_end wgrid e + right_end wgrid e) / 2) by (intros; unfold radius_of, wmid; ring).
  assert (L0 : left_end wgrid 0 = 0) by reflexivity. assert (L1 : left_end wgrid 1 = 1) by reflexivity.
  assert (R0 : right_end wgrid 0 = 1) by reflexivity. assert (R1 : right_end wgrid 1 = 2) by reflexivity.
  split; [intros; unfold wmid; lra|]. split; [|split].
  - intros e i He _. rewrite Hr. destruct e as [|[|e]]; [| |lia]; rewrite ?L0, ?L1, ?R0, ?R1; lra.
  - intros e He. unfold block_trace, wlen1, wP1, wzm, wmo. cbn [sum]. destruct e as [|[|e]]; [| |lia]; rewrite ?L0, ?L1, ?R0, ?R1; split.
    + replace (0 + (0 + 1 * (1 / 3))) with ((1 ^ 3 - 0 ^ 3) / 3) by field. apply charge_int. lra.
    + replace (0 + (0 + 1 * (1 / 2))) with ((1 ^ 2 - 0 ^ 2) / 2) by field. apply moment_int. lra.
    + replace (0 + (0 + 1 * (7 / 3))) with ((2 ^ 3 - 1 ^ 3) / 3) by field. apply charge_int. lra.
    + replace (0 + (0 + 1 * (3 / 2))) with ((2 ^ 2 - 1 ^ 2) / 2) by field. apply moment_int. lra.
  - intros e i He _. rewrite Hr. unfold wlen1, wP1, wpot. cbn [sum]. destruct e as [|[|e]]; [| |lia]; rewrite ?L0, ?L1, ?R0, ?R1.
    + exists (((((0 + 1) / 2) ^ 3) - 0 ^ 3) / 3), ((1 ^ 2 - ((0 + 1) / 2) ^ 2) / 2).
      split; [apply charge_int; lra|]. split; [apply moment_int; lra|]. field.
    + exists (((((1 + 2) / 2) ^ 3) - 1 ^ 3) / 3), ((2 ^ 2 - ((1 + 2) / 2) ^ 2) / 2).
      split; [apply charge_int; lra|]. split; [apply moment_int; lra|]. field.
Qed.

(** A function falling to zero at the end of the grid. *)
Definition fall (e : nat) (x : R) (a : nat) : R := 2 - radius_of wgrid e x.
Definition fall1 (e : nat) (x : R) (a : nat) : R := -1.
Definition fall2 (e : nat) (x : R) (a : nat) : R := 0.
Lemma fall_der e r a : (e < 2)%nat ->
  derivable_pt_lim (fun s => fall e (prim_of wgrid e s) a) r (fall1 e (prim_of wgrid e r) a) /\
  derivable_pt_lim (fun s => fall1 e (prim_of wgrid e s) a) r (fall2 e (prim_of wgrid e r) a).
Proof.
  intros He. split; [|exact (lim_const (-1) r)].
  apply (lim_ext (fun s => 2 - s)).
  { intros y. unfold fall, radius_of, prim_of. assert (right_end wgrid e - left_end wgrid e = 1).
    { destruct e as [|[|e]]; [| |lia]; unfold left_end, right_end; cbn; lra. }
    field. lra. }
  eapply lim_eq; [|apply lim_minus; [exact (lim_const 2 r)|apply lim_id]]. unfold fall1. ring.
Qed.
Lemma wP1_sym f n : symmetric_block f n wP1.
Proof. intros a c _ _. reflexivity. Qed.

Lemma ramp_le i : (i < 3)%nat -> ramp (wx i) <= 1.
Proof. intros H. unfold ramp. pose proof (proj1 wx_ok i H). lra. Qed.
Lemma vdw_case : small 1 /\ points_ok 3 wx /\ continuous_on ramp (-1) 1 /\ decreasing_on ramp (-1) 1 /\
  (forall e x, point_density wfirst wlen2 (wbf ramp) (wP (2 * PI)) e x = ramp x) /\ 1 / 2 < ramp (wx 0) /\ ramp 1 <= 1 / 2.
Proof.
  split; [apply small_wit; lia|]. split; [exact wx_ok|]. split; [exact ramp_cont|]. split; [exact ramp_decr|].
  split; [exact (wdens ramp)|]. unfold ramp. cbn [wx]. lra.
Qed.
Lemma outside_ok b first len bf P nq xq wq fuel t r :
  (r <= 0 -> enclosed_charge b first len bf P nq xq wq fuel t r = Ok 0 /\ hartree_screening b first len bf P nq xq wq fuel t r = Ok 0) /\
  (0 < r -> Rlast t <= r -> enclosed_charge b first len bf P nq xq wq fuel t r = Ok (Ntot t) /\
     hartree_screening b first len bf P nq xq wq fuel t r = Ok (Ntot t)).
Proof.
  unfold enclosed_charge, hartree_screening. split.
  - intros H. destruct (Rleb_spec r 0); [split; reflexivity|lra].
  - intros H1 H2. destruct (Rleb_spec r 0); [lra|]. destruct (Rleb_spec (Rlast t) r); [split; reflexivity|lra].
Qed.
Lemma layout_ok nel npts xq rad first len bf df lf wrad P c nuc : (1 <= nel)%nat ->
  exists w r o o1 o2 n g l,
    quadrature_weights nel npts wrad = Ok w /\ radii nel npts xq rad = Ok r /\
    orbital_derivative nel npts xq first len df c = Ok o1 /\ orbital_second_derivative nel npts xq first len lf c = Ok o2 /\
    orbital nel npts xq first len bf c nuc = Ok o /\ electron_density_all nel npts xq rad first len bf P false nuc = Ok n /\
    electron_density_gradient nel npts xq first len bf df P = Ok g /\
    electron_density_laplacian nel npts xq rad first len bf df lf P = Ok l /\
    w 0%nat = 0 /\ r 0%nat = 0 /\ o 0%nat = nuc /\ o1 0%nat = 0 /\ o2 0%nat = 0 /\ n 0%nat = nuc /\ g 0%nat = 0 /\ l 0%nat = 0 /\
    forall e i, (e < nel)%nat -> (i < npts)%nat ->
      w (1 + e * npts + i)%nat = wrad e i /\ r (1 + e * npts + i)%nat = rad e (xq i) /\
      o (1 + e * npts + i)%nat = orbital_at (first e) (len e) (bf e (xq i)) c /\
      o1 (1 + e * npts + i)%nat = orbital_at (first e) (len e) (df e (xq i)) c /\
      o2 (1 + e * npts + i)%nat = orbital_at (first e) (len e) (lf e (xq i)) c /\
      n (1 + e * npts + i)%nat = pairing (first e) (len e) P (bf e (xq i)) (bf e (xq i)) /\
      g (1 + e * npts + i)%nat = 2 * pairing (first e) (len e) P (bf e (xq i)) (df e (xq i)) /\
      l (1 + e * npts + i)%nat = 2 * (pairing (first e) (len e) P (df e (xq i)) (df e (xq i)) + pairing (first e) (len e) P (bf e (xq i)) (lf e (xq i)))
        + 2 * (2 * pairing (first e) (len e) P (bf e (xq i)) (df e (xq i))) / rad e (xq i).
Proof.
  intros H. unfold quadrature_weights, radii, orbital, orbital_derivative, orbital_second_derivative, electron_density_all, electron_density_gradient, electron_density_laplacian.
  repeat match goal with |- context [segments nel npts ?z ?f] =>
    let v := fresh "v" in let E := fresh "E" in let Z := fresh "Z" in let I := fresh "I" in
    destruct (segments_ok nel npts z f H) as (v & E & Z & I); rewrite E; clear E end.
  exists v, v0, v3, v1, v2, v4, v5, v6. do 8 (split; [reflexivity|]).
  split; [exact Z|]. split; [exact Z0|]. split; [exact Z3|]. split; [exact Z1|]. split; [exact Z2|]. split; [rewrite Z4; field; apply PI_neq0|]. split; [exact Z5|]. split; [exact Z6|].
  intros e i He Hi. rewrite I, I0, I1, I2, I3, I4, I5, I6 by assumption.
  do 5 (split; [reflexivity|]).
  split; [unfold electron_density, form, pairing; ring|]. split; [reflexivity|].
  unfold density_laplacian, form, pairing, Rdiv. ring.
Qed.
Lemma integral_ok nel npts xq rad first len bf wrad P nuc w n : (1 <= nel)%nat ->
  quadrature_weights nel npts wrad = Ok w -> electron_density_all nel npts xq rad first len bf P true nuc = Ok n ->
  sum (1 + nel * npts) (fun k => w k * n k)
  = sum nel (fun e => sum npts (fun i => wrad e i * (rad e (xq i) ^ 2 * pairing (first e) (len e) P (bf e (xq i)) (bf e (xq i))))).
Proof.
  intros H. unfold quadrature_weights, electron_density_all.
  repeat match goal with |- context [segments nel npts ?z ?f] =>
    let v := fresh "v" in let E := fresh "E" in let Z := fresh "Z" in let I := fresh "I" in
    destruct (segments_ok nel npts z f H) as (v & E & Z & I); rewrite E; clear E end.
  intros Ew En. injection Ew as <-. injection En as <-. rewrite array_sum, Z, Rmult_0_l, Rplus_0_l.
  apply sum_ext. intros e He. apply sum_ext. intros i Hi. rewrite I, I0 by assumption. f_equal.
  unfold electron_density, form, pairing. ring.
Qed.
Lemma layout_case : exists w, quadrature_weights 2 3 (fun e i => INR (e * 3 + i)) = Ok w /\ w 6%nat = 5.
Proof.
  unfold quadrature_weights. destruct (segments_ok 2 3 0 (fun e i => INR (e * 3 + i)) ltac:(lia)) as (w & E & _ & I).
  exists w. split; [exact E|]. change 6%nat with (1 + 1 * 3 + 2)%nat. rewrite I by lia. cbn. lra.
Qed.
Lemma derivatives_ok rad first len bf df lf P e (X : R -> R) r : symmetric_block (first e) (len e) P -> r <> 0 -> rad e (X r) = r ->
  (forall a, (a < len e)%nat -> derivable_pt_lim (fun s => bf e (X s) a) r (df e (X r) a)) ->
  (forall a, (a < len e)%nat -> derivable_pt_lim (fun s => df e (X s) a) r (lf e (X r) a)) ->
  derivable_pt_lim (fun s => electron_density rad first len bf P false e (X s)) r (density_gradient first len bf df P e (X r)) /\
  derivable_pt_lim (fun s => s * s * density_gradient first len bf df P e (X s)) r (r * r * density_laplacian rad first len bf df lf P e (X r)).
Proof.
  intros Hs Hr Er Hb Hd. split.
  - apply (lim_ext (fun s => pairing (first e) (len e) P (bf e (X s)) (bf e (X s)))).
    { intros y. unfold electron_density, form, pairing. ring. }
    apply (density_der first len bf df P e X Hs r Hb).
  - eapply lim_eq; [|apply (laplacian_der r (fun s => density_gradient first len bf df P e (X s))); [exact Hr|]].
    2: apply (gradient_der first len bf df lf P e X r Hb Hd).
    unfold density_laplacian, density_gradient, form, pairing. rewrite Er. cbv beta. field. exact Hr.
Qed.
Lemma orbital_density b first len bf t fuel nl norb occ C d : valid_fe b -> (get_nelem b <= fuel)%nat -> Rlast t = last_end b ->
  (forall e x, (e < get_nelem b)%nat -> -1 <= x <= 1 ->
     d (radius_of b e x) = sum nl (fun l => sum (norb l) (fun o => occ l o * orbital_at (first e) (len e) (bf e x) (fun i => C l i o) ^ 2))) ->
  forall r, nth 0 (fe_bval b) 0 <= r ->
  (0 < r <= last_end b -> density b first len bf (contract nl norb occ C) fuel t r = Ok (d r / (4 * PI))) /\
  (r <= 0 \/ last_end b < r -> density b first len bf (contract nl norb occ C) fuel t r = Ok 0).
Proof.
  intros Hv Hf Hl Hd r Hr. apply (density_value b first len bf (contract nl norb occ C) t fuel Hv Hf Hl d r); [|exact Hr].
  intros e x He Hx. rewrite (Hd e x He Hx). unfold rho4. rewrite <- contract_pairing. reflexivity.
Qed.
Lemma check_ok mZ lm Z l : check mZ lm Z l = Ok tt <-> (1 <= Z <= mZ)%Z /\ (0 <= l <= lm)%Z.
Proof.
  unfold check.
  destruct (Z.ltb_spec Z 1); destruct (Z.ltb_spec mZ Z); destruct (Z.ltb_spec l 0); destruct (Z.ltb_spec lm l); cbn [orb];
    split; intros H'; try discriminate; try reflexivity; try (exfalso; lia); lia.
Qed.
Lemma kinetic_array nel npts xq rad first len bf df nl Pl : (1 <= nel)%nat -> (1 <= nl)%nat ->
  exists t, kinetic_energy_density nel npts xq rad first len bf df nl Pl = Ok t /\ t 0%nat = 0 /\
    forall e i, (e < nel)%nat -> (i < npts)%nat -> t (1 + e * npts + i)%nat = kinetic_density rad first len bf df nl Pl e (xq i).
Proof.
  intros H Hl. unfold kinetic_energy_density. destruct (Nat.eqb_spec nl 0); [lia|].
  exact (segments_ok nel npts 0 (fun e i => kinetic_density rad first len bf df nl Pl e (xq i)) H).
Qed.
Lemma kinetic_case : kinetic_density shift_rad wfirst wlen1 wbf1 wbf1 2 (fun l i j => sum 1 (fun o => 2 * (1 * 1))) 0 0 = 4.
Proof.
  unfold kinetic_density, form, wlen1, wbf1, shift_rad. cbn [sum Nat.mul Nat.add INR]. rewrite Rmax_left; [field|]. apply Rlt_le. 
  match goal with |- 0 < ?x => replace x with 4 by field end. lra.
Qed.
Lemma peak_case : points_ok 3 wx /\ neighbours 3 wx 1 (-(1/2)) (1/2) /\ peak hump (-(1/2)) (1/2) (1/8) /\
  (forall e x, pairing (wfirst e) (wlen2 e) (wP (1 / 2)) (wbf hump e x) (wbf hump e x) = hump x) /\
  forall j, (j < 3)%nat -> j <> 1%nat -> hump (wx j) < hump (wx 1).
Proof.
  split; [exact wx_ok|]. split; [split; reflexivity|]. split; [exact hump_peak|].
  split; [intros e x; rewrite wpairing; field|].
  intros j H1 H2. destruct j as [|[|[|j]]]; [|lia| |lia]; unfold hump; cbn [wx]; lra.
Qed.
