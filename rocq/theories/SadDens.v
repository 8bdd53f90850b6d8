(** Bounds on the screening and the density of tabulated atoms. *)
Require Import Reals Lra Lia List Arith Bool ZArith.
Require Import Verif.Prelude Verif.FEModel Verif.FESpec Verif.FEProofs Verif.LegMath.
Require Import Verif.SadModel Verif.SadSpec Verif.SadProofs Verif.SadField Verif.SadAtom.
Import ListNotations.
Open Scope R_scope.

Section Bounds.
Variables (b : fe) (first len : nat -> nat) (bf : nat -> R -> vec) (P : mat) (nq : nat) (xq wq : vec) (d : R -> R) (N M : R).
Hypothesis Hv : valid_fe b.
Hypothesis Hd : represents b (rho4 first len bf P) d.
Hypothesis Hx : forall q, (q < nq)%nat -> -1 <= xq q <= 1.
Hypothesis Hc : rule_error b nq xq wq (charge d) 0.
Hypothesis Hm : rule_error b nq xq wq (moment d) 0.
Hypothesis HN : is_int (charge d) (nth 0 (fe_bval b) 0) (last_end b) N.
Hypothesis HM : is_int (moment d) (nth 0 (fe_bval b) 0) (last_end b) M.
Hypothesis H0 : 0 <= nth 0 (fe_bval b) 0.
Hypothesis Hpos : forall s, 0 <= d s.

Lemma zero_dist n u v : Rabs (u - v) <= n * 0 -> u = v.
Proof. intros H. rewrite Rmult_0_r in H. pose proof (Rabs_pos (u - v)). assert (E : Rabs (u - v) = 0) by lra. destruct (Req_dec (u - v) 0) as [|Hne]; [lra|]. apply Rabs_pos_lt in Hne. lra. Qed.

Lemma bounds_ok : exists t, make_atom b first len bf P nq xq wq = Ok t /\ Ntot t = N /\
  forall fuel r, (get_nelem b <= fuel)%nat -> nth 0 (fe_bval b) 0 <= r -> 0 < r -> r < last_end b ->
    exists ve vh, enclosed_charge b first len bf P nq xq wq fuel t r = Ok ve /\ hartree_screening b first len bf P nq xq wq fuel t r = Ok vh /\
      0 <= ve /\ ve <= vh /\ vh <= Ntot t /\
      forall r' ve', r <= r' -> r' < last_end b -> enclosed_charge b first len bf P nq xq wq fuel t r' = Ok ve' -> ve <= ve'.
Proof.
  destruct (atom_ok b Hv first len bf P nq xq wq d 0 Hd Hx ltac:(lra) Hc Hm N M HN HM) as (t & Et & El & En & Ha).
  apply zero_dist in En. exists t. split; [exact Et|]. split; [exact En|].
  intros fuel r Hf Hr0 Hr1 Hr2. destruct (Ha fuel r Hf Hr0 Hr1 Hr2) as (q & m & ve & vh & Hq & Hmm & Ee & Eh & De & Dh).
  apply zero_dist in De. rewrite Rmult_0_r, Rmult_0_l in Dh. assert (Dh' : vh = q + r * m).
  { apply (zero_dist 1). rewrite Rmult_0_r. exact Dh. }
  exists ve, vh. split; [exact Ee|]. split; [exact Eh|].
  assert (Hcp : forall s, 0 <= charge d s) by (intros s; unfold charge; apply Rmult_le_pos; [nra|apply Hpos]).
  assert (Q0 : 0 <= q) by (apply (int_pos _ _ _ _ Hr0 (fun s _ => Hcp s) Hq)).
  assert (M0 : 0 <= m).
  { apply (int_pos (moment d) r (last_end b) m); [lra| |exact Hmm]. intros s Hs. unfold moment. apply Rmult_le_pos; [lra|apply Hpos]. }
  destruct (int_sub (charge d) _ _ r (last_end b) N HN) as (w & Hw); try lra.
  assert (EN : N = q + w) by (apply (int_unique _ _ _ _ _ HN); apply int_join with r; [exact Hr0|lra|exact Hq|exact Hw]).
  assert (Hrm : r * m <= w).
  { pose proof (int_lin (charge d) (moment d) r (last_end b) (- r) w m Hw Hmm) as Hl.
    apply (int_pos _ r (last_end b)) in Hl; [lra|lra|]. intros s Hs. unfold charge, moment.
    replace (s * s * d s + - r * (s * d s)) with ((s * (s - r)) * d s) by ring. apply Rmult_le_pos; [nra|apply Hpos]. }
  split; [lra|]. split; [rewrite De, Dh'; assert (0 <= r * m) by (apply Rmult_le_pos; lra); lra|].
  split; [lra|]. intros r' ve' Hrr Hr' Ee'.
  destruct (Ha fuel r' Hf ltac:(lra) ltac:(lra) Hr') as (q' & m' & ve'' & vh' & Hq' & _ & Ee'' & _ & De' & _).
  apply zero_dist in De'. rewrite Ee' in Ee''. injection Ee'' as ->.
  destruct (int_sub (charge d) _ _ r r' N HN) as (u & Hu); try lra.
  assert (Eq' : q' = q + u) by (apply (int_unique _ _ _ _ _ Hq'); apply int_join with r; [exact Hr0|exact Hrr|exact Hq|exact Hu]).
  assert (0 <= u) by (apply (int_pos _ _ _ _ Hrr (fun s _ => Hcp s) Hu)). lra.
Qed.
End Bounds.

(* ------------------------------------------------------------------ *)
(** * Values of the density *)
Lemma contract_sym nl norb occ C f n : symmetric_block f n (contract nl norb occ C).
Proof. intros a c _ _. unfold contract. apply sum_ext. intros l _. apply sum_ext. intros o _. ring. Qed.
Lemma contract_pairing nl norb occ C f n v :
  pairing f n (contract nl norb occ C) v v = sum nl (fun l => sum (norb l) (fun o => occ l o * orbital_at f n v (fun i => C l i o) ^ 2)).
Proof.
  unfold contract. rewrite (pairing_channels f n nl (fun l i j => sum (norb l) (fun o => C l i o * occ l o * C l j o))).
  apply sum_ext. intros l _. rewrite <- (pairing_orbitals f n (norb l) (occ l) (fun o i => C l i o)).
  apply pairing_ext. intros i j. apply sum_ext. intros o _. ring.
Qed.

Section Density.
Variables (b : fe) (first len : nat -> nat) (bf df lf : nat -> R -> vec) (P : mat) (t : atom) (fuel : nat).
Hypothesis Hv : valid_fe b.
Hypothesis Hf : (get_nelem b <= fuel)%nat.
Hypothesis Hl : Rlast t = last_end b.
Hypothesis H0 : 0 <= nth 0 (fe_bval b) 0.

Lemma inside e r : (e < get_nelem b)%nat -> left_end b e < r < right_end b e -> locate b fuel r = Ok (e, prim_of b e r).
Proof.
  intros He Hr.
  assert (Hb0 : nth 0 (fe_bval b) 0 <= left_end b e) by (apply (ends_le b Hv 0 e); lia).
  assert (Hb1 : right_end b e <= last_end b) by (apply (ends_le b Hv (e + 1) (get_nelem b)); lia).
  destruct (locate_ok b Hv fuel r Hf ltac:(lra)) as (e' & x & E & He' & Hx & Hrx & Hin). rewrite E.
  assert (e' = e) as ->.
  { destruct (lt_eq_lt_dec e' e) as [[H|H]|H]; [exfalso|exact H|exfalso].
    - pose proof (ends_le b Hv (e' + 1) e ltac:(lia) ltac:(lia)). unfold left_end, right_end in *. lra.
    - pose proof (ends_le b Hv (e + 1) e' ltac:(lia) ltac:(lia)). unfold left_end, right_end in *. lra. }
  do 2 f_equal. rewrite <- Hrx. unfold prim_of, radius_of. pose proof (ends_lt b Hv e He). field. lra.
Qed.

Lemma density_value d r : represents b (rho4 first len bf P) d -> nth 0 (fe_bval b) 0 <= r ->
  (0 < r <= last_end b -> density b first len bf P fuel t r = Ok (d r / (4 * PI))) /\
  (r <= 0 \/ last_end b < r -> density b first len bf P fuel t r = Ok 0).
Proof.
  intros Hd Hr0. unfold density, radial_density. rewrite Hl. split; intros Hr.
  - destruct (Rleb_spec r 0) as [H|_]; [lra|]. destruct (Rltb_spec (last_end b) r) as [H|_]; [lra|]. cbn [orb].
    destruct (locate_ok b Hv fuel r Hf ltac:(lra)) as (e & x & E & He & Hx & Hrx & _). rewrite E. cbn [orb bind fst snd].
    destruct (Rltb_spec 0 r) as [_|H]; [|lra]. rewrite (Hd e x He Hx), Hrx. f_equal. field. split; [apply PI_neq0|lra].
  - assert (Hs : (Rleb r 0 || Rltb (last_end b) r)%bool = true).
    { destruct (Rleb_spec r 0); [reflexivity|]. destruct (Rltb_spec (last_end b) r); [reflexivity|]. lra. }
    rewrite Hs. cbn [bind]. destruct (Rltb 0 r); [|reflexivity]. f_equal. unfold Rdiv. ring.
Qed.

Lemma gradient_ok e r g g' : (e < get_nelem b)%nat -> left_end b e < r < right_end b e ->
  symmetric_block (first e) (len e) P ->
  (forall a, (a < len e)%nat -> derivable_pt_lim (fun s => bf e (prim_of b e s) a) r (df e (prim_of b e r) a)) ->
  (forall s, density b first len bf P fuel t s = Ok (g s)) -> (forall s, atom_gradient b first len bf df P fuel t s = Ok (g' s)) ->
  derivable_pt_lim g r (g' r) /\
  ((forall a, (a < len e)%nat -> derivable_pt_lim (fun s => df e (prim_of b e s) a) r (lf e (prim_of b e r) a)) ->
   exists l, atom_laplacian b first len bf df lf P fuel t r = Ok l /\ derivable_pt_lim (fun s => s * s * g' s) r (r * r * l)).
Proof.
  intros He Hr Hs Hb Hg Hg'. pose proof PI_RGT_0 as Hpi.
  assert (Hb0 : nth 0 (fe_bval b) 0 <= left_end b e) by (apply (ends_le b Hv 0 e); lia).
  assert (Hb1 : right_end b e <= last_end b) by (apply (ends_le b Hv (e + 1) (get_nelem b)); lia).
  assert (Hin : forall s, left_end b e < s < right_end b e -> (Rleb s 0 || Rltb (Rlast t) s)%bool = false).
  { intros s Hs'. rewrite Hl. destruct (Rleb_spec s 0); [lra|]. destruct (Rltb_spec (last_end b) s); [lra|reflexivity]. }
  assert (G : forall s, left_end b e < s < right_end b e -> g s = / (4 * PI) * pairing (first e) (len e) P (bf e (prim_of b e s)) (bf e (prim_of b e s))).
  { intros s Hs'. pose proof (Hg s) as E. unfold density, radial_density in E. rewrite (Hin s Hs'), (inside e s He Hs') in E. cbn [bind fst snd] in E.
    destruct (Rltb_spec 0 s) as [_|H]; [|lra]. injection E as <-. unfold rho4, form, pairing. field. lra. }
  assert (G' : forall s, left_end b e < s < right_end b e -> g' s = / (4 * PI) * (2 * pairing (first e) (len e) P (bf e (prim_of b e s)) (df e (prim_of b e s)))).
  { intros s Hs'. pose proof (Hg' s) as E. unfold atom_gradient in E. rewrite (Hin s Hs'), (inside e s He Hs') in E. cbn [bind] in E.
    injection E as <-. unfold form, pairing. field. lra. }
  assert (Hnear : forall (u v : R -> R), (forall s, left_end b e < s < right_end b e -> v s = u s) ->
     exists dl, 0 < dl /\ forall s, Rabs (s - r) < dl -> u s = v s).
  { intros u v Huv. exists (Rmin (r - left_end b e) (right_end b e - r)). split; [apply Rmin_pos; lra|].
    intros s Hsr. symmetry. apply Huv. pose proof (Rmin_l (r - left_end b e) (right_end b e - r)). pose proof (Rmin_r (r - left_end b e) (right_end b e - r)).
    apply Rabs_def2 in Hsr. lra. }
  split.
  - rewrite (G' r Hr).
    apply (local_lim (fun s => / (4 * PI) * pairing (first e) (len e) P (bf e (prim_of b e s)) (bf e (prim_of b e s)))); [apply Hnear; exact G|].
    apply lim_scal. apply density_der; assumption.
  - intros Hdl. unfold atom_laplacian. rewrite (Hin r Hr), (inside e r He Hr). cbn [bind].
    eexists. split; [reflexivity|].
    apply (local_lim (fun s => s * s * (/ (4 * PI) * (2 * pairing (first e) (len e) P (bf e (prim_of b e s)) (df e (prim_of b e s)))))).
    { apply Hnear. intros s Hs'. rewrite (G' s Hs'). reflexivity. }
    eapply lim_eq; [|apply laplacian_der; [lra|apply lim_scal; apply (gradient_der first len bf df lf P e (prim_of b e)); assumption]].
    cbv beta. unfold form, pairing. field. lra.
Qed.
End Density.

(* ------------------------------------------------------------------ *)
(** * The screening function of the self-consistent atom *)
Section Screening.
Variable (b : fe).
Hypothesis Hv : valid_fe b.
Notation nel := (get_nelem b).
Lemma prefix_int g (q : vec) : (forall e, (e < nel)%nat -> is_int g (left_end b e) (right_end b e) (q e)) ->
  forall e, (e <= nel)%nat -> is_int g (nth 0 (fe_bval b) 0) (nth e (fe_bval b) 0) (sum e q).
Proof.
  intros Hq. induction e as [|e IH]; intros He; [apply int_point|]. cbn [sum].
  replace (S e) with (e + 1)%nat by lia.
  apply int_join with (nth e (fe_bval b) 0); [apply (ends_le b Hv); lia|apply (ends_le b Hv); lia|apply IH; lia|apply Hq; lia].
Qed.
Lemma suffix_int g (q : vec) : (forall e, (e < nel)%nat -> is_int g (left_end b e) (right_end b e) (q e)) ->
  forall k, (k <= nel)%nat -> is_int g (nth (nel - k) (fe_bval b) 0) (last_end b) (tail_sum nel q (nel - k)).
Proof.
  intros Hq. induction k as [|k IH]; intros Hk.
  - rewrite Nat.sub_0_r. unfold tail_sum. rewrite Nat.sub_diag. apply int_point.
  - rewrite tail_sum_step by lia. replace (S (nel - S k)) with (nel - k)%nat by lia.
    apply int_join with (right_end b (nel - S k)); [apply (ends_le b Hv); lia|unfold right_end; apply (ends_le b Hv); lia|apply Hq; lia|].
    unfold right_end. replace (nel - S k + 1)%nat with (nel - k)%nat by lia. apply IH. lia.
Qed.

Lemma screening_int npts xq first len zm mo pot P d : small nel -> 
  (forall i, (i < npts)%nat -> -1 <= xq i <= 1) ->
  (forall e i, (e < nel)%nat -> (i < npts)%nat -> radius_of b e (xq i) <> 0) ->
  (forall e, (e < nel)%nat -> is_int (charge d) (left_end b e) (right_end b e) (block_trace (first e) (len e) P (zm e)) /\
                              is_int (moment d) (left_end b e) (right_end b e) (block_trace (first e) (len e) P (mo e))) ->
  (forall e i, (e < nel)%nat -> (i < npts)%nat -> exists qi mi,
     is_int (charge d) (left_end b e) (radius_of b e (xq i)) qi /\ is_int (moment d) (radius_of b e (xq i)) (right_end b e) mi /\
     sum (len e) (fun a => sum (len e) (fun c => pot e i (c * len e + a)%nat * P (first e + a)%nat (first e + c)%nat))
       = qi / radius_of b e (xq i) + mi) ->
  exists V, coulomb_screening nel npts xq (radius_of b) first len zm mo pot P = Ok V /\ V 0%nat = 0 /\
    forall e i, (e < nel)%nat -> (i < npts)%nat -> exists q m,
      is_int (charge d) (nth 0 (fe_bval b) 0) (radius_of b e (xq i)) q /\ is_int (moment d) (radius_of b e (xq i)) (last_end b) m /\
      V (1 + e * npts + i)%nat = q + radius_of b e (xq i) * m.
Proof.
  intros Hn Hx Hr Hel Hin.
  destruct (screening_ok nel npts xq (radius_of b) first len zm mo pot P Hn (nel_pos b Hv) Hr) as (V & E & E0 & EV).
  exists V. split; [exact E|]. split; [exact E0|]. intros e i He Hi. rewrite (EV e i He Hi).
  destruct (Hin e i He Hi) as (qi & mi & Hqi & Hmi & Ep). rewrite Ep. specialize (Hr e i He Hi). specialize (Hx i Hi).
  pose proof (ends_lt b Hv e He) as Hl. pose proof (radius_ends b e) as [R1 R2].
  set (r := radius_of b e (xq i)) in *.
  assert (Hlr : left_end b e <= r <= right_end b e) by (rewrite <- R1, <- R2; unfold r, radius_of; split; nra).
  set (q := fun j => block_trace (first j) (len j) P (zm j)). set (m := fun j => block_trace (first j) (len j) P (mo j)).
  exists (sum e q + qi), (mi + tail_sum nel m (S e)). split; [|split].
  - apply int_join with (left_end b e); [apply (ends_le b Hv); lia|lra|apply prefix_int; [intros j Hj; apply (Hel j Hj)|lia]|exact Hqi].
  - apply int_join with (right_end b e); [lra|unfold right_end, last_end; apply (ends_le b Hv); lia|exact Hmi|].
    pose proof (suffix_int (moment d) m (fun j Hj => proj2 (Hel j Hj)) (nel - S e)%nat ltac:(lia)) as Hs.
    replace (nel - (nel - S e))%nat with (S e) in Hs by lia. unfold right_end. replace (e + 1)%nat with (S e) by lia. exact Hs.
  - unfold above, tail_sum. field. exact Hr.
Qed.
End Screening.
