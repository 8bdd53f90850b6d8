(** Proofs about the tabulated atom's screening and the extraction of orbitals. *)
Require Import Reals Lra Lia List Arith Bool ZArith Sorted.
Require Import Verif.Prelude Verif.FEModel Verif.FESpec Verif.LegMath Verif.DftModel.
Require Import Verif.SadModel Verif.SadSpec Verif.SadProofs Verif.SadField Verif.SadAtom Verif.SadDens Verif.SadWit.
Require Import Verif.XsModel Verif.XsSpec Verif.XsProofs.
Import ListNotations.
Open Scope R_scope.

Section Cache.
Variables (b : fe) (first len : nat -> nat) (bf df lf : nat -> R -> vec) (P : mat) (fuel : nat) (t : atom) (lib : libxc) (fx : fxc).
Let call := atom_xc_screening b first len bf df lf P fuel t lib fx.
Lemma get_good h x c : good lib h -> good lib (fst (get_handles lib h x c)) /\ snd (get_handles lib h x c) = ask_both lib x c.
Proof.
  intros H. unfold get_handles. destruct h as [[[x' c'] fs]|].
  - cbn [good] in H. destruct (Z.eqb_spec x' x) as [->|]; destruct (Z.eqb_spec c' c) as [->|]; cbn [andb fst snd]; try (split; [exact H|congruence]);
      destruct (ask_both lib x c) eqn:E; cbn [fst snd good]; auto.
  - destruct (ask_both lib x c) eqn:E; cbn [fst snd good]; auto.
Qed.
Lemma call_good h r x c : good lib h -> good lib (fst (call h r x c)) /\ snd (call h r x c) = snd (call None r x c).
Proof.
  intros H. unfold call, atom_xc_screening. destruct (_ || _)%bool; [auto|].
  destruct (density b first len bf P fuel t r) as [n| | |]; [|auto..]. destruct (Rleb (/ 2 * n) 0); [auto|].
  destruct (get_good h x c H) as [G E]. destruct (get_good None x c I) as [_ E'].
  destruct (get_handles lib h x c) as [h' v]. destruct (get_handles lib None x c) as [h0 v0]. cbn [fst snd] in *. subst v v0. auto.
Qed.
Lemma cache_ok calls : forall h, good lib h ->
  evaluations b first len bf df lf P fuel t lib fx h calls = map (fun k => snd (call None (fst (fst k)) (snd (fst k)) (snd k))) calls.
Proof.
  induction calls as [|[[r x] c] calls IH]; intros h H; [reflexivity|]. cbn [evaluations map fst snd].
  destruct (call_good h r x c H) as [G E]. fold (call h r x c) . destruct (call h r x c) as [h' v] eqn:Ec. cbn [fst snd] in *.
  rewrite E, (IH h' G). reflexivity.
Qed.
End Cache.

Lemma d_rho_lda fx fs n sg sg' s : existsb snd fs = false -> d_rho fx fs n sg s = d_rho fx fs n sg' s.
Proof.
  intros E. unfold d_rho. apply lsum_ext. intros f Hf. destruct (snd f) eqn:Es; [|reflexivity].
  assert (existsb snd fs = true) by (apply existsb_exists; exists f; auto). congruence.
Qed.
Lemma point_lda fx fs r na nb ga gb la lb ga' gb' la' lb' r' s : existsb snd fs = false ->
  point_vxc fx fs r na nb ga gb la lb s = point_vxc fx fs r' na nb ga' gb' la' lb' s.
Proof.
  intros E. unfold point_vxc.
  destruct (fold_acc fx (two na nb) (three (ga * ga) (ga * gb) (gb * gb)) fs acc0) as (I1 & _ & _ & _ & I5).
  destruct (fold_acc fx (two na nb) (three (ga' * ga') (ga' * gb') (gb' * gb')) fs acc0) as (J1 & _ & _ & _ & J5).
  cbv zeta. rewrite I1, J1, I5, J5, E. cbn [acc0 ac_gga orb]. rewrite (d_rho_lda fx fs _ _ (three (ga' * ga') (ga' * gb') (gb' * gb')) s E). reflexivity.
Qed.

Section AtomProofs.
Variables (b : fe) (first len : nat -> nat) (bf df lf : nat -> R -> vec) (P : mat) (fuel : nat) (t : atom) (lib : libxc) (fx : fxc).
Hypothesis (Hv : valid_fe b) (Hf : (get_nelem b <= fuel)%nat) (Hl : Rlast t = last_end b) (H0 : 0 <= nth 0 (fe_bval b) 0).
Let half : mat := fun i j => P i j / 2.
Let n e := nfun first len bf half e (prim_of b e).
Let g e := gfun first len bf df half e (prim_of b e).
Let h e := hval first len bf df lf half e.

Lemma half_pairing f m u v : pairing f m half u v = pairing f m P u v / 2.
Proof.
  rewrite (pairing_ext f m half (fun i j => / 2 * P i j) u v) by (intros; unfold half; field). rewrite pairing_scal. field.
Qed.
Lemma half_sym f m : symmetric_block f m P -> symmetric_block f m half.
Proof. intros H a c Ha Hc. unfold half. rewrite (H a c Ha Hc). reflexivity. Qed.

Lemma atom_point e r x c fs hd : (e < get_nelem b)%nat -> left_end b e < r < right_end b e -> 0 < n e r -> good lib hd ->
  ask_both lib x c = Ok fs -> (0 < x \/ 0 < c)%Z ->
  let v := point_vxc fx fs r (n e r) (n e r) (g e r) (g e r) (h e (prim_of b e r) + 1 * (2 * g e r / r)) (h e (prim_of b e r) + 1 * (2 * g e r / r)) in
  snd (atom_xc_screening b first len bf df lf P fuel t lib fx hd r x c) = Ok (r / 2 * (v 0%nat + v 1%nat)).
Proof.
  intros He Hr Hn Hg Hfs Hxc v. destruct (call_good b first len bf df lf P fuel t lib fx hd r x c Hg) as [_ ->].
  assert (Hb0 : nth 0 (fe_bval b) 0 <= left_end b e) by (apply (ends_le b Hv 0 e); lia).
  assert (Hb1 : right_end b e <= last_end b) by (apply (ends_le b Hv (e + 1) (get_nelem b)); lia).
  assert (Hpi : PI <> 0) by apply PI_neq0.
  pose proof (inside b first len bf df lf fuel Hv Hf e r He Hr) as L.
  assert (E1 : forall A (z : A) y, (if (Rleb r 0 || Rltb (Rlast t) r)%bool then z else y) = y).
  { intros A z y. destruct (Rleb_spec r 0); [lra|]. destruct (Rltb_spec (Rlast t) r); [lra|]. reflexivity. }
  assert (Ed : density b first len bf P fuel t r = Ok (2 * n e r)).
  { unfold density, radial_density. rewrite E1, L. cbn [bind fst snd]. destruct (Rltb_spec 0 r); [|lra]. f_equal.
    unfold n, nfun. rewrite half_pairing. unfold rho4. change (form first len P e ?u ?w) with (pairing (first e) (len e) P u w). field. lra. }
  assert (Eg : atom_gradient b first len bf df P fuel t r = Ok (2 * g e r)).
  { unfold atom_gradient. rewrite E1, L. cbn [bind fst snd]. f_equal.
    unfold g, gfun. rewrite half_pairing. change (form first len P e ?u ?w) with (pairing (first e) (len e) P u w). field. lra. }
  assert (El : atom_laplacian b first len bf df lf P fuel t r = Ok (2 * (h e (prim_of b e r) + 1 * (2 * g e r / r)))).
  { unfold atom_laplacian. rewrite E1, L. cbn [bind fst snd]. f_equal.
    unfold h, hval, g, gfun. rewrite !half_pairing. change (form first len P e ?u ?w) with (pairing (first e) (len e) P u w). field. lra. }
  unfold atom_xc_screening. rewrite Ed, Eg, El.
  destruct (Rleb_spec r 0); [lra|]. destruct (Rleb_spec (/ 2 * (2 * n e r)) 0); [lra|]. cbn [orb].
  replace ((x <=? 0) && (c <=? 0))%Z%bool with false.
  2: { symmetry. destruct (Z.leb_spec x 0); destruct (Z.leb_spec c 0); try reflexivity. lia. }
  destruct (get_good lib None x c I) as [_ E]. destruct (get_handles lib None x c) as [h' w]. cbn [fst snd] in *. subst w. rewrite Hfs. cbn [bind].
  replace (/ 2 * (2 * n e r)) with (n e r) by field.
  destruct (existsb snd fs) eqn:Eg0.
  - replace (/ 2 * (2 * g e r)) with (g e r) by field.
    replace (/ 2 * (2 * (h e (prim_of b e r) + 1 * (2 * g e r / r)))) with (h e (prim_of b e r) + 1 * (2 * g e r / r)) by (field; lra).
    cbv zeta. fold v. reflexivity.
  - cbv zeta. f_equal. unfold v. unfold Rdiv. f_equal.
    f_equal; apply point_lda; exact Eg0.
Qed.

Lemma atom_gga e r x c fs hd : (e < get_nelem b)%nat -> left_end b e < r < right_end b e ->
  0 < point_density first len bf P e (prim_of b e r) -> good lib hd -> ask_both lib x c = Ok fs -> (0 < x \/ 0 < c)%Z ->
  symmetric_block (first e) (len e) P ->
  (forall a, (a < len e)%nat -> derivable_pt_lim (fun q => bf e (prim_of b e q) a) r (df e (prim_of b e r) a)) ->
  (forall a, (a < len e)%nat -> derivable_pt_lim (fun q => df e (prim_of b e q) a) r (lf e (prim_of b e r) a)) ->
  exists n g h, (forall q, n q = point_density first len bf P e (prim_of b e q) / 2) /\
    derivable_pt_lim n r (g r) /\ derivable_pt_lim g r h /\
    ((forall id, In (id, true) fs -> second_derivatives fx id (n r) (n r) (g r * g r) (g r * g r) (g r * g r)) ->
     exists v0 v1, is_potential fx fs n n g g 0 r v0 /\ is_potential fx fs n n g g 1 r v1 /\
       snd (atom_xc_screening b first len bf df lf P fuel t lib fx hd r x c)
       = Ok (r * ((v0 - laplacian_excess fx fs (n r) (n r) (g r) (g r) r 0 - mixed_excess fx fs (n r) (n r) (g r) (g r) h h 0)
                + (v1 - laplacian_excess fx fs (n r) (n r) (g r) (g r) r 1 - mixed_excess fx fs (n r) (n r) (g r) (g r) h h 1)) / 2)).
Proof.
  intros He Hr Hn Hg Hfs Hxc Hs Hb Hd.
  assert (Hb0 : nth 0 (fe_bval b) 0 <= left_end b e) by (apply (ends_le b Hv 0 e); lia).
  assert (En : forall q, n e q = point_density first len bf P e (prim_of b e q) / 2).
  { intros q. unfold n, nfun. rewrite half_pairing. unfold point_density. field. apply PI_neq0. }
  exists (n e), (g e), (h e (prim_of b e r)). split; [exact En|].
  destruct (fun_der first len bf df lf half e (prim_of b e) r (half_sym _ _ Hs) Hb Hd) as [D1 D2].
  fold (n e) (g e) in D1, D2. split; [exact D1|]. split; [exact D2|]. intros H2.
  assert (Hr0 : r <> 0) by lra.
  eexists. eexists. split; [apply (point_potential fx fs _ _ _ _ r _ _ 1 0 Hr0 D1 D1 D2 D2 H2)|].
  split; [apply (point_potential fx fs _ _ _ _ r _ _ 1 1 Hr0 D1 D1 D2 D2 H2)|].
  rewrite (atom_point e r x c fs hd He Hr) by (auto; rewrite En; lra). cbv zeta. f_equal. unfold h, half. field.
Qed.

Lemma atom_agrees npts xq nuc e i r x c fs hd : (e < get_nelem b)%nat -> (i < npts)%nat -> radius_of b e (xq i) = r -> -1 < xq i < 1 ->
  0 < point_density first len bf P e (xq i) -> good lib hd -> ask_both lib x c = Ok fs -> (0 < x \/ 0 < c)%Z ->
  exists v, xc_screening_total (get_nelem b) npts xq (radius_of b) first len bf df lf nuc lib fx P x c = Ok v /\
    snd (atom_xc_screening b first len bf df lf P fuel t lib fx hd r x c) = Ok (v (1 + e * npts + i)%nat).
Proof.
  intros He Hi Hr Hx Hn Hg Hfs Hxc.
  assert (Hlr : left_end b e < right_end b e).
  { destruct Hv as (_ & Hlen & Hs). unfold left_end, right_end. apply Hs; [lia|]. unfold get_nelem in He. lia. }
  assert (Hin : left_end b e < r < right_end b e) by (subst r; unfold radius_of; nra).
  assert (Hb0 : nth 0 (fe_bval b) 0 <= left_end b e) by (apply (ends_le b Hv 0 e); lia).
  assert (HX : prim_of b e r = xq i) by (subst r; unfold prim_of, radius_of; field; lra).
  assert (En : n e r = point_density first len bf P e (xq i) / 2).
  { unfold n, nfun. rewrite half_pairing. unfold point_density. rewrite HX. field. apply PI_neq0. }
  destruct (grid_ok (get_nelem b) npts xq (radius_of b) first len bf df lf nuc lib fx ltac:(lia) half half x c fs Hfs) as (V & EV & _ & HV).
  unfold xc_screening_total. fold half. rewrite EV. cbn [bind]. eexists. split; [reflexivity|].
  rewrite (atom_point e r x c fs hd He Hin) by (auto; rewrite En; lra). cbv zeta. f_equal. cbv beta.
  assert (E := HV e i He Hi (prim_of b e) r HX Hr ltac:(lra)). rewrite !E. fold (n e) (g e) (h e). field.
Qed.

Lemma charge_ends Z_ nq xq wq hd r x c :
  (r <= 0 -> snd (effective_charge b first len bf df lf P nq xq wq fuel t lib fx Z_ hd r x c) = Ok Z_) /\
  (0 < r -> last_end b < r -> snd (effective_charge b first len bf df lf P nq xq wq fuel t lib fx Z_ hd r x c) = Ok (Z_ - Ntot t)).
Proof.
  unfold effective_charge, atom_xc_screening, hartree_screening, density, radial_density. rewrite Hl. split.
  - intros H. destruct (Rleb_spec r 0); [|lra]. cbn [orb snd bind]. f_equal. ring.
  - intros H1 H2. destruct (Rleb_spec r 0); [lra|]. destruct (Rltb_spec (last_end b) r); [|lra]. destruct (Rleb_spec (last_end b) r); [|lra].
    cbn [orb]. destruct (_ && _)%bool; cbn [snd bind].
    + f_equal. ring.
    + destruct (Rltb_spec 0 r); [|lra]. destruct (Rleb_spec (/ 2 * (0 / (4 * PI * r * r))) 0) as [_|Hn].
      * cbn [snd bind]. f_equal. ring.
      * exfalso. apply Hn. unfold Rdiv. rewrite Rmult_0_l. lra.
Qed.
End AtomProofs.

(** * extract_naos_per_l *)
Section Nao.
Context {C : Type}.
Definition taken (k : Z) (Cl : list C) : list C := if (k <? 0)%Z then Cl else firstn (Z.to_nat k) Cl.
Lemma extract_loop_ok (cube : list (list C)) : forall keep l0, length keep = length cube ->
  (forall l, (l < length cube)%nat -> (nth l keep 0 <= Z.of_nat (length (nth l cube [])))%Z) ->
  exists out, extract_loop l0 cube keep = Ok out /\ StronglySorted lt (map fst out) /\
    forall l cs, In (l, cs) out <-> (l0 <= l < l0 + length cube)%nat /\ nth (l - l0) keep 0%Z <> 0%Z /\ cs = taken (nth (l - l0) keep 0%Z) (nth (l - l0) cube []).
Proof.
  induction cube as [|Cl cube IH]; intros [|k keep] l0 Hlen Hk; try discriminate Hlen.
  - exists []. split; [reflexivity|]. split; [constructor|]. intros l cs. cbn [In length]. split; [tauto|lia].
  - cbn [length] in Hlen. destruct (IH keep (S l0) ltac:(lia)) as (out & E & Hs & Hi).
    { intros l Hl. apply (Hk (S l)). cbn [length]. lia. }
    pose proof (Hk 0%nat ltac:(cbn [length]; lia)) as Hk0. cbn [nth] in Hk0.
    assert (Sh : forall l, (S l0 <= l)%nat -> (l - l0 = S (l - S l0))%nat) by lia.
    cbn [extract_loop]. destruct (Z.eqb_spec k 0) as [->|Hne].
    + exists out. split; [exact E|]. split; [exact Hs|]. intros l cs. rewrite Hi. cbn [length]. split.
      * intros (H1 & H2 & H3). rewrite Sh by lia. cbn [nth]. split; [lia|]. auto.
      * intros (H1 & H2 & H3). destruct (Nat.eq_dec l l0) as [->|Hn]; [rewrite Nat.sub_diag in H2; cbn [nth] in H2; congruence|].
        rewrite Sh in H2, H3 by lia. cbn [nth] in H2, H3. split; [lia|]. auto.
    + destruct (Z.ltb_spec (Z.of_nat (length Cl)) k) as [|_]; [lia|]. rewrite E. cbn [bind]. eexists. split; [reflexivity|]. split.
      * cbn [map fst]. constructor; [exact Hs|]. apply Forall_forall. intros l Hl. apply in_map_iff in Hl. destruct Hl as ([l' cs] & <- & Hin).
        apply Hi in Hin. cbn [fst]. lia.
      * intros l cs. cbn [In length]. rewrite Hi. split.
        -- intros [Eq|(H1 & H2 & H3)].
           ++ injection Eq as <- <-. rewrite Nat.sub_diag. cbn [nth]. split; [lia|]. split; [exact Hne|reflexivity].
           ++ rewrite Sh by lia. cbn [nth]. split; [lia|]. auto.
        -- intros (H1 & H2 & H3). destruct (Nat.eq_dec l l0) as [->|Hn].
           ++ left. rewrite Nat.sub_diag in H3. cbn [nth] in H3. subst cs. reflexivity.
           ++ right. rewrite Sh in H2, H3 by lia. cbn [nth] in H2, H3. split; [lia|]. auto.
Qed.
Lemma extract_loop_fail (cube : list (list C)) : forall keep l0, length keep = length cube ->
  (exists l, (l < length cube)%nat /\ (Z.of_nat (length (nth l cube [])) < nth l keep 0)%Z) -> extract_loop l0 cube keep = Throw LogicError.
Proof.
  induction cube as [|Cl cube IH]; intros [|k keep] l0 Hlen (l & Hl & Hk); try discriminate Hlen; [cbn in Hl; lia|].
  cbn [length] in Hlen, Hl. cbn [extract_loop]. destruct l as [|l].
  - cbn [nth] in Hk. destruct (Z.eqb_spec k 0) as [->|_]; [lia|]. destruct (Z.ltb_spec (Z.of_nat (length Cl)) k); [reflexivity|lia].
  - cbn [nth] in Hk. assert (Hl' : (l < length cube)%nat) by lia. rewrite (IH keep (S l0) (f_equal pred Hlen) (ex_intro _ l (conj Hl' Hk))).
    destruct (k =? 0)%Z; [reflexivity|]. destruct (_ <? k)%Z; reflexivity.
Qed.
Lemma extract_ok (cube : list (list C)) keep : length keep = length cube ->
  (forall l, (l < length cube)%nat -> (nth l keep 0 <= Z.of_nat (length (nth l cube [])))%Z) ->
  exists out, extract_naos_per_l cube keep = Ok out /\ StronglySorted lt (map fst out) /\
    forall l cs, In (l, cs) out <-> (l < length cube)%nat /\ nth l keep 0%Z <> 0%Z /\
      cs = (if (nth l keep 0 <? 0)%Z then nth l cube [] else firstn (Z.to_nat (nth l keep 0%Z)) (nth l cube [])).
Proof.
  intros Hlen Hk. unfold extract_naos_per_l. rewrite (proj2 (Nat.eqb_eq _ _) Hlen). cbn [negb].
  destruct (extract_loop_ok cube keep 0 Hlen Hk) as (out & E & Hs & Hi). exists out. split; [exact E|]. split; [exact Hs|].
  intros l cs. rewrite Hi. rewrite Nat.sub_0_r. unfold taken. split; intros (H1 & H2 & H3); (split; [lia|]); auto.
Qed.
Lemma extract_fail (cube : list (list C)) keep :
  length keep <> length cube \/ (exists l, (l < length cube)%nat /\ (Z.of_nat (length (nth l cube [])) < nth l keep 0)%Z) ->
  extract_naos_per_l cube keep = Throw LogicError.
Proof.
  intros H. unfold extract_naos_per_l. destruct (Nat.eqb_spec (length keep) (length cube)) as [E|_]; [|reflexivity].
  cbn [negb]. destruct H as [H|H]; [congruence|]. apply extract_loop_fail; assumption.
Qed.
End Nao.
