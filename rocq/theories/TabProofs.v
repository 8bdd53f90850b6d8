Require Import Reals Lra Lia List Arith Bool ZArith Ascii String.
Require Import Verif.Prelude Verif.TabData Verif.TabModel Verif.TabSpec.
Import ListNotations.
Open Scope R_scope.

Lemma half_mid l r : (l + 1 < r)%nat -> (l < (l + r) / 2 < r)%nat.
Proof.
  intros H. pose proof (Nat.div_mod (l + r) 2 ltac:(lia)). pose proof (Nat.mod_upper_bound (l + r) 2 ltac:(lia)). lia.
Qed.
Lemma half_near l r : (l + 1 = r)%nat -> ((l + r) / 2 = l)%nat.
Proof.
  intros H. pose proof (Nat.div_mod (l + r) 2 ltac:(lia)). pose proof (Nat.mod_upper_bound (l + r) 2 ltac:(lia)). lia.
Qed.

Section Sap.
Variables (nelem nrad ord : nat) (tab : nat -> nat -> R).

Lemma search_ok (Hr : rising nrad (tab 0%nat)) x : forall fuel l r, (r - l <= fuel)%nat -> (l < r)%nat -> (r < nrad)%nat ->
  tab 0%nat l < x < tab 0%nat r ->
  exists p, search tab fuel (Fin x) l r = Ok p /\
    match p with
    | inl i => (i < nrad)%nat /\ tab 0%nat i = x
    | inr l => (l + 1 < nrad)%nat /\ tab 0%nat l < x < tab 0%nat (l + 1)%nat
    end.
Proof.
  induction fuel as [|f IH]; intros l r Hf Hlr Hrn Hx; [lia|].
  cbn [search fltb fleb].
  destruct (Nat.eq_dec (l + 1) r) as [E|E].
  - rewrite (half_near l r E). destruct (Rltb_spec (tab 0%nat l) x) as [H|H]; [|lra].
    rewrite (proj2 (Nat.eqb_eq _ _) E). exists (inr l). split; [reflexivity|]. subst r. split; [lia|exact Hx].
  - pose proof (half_mid l r ltac:(lia)) as Hm. set (m := ((l + r) / 2)%nat) in *.
    destruct (Rltb_spec (tab 0%nat m) x) as [H|H].
    + destruct (Nat.eqb_spec (m + 1) r) as [E1|E1].
      * exists (inr m). split; [reflexivity|]. rewrite E1. split; [lia|lra].
      * apply IH; try lia. lra.
    + destruct (Rltb_spec x (tab 0%nat m)) as [H'|H'].
      * destruct (Nat.eqb_spec (l + 1) m) as [E1|E1].
        -- exists (inr l). split; [reflexivity|]. rewrite E1. split; [lia|lra].
        -- apply IH; try lia. lra.
      * destruct (Rleb_spec (tab 0%nat m) x) as [H1|H1]; [|lra]. destruct (Rleb_spec x (tab 0%nat m)) as [H2|H2]; [|lra].
        cbn [andb]. exists (inl m). split; [reflexivity|]. split; [lia|lra].
Qed.

Lemma search_nan : forall fuel l r, (l + 1 < r)%nat -> search tab fuel NaN l r = OutOfFuel.
Proof.
  induction fuel as [|f IH]; intros l r H; [reflexivity|]. cbn [search fltb fleb andb].
  destruct (Nat.eqb_spec (l + 1) r); [lia|]. apply IH. exact H.
Qed.

Lemma known Z fuel x : (1 <= Z < Z.of_nat nelem)%Z ->
  sap_effective_charge nelem nrad ord tab fuel Z x =
    let row := Z.to_nat Z in
    if fleb x (Fin 0) then column nrad tab row 0
    else
      bind (column nrad tab 0 (nrad - 1)) (fun last =>
      if fleb (Fin last) x then column nrad tab row (nrad - 1)
      else
        bind (search tab fuel x 0 (nrad - 1)) (fun p =>
        match p with
        | inl i => column nrad tab row i
        | inr l =>
            let l := window nrad ord l in
            if (l + ord <=? nrad)%nat then
              match x with
              | Fin x => Ok (lagrange ord (fun i => tab 0%nat (l + i)%nat) (fun i => tab row (l + i)%nat) x)
              | _ => UB
              end
            else UB
        end)).
Proof.
  intros H. unfold sap_effective_charge. destruct (Z.ltb_spec Z 1); [lia|]. destruct (Z.leb_spec (Z.of_nat nelem) Z); [lia|]. reflexivity.
Qed.
Lemma column_in row i : (i < nrad)%nat -> column nrad tab row i = Ok (tab row i).
Proof. intros H. unfold column. destruct (Nat.ltb_spec i nrad); [reflexivity|lia]. Qed.

Lemma sap_unknown Z fuel x : (Z < 1 \/ Z.of_nat nelem <= Z)%Z -> sap_effective_charge nelem nrad ord tab fuel Z x = Ok 0.
Proof.
  intros H. unfold sap_effective_charge. destruct (Z.ltb_spec Z 1); [reflexivity|]. destruct (Z.leb_spec (Z.of_nat nelem) Z); [reflexivity|lia].
Qed.

Lemma sap_ends (Hr : rising nrad (tab 0%nat)) Z fuel : (1 <= nrad)%nat -> (1 <= Z < Z.of_nat nelem)%Z ->
  (forall x, x <= 0 -> sap_effective_charge nelem nrad ord tab fuel Z (Fin x) = Ok (tab (Z.to_nat Z) 0%nat)) /\
  (forall x, 0 < x -> tab 0%nat (nrad - 1)%nat <= x -> sap_effective_charge nelem nrad ord tab fuel Z (Fin x) = Ok (tab (Z.to_nat Z) (nrad - 1)%nat)) /\
  sap_effective_charge nelem nrad ord tab fuel Z NInf = Ok (tab (Z.to_nat Z) 0%nat) /\
  sap_effective_charge nelem nrad ord tab fuel Z PInf = Ok (tab (Z.to_nat Z) (nrad - 1)%nat).
Proof.
  intros Hn HZ. split; [|split; [|split]].
  - intros x Hx. rewrite (known _ _ _ HZ). cbn [fleb]. destruct (Rleb_spec x 0); [|lra]. apply column_in. lia.
  - intros x Hx Hl. rewrite (known _ _ _ HZ). cbn [fleb]. destruct (Rleb_spec x 0); [lra|]. rewrite column_in by lia. cbn [bind].
    destruct (Rleb_spec (tab 0%nat (nrad - 1)%nat) x); [|lra]. apply column_in. lia.
  - rewrite (known _ _ _ HZ). cbn [fleb]. apply column_in. lia.
  - rewrite (known _ _ _ HZ). cbn [fleb]. rewrite column_in by lia. cbn [bind fleb]. apply column_in. lia.
Qed.

Lemma sap_nan Z fuel : (3 <= nrad)%nat -> (1 <= Z < Z.of_nat nelem)%Z -> sap_effective_charge nelem nrad ord tab fuel Z NaN = OutOfFuel.
Proof.
  intros Hn HZ. rewrite (known _ _ _ HZ). cbn [fleb]. rewrite column_in by lia. cbn [bind fleb].
  rewrite search_nan by lia. reflexivity.
Qed.

Lemma window_ok l : (1 <= ord <= nrad)%nat -> (l < nrad)%nat ->
  (window nrad ord l + ord <= nrad)%nat /\ (window nrad ord l <= l)%nat /\ (l + ord <= nrad -> window nrad ord l = l)%nat /\ (l < window nrad ord l + ord)%nat.
Proof. intros H1 H2. unfold window. destruct (Nat.leb_spec nrad (l + ord - 1)); lia. Qed.

(** Inside the table: a knot or a window that contains the bracket's left end. *)
Lemma sap_inside (Hr : rising nrad (tab 0%nat)) Z fuel x : (1 <= ord <= nrad)%nat -> (1 <= Z < Z.of_nat nelem)%Z ->
  (nrad <= fuel)%nat -> 0 < x < tab 0%nat (nrad - 1)%nat ->
  (exists i, (i < nrad)%nat /\ tab 0%nat i = x /\ sap_effective_charge nelem nrad ord tab fuel Z (Fin x) = Ok (tab (Z.to_nat Z) i)) \/
  (exists l, (l + 1 < nrad)%nat /\ tab 0%nat l < x < tab 0%nat (l + 1)%nat /\
     sap_effective_charge nelem nrad ord tab fuel Z (Fin x) =
     Ok (lagrange ord (fun i => tab 0%nat (window nrad ord l + i)%nat) (fun i => tab (Z.to_nat Z) (window nrad ord l + i)%nat) x)).
Proof.
  intros Ho HZ Hf Hx. assert (Hn : (2 <= nrad)%nat).
  { destruct nrad as [|[|n]]; [lia| |lia]. cbn [Nat.sub] in Hx. rewrite (proj1 Hr) in Hx. lra. }
  rewrite (known _ _ _ HZ). cbv zeta. cbn [fleb].
  destruct (Rleb_spec x 0); [lra|]. rewrite column_in by lia. cbn [bind]. destruct (Rleb_spec (tab 0%nat (nrad - 1)%nat) x); [lra|].
  destruct (search_ok Hr x fuel 0 (nrad - 1)) as (p & E & Hp); try lia.
  { rewrite (proj1 Hr). lra. }
  rewrite E. cbn [bind]. destruct p as [i|l].
  - left. exists i. destruct Hp as [H1 H2]. split; [exact H1|]. split; [exact H2|]. apply column_in. exact H1.
  - right. exists l. destruct Hp as [H1 H2]. split; [exact H1|]. split; [exact H2|].
    destruct (window_ok l Ho ltac:(lia)) as (Hw & _). destruct (Nat.leb_spec (window nrad ord l + ord) nrad); [|lia]. reflexivity.
Qed.
End Sap.

(** Two points. *)
Lemma lagrange_two xi yi x : xi 0%nat <> xi 1%nat -> lagrange 2 xi yi x = line (xi 0%nat) (yi 0%nat) (xi 1%nat) (yi 1%nat) x.
Proof. intros H. unfold lagrange, line. cbn [seq fold_left Nat.eqb]. field. split; lra. Qed.

Lemma sap_linear nelem nrad tab Z fuel : rising nrad (tab 0%nat) -> (1 <= Z < Z.of_nat nelem)%Z -> (nrad <= fuel)%nat ->
  forall i x, (i + 1 < nrad)%nat -> tab 0%nat i <= x <= tab 0%nat (i + 1)%nat ->
  sap_effective_charge nelem nrad 2 tab fuel Z (Fin x)
  = Ok (line (tab 0%nat i) (tab (Z.to_nat Z) i) (tab 0%nat (i + 1)%nat) (tab (Z.to_nat Z) (i + 1)%nat) x).
Proof.
  intros Hr HZ Hf i x Hi Hx. destruct Hr as [H0 Hr].
  assert (Hlt : tab 0%nat i < tab 0%nat (i + 1)%nat) by (apply Hr; lia).
  assert (L : line (tab 0%nat i) (tab (Z.to_nat Z) i) (tab 0%nat (i + 1)%nat) (tab (Z.to_nat Z) (i + 1)%nat) (tab 0%nat i) = tab (Z.to_nat Z) i)
    by (unfold line; field; lra).
  assert (L' : line (tab 0%nat i) (tab (Z.to_nat Z) i) (tab 0%nat (i + 1)%nat) (tab (Z.to_nat Z) (i + 1)%nat) (tab 0%nat (i + 1)%nat) = tab (Z.to_nat Z) (i + 1)%nat)
    by (unfold line; field; lra).
  assert (Hle : forall a b, (a <= b)%nat -> (b < nrad)%nat -> tab 0%nat a <= tab 0%nat b).
  { intros a b H1 H2. destruct (Nat.eq_dec a b) as [->|]; [lra|]. apply Rlt_le, Hr; lia. }
  destruct (sap_ends nelem nrad 2 tab (conj H0 Hr) Z fuel ltac:(lia) HZ) as (E0 & E1 & _).
  destruct (Rle_lt_dec x 0) as [Hx0|Hx0].
  { rewrite (E0 x Hx0). pose proof (Hle 0%nat i ltac:(lia) ltac:(lia)). rewrite H0 in H.
    assert (Ex : x = tab 0%nat i) by lra. rewrite Ex, L. assert (i = 0)%nat; [|subst; reflexivity].
    destruct i as [|i]; [reflexivity|]. pose proof (Hr 0%nat (Datatypes.S i) ltac:(lia) ltac:(lia)). rewrite H0 in H1. lra. }
  destruct (Rle_lt_dec (tab 0%nat (nrad - 1)%nat) x) as [Hxl|Hxl].
  { rewrite (E1 x Hx0 Hxl). pose proof (Hle (i + 1)%nat (nrad - 1)%nat ltac:(lia) ltac:(lia)).
    assert (Ex : x = tab 0%nat (i + 1)%nat) by lra. rewrite Ex, L'. assert (i + 1 = nrad - 1)%nat; [|congruence].
    destruct (Nat.eq_dec (i + 1) (nrad - 1)) as [?|Hne]; [assumption|]. pose proof (Hr (i + 1)%nat (nrad - 1)%nat ltac:(lia) ltac:(lia)). lra. }
  destruct (sap_inside nelem nrad 2 tab (conj H0 Hr) Z fuel x ltac:(lia) HZ Hf (conj Hx0 Hxl)) as [(k & Hk & Ek & E)|(l & Hl & Hlx & E)].
  - rewrite E. assert (k = i \/ k = i + 1)%nat as [-> | ->].
    { destruct (lt_eq_lt_dec k i) as [[H|H]|H]; [|left; exact H|].
      - pose proof (Hr k i H ltac:(lia)). lra.
      - destruct (Nat.eq_dec k (i + 1)) as [?|Hne]; [right; assumption|]. pose proof (Hr (i + 1)%nat k ltac:(lia) ltac:(lia)). lra. }
    + rewrite <- Ek, L. reflexivity.
    + rewrite <- Ek, L'. reflexivity.
  - rewrite E. assert (l = i).
    { destruct (lt_eq_lt_dec l i) as [[H|H]|H]; [|exact H|].
      - pose proof (Hle (l + 1)%nat i ltac:(lia) ltac:(lia)). lra.
      - pose proof (Hle (i + 1)%nat l ltac:(lia) ltac:(lia)). lra. }
    subst l. destruct (window_ok nrad 2 i ltac:(lia) ltac:(lia)) as (_ & _ & Hw & _). rewrite (Hw ltac:(lia)).
    rewrite lagrange_two; rewrite Nat.add_0_r; [reflexivity|lra].
Qed.

(** Bracketing. *)
Lemma locate n (t : vec) x : (2 <= n)%nat -> t 0%nat <= x <= t (n - 1)%nat -> exists i, (i + 1 < n)%nat /\ t i <= x <= t (i + 1)%nat.
Proof.
  intros Hn. induction n as [|[|[|n]] IH]; [lia|lia| |].
  - cbn [Nat.sub]. intros H. exists 0%nat. split; [lia|exact H].
  - intros H. cbn [Nat.sub] in *. destruct (Rle_lt_dec x (t (Datatypes.S n))) as [Hx|Hx].
    + destruct IH as (i & Hi & H'); [lia| |exists i; split; [lia|exact H']]. lra.
    + exists (Datatypes.S n). replace (Datatypes.S n + 1)%nat with (Datatypes.S (Datatypes.S n)) by lia. split; [lia|lra].
Qed.

Lemma line_between x0 y0 x1 y1 x lo hi : x0 < x1 -> x0 <= x <= x1 -> lo <= y0 <= hi -> lo <= y1 <= hi -> lo <= line x0 y0 x1 y1 x <= hi.
Proof.
  intros H Hx H0 H1. unfold line. set (t := (x - x0) / (x1 - x0)).
  assert (Ht : 0 <= t <= 1).
  { unfold t. split.
    - apply Rmult_le_pos; [lra|]. apply Rlt_le, Rinv_0_lt_compat. lra.
    - apply Rmult_le_reg_r with (x1 - x0); [lra|]. unfold Rdiv. rewrite Rmult_assoc, Rinv_l by lra. lra. }
  nra.
Qed.

Lemma sap_bounds nelem nrad tab Z fuel lo hi : rising nrad (tab 0%nat) -> (2 <= nrad)%nat -> (1 <= Z < Z.of_nat nelem)%Z -> (nrad <= fuel)%nat ->
  (forall i, (i < nrad)%nat -> lo <= tab (Z.to_nat Z) i <= hi) ->
  forall x, exists v, sap_effective_charge nelem nrad 2 tab fuel Z (Fin x) = Ok v /\ lo <= v <= hi.
Proof.
  intros Hr Hn HZ Hf Hb x. destruct (sap_ends nelem nrad 2 tab Hr Z fuel ltac:(lia) HZ) as (E0 & E1 & _).
  destruct (Rle_lt_dec x 0) as [Hx0|Hx0].
  { exists (tab (Z.to_nat Z) 0%nat). split; [apply E0; exact Hx0|apply Hb; lia]. }
  destruct (Rle_lt_dec (tab 0%nat (nrad - 1)%nat) x) as [Hxl|Hxl].
  { exists (tab (Z.to_nat Z) (nrad - 1)%nat). split; [apply E1; assumption|apply Hb; lia]. }
  destruct (locate nrad (tab 0%nat) x Hn) as (i & Hi & Hx). { rewrite (proj1 Hr). lra. }
  eexists. split; [apply (sap_linear nelem nrad tab Z fuel Hr HZ Hf i x Hi Hx)|].
  apply line_between; [apply (proj2 Hr); lia|exact Hx|apply Hb; lia|apply Hb; lia].
Qed.

(** The radii of the source. *)
Fixpoint sorted_from (a : Z) (l : list Z) : bool := match l with [] => true | b :: t => (a <? b)%Z && sorted_from b t end.
Lemma sorted_nth l : forall a i j, sorted_from a l = true -> (i < j)%nat -> (j < Datatypes.S (List.length l))%nat -> (nth i (a :: l) 0 < nth j (a :: l) 0)%Z.
Proof.
  induction l as [|b t IH]; intros a i j H Hij Hj; [cbn in Hj; lia|].
  cbn [sorted_from] in H. apply andb_prop in H. destruct H as [H1 H2]. apply Z.ltb_lt in H1.
  destruct j as [|j]; [lia|]. destruct i as [|i].
  - cbn [nth]. destruct j as [|j]; [exact H1|]. pose proof (IH b 0%nat (Datatypes.S j) H2 ltac:(lia) ltac:(cbn in Hj; lia)) as H3. cbn [nth] in H3. change (nth (Datatypes.S j) (b :: t) 0%Z) with (nth j t 0%Z). lia.
  - change (nth (Datatypes.S i) (a :: b :: t) 0%Z) with (nth i (b :: t) 0%Z). change (nth (Datatypes.S j) (a :: b :: t) 0%Z) with (nth j (b :: t) 0%Z).
    apply IH; [exact H2|lia|cbn in Hj; cbn; lia].
Qed.
Lemma sap_radii_ok : List.length sap_radii = SAP_NRAD /\ rising SAP_NRAD sap_radius /\ sap_radius (SAP_NRAD - 1) = sap_cutoff_radius.
Proof.
  assert (HL : List.length sap_radii = SAP_NRAD) by (vm_compute; reflexivity).
  split; [exact HL|]. split; [split|].
  - unfold sap_radius. assert (E : nth 0 sap_radii 0%Z = 0%Z) by (vm_compute; reflexivity). rewrite E. unfold Rdiv. ring.
  - intros i j Hij Hj. unfold sap_radius. apply Rmult_lt_compat_r; [apply Rinv_0_lt_compat, pow_lt; lra|]. apply IZR_lt.
    assert (Hs : exists a l, sap_radii = a :: l /\ sorted_from a l = true).
    { exists (hd 0%Z sap_radii), (tl sap_radii). split; vm_compute; reflexivity. }
    destruct Hs as (a & l & El & Hs). rewrite El in *. apply sorted_nth; [exact Hs|exact Hij|]. cbn [List.length] in HL. rewrite HL. exact Hj.
  - unfold sap_radius, sap_cutoff_radius. assert (E : nth (SAP_NRAD - 1) sap_radii 0%Z = (399999998730599 * 10 ^ 11)%Z) by (vm_compute; reflexivity).
    rewrite E. replace (IZR (399999998730599 * 10 ^ 11)) with (399999998730599 * 10 ^ 11).
    + replace (10 ^ 24) with (10 ^ 13 * 10 ^ 11) by (rewrite <- pow_add; reflexivity). field.
    + rewrite mult_IZR. rewrite (pow_IZR 10 11). reflexivity.
Qed.
