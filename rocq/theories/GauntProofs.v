Require Import Reals ZArith List Bool Lia Lra.
Require Import Verif.Prelude Verif.AngModel Verif.AngProofs Verif.GauntModel Verif.GauntSpec.
Import ListNotations.
Local Open Scope Z_scope.

(* ---------- integer sums ---------- *)

Lemma fold_acc {A} (f : A -> Z) l : forall s, fold_left (fun s x => s + f x) l s = s + zsum f l.
Proof.
  induction l as [|x l IH]; intros s; unfold zsum; simpl; [lia|].
  rewrite IH, (IH (f x)). lia.
Qed.

Lemma zsum_nil {A} (f : A -> Z) : zsum f [] = 0. Proof. reflexivity. Qed.
Lemma zsum_cons {A} (f : A -> Z) x l : zsum f (x :: l) = f x + zsum f l.
Proof. unfold zsum at 1. simpl. rewrite fold_acc. lia. Qed.
Lemma zsum_app {A} (f : A -> Z) l l' : zsum f (l ++ l') = zsum f l + zsum f l'.
Proof. induction l; simpl; rewrite ?zsum_cons; [reflexivity|]. rewrite IHl. lia. Qed.
Lemma zsum_nonneg {A} (f : A -> Z) l : (forall x, In x l -> 0 <= f x) -> 0 <= zsum f l.
Proof.
  induction l; intros H; [rewrite zsum_nil; lia|]. rewrite zsum_cons.
  assert (0 <= f a) by (apply H; now left). assert (0 <= zsum f l) by (apply IHl; intros; apply H; now right). lia.
Qed.

Lemma zrange_split lo mid hi : lo <= mid <= hi + 1 -> zrange lo hi = zrange lo (mid - 1) ++ zrange mid hi.
Proof.
  intros H. unfold zrange.
  replace (Z.to_nat (hi - lo + 1)) with (Z.to_nat (mid - 1 - lo + 1) + Z.to_nat (hi - mid + 1))%nat by lia.
  rewrite seq_app, map_app. f_equal.
  rewrite Nat.add_0_l. set (k := Z.to_nat (mid - 1 - lo + 1)).
  assert (G : forall n a, seq (k + a) n = map (fun i => (k + i)%nat) (seq a n)).
  { induction n; intros a; simpl; auto. rewrite <- IHn. repeat f_equal. lia. }
  rewrite <- (Nat.add_0_r k) at 1. rewrite G, map_map. apply map_ext. intros i. lia.
Qed.

(* ---------- triples ---------- *)

Definition canon_triple (lall : Z) (t : Z * Z * Z) : Prop :=
  let '(l1, l2, l3) := t in
  0 <= l3 <= l2 /\ l2 <= l1 <= lall /\ l1 <= l2 + l3 /\ Z.odd (l1 + l2 + l3) = false.

Lemma triples_in lall t : In t (triples lall) <-> canon_triple lall t.
Proof.
  destruct t as [[l1 l2] l3]. unfold triples, canon_triple. rewrite in_flat_map. split.
  - intros (a & Ha & H). apply in_flat_map in H. destruct H as (b & Hb & H).
    apply in_flat_map in H. destruct H as (c & Hc & H).
    destruct (Z.odd (a + b + c)) eqn:E; [destruct H|]. destruct H as [H|[]]. injection H as -> -> ->.
    apply zrange_in in Ha, Hb, Hc. rewrite Z.quot_div_nonneg in Hb by lia.
    assert (0 <= (l1 + 1) / 2) by (apply Z.div_pos; lia). repeat split; auto; lia.
  - intros (H1 & H2 & H3 & H4). exists l1. split; [apply zrange_in; lia|].
    apply in_flat_map. exists l2. split.
    + apply zrange_in. rewrite Z.quot_div_nonneg by lia. split; [|lia].
      enough ((l1 + 1) / 2 < l2 + 1) by lia. apply Z.div_lt_upper_bound; lia.
    + apply in_flat_map. exists l3. split; [apply zrange_in; lia|]. rewrite H4. now left.
Qed.

Lemma triples_nodup lall : NoDup (triples lall).
Proof.
  unfold triples. apply NoDup_flat_map; [apply zrange_nodup| |].
  - intros l1 _. apply NoDup_flat_map; [apply zrange_nodup| |].
    + intros l2 _. apply NoDup_flat_map; [apply zrange_nodup| |].
      * intros l3 _. destruct (Z.odd _); repeat constructor. simpl; tauto.
      * intros a b x _ _ Ha Hb. destruct (Z.odd (l1 + l2 + a)); [destruct Ha|].
        destruct (Z.odd (l1 + l2 + b)); [destruct Hb|].
        destruct Ha as [<-|[]]. destruct Hb as [E|[]]. congruence.
    + intros a b x _ _ Ha Hb. apply in_flat_map in Ha, Hb. destruct Ha as (u & _ & Ha), Hb as (v & _ & Hb).
      destruct (Z.odd _) in Ha; [destruct Ha|]. destruct (Z.odd _) in Hb; [destruct Hb|].
      destruct Ha as [<-|[]]. destruct Hb as [E|[]]. congruence.
  - intros a b x _ _ Ha Hb. apply in_flat_map in Ha, Hb. destruct Ha as (u & _ & Ha), Hb as (v & _ & Hb).
    apply in_flat_map in Ha, Hb. destruct Ha as (u' & _ & Ha), Hb as (v' & _ & Hb).
    destruct (Z.odd _) in Ha; [destruct Ha|]. destruct (Z.odd _) in Hb; [destruct Hb|].
    destruct Ha as [<-|[]]. destruct Hb as [E|[]]. congruence.
Qed.

Lemma digits_inj n a b a' b' : 0 <= b < n -> 0 <= b' < n -> a * n + b = a' * n + b' -> a = a' /\ b = b'.
Proof. intros Hb Hb' E. assert (a = a') by nia. subst. lia. Qed.

Lemma triple_index_inj lall t t' : canon_triple lall t -> canon_triple lall t' ->
  triple_index lall (fst (fst t)) (snd (fst t)) (snd t) = triple_index lall (fst (fst t')) (snd (fst t')) (snd t') ->
  t = t'.
Proof.
  destruct t as [[a b] c], t' as [[a' b'] c']. unfold canon_triple, triple_index. cbn [fst snd].
  intros H H' E. apply digits_inj in E; try lia. destruct E as [E ->].
  apply digits_inj in E; try lia. destruct E as [-> ->]. reflexivity.
Qed.

Lemma triple_index_bound lall l1 l2 l3 : 0 <= l1 <= lall -> 0 <= l2 <= lall -> 0 <= l3 <= lall ->
  0 <= triple_index lall l1 l2 l3 < (lall + 1) * (lall + 1) * (lall + 1).
Proof. unfold triple_index. intros. nia. Qed.

(* ---------- layout ---------- *)

Definition cell_eq_dec (x y : Z * Z * Z * Z * Z) : {x = y} + {x <> y}.
Proof. repeat decide equality. Defined.

Section Layout.
Variables lall mstore : Z.

Definition idx (t : Z * Z * Z) : Z := triple_index lall (fst (fst t)) (snd (fst t)) (snd t).
Definition cnt (t : Z * Z * Z) (m3 : Z) : Z := m2_count mstore (fst (fst t)) (snd (fst t)) (snd t) m3.
Definition size (t : Z * Z * Z) : Z := zsum (cnt t) (zrange 0 (Z.min (snd t) mstore)).

Lemma cnt_nonneg t m : 0 <= cnt t m.
Proof. unfold cnt, m2_count. destruct (Z.leb_spec (m2lo mstore (snd (fst t))) (m2hi mstore (fst (fst t)) (snd (fst t)) m)); lia. Qed.

Lemma size_nonneg t : 0 <= size t.
Proof. apply zsum_nonneg. intros. apply cnt_nonneg. Qed.

Definition lay_step (s : (Z -> option Z) * Z) (t : Z * Z * Z) : (Z -> option Z) * Z :=
  (zset (fst s) (idx t) (Some (snd s)), snd s + size t).

Lemma lay_out_step : lay_out lall mstore = fold_left lay_step (triples lall) (fun _ => None, 0).
Proof.
  unfold lay_out. generalize (fun _ : Z => @None Z, 0) as s. generalize (triples lall) as l.
  induction l as [|[[l1 l2] l3] l IH]; intros s; simpl; auto. rewrite IH. f_equal.
  unfold lay_step, idx, size, cnt. cbn [fst snd]. rewrite fold_acc. reflexivity.
Qed.

Lemma lay_fold l : (forall t, In t l -> canon_triple lall t) -> NoDup l ->
  forall pre s, (forall t, In t pre -> canon_triple lall t) -> NoDup (pre ++ l) ->
  snd s = zsum size pre ->
  (forall a t b, pre = a ++ t :: b -> fst s (idx t) = Some (zsum size a)) ->
  (forall k, (forall t, In t pre -> idx t <> k) -> fst s k = None) ->
  let s' := fold_left lay_step l s in
  snd s' = zsum size (pre ++ l) /\
  (forall a t b, pre ++ l = a ++ t :: b -> fst s' (idx t) = Some (zsum size a)) /\
  (forall k, (forall t, In t (pre ++ l) -> idx t <> k) -> fst s' k = None).
Proof.
  induction l as [|t l IH]; intros Hl Hnd pre s Hpre Hnd' Hs Hb Hn.
  - rewrite app_nil_r. simpl. auto.
  - simpl. replace (pre ++ t :: l) with ((pre ++ [t]) ++ l) in * by (rewrite <- app_assoc; reflexivity).
    apply IH.
    + intros; apply Hl; now right.
    + now inversion Hnd.
    + intros u Hu. apply in_app_iff in Hu. destruct Hu as [Hu|[<-|[]]]; auto. apply Hl. now left.
    + exact Hnd'.
    + cbn [lay_step snd]. rewrite zsum_app, zsum_cons, zsum_nil. lia.
    + assert (Hnt : ~ In t pre).
      { intros Hin. rewrite <- app_assoc in Hnd'. cbn [app] in Hnd'. apply NoDup_remove_2 in Hnd'.
        apply Hnd'. apply in_app_iff. now left. }
      intros a u b E. cbn [lay_step fst]. unfold zset.
      assert (Hbd : b = [] \/ b <> []) by (destruct b; [now left|right; discriminate]).
      destruct Hbd as [->|Hne].
      * apply app_inj_tail in E. destruct E as [-> ->]. rewrite Z.eqb_refl. now rewrite Hs.
      * destruct (exists_last Hne) as (b' & x & ->).
        rewrite app_comm_cons, app_assoc in E. apply app_inj_tail in E. destruct E as [E ->].
        destruct (Z.eqb_spec (idx u) (idx x)) as [Eq|_]; [|eapply Hb; eauto].
        exfalso. apply Hnt.
        assert (In u pre) by (rewrite E; apply in_app_iff; right; now left).
        replace x with u; auto. apply (triple_index_inj lall); auto. apply Hl. now left.
    + intros k Hk. cbn [lay_step fst]. unfold zset. destruct (Z.eqb_spec k (idx t)) as [->|].
      * exfalso. apply (Hk t); auto. apply in_app_iff. right. now left.
      * apply Hn. intros u Hu. apply Hk. apply in_app_iff. now left.
Qed.

Lemma lay_out_ok : let '(base, total) := lay_out lall mstore in
  total = zsum size (triples lall) /\
  (forall a t b, triples lall = a ++ t :: b -> base (idx t) = Some (zsum size a)) /\
  (forall k, (forall t, In t (triples lall) -> idx t <> k) -> base k = None).
Proof.
  rewrite lay_out_step.
  pose proof (lay_fold (triples lall) (fun t => proj1 (triples_in lall t)) (triples_nodup lall) [] (fun _ => None, 0)) as H.
  cbn [app] in H. destruct (fold_left lay_step (triples lall) (fun _ => None, 0)) as [base total].
  cbn [fst snd] in H. apply H; auto.
  - simpl; tauto.
  - apply triples_nodup.
  - intros a t b E. destruct a; discriminate.
Qed.

Variables (base : Z -> option Z) (total : Z).
Hypothesis Hlay : lay_out lall mstore = (base, total).

Notation nbase := ((lall + 1) * (lall + 1) * (lall + 1)).

Lemma base_some t : canon_triple lall t -> exists a b, triples lall = a ++ t :: b /\ base (idx t) = Some (zsum size a).
Proof.
  intros Ht. pose proof lay_out_ok as H. rewrite Hlay in H. destruct H as (_ & Hb & _).
  apply triples_in in Ht. destruct (in_split _ _ Ht) as (a & b & E). exists a, b. split; auto. eapply Hb; eauto.
Qed.

(** The position inside a run. *)
Definition offset (t : Z * Z * Z) (m3 m2 : Z) : Z := zsum (cnt t) (zrange 0 (m3 - 1)) + (m2 - m2lo mstore (snd (fst t))).

Definition cell_ok (t : Z * Z * Z) (m3 m2 : Z) : Prop :=
  0 <= m3 <= Z.min (snd t) mstore /\ m2lo mstore (snd (fst t)) <= m2 <= m2hi mstore (fst (fst t)) (snd (fst t)) m3.

Lemma offset_bound t m3 m2 : cell_ok t m3 m2 -> 0 <= offset t m3 m2 < size t.
Proof.
  intros [H3 H2]. unfold offset, size.
  rewrite (zrange_split 0 m3 (Z.min (snd t) mstore)) by lia. rewrite zsum_app, (zrange_cons m3) by lia.
  rewrite zsum_cons.
  assert (0 <= zsum (cnt t) (zrange 0 (m3 - 1))) by (apply zsum_nonneg; intros; apply cnt_nonneg).
  assert (0 <= zsum (cnt t) (zrange (m3 + 1) (Z.min (snd t) mstore))) by (apply zsum_nonneg; intros; apply cnt_nonneg).
  assert (cnt t m3 = m2hi mstore (fst (fst t)) (snd (fst t)) m3 - m2lo mstore (snd (fst t)) + 1).
  { unfold cnt, m2_count. destruct (Z.leb_spec (m2lo mstore (snd (fst t))) (m2hi mstore (fst (fst t)) (snd (fst t)) m3)); lia. }
  lia.
Qed.

Lemma offset_lt t m3 m2 n3 n2 : cell_ok t m3 m2 -> cell_ok t n3 n2 -> m3 < n3 -> offset t m3 m2 < offset t n3 n2.
Proof.
  intros [H3 H2] [K3 K2] Hlt. unfold offset.
  rewrite (zrange_split 0 m3 (n3 - 1)) by lia. rewrite zsum_app, (zrange_cons m3) by lia. rewrite zsum_cons.
  assert (0 <= zsum (cnt t) (zrange (m3 + 1) (n3 - 1))) by (apply zsum_nonneg; intros; apply cnt_nonneg).
  assert (cnt t m3 = m2hi mstore (fst (fst t)) (snd (fst t)) m3 - m2lo mstore (snd (fst t)) + 1).
  { unfold cnt, m2_count. destruct (Z.leb_spec (m2lo mstore (snd (fst t))) (m2hi mstore (fst (fst t)) (snd (fst t)) m3)); lia. }
  lia.
Qed.

Lemma offset_inj t m3 m2 n3 n2 : cell_ok t m3 m2 -> cell_ok t n3 n2 ->
  offset t m3 m2 = offset t n3 n2 -> m3 = n3 /\ m2 = n2.
Proof.
  intros H K E. destruct (Z.lt_trichotomy m3 n3) as [Hl|[->|Hl]].
  - pose proof (offset_lt _ _ _ _ _ H K Hl). lia.
  - unfold offset in E. lia.
  - pose proof (offset_lt _ _ _ _ _ K H Hl). lia.
Qed.

Lemma slot_ok t m3 m2 : canon_triple lall t -> cell_ok t m3 m2 ->
  exists a b, triples lall = a ++ t :: b /\
  slot lall mstore nbase base (fst (fst t)) (snd (fst t)) (snd t) m3 m2 = Some (zsum size a + offset t m3 m2).
Proof.
  intros Ht Hc. destruct (base_some t Ht) as (a & b & E & Hb). exists a, b. split; auto.
  destruct t as [[l1 l2] l3]. unfold idx in Hb. cbn [fst snd] in *. unfold canon_triple in Ht.
  unfold cell_ok in Hc. cbn [fst snd] in Hc.
  unfold slot. 
  destruct (Z.ltb_spec l1 0); [lia|]. destruct (Z.ltb_spec lall l1); [lia|].
  destruct (Z.ltb_spec l2 0); [lia|]. destruct (Z.ltb_spec l3 0); [lia|]. cbn [orb].
  pose proof (triple_index_bound lall l1 l2 l3 ltac:(lia) ltac:(lia) ltac:(lia)).
  destruct (Z.leb_spec nbase (triple_index lall l1 l2 l3)); [lia|]. rewrite Hb.
  destruct (Z.ltb_spec m3 0); [lia|]. destruct (Z.ltb_spec (Z.min l3 mstore) m3); [lia|]. cbn [orb].
  destruct (Z.ltb_spec m2 (m2lo mstore l2)); [lia|]. destruct (Z.ltb_spec (m2hi mstore l1 l2 m3) m2); [lia|]. cbn [orb].
  rewrite (fold_acc (m2_count mstore l1 l2 l3)). unfold offset, cnt. cbn [fst snd]. f_equal. 
  change (zsum (fun m4 : Z => m2_count mstore l1 l2 l3 m4) (zrange 0 (m3 - 1))) with (zsum (m2_count mstore l1 l2 l3) (zrange 0 (m3 - 1))). lia.
Qed.

Lemma slot_none l1 l2 l3 m3 m2 : 0 <= l3 <= l2 -> l2 <= l1 <= lall -> ~ canon_triple lall (l1, l2, l3) ->
  slot lall mstore nbase base l1 l2 l3 m3 m2 = None.
Proof.
  intros H1 H2 Hn. unfold slot.
  destruct (_ || _); auto.
  destruct (nbase <=? _); auto.
  pose proof lay_out_ok as H. rewrite Hlay in H. destruct H as (_ & _ & H). rewrite H; auto.
  intros [[a b] c] Hin E. apply triples_in in Hin. apply Hn. unfold idx in E. cbn [fst snd] in E.
  unfold canon_triple in Hin. unfold triple_index in E. apply digits_inj in E; try lia. destruct E as [E ->].
  apply digits_inj in E; try lia. destruct E as [-> ->]. exact Hin.
Qed.

Definition slotv (c : Z * Z * Z * Z * Z) : option Z :=
  let '(l1, l2, l3, m3, m2) := c in slot lall mstore nbase base l1 l2 l3 m3 m2.

Lemma app_split_order {A} (l : list A) : forall a t b a' t' b', l = a ++ t :: b -> l = a' ++ t' :: b' ->
  (a = a' /\ t = t') \/ (exists c, a' = a ++ t :: c) \/ (exists c, a = a' ++ t' :: c).
Proof.
  induction l as [|x l IH]; intros a t b a' t' b' E E'; [destruct a; discriminate|].
  destruct a as [|y a], a' as [|y' a']; simpl in *; injection E as <- E; injection E' as <- E'.
  - left; auto.
  - right; left. exists a'. reflexivity.
  - right; right. exists a. reflexivity.
  - destruct (IH _ _ _ _ _ _ E E') as [[-> ->]|[[c ->]|[c ->]]]; [left|right; left|right; right]; eauto.
Qed.

Lemma slot_inj t m3 m2 t' n3 n2 k : canon_triple lall t -> cell_ok t m3 m2 -> canon_triple lall t' -> cell_ok t' n3 n2 ->
  slot lall mstore nbase base (fst (fst t)) (snd (fst t)) (snd t) m3 m2 = Some k ->
  slot lall mstore nbase base (fst (fst t')) (snd (fst t')) (snd t') n3 n2 = Some k ->
  t = t' /\ m3 = n3 /\ m2 = n2.
Proof.
  intros Ht Hc Ht' Hc' E E'.
  destruct (slot_ok t m3 m2 Ht Hc) as (a & b & S & V). destruct (slot_ok t' n3 n2 Ht' Hc') as (a' & b' & S' & V').
  rewrite V in E. rewrite V' in E'. injection E as E. injection E' as E'.
  pose proof (offset_bound _ _ _ Hc). pose proof (offset_bound _ _ _ Hc').
  destruct (app_split_order _ _ _ _ _ _ _ S S') as [[-> ->]|[[c ->]|[c ->]]].
  - split; auto. apply (offset_inj t'); auto. lia.
  - rewrite zsum_app, zsum_cons in E'.
    assert (0 <= zsum size c) by (apply zsum_nonneg; intros; apply size_nonneg). lia.
  - rewrite zsum_app, zsum_cons in E.
    assert (0 <= zsum size c) by (apply zsum_nonneg; intros; apply size_nonneg). lia.
Qed.

Lemma slot_bound t m3 m2 k : canon_triple lall t -> cell_ok t m3 m2 ->
  slot lall mstore nbase base (fst (fst t)) (snd (fst t)) (snd t) m3 m2 = Some k -> 0 <= k < total.
Proof.
  intros Ht Hc E. destruct (slot_ok t m3 m2 Ht Hc) as (a & b & S & V). rewrite V in E. injection E as <-.
  pose proof lay_out_ok as H. rewrite Hlay in H. destruct H as (-> & _). rewrite S, zsum_app, zsum_cons.
  pose proof (offset_bound _ _ _ Hc).
  assert (0 <= zsum size a) by (apply zsum_nonneg; intros; apply size_nonneg).
  assert (0 <= zsum size b) by (apply zsum_nonneg; intros; apply size_nonneg). lia.
Qed.

(* ---------- filling ---------- *)

Definition full_cell (c : Z * Z * Z * Z * Z) : Prop :=
  let '(l1, l2, l3, m3, m2) := c in canon_triple lall (l1, l2, l3) /\ cell_ok (l1, l2, l3) m3 m2.

Lemma fill_cells_in c : In c (fill_cells lall mstore) <-> full_cell c.
Proof.
  destruct c as [[[[l1 l2] l3] m3] m2]. unfold fill_cells, full_cell, cell_ok. cbn [fst snd]. rewrite in_flat_map. split.
  - intros ([[a b] c] & Ht & H). apply triples_in in Ht. apply in_flat_map in H. destruct H as (m & Hm & H).
    apply in_flat_map in H. destruct H as (n & Hn & H). apply zrange_in in Hm, Hn.
    destruct (a <? _); [destruct H|]. destruct H as [H|[]]. injection H as -> -> -> -> ->. auto.
  - intros (Ht & H3 & H2). exists (l1, l2, l3). split; [now apply triples_in|].
    apply in_flat_map. exists m3. split; [apply zrange_in; lia|].
    apply in_flat_map. exists m2. split; [apply zrange_in; lia|].
    unfold canon_triple in Ht. unfold m2lo, m2hi in H2.
    destruct (Z.ltb_spec l1 (Z.abs (- m2 - m3))); [lia|]. now left.
Qed.

Variable eval : generator.
Definition value (c : Z * Z * Z * Z * Z) : R :=
  let '(l1, l2, l3, m3, m2) := c in eval (2 * l1) (2 * (- m2 - m3)) (2 * l2) (2 * m2) (2 * l3) (2 * m3).

Lemma fill_fold l : (forall c, In c l -> full_cell c) -> forall co,
  exists co', fold_left (fill_step eval lall mstore nbase base total) l (Ok co) = Ok co' /\
  (forall c k, In c l -> slotv c = Some k -> co' k = value c) /\
  (forall k, (forall c, In c l -> slotv c <> Some k) -> co' k = co k).
Proof.
  induction l as [|c l IH]; intros Hl co.
  - exists co. repeat split; auto. simpl; tauto.
  - assert (Hc : full_cell c) by (apply Hl; now left).
    destruct c as [[[[l1 l2] l3] m3] m2]. destruct Hc as [Ht Hc].
    destruct (slot_ok _ _ _ Ht Hc) as (a & b & S & V). cbn [fst snd] in V.
    set (k0 := zsum size a + offset (l1, l2, l3) m3 m2) in *.
    pose proof (slot_bound (l1, l2, l3) m3 m2 k0 Ht Hc V) as Hk.
    cbn [fold_left fill_step bind]. rewrite V.
    destruct (Z.leb_spec 0 k0); [|lia]. destruct (Z.ltb_spec k0 total); [|lia]. cbn [andb].
    destruct (IH ltac:(intros; apply Hl; now right)
      (zset co k0 (eval (2 * l1) (2 * (- m2 - m3)) (2 * l2) (2 * m2) (2 * l3) (2 * m3)))) as (co' & E & H1 & H2).
    exists co'. split; [exact E|]. split.
    + intros c k [<-|Hin] Hs; [|now apply H1].
      cbn [slotv] in Hs. rewrite V in Hs. injection Hs as <-.
      destruct (In_dec cell_eq_dec (l1, l2, l3, m3, m2) l) as [Hi|Hi].
      { now apply H1. }
      rewrite H2; [unfold zset; now rewrite Z.eqb_refl|].
      intros [[[[a1 a2] a3] n3] n2] Hin Hs. assert (Hc' : full_cell (a1, a2, a3, n3, n2)) by (apply Hl; now right).
      destruct Hc' as [Ht' Hc']. cbn [slotv] in Hs.
      destruct (slot_inj (l1, l2, l3) m3 m2 (a1, a2, a3) n3 n2 k0 Ht Hc Ht' Hc' V Hs) as (E1 & -> & ->).
      injection E1 as -> -> ->. auto.
    + intros k Hk'. rewrite H2; [|intros; apply Hk'; now right].
      unfold zset. destruct (Z.eqb_spec k k0) as [->|]; auto. exfalso.
      apply (Hk' (l1, l2, l3, m3, m2)); [now left|exact V].
Qed.
End Layout.

(* ---------- lookups ---------- *)

Lemma canonical_ok eval L l lp M m mp :
  generator_ok eval -> 0 <= L -> 0 <= l -> 0 <= lp -> Z.abs M <= L -> Z.abs m <= l -> Z.abs mp <= lp ->
  - M + m + mp = 0 ->
  let '(c1, c2, c3) := canonical (L, - M) (l, m) (lp, mp) in
  0 <= fst c3 <= fst c2 /\ fst c2 <= fst c1 /\ 0 <= snd c3 <= fst c3 /\
  Z.abs (snd c2) <= fst c2 /\ Z.abs (snd c1) <= fst c1 /\ snd c1 + snd c2 + snd c3 = 0 /\
  (Z.abs (snd c2) <= Z.max (Z.max (Z.abs M) (Z.abs m)) (Z.abs mp)) /\
  (Z.abs (snd c3) <= Z.max (Z.max (Z.abs M) (Z.abs m)) (Z.abs mp)) /\
  (fst c1 <= Z.max (Z.max L l) lp) /\
  (triangle (fst c1) (fst c2) (fst c3) <-> triangle L l lp) /\
  fst c1 + fst c2 + fst c3 = L + l + lp /\
  eval (2 * fst c1) (2 * snd c1) (2 * fst c2) (2 * snd c2) (2 * fst c3) (2 * snd c3) =
  eval (2 * L) (-2 * M) (2 * l) (2 * m) (2 * lp) (2 * mp).
Proof.
  intros (H12 & H23 & Hneg & _) HL Hl Hlp HM Hm Hmp Hs. unfold canonical, swap_if, triangle.
  replace (-2 * M) with (2 * - M) by lia.
  cbn [fst snd].
  destruct (Z.ltb_spec L l); cbn [fst snd];
  [destruct (Z.ltb_spec L lp) | destruct (Z.ltb_spec l lp)]; cbn [fst snd].
  1: destruct (Z.ltb_spec l lp). 3: destruct (Z.ltb_spec l L). 5: destruct (Z.ltb_spec L lp). 7: destruct (Z.ltb_spec L l).
  all: cbn [fst snd]; try lia.
  all: match goal with |- context [if ?x <? 0 then _ else _] => destruct (Z.ltb_spec x 0) end; cbn [fst snd].
  all: repeat match goal with |- _ /\ _ => split end; try lia.
  all: repeat match goal with |- context [2 * - ?x] => replace (2 * - x) with (- (2 * x)) by lia end; rewrite ?Z.opp_involutive.
  all: try (rewrite Hneg; rewrite ?Z.opp_involutive).
  all: first [reflexivity | now rewrite H12 | now rewrite H23 | now rewrite H12, H23 | now rewrite H23, H12
             | now rewrite H12, H23, H12 | (rewrite Hneg, ?Z.opp_involutive; first [reflexivity | now rewrite H12 | now rewrite H23 | now rewrite H12, H23 | now rewrite H23, H12 | now rewrite H12, H23, H12]) | idtac].
Qed.

Lemma within_cap_eff Lmax lmax lpmax mcap L l lp M m :
  in_range Lmax lmax lpmax L l lp -> Z.abs M <= L -> Z.abs m <= l ->
  let lall := Z.max (Z.max Lmax lmax) lpmax in
  let cap := if mcap <? 0 then lall else Z.min mcap lall in
  within_cap Lmax lmax lpmax mcap M m <-> Z.abs M <= cap /\ Z.abs m <= cap.
Proof.
  intros (H1 & H2 & H3) HM Hm lall cap. unfold within_cap, cap, lall.
  destruct (Z.ltb_spec mcap 0); lia.
Qed.

Lemma gaunt_table_ok eval Lmax lmax lpmax mcap :
  generator_ok eval -> 0 <= Lmax -> 0 <= lmax -> 0 <= lpmax ->
  exists g, gaunt_table eval Lmax lmax lpmax mcap = Ok g /\
  forall L M l m lp,
  (in_range Lmax lmax lpmax L l lp -> Z.abs M <= L -> Z.abs m <= l ->
     within_cap Lmax lmax lpmax mcap M m -> Z.abs (M - m) <= lp ->
     coeff g L M l m lp = Ok (gaunt_coefficient eval L M l m lp (M - m))) /\
  (in_range Lmax lmax lpmax L l lp -> Z.abs M <= L -> Z.abs m <= l ->
     within_cap Lmax lmax lpmax mcap M m -> lp < Z.abs (M - m) -> coeff g L M l m lp = Ok 0%R) /\
  (~ in_range Lmax lmax lpmax L l lp \/ L < Z.abs M \/ l < Z.abs m -> coeff g L M l m lp = Ok 0%R) /\
  (in_range Lmax lmax lpmax L l lp -> Z.abs M <= L -> Z.abs m <= l ->
     ~ within_cap Lmax lmax lpmax mcap M m -> coeff g L M l m lp = Throw LogicError).
Proof.
  intros Hgen H1 H2 H3. unfold gaunt_table.
  set (lall := Z.max (Z.max Lmax lmax) lpmax).
  set (cap := if mcap <? 0 then lall else Z.min mcap lall).
  set (mstore := Z.min (2 * cap) lall).
  assert (Hcap : 0 <= cap <= lall) by (unfold cap; destruct (Z.ltb_spec mcap 0); lia).
  destruct (lay_out lall mstore) as [base total] eqn:Hlay.
  destruct (fill_fold lall mstore base total Hlay eval (fill_cells lall mstore)
    (fun c => proj1 (fill_cells_in lall mstore c)) (fun _ => 0%R)) as (co & E & Hco & _).
  rewrite E. cbn [bind]. eexists. split; [reflexivity|]. intros L M l m lp.
  unfold coeff. cbn [g_Lmax g_lmax g_lpmax g_lall g_mcap g_mstore g_nbase g_base g_ncoeff g_coeff].
  split; [|split; [|split]].
  - intros Hr HM Hm Hw Hmp. apply (within_cap_eff _ _ _ _ L l lp) in Hw; auto. fold lall cap in Hw.
    destruct Hr as (R1 & R2 & R3).
    destruct (Z.ltb_spec L 0); [lia|]. destruct (Z.ltb_spec Lmax L); [lia|]. cbn [orb].
    destruct (Z.ltb_spec l 0); [lia|]. destruct (Z.ltb_spec lmax l); [lia|]. cbn [orb].
    destruct (Z.ltb_spec lp 0); [lia|]. destruct (Z.ltb_spec lpmax lp); [lia|]. cbn [orb].
    destruct (Z.ltb_spec L (Z.abs M)); [lia|]. destruct (Z.ltb_spec l (Z.abs m)); [lia|].
    destruct (Z.ltb_spec cap (Z.abs M)); [lia|]. destruct (Z.ltb_spec cap (Z.abs m)); [lia|]. cbn [orb].
    destruct (Z.ltb_spec lp (Z.abs (M - m))); [lia|].
    pose proof (canonical_ok eval L l lp M m (M - m) Hgen ltac:(lia) ltac:(lia) ltac:(lia) HM Hm Hmp ltac:(lia)) as Hc.
    destruct (canonical (L, - M) (l, m) (lp, M - m)) as [[[l1 m1] [l2 m2]] [l3 m3]]. cbn [fst snd] in *.
    destruct Hc as (C1 & C2 & C3 & C4 & C5 & C6 & C7 & C8 & C9 & C10 & C11 & C12).
    assert (Hd : canon_triple lall (l1, l2, l3) \/ ~ canon_triple lall (l1, l2, l3)).
    { unfold canon_triple. destruct (Z.odd (l1 + l2 + l3)); [right; intuition discriminate|].
      destruct (Z_le_dec l1 (l2 + l3)); [left; clear - C1 C2 C9 R1 R2 R3 l0; unfold lall; repeat split; lia|right; clear - n; lia]. }
    destruct Hd as [Hd|Hd].
    + assert (Hcell : cell_ok mstore (l1, l2, l3) m3 m2).
      { assert (B1 : Z.abs M <= mstore) by (unfold mstore; clear - Hw Hcap; lia).
        assert (B2 : Z.abs m <= mstore) by (unfold mstore; clear - Hw Hcap; lia).
        assert (B3 : Z.abs (M - m) <= mstore) by (unfold mstore, lall; clear - Hw Hmp R3; lia).
        assert (B4 : Z.abs m2 <= mstore) by (clear - C7 B1 B2 B3; lia).
        assert (B5 : Z.abs m3 <= mstore) by (clear - C8 B1 B2 B3; lia).
        unfold cell_ok, m2lo, m2hi. cbn [fst snd]. clear - C1 C2 C3 C4 C5 C6 B4 B5. lia. }
      destruct (slot_ok lall mstore base total Hlay _ _ _ Hd Hcell) as (a & b & S & V). cbn [fst snd] in V.
      pose proof (slot_bound lall mstore base total Hlay (l1, l2, l3) m3 m2 _ Hd Hcell V) as Hb.
      rewrite V. set (k := zsum (size mstore) a + offset mstore (l1, l2, l3) m3 m2) in *.
      destruct (Z.leb_spec 0 k); [|lia]. destruct (Z.ltb_spec k total); [|lia]. cbn [andb].
      rewrite (Hco (l1, l2, l3, m3, m2) k); [|apply fill_cells_in; split; auto|exact V].
      unfold gaunt_coefficient, value. f_equal. f_equal. rewrite <- C12. f_equal. clear - C6. lia.
    + assert (D1 : l2 <= l1 <= lall) by (unfold lall; clear - C2 C9 R1 R2 R3; lia).
      rewrite (slot_none lall mstore base total Hlay) by auto.
      unfold gaunt_coefficient. f_equal. destruct Hgen as (_ & _ & _ & Hz).
      replace (-2 * M) with (2 * - M) by lia. rewrite Hz; [ring|].
      destruct (Z.odd (L + l + lp)) eqn:Eo; [now right|left].
      rewrite <- C10. intros Ht. apply Hd. unfold canon_triple, triangle in *. rewrite C11. clear C10 C12 Hz. repeat split; auto; try lia.
  - intros Hr HM Hm Hw Hmp. apply (within_cap_eff _ _ _ _ L l lp) in Hw; auto. fold lall cap in Hw.
    destruct Hr as (R1 & R2 & R3).
    destruct (Z.ltb_spec L 0); [lia|]. destruct (Z.ltb_spec Lmax L); [lia|]. cbn [orb].
    destruct (Z.ltb_spec l 0); [lia|]. destruct (Z.ltb_spec lmax l); [lia|]. cbn [orb].
    destruct (Z.ltb_spec lp 0); [lia|]. destruct (Z.ltb_spec lpmax lp); [lia|]. cbn [orb].
    destruct (Z.ltb_spec L (Z.abs M)); [lia|]. destruct (Z.ltb_spec l (Z.abs m)); [lia|].
    destruct (Z.ltb_spec cap (Z.abs M)); [lia|]. destruct (Z.ltb_spec cap (Z.abs m)); [lia|]. cbn [orb].
    destruct (Z.ltb_spec lp (Z.abs (M - m))); [reflexivity|lia].
  - unfold in_range. intros Hr.
    destruct (Z.ltb_spec L 0); [reflexivity|]. destruct (Z.ltb_spec Lmax L); [reflexivity|]. cbn [orb].
    destruct (Z.ltb_spec l 0); [reflexivity|]. destruct (Z.ltb_spec lmax l); [reflexivity|]. cbn [orb].
    destruct (Z.ltb_spec lp 0); [reflexivity|]. destruct (Z.ltb_spec lpmax lp); [reflexivity|]. cbn [orb].
    destruct (Z.ltb_spec L (Z.abs M)); [reflexivity|]. destruct (Z.ltb_spec l (Z.abs m)); [reflexivity|]. lia.
  - intros Hr HM Hm Hw. rewrite (within_cap_eff _ _ _ _ L l lp) in Hw by auto. fold lall cap in Hw.
    destruct Hr as (R1 & R2 & R3).
    destruct (Z.ltb_spec L 0); [lia|]. destruct (Z.ltb_spec Lmax L); [lia|]. cbn [orb].
    destruct (Z.ltb_spec l 0); [lia|]. destruct (Z.ltb_spec lmax l); [lia|]. cbn [orb].
    destruct (Z.ltb_spec lp 0); [lia|]. destruct (Z.ltb_spec lpmax lp); [lia|]. cbn [orb].
    destruct (Z.ltb_spec L (Z.abs M)); [lia|]. destruct (Z.ltb_spec l (Z.abs m)); [lia|].
    destruct (Z.ltb_spec cap (Z.abs M)); [reflexivity|]. destruct (Z.ltb_spec cap (Z.abs m)); [reflexivity|]. lia.
Qed.

(* ---------- couplings ---------- *)

(** One exact query for the tables the code builds. *)
Lemma radd_ok a b : radd (Ok a) (Ok b) = Ok (a + b)%R. Proof. reflexivity. Qed.
Lemma rmul_ok a b : rmul (Ok a) (Ok b) = Ok (a * b)%R. Proof. reflexivity. Qed.
Lemma rscal_ok a b : rscal a (Ok b) = Ok (a * b)%R. Proof. reflexivity. Qed.

Lemma coupling_ok eval g Lmax lmax lpmax mcap terms lj mj li mi :
  exact_in eval g Lmax lmax lpmax mcap -> terms <> [] ->
  (forall t, In t terms -> 0 <= snd t <= lmax) ->
  0 <= lj <= Lmax -> 0 <= li <= lpmax -> Z.abs mj <= lj -> Z.abs mi <= li ->
  (mcap < 0 \/ Z.abs mj <= mcap) ->
  coupling terms g lj mj li mi = Ok (if mi =? mj then exact_coupling eval terms lj mj li mi else 0%R).
Proof.
  intros Hg Hne Ht Hj Hi Hmj Hmi Hc. unfold coupling. destruct (Z.eqb_spec mi mj) as [->|]; [cbn [negb]|reflexivity].
  assert (Hq : forall t, In t terms -> coeff g lj mj (snd t) 0 li = Ok (gaunt_coefficient eval lj mj (snd t) 0 li mj)).
  { intros t Hin. specialize (Ht t Hin). rewrite Hg; [|repeat split; lia|lia|lia|unfold within_cap; lia|lia].
    repeat f_equal; lia. }
  unfold exact_coupling. destruct terms as [|[c0 n0] rest]; [congruence|].
  pose proof (Hq (c0, n0) (or_introl eq_refl)) as Q0. cbn [snd] in Q0. rewrite Q0, rscal_ok.
  assert (G : forall r, (forall t, In t r -> In t ((c0, n0) :: rest)) -> forall s,
    fold_left (fun s t => radd s (rscal (fst t) (coeff g lj mj (snd t) 0 li))) r (Ok s) =
    Ok (s + lsum r (fun t => (fst t * gaunt_coefficient eval lj mj (snd t) 0 li mj)%R))%R).
  { induction r as [|t r IH]; intros Hr s; cbn [fold_left]; [f_equal; unfold lsum; simpl; ring|].
    rewrite (Hq t) by (apply Hr; now left). rewrite rscal_ok, radd_ok, IH by (intros; apply Hr; now right).
    f_equal. unfold lsum. simpl. ring. }
  rewrite G by (intros; now right). f_equal.
Qed.

Lemma mod_coeff_ok eval g Lmax lmax lpmax mcap lj mj L M li mi :
  exact_in eval g Lmax lmax lpmax mcap ->
  0 <= L -> Z.abs M <= L -> L + 2 <= Lmax -> L + 2 <= lpmax -> 2 <= lmax ->
  0 <= lj <= Lmax -> Z.abs mj <= lj -> 0 <= li <= lmax -> Z.abs mi <= li ->
  (mcap < 0 \/ (Z.abs M <= mcap /\ Z.abs mj <= mcap /\ Z.abs mi <= mcap)) ->
  mod_coeff g lj mj L M li mi =
  Ok (if mj =? M + mi then modified_gaunt_coefficient eval lj mj L M li mi else 0%R).
Proof.
  intros Hg HL HM H1 H2 H3 Hj Hmj Hi Hmi Hc. unfold mod_coeff.
  destruct (Z.eqb_spec mj (M + mi)) as [Em|]; [cbn [negb]|reflexivity].
  assert (Q1 : forall Lp, Z.abs M <= Lp -> 0 <= Lp <= L + 2 ->
     coeff g lj mj li mi Lp = Ok (gaunt_coefficient eval lj mj li mi Lp M)).
  { intros Lp A B. rewrite Hg; [|repeat split; lia|lia|lia|unfold within_cap; lia|lia]. repeat f_equal; lia. }
  assert (Q2 : forall Lp, Z.abs M <= Lp -> 0 <= Lp <= L + 2 ->
     coeff g Lp M 2 0 L = Ok (gaunt_coefficient eval Lp M 2 0 L M)).
  { intros Lp A B. rewrite Hg; [|repeat split; lia|lia|lia|unfold within_cap; lia|lia]. repeat f_equal; lia. }
  assert (Q0 : coeff g L M 0 0 L = Ok (gaunt_coefficient eval L M 0 0 L M)).
  { rewrite Hg; [|repeat split; lia|lia|lia|unfold within_cap; lia|lia]. repeat f_equal; lia. }
  rewrite Q0, Q1 by lia. rewrite rmul_ok, rscal_ok.
  assert (G : forall r, (forall Lp, In Lp r -> Z.abs M <= Lp /\ 0 <= Lp <= L + 2) -> forall s,
    fold_left (fun s Lp => radd s (rmul (coeff g Lp M 2 0 L) (coeff g lj mj li mi Lp))) r (Ok s) =
    Ok (fold_left (fun s Lp => Rplus s (Rmult (gaunt_coefficient eval Lp M 2 0 L M) (gaunt_coefficient eval lj mj li mi Lp M))) r s)).
  { induction r as [|t r IH]; intros Hr s; cbn [fold_left]; auto.
    destruct (Hr t (or_introl eq_refl)). rewrite Q2, Q1 by lia. rewrite rmul_ok, radd_ok. apply IH. intros; apply Hr; now right. }
  rewrite G; [rewrite rscal_ok, radd_ok; reflexivity|].
  intros Lp HLp. apply zrange_in in HLp. lia.
Qed.

(* ---------- the expansions ---------- *)

Lemma sqrt_pair a b q : (0 <= a)%R -> (0 <= b)%R -> (0 <= q)%R -> (a * b = q * q)%R -> (sqrt a * sqrt b = q)%R.
Proof. intros Ha Hb Hq E. rewrite <- sqrt_mult by auto. rewrite E. now apply sqrt_square. Qed.

Lemma Y_factor (c : R) (l : Z) (q : R) x : (0 <= l) -> (0 <= c)%R -> (0 <= q)%R ->
  (c * ((2 * IZR l + 1) / 4) = q * q)%R ->
  (sqrt (c * PI) * Yl0 l x = q * legendre l x)%R.
Proof.
  intros Hl Hc Hq E. unfold Yl0. rewrite <- Rmult_assoc. f_equal.
  assert (0 <= IZR l)%R by (apply IZR_le; lia). pose proof PI_RGT_0.
  apply sqrt_pair; auto.
  - apply Rmult_le_pos; lra.
  - apply Rmult_le_pos; [lra|]. left. apply Rinv_0_lt_compat. lra.
  - rewrite <- E. field. lra.
Qed.

Lemma expansions x :
  expansion cos1_terms x = x /\ expansion cos2_terms x = (x ^ 2)%R /\ expansion cos3_terms x = (x ^ 3)%R /\
  expansion cos4_terms x = (x ^ 4)%R /\ expansion cos5_terms x = (x ^ 5)%R /\
  expansion sin2_terms x = (1 - x ^ 2)%R /\ expansion cos2_sin2_terms x = (x ^ 2 * (1 - x ^ 2))%R /\
  (mod_const0 * Yl0 0 x + mod_const2 * Yl0 2 x = x ^ 2)%R.
Proof.
  pose proof (Y_factor 1 0 (1/2) x ltac:(lia) ltac:(lra) ltac:(lra) ltac:(simpl; field)) as Y0.
  pose proof (Y_factor (/ 3) 1 (1/2) x ltac:(lia) ltac:(lra) ltac:(lra) ltac:(simpl; field)) as Y1.
  pose proof (Y_factor 3 1 (3/2) x ltac:(lia) ltac:(lra) ltac:(lra) ltac:(simpl; field)) as Y1'.
  pose proof (Y_factor 5 2 (5/2) x ltac:(lia) ltac:(lra) ltac:(lra) ltac:(simpl; field)) as Y2.
  pose proof (Y_factor 7 3 (7/2) x ltac:(lia) ltac:(lra) ltac:(lra) ltac:(simpl; field)) as Y3.
  pose proof (Y_factor 1 4 (3/2) x ltac:(lia) ltac:(lra) ltac:(lra) ltac:(simpl; field)) as Y4.
  pose proof (Y_factor 11 5 (11/2) x ltac:(lia) ltac:(lra) ltac:(lra) ltac:(simpl; field)) as Y5.
  rewrite Rmult_1_l in Y0, Y4. replace (/ 3 * PI)%R with (PI / 3)%R in Y1 by (unfold Rdiv; ring).
  unfold expansion, cos1_terms, cos2_terms, cos3_terms, cos4_terms, cos5_terms, sin2_terms, cos2_sin2_terms,
    mod_const0, mod_const2. unfold lsum. cbn [fold_right map fst snd].
  cbn [legendre] in *.
  repeat split;
    repeat match goal with |- context [(?a * sqrt ?b * Yl0 ?l x)%R] =>
      replace (a * sqrt b * Yl0 l x)%R with (a * (sqrt b * Yl0 l x))%R by ring end;
    rewrite ?Y0, ?Y1, ?Y1', ?Y2, ?Y3, ?Y4, ?Y5; field.
Qed.

(* ---------- the tables of the basis classes ---------- *)

Lemma fold_max_ge l : forall s, s <= fold_left Z.max l s /\ forall x, In x l -> x <= fold_left Z.max l s.
Proof.
  induction l as [|y l IH]; intros s; simpl; [split; [lia|tauto]|].
  destruct (IH (Z.max s y)) as [H1 H2]. split; [lia|]. intros x [<-|Hx]; [lia|auto].
Qed.

Lemma fold_min_le l : forall s, fold_left Z.min l s <= s /\ forall x, In x l -> fold_left Z.min l s <= x.
Proof.
  induction l as [|y l IH]; intros s; simpl; [split; [lia|tauto]|].
  destruct (IH (Z.min s y)) as [H1 H2]. split; [lia|]. intros x [<-|Hx]; [lia|auto].
Qed.

Lemma zmax_list_ge l x : In x l -> x <= zmax_list l.
Proof. destruct l as [|y l]; simpl; [tauto|]. destruct (fold_max_ge l y) as [H1 H2]. intros [<-|H]; auto. Qed.

Lemma zmin_list_le l x : In x l -> zmin_list l <= x.
Proof. destruct l as [|y l]; simpl; [tauto|]. destruct (fold_min_le l y) as [H1 H2]. intros [<-|H]; auto. Qed.

Lemma mabs_ge l x : In x l -> Z.abs x <= Z.max (Z.abs (zmax_list l)) (Z.abs (zmin_list l)).
Proof. intros H. pose proof (zmax_list_ge l x H). pose proof (zmin_list_le l x H). lia. Qed.

Lemma diatomic_Lmax (sh : list (Z * Z)) li mi lj mj L : In (li, mi) sh -> In (lj, mj) sh ->
  Z.max (Z.abs (lj - li) - 2) (Z.abs (mj - mi)) <= L <= lj + li + 2 ->
  L <= fold_left (fun Lmax ij =>
      let '((li, mi), (lj, mj)) := ij in
      fold_left Z.max (zrange (Z.max (Z.abs (lj - li) - 2) (Z.abs (mj - mi))) (lj + li + 2)) Lmax)
      (list_prod sh sh) 0.
Proof.
  intros Hi Hj HL.
  assert (Hp : In ((li, mi), (lj, mj)) (list_prod sh sh)) by now apply in_prod.
  revert Hp. generalize (list_prod sh sh) as ps. generalize 0 as s.
  set (f := fun Lmax (ij : Z * Z * (Z * Z)) => let '((li, mi), (lj, mj)) := ij in
      fold_left Z.max (zrange (Z.max (Z.abs (lj - li) - 2) (Z.abs (mj - mi))) (lj + li + 2)) Lmax).
  assert (Hmono : forall ps s, s <= fold_left f ps s).
  { induction ps as [|[[a b] [c d]] ps IH]; intros s; simpl; [lia|].
    eapply Z.le_trans; [|apply IH]. apply (proj1 (fold_max_ge _ _)). }
  intros s ps. revert s. induction ps as [|p ps IH]; intros s Hp; [destruct Hp|].
  cbn [fold_left]. destruct Hp as [->|Hp]; [|now apply IH].
  eapply Z.le_trans; [|apply Hmono]. unfold f. apply (proj2 (fold_max_ge _ _)). apply zrange_in. lia.
Qed.

Lemma fold_max_nonneg (sh : list (Z * Z)) ps : 0 <= fold_left (fun Lmax (ij : Z * Z * (Z * Z)) =>
      let '((li, mi), (lj, mj)) := ij in
      fold_left Z.max (zrange (Z.max (Z.abs (lj - li) - 2) (Z.abs (mj - mi))) (lj + li + 2)) Lmax) ps 0.
Proof.
  assert (H : forall ps s, 0 <= s -> 0 <= fold_left (fun Lmax (ij : Z * Z * (Z * Z)) =>
      let '((li, mi), (lj, mj)) := ij in
      fold_left Z.max (zrange (Z.max (Z.abs (lj - li) - 2) (Z.abs (mj - mi))) (lj + li + 2)) Lmax) ps s).
  { induction ps0 as [|[[a b] [c d]] r IH]; intros s Hs; simpl; auto. apply IH.
    pose proof (proj1 (fold_max_ge (zrange (Z.max (Z.abs (c - a) - 2) (Z.abs (d - b))) (c + a + 2)) s)). lia. }
  apply H. lia.
Qed.

Lemma one_electron_terms t :
  In t (cos1_terms ++ cos2_terms ++ cos3_terms ++ cos4_terms ++ cos5_terms ++ sin2_terms ++ cos2_sin2_terms) ->
  0 <= snd t <= 5.
Proof.
  unfold cos1_terms, cos2_terms, cos3_terms, cos4_terms, cos5_terms, sin2_terms, cos2_sin2_terms. cbn [app In].
  intuition (subst; simpl; lia).
Qed.

Lemma one_electron_bound terms t : one_electron terms -> In t terms -> 0 <= snd t <= 5.
Proof.
  intros H Ht. apply one_electron_terms. rewrite !in_app_iff.
  unfold one_electron in H. cbn [In] in H. intuition (subst; auto 10).
Qed.

Lemma one_electron_ne terms : one_electron terms -> terms <> [].
Proof. unfold one_electron. cbn [In]. intuition (subst; discriminate). Qed.

Lemma diatomic_couplings_ok eval sh legendre : generator_ok eval -> shells_ok sh ->
  let '(lrval, midval, mcap) := diatomic_gaunt sh legendre in
  exists g, gaunt_table eval lrval midval lrval mcap = Ok g /\
  (forall terms li mi lj mj, one_electron terms -> In (li, mi) sh -> In (lj, mj) sh ->
     coupling terms g lj mj li mi = Ok (if mi =? mj then exact_coupling eval terms lj mj li mi else 0%R)) /\
  (legendre = true -> forall li mi lj mj L, In (li, mi) sh -> In (lj, mj) sh ->
     let M := mj - mi in Z.max (Z.abs (lj - li) - 2) (Z.abs M) <= L <= lj + li + 2 ->
     mod_coeff g lj mj L M li mi = Ok (modified_gaunt_coefficient eval lj mj L M li mi) /\
     coeff g lj mj L M li = Ok (gaunt_coefficient eval lj mj L M li mi)).
Proof.
  intros Hgen [Hne Hsh].
  assert (Hl : forall l m, In (l, m) sh -> Z.abs m <= l <= zmax_list (map fst sh)).
  { intros l m H. split; [now apply Hsh|]. apply zmax_list_ge. now apply (in_map fst) in H. }
  assert (Hm : forall l m, In (l, m) sh -> Z.abs m <= Z.max (Z.abs (zmax_list (map snd sh))) (Z.abs (zmin_list (map snd sh)))).
  { intros l m H. apply mabs_ge. now apply (in_map snd) in H. }
  unfold diatomic_gaunt. set (mx := zmax_list (map fst sh)) in *.
  set (mb := Z.max (Z.abs (zmax_list (map snd sh))) (Z.abs (zmin_list (map snd sh)))) in *.
  assert (Hmx : 0 <= mx). { destruct sh as [|[l m] r]; [congruence|]. specialize (Hl l m (or_introl eq_refl)). lia. }
  assert (Hmb : 0 <= mb) by (unfold mb; lia).
  destruct legendre.
  - set (Lmax := fold_left _ (list_prod sh sh) 0).
    assert (HLm : 0 <= Lmax) by apply (fold_max_nonneg sh).
    assert (HLx : forall li mi lj mj L, In (li, mi) sh -> In (lj, mj) sh ->
       Z.max (Z.abs (lj - li) - 2) (Z.abs (mj - mi)) <= L <= lj + li + 2 -> L <= Lmax)
      by (intros li mi lj mj L H1 H2 H3; exact (diatomic_Lmax sh li mi lj mj L H1 H2 H3)).
    assert (HA : Lmax + 2 <= Z.max (Lmax + 2) (mx + 2) /\ mx + 2 <= Z.max (Lmax + 2) (mx + 2)) by lia.
    assert (HB : Lmax <= Z.max Lmax 5 /\ 5 <= Z.max Lmax 5) by lia.
    clearbody Lmax mb. revert HA HB. generalize (Z.max (Lmax + 2) (mx + 2)) as A. generalize (Z.max Lmax 5) as B. intros B A HA HB.
    destruct (gaunt_table_ok eval A B A (2 * mb) Hgen) as (g & E & Hg); try lia.
    assert (Hex : exact_in eval g A B A (2 * mb)).
    { intros L M l m lp. apply (proj1 (Hg L M l m lp)). }
    exists g. split; [exact E|]. split.
    + intros terms li mi lj mj Ht Hi Hj. pose proof (Hl _ _ Hi). pose proof (Hl _ _ Hj). pose proof (Hm _ _ Hj).
      apply (coupling_ok eval g _ _ _ _ terms lj mj li mi Hex); try lia.
      * now apply one_electron_ne.
      * intros t Hin. pose proof (one_electron_bound terms t Ht Hin). lia.
    + intros _ li mi lj mj L Hi Hj HL. clear Hg. pose proof (Hl _ _ Hi). pose proof (Hl _ _ Hj). pose proof (Hm _ _ Hj). pose proof (Hm _ _ Hi).
      pose proof (HLx li mi lj mj L Hi Hj HL).

      assert (Hll : li <= Lmax).
      { apply (HLx li mi li mi li Hi Hi). replace (li - li) with 0 by lia. replace (mi - mi) with 0 by lia. simpl. lia. }
      split.
      * clear HLx Hl Hm. rewrite (mod_coeff_ok eval g _ _ _ _ lj mj L (mj - mi) li mi Hex); try lia.
        replace (mj =? mj - mi + mi) with true; [reflexivity|]. symmetry. apply Z.eqb_eq. lia.
      * rewrite Hex; [|repeat split; lia|lia|lia|unfold within_cap; lia|lia]. repeat f_equal; lia.
  - destruct (gaunt_table_ok eval (mx + 2) 5 (mx + 2) (2 * mb) Hgen) as (g & E & Hg); try lia.
    assert (Hex : exact_in eval g (mx + 2) 5 (mx + 2) (2 * mb)).
    { intros L M l m lp. apply (proj1 (Hg L M l m lp)). }
    exists g. split; [exact E|]. split; [|discriminate].
    intros terms li mi lj mj Ht Hi Hj. pose proof (Hl _ _ Hi). pose proof (Hl _ _ Hj). pose proof (Hm _ _ Hj).
    apply (coupling_ok eval g _ _ _ _ terms lj mj li mi Hex); try lia.
    + now apply one_electron_ne.
    + intros t Hin. apply (one_electron_bound terms t Ht Hin).
Qed.

(** The atomic tables GauntT(gmax, n, gmax): every query with l <= n. *)
Lemma atomic_couplings_ok eval sh n : generator_ok eval -> shells_ok sh -> 0 <= n ->
  let gmax := atomic_gmax sh in
  exists g, gaunt_table eval gmax n gmax (-1) = Ok g /\
  (forall li mi lj mj L, In (li, mi) sh -> In (lj, mj) sh -> 0 <= L <= n -> Z.abs (mj - mi) <= L ->
     coeff g lj mj L (mj - mi) li = Ok (gaunt_coefficient eval lj mj L (mj - mi) li mi)) /\
  (forall terms li mi lj mj, one_electron terms -> (forall t, In t terms -> snd t <= n) ->
     In (li, mi) sh -> In (lj, mj) sh ->
     coupling terms g lj mj li mi = Ok (if mi =? mj then exact_coupling eval terms lj mj li mi else 0%R)).
Proof.
  intros Hgen [Hne Hsh] Hn gmax.
  assert (Hl : forall l m, In (l, m) sh -> Z.abs m <= l <= gmax).
  { intros l m H. split; [now apply Hsh|]. unfold gmax, atomic_gmax.
    pose proof (zmax_list_ge (map fst sh) l ltac:(now apply (in_map fst) in H)). lia. }
  assert (Hg0 : 0 <= gmax). { destruct sh as [|[l m] r]; [congruence|]. specialize (Hl l m (or_introl eq_refl)). lia. }
  destruct (gaunt_table_ok eval gmax n gmax (-1) Hgen) as (g & E & Hg); try lia.
  assert (Hex : exact_in eval g gmax n gmax (-1)).
  { intros L M l m lp. apply (proj1 (Hg L M l m lp)). }
  exists g. split; [exact E|]. split.
  - intros li mi lj mj L Hi Hj HL HM. pose proof (Hl _ _ Hi). pose proof (Hl _ _ Hj).
    rewrite Hex; [|repeat split; lia|lia|lia|unfold within_cap; lia|lia]. repeat f_equal; lia.
  - intros terms li mi lj mj Ht Hb Hi Hj. pose proof (Hl _ _ Hi). pose proof (Hl _ _ Hj).
    apply (coupling_ok eval g _ _ _ _ terms lj mj li mi Hex); try lia.
    + now apply one_electron_ne.
    + intros t Hin. pose proof (one_electron_bound terms t Ht Hin). specialize (Hb t Hin). lia.
Qed.

(* ---------- a concrete generator ---------- *)

(** Not the Gaunt integral, but a function with its symmetries that does not
    vanish where they allow it. *)
Definition sample_eval (l1 m1 l2 m2 l3 m3 : Z) : R :=
  if (Z.abs (l1 - l2) <=? l3) && (l3 <=? l1 + l2) && (Z.rem (l1 + l2 + l3) 4 =? 0)
  then IZR (1 + l1 * l1 + l2 * l2 + l3 * l3 + Z.abs m1 + Z.abs m2 + Z.abs m3) else 0%R.

Lemma sample_ok : generator_ok sample_eval.
Proof.
  unfold generator_ok, sample_eval. split; [|split; [|split]].
  - intros. replace (l2 + l1 + l3) with (l1 + l2 + l3) by lia.
    replace ((Z.abs (l2 - l1) <=? l3) && (l3 <=? l2 + l1)) with ((Z.abs (l1 - l2) <=? l3) && (l3 <=? l1 + l2)) by lia.
    destruct (_ && _); auto. f_equal. lia.
  - intros. replace (l1 + l3 + l2) with (l1 + l2 + l3) by lia.
    replace ((Z.abs (l1 - l3) <=? l2) && (l2 <=? l1 + l3)) with ((Z.abs (l1 - l2) <=? l3) && (l3 <=? l1 + l2)) by lia.
    destruct (_ && _); auto. f_equal. lia.
  - intros. rewrite !Z.abs_opp. reflexivity.
  - intros l1 m1 l2 m2 l3 m3 [H|H].
    + unfold triangle in H. destruct (Z.leb_spec (Z.abs (2 * l1 - 2 * l2)) (2 * l3)); cbn [andb]; auto.
      destruct (Z.leb_spec (2 * l3) (2 * l1 + 2 * l2)); cbn [andb]; auto. lia.
    + replace (Z.rem (2 * l1 + 2 * l2 + 2 * l3) 4 =? 0) with false; [now rewrite andb_false_r|].
      symmetry. apply Z.eqb_neq. intros E. rewrite Z.odd_spec in H. destruct H as [k H].
      replace (2 * l1 + 2 * l2 + 2 * l3) with (2 * (l1 + l2 + l3)) in E by lia. rewrite H in E.
      replace (2 * (2 * k + 1)) with (4 * k + 2) in E by lia.
      apply Z.rem_divide in E; [|lia]. destruct E as [q E]. lia.
Qed.

Lemma sample_nontrivial : generator_ok sample_eval /\
  sample_eval 4 2 4 (-2) 4 0 <> sample_eval 4 0 4 0 8 0 /\ sample_eval 4 2 4 (-2) 4 0 <> 0%R.
Proof.
  split; [exact sample_ok|]. unfold sample_eval. simpl. split; [intros E; apply eq_IZR in E; lia|intros E; apply eq_IZR in E; lia].
Qed.

Lemma gaunt_exact_ok eval Lmax lmax lpmax mcap :
  generator_ok eval -> 0 <= Lmax -> 0 <= lmax -> 0 <= lpmax ->
  exists g, gaunt_table eval Lmax lmax lpmax mcap = Ok g /\ exact_in eval g Lmax lmax lpmax mcap.
Proof.
  intros H H1 H2 H3. destruct (gaunt_table_ok eval Lmax lmax lpmax mcap H H1 H2 H3) as (g & E & Hg).
  exists g. split; [exact E|]. intros L M l m lp. apply (proj1 (Hg L M l m lp)).
Qed.

Lemma in_range_dec Lmax lmax lpmax L l lp : in_range Lmax lmax lpmax L l lp \/ ~ in_range Lmax lmax lpmax L l lp.
Proof. unfold in_range. lia. Qed.
Lemma within_cap_dec Lmax lmax lpmax mcap M m :
  within_cap Lmax lmax lpmax mcap M m \/ ~ within_cap Lmax lmax lpmax mcap M m.
Proof. unfold within_cap. lia. Qed.

Lemma gaunt_total_ok eval Lmax lmax lpmax mcap g L M l m lp :
  generator_ok eval -> 0 <= Lmax -> 0 <= lmax -> 0 <= lpmax ->
  gaunt_table eval Lmax lmax lpmax mcap = Ok g ->
  ((exists x, coeff g L M l m lp = Ok x) \/ coeff g L M l m lp = Throw LogicError) /\
  (L < Z.abs M \/ l < Z.abs m -> coeff g L M l m lp = Ok 0%R) /\
  (within_cap Lmax lmax lpmax mcap M m -> lp < Z.abs (M - m) -> coeff g L M l m lp = Ok 0%R) /\
  (~ in_range Lmax lmax lpmax L l lp -> coeff g L M l m lp = Ok 0%R).
Proof.
  intros H H1 H2 H3 E'. destruct (gaunt_table_ok eval Lmax lmax lpmax mcap H H1 H2 H3) as (g' & E & Hg).
  rewrite E in E'. injection E' as ->. destruct (Hg L M l m lp) as (A & B & C & D). clear Hg E.
  assert (Hr := in_range_dec Lmax lmax lpmax L l lp). assert (Hc := within_cap_dec Lmax lmax lpmax mcap M m).
  assert (HM : Z.abs M <= L \/ L < Z.abs M) by (clear; lia).
  assert (Hm : Z.abs m <= l \/ l < Z.abs m) by (clear; lia).
  assert (Hp : Z.abs (M - m) <= lp \/ lp < Z.abs (M - m)) by (clear; lia).
  split; [|split; [|split]].
  - destruct Hr as [Hr|Hr]; [|left; eauto]. destruct HM as [HM|HM]; [|left; eauto]. destruct Hm as [Hm|Hm]; [|left; eauto].
    destruct Hc as [Hc|Hc]; [|right; auto]. left. destruct Hp as [Hp|Hp]; eauto.
  - intros [X|X]; apply C; auto.
  - intros X Y. destruct Hr as [Hr|Hr]; [|auto]. destruct HM as [HM|HM]; [|auto]. destruct Hm as [Hm|Hm]; auto.
  - intros X. apply C. auto.
Qed.

Lemma gaunt_cap_ok eval Lmax lmax lpmax mcap g L M l m lp :
  generator_ok eval -> 0 <= Lmax -> 0 <= lmax -> 0 <= lpmax ->
  gaunt_table eval Lmax lmax lpmax mcap = Ok g ->
  in_range Lmax lmax lpmax L l lp -> Z.abs M <= L -> Z.abs m <= l ->
  (coeff g L M l m lp = Throw LogicError <-> 0 <= mcap /\ (mcap < Z.abs M \/ mcap < Z.abs m)).
Proof.
  intros H H1 H2 H3 E' Hr HM Hm. destruct (gaunt_table_ok eval Lmax lmax lpmax mcap H H1 H2 H3) as (g' & E & Hg).
  rewrite E in E'. injection E' as ->. destruct (Hg L M l m lp) as (A & B & C & D). clear Hg E.
  assert (Hp : Z.abs (M - m) <= lp \/ lp < Z.abs (M - m)) by (clear; lia).
  split.
  - intros X. destruct (within_cap_dec Lmax lmax lpmax mcap M m) as [Hc|Hc].
    + destruct Hp as [Hp|Hp]; [rewrite A in X|rewrite B in X]; auto; discriminate.
    + unfold within_cap in Hc. clear - Hc. lia.
  - intros X. apply D; auto. unfold within_cap. clear - X. lia.
Qed.

Lemma gaunt_cap_example : exists g, gaunt_table sample_eval 4 4 4 1 = Ok g /\
  coeff g 2 1 2 (-1) 4 = Ok (gaunt_coefficient sample_eval 2 1 2 (-1) 4 2) /\
  gaunt_coefficient sample_eval 2 1 2 (-1) 4 2 <> 0%R /\
  coeff g 2 2 2 0 4 = Throw LogicError /\ coeff g 2 3 2 0 4 = Ok 0%R.
Proof.
  destruct (gaunt_table_ok sample_eval 4 4 4 1 sample_ok ltac:(lia) ltac:(lia) ltac:(lia)) as (g & E & Hg).
  exists g. split; [exact E|]. split; [|split; [|split]].
  - apply (proj1 (Hg 2 1 2 (-1) 4)); unfold in_range, within_cap; lia.
  - unfold gaunt_coefficient, sample_eval. simpl. intros X.
    assert (IZR 54 = 0%R) as Y by (unfold parity_sign in X; simpl in X; lra). apply eq_IZR in Y. lia.
  - apply (proj2 (proj2 (proj2 (Hg 2 2 2 0 4)))); unfold in_range, within_cap; lia.
  - apply (proj1 (proj2 (proj2 (Hg 2 3 2 0 4)))). right. left. lia.
Qed.

Lemma shells_example : shells_ok [(0, 0); (1, 0); (2, 0); (1, 1); (2, -2)] /\
  diatomic_gaunt [(0, 0); (1, 0); (2, 0); (1, 1); (2, -2)] true = (8, 6, 4).
Proof.
  split; [|reflexivity]. split; [discriminate|]. intros l m H. cbn [In] in H.
  intuition (match goal with H : _ = _ |- _ => injection H as <- <- end; lia).
Qed.
