(** Proofs about shells, symmetry blocks, boundary removal and tables. *)
Require Import Reals ZArith List Bool Arith Lia Permutation Sorted.
Require Import Verif.Prelude Verif.FEModel Verif.FESpec Verif.FEProofs Verif.AngModel Verif.AngSpec.
Import ListNotations.
Local Open Scope Z_scope.

(* ------------------------------------------------------------------ *)
(** ** Lists *)

Lemma zrange_in lo hi x : In x (zrange lo hi) <-> lo <= x <= hi.
Proof.
  unfold zrange. rewrite in_map_iff. split.
  - intros (i & <- & Hi). apply in_seq in Hi. lia.
  - intros H. exists (Z.to_nat (x - lo)). split; [lia|]. apply in_seq. lia.
Qed.

Lemma zrange_nodup lo hi : NoDup (zrange lo hi).
Proof.
  unfold zrange. apply FinFun.Injective_map_NoDup; [|apply seq_NoDup].
  intros a b H. lia.
Qed.

Lemma zrange_length lo hi : Z.of_nat (length (zrange lo hi)) = Z.max 0 (hi - lo + 1).
Proof. unfold zrange. rewrite map_length, seq_length. lia. Qed.

Lemma zrange_cons lo hi : lo <= hi -> zrange lo hi = lo :: zrange (lo + 1) hi.
Proof.
  intros H. unfold zrange.
  replace (Z.to_nat (hi - lo + 1)) with (S (Z.to_nat (hi - (lo + 1) + 1))) by lia.
  cbn [seq map]. f_equal. lia. rewrite <- seq_shift, map_map.
  apply map_ext. intros. lia.
Qed.

Lemma zrange_nil lo hi : hi < lo -> zrange lo hi = [].
Proof. intros H. unfold zrange. replace (Z.to_nat (hi - lo + 1)) with 0%nat by lia. reflexivity. Qed.

Lemma NoDup_flat_map {A B} (f : A -> list B) l :
  NoDup l -> (forall a, In a l -> NoDup (f a)) ->
  (forall a b x, In a l -> In b l -> In x (f a) -> In x (f b) -> a = b) ->
  NoDup (flat_map f l).
Proof.
  induction 1 as [|a l Hnin Hnd IH]; intros H1 H2; simpl; [constructor|].
  assert (Hf : NoDup (flat_map f l)).
  { apply IH; intros; [apply H1|eapply H2]; simpl; eauto. }
  assert (Hd : forall x, In x (f a) -> ~ In x (flat_map f l)).
  { intros x Hx Hx'. apply in_flat_map in Hx'. destruct Hx' as (b & Hb & Hxb).
    assert (a = b) by (eapply H2; simpl; eauto). subst. auto. }
  specialize (H1 a (or_introl eq_refl)). clear IH H2.
  induction H1; simpl; auto. constructor.
  - rewrite in_app_iff. intros [Hc|Hc]; auto. apply (Hd x); simpl; auto.
  - apply IHNoDup. intros y Hy. apply Hd. simpl; auto.
Qed.

Lemma NoDup_concat_map {A B} (f : A -> list B) l :
  NoDup (flat_map f l) -> NoDup (concat (map f l)).
Proof. rewrite flat_map_concat_map. auto. Qed.

Lemma map_flat_map {A B C} (g : B -> C) (f : A -> list B) l :
  map g (flat_map f l) = flat_map (fun a => map g (f a)) l.
Proof. induction l; simpl; auto. rewrite map_app, IHl. reflexivity. Qed.

Lemma filter_flat_map {A B} (p : B -> bool) (f : A -> list B) l :
  filter p (flat_map f l) = flat_map (fun a => filter p (f a)) l.
Proof. induction l; simpl; auto. rewrite filter_app, IHl. reflexivity. Qed.

Lemma flat_map_ext_in {A B} (f g : A -> list B) l :
  (forall a, In a l -> f a = g a) -> flat_map f l = flat_map g l.
Proof.
  induction l; intros H; simpl; auto. rewrite H by (simpl; auto).
  rewrite IHl; auto. intros; apply H; simpl; auto.
Qed.

Lemma flat_map_map {A B C} (f : B -> list C) (g : A -> B) l :
  flat_map f (map g l) = flat_map (fun a => f (g a)) l.
Proof. induction l; simpl; auto. rewrite IHl. reflexivity. Qed.

Lemma map_nth_seq {A} (d : A) l : map (fun i => nth i l d) (seq 0 (length l)) = l.
Proof.
  induction l; simpl; auto. f_equal. rewrite <- seq_shift, map_map. exact IHl.
Qed.

Lemma flat_map_nth {A B} (d : A) (f : A -> list B) l :
  flat_map f l = flat_map (fun i => f (nth i l d)) (seq 0 (length l)).
Proof. rewrite <- (map_nth_seq d l) at 1. apply flat_map_map. Qed.

Lemma seq_sorted a n : StronglySorted lt (seq a n).
Proof.
  revert a; induction n; intros a; simpl; constructor; auto.
  apply Forall_forall. intros x Hx. apply in_seq in Hx. lia.
Qed.

Lemma sorted_filter {A} (R : A -> A -> Prop) p l : StronglySorted R l -> StronglySorted R (filter p l).
Proof.
  induction 1; simpl; [constructor|]. destruct (p a); auto. constructor; auto.
  apply Forall_forall. intros x Hx. apply filter_In in Hx.
  rewrite Forall_forall in H0. apply H0. tauto.
Qed.

(* ------------------------------------------------------------------ *)
(** ** Angular enumerations *)

Lemma push_lm_in mabs l x : 0 <= mabs ->
  In x (push_lm mabs l) <-> fst x = l /\ Z.abs (snd x) = mabs.
Proof.
  intros H. unfold push_lm. destruct x as [a b]. destruct (Z.ltb_spec 0 mabs); simpl; split.
  - intros [E|[E|[]]]; inversion E; subst; lia.
  - intros [-> <-]. destruct (Z_le_gt_dec 0 b).
    + left. f_equal; lia.
    + right; left. f_equal; lia.
  - intros [E|[]]; inversion E; subst; lia.
  - intros [-> Hb]. left. f_equal; lia.
Qed.

Lemma push_lm_nodup mabs l : NoDup (push_lm mabs l).
Proof.
  unfold push_lm. destruct (Z.ltb_spec 0 mabs).
  - constructor; [simpl; intros [E|[]]; inversion E; lia|]. constructor; [simpl; tauto|constructor].
  - constructor; [simpl; tauto|constructor].
Qed.

Definition lm_row (lmaxf : Z -> Z) (mabs : Z) : list (Z * Z) :=
  flat_map (push_lm mabs) (zrange mabs (lmaxf mabs)).

Lemma lm_row_in lmaxf mabs x : 0 <= mabs ->
  In x (lm_row lmaxf mabs) <-> Z.abs (snd x) = mabs /\ mabs <= fst x <= lmaxf mabs.
Proof.
  intros H. unfold lm_row. rewrite in_flat_map. split.
  - intros (l & Hl & Hx). apply push_lm_in in Hx; auto. apply zrange_in in Hl. lia.
  - intros [H1 H2]. exists (fst x). rewrite zrange_in, push_lm_in; auto.
Qed.

Lemma lm_row_nodup lmaxf mabs : 0 <= mabs -> NoDup (lm_row lmaxf mabs).
Proof.
  intros H. apply NoDup_flat_map.
  - apply zrange_nodup.
  - intros; apply push_lm_nodup.
  - intros a b x _ _ Ha Hb. apply push_lm_in in Ha; auto. apply push_lm_in in Hb; auto. lia.
Qed.

Lemma lm_rows_nodup lmaxf ms : NoDup ms -> (forall m, In m ms -> 0 <= m) ->
  NoDup (flat_map (lm_row lmaxf) ms).
Proof.
  intros Hnd Hpos. apply NoDup_flat_map; auto.
  - intros. apply lm_row_nodup; auto.
  - intros a b x Ha Hb Hxa Hxb. apply lm_row_in in Hxa; auto. apply lm_row_in in Hxb; auto. lia.
Qed.

Lemma fold_count {A B} (f : A -> Z) (g : A -> list B) l a :
  (forall x, In x l -> f x = Z.of_nat (length (g x))) ->
  fold_left (fun n x => n + f x) l a = a + Z.of_nat (length (flat_map g l)).
Proof.
  revert a; induction l; intros a0 H; simpl; [lia|].
  rewrite IHl by (intros; apply H; simpl; auto). rewrite app_length, H by (simpl; auto). lia.
Qed.

Lemma sorted_app {A} (R : A -> A -> Prop) l1 l2 : StronglySorted R l1 -> StronglySorted R l2 ->
  (forall a b, In a l1 -> In b l2 -> R a b) -> StronglySorted R (l1 ++ l2).
Proof.
  induction 1; intros H2 H3; simpl; auto. constructor.
  - apply IHStronglySorted; auto. intros; apply H3; simpl; auto.
  - apply Forall_app; split; auto. apply Forall_forall. intros; apply H3; simpl; auto.
Qed.

Lemma sorted_flat_map {A B} (RA : A -> A -> Prop) (R : B -> B -> Prop) (f : A -> list B) l :
  StronglySorted RA l -> (forall a, In a l -> StronglySorted R (f a)) ->
  (forall a b x y, In a l -> In b l -> RA a b -> In x (f a) -> In y (f b) -> R x y) ->
  StronglySorted R (flat_map f l).
Proof.
  induction 1; intros H1 H2; simpl; [constructor|].
  apply sorted_app.
  - apply H1; simpl; auto.
  - apply IHStronglySorted; intros; [apply H1|eapply H2 with (a := a0) (b := b)]; simpl; auto.
  - intros x y Hx Hy. apply in_flat_map in Hy. destruct Hy as (b & Hb & Hy).
    rewrite Forall_forall in H0. eapply H2 with (a := a) (b := b); simpl; eauto.
Qed.

Lemma sorted_all {A} (R : A -> A -> Prop) l : (forall x y, In x l -> In y l -> R x y) -> StronglySorted R l.
Proof.
  induction l; intros H; constructor.
  - apply IHl. intros; apply H; simpl; auto.
  - apply Forall_forall. intros; apply H; simpl; auto.
Qed.

Lemma zrange_sorted lo hi : StronglySorted Z.lt (zrange lo hi).
Proof.
  unfold zrange. generalize (Z.to_nat (hi - lo + 1)). intros n.
  assert (forall a, StronglySorted Z.lt (map (fun i => lo + Z.of_nat i) (seq a n))).
  { induction n; intros a; simpl; constructor; auto.
    apply Forall_forall. intros x Hx. apply in_map_iff in Hx. destruct Hx as (y & <- & Hy).
    apply in_seq in Hy. lia. }
  apply H.
Qed.


Lemma lm_rows_sorted lmaxf ms : StronglySorted Z.lt ms -> (forall m, In m ms -> 0 <= m) ->
  StronglySorted lm_order (flat_map (lm_row lmaxf) ms).
Proof.
  intros Hs Hpos. eapply sorted_flat_map; eauto.
  - intros m Hm. unfold lm_row. eapply sorted_flat_map; [apply zrange_sorted| |].
    + intros l Hl. unfold push_lm. destruct (Z.ltb_spec 0 m).
      * constructor; [constructor; constructor|]. constructor; [|constructor].
        unfold lm_order; simpl; lia.
      * constructor; constructor.
    + intros a b x y Ha Hb Hab Hx Hy.
      apply push_lm_in in Hx; auto. apply push_lm_in in Hy; auto.
      unfold lm_order. lia.
  - intros a b x y Ha Hb Hab Hx Hy. apply lm_row_in in Hx; auto. apply lm_row_in in Hy; auto.
    unfold lm_order. lia.
Qed.

Lemma angular_basis_ok lmax mmax : 0 <= mmax ->
  exists sh, angular_basis lmax mmax = Ok sh /\ NoDup sh /\ StronglySorted lm_order sh /\
    forall l m, In (l, m) sh <-> 0 <= l <= lmax /\ Z.abs m <= Z.min l mmax.
Proof.
  intros Hm. unfold angular_basis.
  set (stored := flat_map (fun mabs => flat_map (push_lm mabs) (zrange mabs lmax)) (zrange 0 mmax)).
  change stored with (flat_map (lm_row (fun _ => lmax)) (zrange 0 mmax)).
  assert (Hpos : forall m, In m (zrange 0 mmax) -> 0 <= m) by (intros m H; apply zrange_in in H; lia).
  set (S := flat_map (lm_row (fun _ => lmax)) (zrange 0 mmax)).
  assert (Hnd : NoDup S) by (apply lm_rows_nodup; auto; apply zrange_nodup).
  assert (Hin : forall x, In x S <-> 0 <= fst x <= lmax /\ Z.abs (snd x) <= Z.min (fst x) mmax).
  { intros x. unfold S. rewrite in_flat_map. split.
    - intros (m & Hm' & Hx). apply lm_row_in in Hx; auto. apply zrange_in in Hm'. lia.
    - intros H. exists (Z.abs (snd x)). rewrite zrange_in, lm_row_in by lia. lia. }
  set (g := fun l => map (fun m => (l, m)) (zrange (- Z.min mmax l) (Z.min mmax l))).
  assert (Hcnt : fold_left (fun n l => n + (2 * Z.min mmax l + 1)) (zrange 0 lmax) 0
                 = Z.of_nat (length (flat_map g (zrange 0 lmax)))).
  { rewrite fold_count with (g := g); [lia|]. intros x Hx. apply zrange_in in Hx.
    unfold g. rewrite map_length, zrange_length. lia. }
  assert (Hlen : length (flat_map g (zrange 0 lmax)) = length S).
  { apply Permutation_length. apply NoDup_Permutation; auto.
    - apply NoDup_flat_map.
      + apply zrange_nodup.
      + intros a _. unfold g. apply FinFun.Injective_map_NoDup; [|apply zrange_nodup].
        intros u v E. inversion E; auto.
      + intros a b x _ _ Ha Hb. unfold g in *. apply in_map_iff in Ha, Hb.
        destruct Ha as (u & <- & _), Hb as (v & E & _). inversion E; auto.
    - intros x. rewrite Hin, in_flat_map. split.
      + intros (l & Hl & Hx). unfold g in Hx. apply in_map_iff in Hx. destruct Hx as (m & <- & Hx).
        apply zrange_in in Hl, Hx. simpl. lia.
      + intros H. exists (fst x). rewrite zrange_in. split; [lia|]. unfold g. apply in_map_iff.
        exists (snd x). rewrite zrange_in. destruct x; simpl in *. split; auto. lia. }
  rewrite Hcnt, Hlen.
  destruct (Z.ltb_spec (Z.of_nat (length S)) 0); [lia|].
  destruct (Z.ltb_spec (Z.of_nat (length S)) (Z.of_nat (length S))); [lia|].
  rewrite Z.eqb_refl. exists S. repeat split; auto.
  - apply lm_rows_sorted; auto. apply zrange_sorted.
  - apply Hin in H1; simpl in H1; lia.
  - apply Hin in H1; simpl in H1; lia.
  - apply Hin in H1; simpl in H1; lia.
  - intros H1. apply Hin. exact H1.
Qed.

Lemma lm_to_l_m_rows lmax :
  lm_to_l_m lmax = flat_map (lm_row (fun m => nth (Z.to_nat m) lmax 0)) (map Z.of_nat (seq 0 (length lmax))).
Proof.
  unfold lm_to_l_m. rewrite flat_map_map. apply flat_map_ext_in. intros a _.
  unfold lm_row. rewrite Nat2Z.id. reflexivity.
Qed.

Lemma of_nat_seq_sorted n a : StronglySorted Z.lt (map Z.of_nat (seq a n)).
Proof.
  revert a; induction n; intros a; simpl; constructor; auto.
  apply Forall_forall. intros x Hx. apply in_map_iff in Hx. destruct Hx as (y & <- & Hy).
  apply in_seq in Hy. lia.
Qed.

Lemma lm_to_l_m_ok lmax :
  NoDup (lm_to_l_m lmax) /\ StronglySorted lm_order (lm_to_l_m lmax) /\
  forall l m, In (l, m) (lm_to_l_m lmax) <->
    Z.abs m < Z.of_nat (length lmax) /\ Z.abs m <= l <= nth (Z.to_nat (Z.abs m)) lmax 0.
Proof.
  rewrite lm_to_l_m_rows.
  assert (Hpos : forall m, In m (map Z.of_nat (seq 0 (length lmax))) -> 0 <= m).
  { intros m H. apply in_map_iff in H. destruct H as (x & <- & _). lia. }
  split; [|split].
  - apply lm_rows_nodup; auto. apply FinFun.Injective_map_NoDup; [|apply seq_NoDup].
    intros a b H; lia.
  - apply lm_rows_sorted; auto. apply of_nat_seq_sorted.
  - intros l m. rewrite in_flat_map. split.
    + intros (a & Ha & Hx). pose proof (Hpos _ Ha). apply lm_row_in in Hx; auto. simpl in Hx.
      apply in_map_iff in Ha. destruct Ha as (i & <- & Hi). apply in_seq in Hi.
      destruct Hx as [Hx1 Hx2]. rewrite Hx1. lia.
    + intros [H1 H2]. exists (Z.abs m). split.
      * apply in_map_iff. exists (Z.to_nat (Z.abs m)). rewrite in_seq. lia.
      * apply lm_row_in; simpl; lia.
Qed.

Lemma filter_flat_map_row lmaxf ms m :
  (forall a, In a ms -> 0 <= a) ->
  map fst (filter (fun lm => snd lm =? m) (flat_map (lm_row lmaxf) ms)) =
  flat_map (fun a => if a =? Z.abs m then zrange a (lmaxf a) else []) ms.
Proof.
  intros Hpos. rewrite filter_flat_map, map_flat_map. apply flat_map_ext_in. intros a Ha.
  pose proof (Hpos _ Ha) as Hp. unfold lm_row. rewrite filter_flat_map, map_flat_map.
  assert (E : forall l, map fst (filter (fun lm : Z * Z => snd lm =? m) (push_lm a l)) =
                        if a =? Z.abs m then [l] else []).
  { intros l. unfold push_lm. destruct (Z.ltb_spec 0 a); cbn [filter snd];
      destruct (Z.eqb_spec a (Z.abs m)); destruct (Z.eqb_spec a m);
      try destruct (Z.eqb_spec (- a) m); try lia; reflexivity. }
  rewrite (flat_map_ext_in _ (fun l => if a =? Z.abs m then [l] else [])) by (intros; apply E).
  destruct (a =? Z.abs m).
  - induction (zrange a (lmaxf a)); simpl; auto. rewrite IHl. reflexivity.
  - induction (zrange a (lmaxf a)); simpl; auto.
Qed.

Lemma lm_to_l_m_mirrored lmax : mirrored (lm_to_l_m lmax).
Proof.
  intros m. rewrite lm_to_l_m_rows.
  rewrite !filter_flat_map_row; try (intros a H; apply in_map_iff in H; destruct H as (x & <- & _); lia).
  rewrite Z.abs_opp. reflexivity.
Qed.

(* ------------------------------------------------------------------ *)
(** ** collect_shell_indices and partitions *)

Definition posg {A} (d : A) (p : A -> bool) (l : list A) : list nat :=
  filter (fun g => p (nth g l d)) (seq 0 (length l)).

Lemma filter_map_comm {A B} (p : B -> bool) (f : A -> B) l :
  filter p (map f l) = map f (filter (fun a => p (f a)) l).
Proof. induction l; simpl; auto. destruct (p (f a)); simpl; rewrite IHl; reflexivity. Qed.

Lemma filter_ext_in' {A} (p q : A -> bool) l : (forall a, In a l -> p a = q a) -> filter p l = filter q l.
Proof. intros. apply filter_ext_in. auto. Qed.

Lemma posg_app {A} (d : A) p l1 l2 :
  posg d p (l1 ++ l2) = posg d p l1 ++ map (fun k => (length l1 + k)%nat) (posg d p l2).
Proof.
  unfold posg. rewrite app_length, seq_app, filter_app. f_equal.
  - apply filter_ext_in'. intros g Hg. apply in_seq in Hg. rewrite app_nth1 by lia. reflexivity.
  - replace (seq (0 + length l1) (length l2)) with (map (fun k => (length l1 + k)%nat) (seq 0 (length l2))).
    + rewrite filter_map_comm. f_equal. apply filter_ext_in'. intros g Hg.
      rewrite app_nth2 by lia. f_equal. f_equal. lia.
    + generalize (length l1) as a. intros a. simpl. rewrite (map_plus_seq a). reflexivity.
Qed.

Lemma posg_const {A} (d : A) p l b : (forall x, In x l -> p x = b) ->
  posg d p l = if b then seq 0 (length l) else [].
Proof.
  intros H. unfold posg.
  rewrite (filter_ext_in' _ (fun _ => b)).
  - destruct b.
    + induction (seq 0 (length l)); simpl; auto. rewrite IHl0. reflexivity.
    + induction (seq 0 (length l)); simpl; auto.
  - intros g Hg. apply in_seq in Hg. apply H. apply nth_In. lia.
Qed.

Lemma collect_posg {A} (d : A) n size match_ (F : nat -> list A) (p : A -> bool) :
  (forall i, (i < n)%nat -> length (F i) = size i) ->
  (forall i x, (i < n)%nat -> In x (F i) -> p x = match_ i) ->
  collect_shell_indices n size match_ = posg d p (flat_map F (seq 0 n)).
Proof.
  intros Hl Hp. unfold collect_shell_indices.
  match goal with |- snd (fold_left ?f _ _) = _ =>
    enough (E : fold_left f (seq 0 n) (0%nat, []) =
                (length (flat_map F (seq 0 n)), posg d p (flat_map F (seq 0 n)))) by (rewrite E; reflexivity)
  end.
  induction n.
  - reflexivity.
  - rewrite seq_S, fold_left_app, IHn;
      [|intros; apply Hl; lia|intros i x Hi Hx; apply Hp; auto; lia].
    simpl. rewrite flat_map_app, app_length. simpl. rewrite app_nil_r, Hl by lia. f_equal.
    rewrite posg_app. rewrite (posg_const d p (F n) (match_ n)) by (intros; apply Hp; auto; lia).
    rewrite Hl by lia. destruct (match_ n); simpl; auto. rewrite app_nil_r. reflexivity.
Qed.

Lemma posg_in {A} (d : A) p l g : In g (posg d p l) <-> (g < length l)%nat /\ p (nth g l d) = true.
Proof. unfold posg. rewrite filter_In, in_seq. split; intros [H1 H2]; split; auto; lia. Qed.

Lemma posg_nodup {A} (d : A) p l : NoDup (posg d p l).
Proof. apply NoDup_filter, seq_NoDup. Qed.

Lemma posg_map_nth {A} (d : A) p l : map (fun g => nth g l d) (posg d p l) = filter p l.
Proof.
  unfold posg. rewrite <- filter_map_comm. f_equal. apply map_nth_seq.
Qed.

Definition fd : bfun := (0, 0, 0%nat).

Lemma blocks_by_intro fs key labels (test : label -> bfun -> bool) :
  NoDup labels -> (forall f, In f fs -> In (key f) labels) ->
  (forall lab f, In lab labels -> In f fs -> (test lab f = true <-> key f = lab)) ->
  blocks_by fs key labels (map (fun lab => posg fd (test lab) fs) labels).
Proof.
  intros Hnd Hcov Htest. unfold blocks_by. split; [|split; [|split]]; auto.
  - apply NoDup_Permutation.
    + apply NoDup_concat_map, NoDup_flat_map; auto.
      * intros; apply posg_nodup.
      * intros a b g Ha Hb Hga Hgb. apply posg_in in Hga, Hgb.
        destruct Hga as [Hg Ha'], Hgb as [_ Hb'].
        apply Htest in Ha'; auto; [|apply nth_In; auto].
        apply Htest in Hb'; auto; [|apply nth_In; auto]. congruence.
    + apply seq_NoDup.
    + intros g. rewrite <- flat_map_concat_map, in_flat_map, in_seq. split.
      * intros (lab & _ & Hg). apply posg_in in Hg. lia.
      * intros Hg. assert (Hin : In (nth g fs fd) fs) by (apply nth_In; lia).
        exists (key (nth g fs fd)). split; auto. apply posg_in. split; [lia|].
        apply Htest; auto.
  - intros b Hb. apply in_map_iff in Hb. destruct Hb as (lab & <- & _).
    apply sorted_filter, seq_sorted.
  - clear Hcov. assert (forall ls, incl ls labels ->
      Forall2 (fun lab b => forall g, In g b <-> (g < length fs)%nat /\ key (fnth fs g) = lab)
        ls (map (fun lab => posg fd (test lab) fs) ls)).
    { induction ls; intros Hi; simpl; constructor.
      - intros g. rewrite posg_in. unfold fnth, fd.
        split; intros [H1 H2]; split; auto; eapply Htest; eauto; try (apply Hi; simpl; auto);
          apply nth_In; auto.
      - apply IHls. intros x Hx. apply Hi. simpl; auto. }
    apply H. apply incl_refl.
Qed.

(** ** unique_m *)

Lemma zinsert_perm x l : Permutation (zinsert x l) (x :: l).
Proof.
  induction l; simpl; auto. destruct (x <=? a); auto.
  eapply perm_trans; [apply perm_skip, IHl|apply perm_swap].
Qed.
Lemma zsort_perm l : Permutation (zsort l) l.
Proof.
  induction l; simpl; auto. eapply perm_trans; [apply zinsert_perm|]. constructor. auto.
Qed.
Lemma zinsert_sorted x l : StronglySorted Z.le l -> StronglySorted Z.le (zinsert x l).
Proof.
  induction 1; simpl; [constructor; constructor|].
  destruct (Z.leb_spec x a).
  - constructor; [constructor; auto|]. constructor; [lia|].
    rewrite Forall_forall in *. intros y Hy. specialize (H0 y Hy). lia.
  - constructor; auto. rewrite Forall_forall in *. intros y Hy.
    assert (Hy' : In y (x :: l)) by (eapply Permutation_in; [apply zinsert_perm|auto]).
    simpl in Hy'. destruct Hy' as [<-|Hy']; [lia|auto].
Qed.
Lemma zsort_sorted l : StronglySorted Z.le (zsort l).
Proof. induction l; simpl; [constructor|]. apply zinsert_sorted; auto. Qed.

Lemma uniq_fold (sh : list (Z * Z)) mv : NoDup mv ->
  let r := fold_left (fun mv lm => if existsb (Z.eqb (snd lm)) mv then mv else mv ++ [snd lm]) sh mv in
  NoDup r /\ forall m, In m r <-> In m mv \/ In m (map snd sh).
Proof.
  revert mv; induction sh; intros mv Hnd; simpl.
  - split; auto. intros; tauto.
  - destruct (existsb (Z.eqb (snd a)) mv) eqn:E.
    + destruct (IHsh mv Hnd) as [H1 H2]. split; auto. intros m. rewrite H2.
      apply existsb_exists in E. destruct E as (x & Hx & Ex). apply Z.eqb_eq in Ex. subst x.
      split; intros [H|H]; auto. destruct H; auto. subst; auto.
    + assert (Hn : ~ In (snd a) mv).
      { intros Hin. assert (existsb (Z.eqb (snd a)) mv = true).
        { apply existsb_exists. exists (snd a). rewrite Z.eqb_refl. auto. } congruence. }
      assert (Hnd' : NoDup (mv ++ [snd a])).
      { apply Permutation_NoDup with (l := snd a :: mv); [apply Permutation_cons_append|].
        constructor; auto. }
      destruct (IHsh _ Hnd') as [H1 H2]. split; auto. intros m. rewrite H2, in_app_iff. simpl. tauto.
Qed.

Lemma unique_m_ok sh : NoDup (unique_m sh) /\ (forall m, In m (unique_m sh) <-> In m (map snd sh)) /\
  StronglySorted Z.le (unique_m sh).
Proof.
  unfold unique_m. destruct (uniq_fold sh []) as [H1 H2]; [constructor|].
  set (r := fold_left _ _ _) in *. split; [|split].
  - eapply Permutation_NoDup; [apply Permutation_sym, zsort_perm|auto].
  - intros m. rewrite <- (proj1 (conj (H2 m) I)) || idtac.
    split; intros H.
    + apply (Permutation_in _ (zsort_perm r)) in H. apply H2 in H. simpl in H. tauto.
    + apply (Permutation_in _ (Permutation_sym (zsort_perm r))). apply H2. auto.
  - apply zsort_sorted.
Qed.

(** ** Functions *)

Lemma all_functions_nth sh Nrad :
  all_functions sh Nrad =
  flat_map (fun i => map (fun k => (shell sh i, k)) (seq 0 Nrad)) (seq 0 (length sh)).
Proof. unfold all_functions, shell. apply (flat_map_nth (0, 0)). Qed.

Lemma all_functions_length sh Nrad : length (all_functions sh Nrad) = (length sh * Nrad)%nat.
Proof.
  unfold all_functions. induction sh; simpl; auto.
  rewrite app_length, map_length, seq_length, IHsh. reflexivity.
Qed.

Lemma all_functions_in sh Nrad f : In f (all_functions sh Nrad) <-> In (fst f) sh /\ (bf_k f < Nrad)%nat.
Proof.
  unfold all_functions. rewrite in_flat_map. split.
  - intros (lm & Hlm & Hf). apply in_map_iff in Hf. destruct Hf as (k & <- & Hk).
    apply in_seq in Hk. simpl. split; auto. unfold bf_k; simpl; lia.
  - intros [H1 H2]. exists (fst f). split; auto. apply in_map_iff. exists (snd f).
    destruct f; simpl. split; auto. apply in_seq. unfold bf_k in H2; simpl in H2. lia.
Qed.

Lemma at_collect sh Nrad (q : Z * Z -> bool) :
  collect_shell_indices (length sh) (fun _ => Nrad) (fun i => q (shell sh i)) =
  posg fd (fun f => q (fst f)) (all_functions sh Nrad).
Proof.
  rewrite all_functions_nth. apply collect_posg.
  - intros. rewrite map_length, seq_length. reflexivity.
  - intros i x _ Hx. apply in_map_iff in Hx. destruct Hx as (k & <- & _). reflexivity.
Qed.

Lemma filter_survives lm Nrad :
  filter survives (map (fun k => (lm, k)) (seq 0 Nrad)) =
  if snd lm =? 0 then map (fun k => (lm, k)) (seq 0 Nrad)
  else map (fun k => (lm, k)) (seq 1 (Nrad - 1)).
Proof.
  rewrite filter_map_comm. destruct (Z.eqb_spec (snd lm) 0) as [E|E].
  - f_equal. apply filter_all. intros k _. unfold survives, bf_m. simpl. rewrite E. reflexivity.
  - f_equal. destruct Nrad; [reflexivity|]. simpl seq. cbn [filter].
    unfold survives at 1, bf_m, bf_k. simpl. destruct (Z.eqb_spec (snd lm) 0); [lia|]. simpl.
    rewrite Nat.sub_0_r. apply filter_all. intros k Hk. apply in_seq in Hk.
    unfold survives, bf_m, bf_k. simpl. destruct k; [lia|]. simpl. apply orb_true_r.
Qed.

Lemma pure_functions_nth sh Nrad :
  pure_functions sh Nrad =
  flat_map (fun i => filter survives (map (fun k => (shell sh i, k)) (seq 0 Nrad))) (seq 0 (length sh)).
Proof. unfold pure_functions. rewrite all_functions_nth. apply filter_flat_map. Qed.

Lemma di_size_ok sh Nrad i :
  length (filter survives (map (fun k => (shell sh i, k)) (seq 0 Nrad))) = di_shell_size sh Nrad i.
Proof.
  rewrite filter_survives. unfold di_shell_size.
  destruct (snd (shell sh i) =? 0); rewrite map_length, seq_length; reflexivity.
Qed.

Lemma di_collect sh Nrad (q : Z * Z -> bool) :
  collect_shell_indices (length sh) (di_shell_size sh Nrad) (fun i => q (shell sh i)) =
  posg fd (fun f => q (fst f)) (pure_functions sh Nrad).
Proof.
  rewrite pure_functions_nth. apply collect_posg.
  - intros. apply di_size_ok.
  - intros i x _ Hx. apply filter_In in Hx. destruct Hx as [Hx _].
    apply in_map_iff in Hx. destruct Hx as (k & <- & _). reflexivity.
Qed.

Lemma pure_functions_in sh Nrad f : In f (pure_functions sh Nrad) -> In (fst f) sh.
Proof. unfold pure_functions. rewrite filter_In, all_functions_in. tauto. Qed.

Lemma di_Nbf_length sh Nrad : (1 <= Nrad)%nat -> di_Nbf sh Nrad = length (pure_functions sh Nrad).
Proof.
  intros HN. unfold di_Nbf, pure_functions, all_functions.
  assert (forall a, fold_left (fun nbf lm => if snd lm =? 0 then (nbf + Nrad)%nat else (nbf + Nrad - 1)%nat) sh a
    = (a + length (filter survives (flat_map (fun lm => map (fun k => (lm, k)) (seq 0 Nrad)) sh)))%nat).
  { induction sh; intros n; [simpl; lia|]. cbn [fold_left flat_map].
    rewrite filter_app, app_length, filter_survives, IHsh.
    destruct (snd a =? 0); rewrite map_length, seq_length; lia. }
  apply (H 0%nat).
Qed.

(** ** Partitions *)

Lemma posg_true {A} (d : A) l : posg d (fun _ => true) l = seq 0 (length l).
Proof. apply (posg_const d (fun _ => true) l true). auto. Qed.

Definition sym_test (lab : label) (f : bfun) : bool :=
  match lab with
  | LabAll => true
  | LabM m => bf_m f =? m
  | LabLM l m => (bf_m f =? m) && (bf_l f =? l)
  | LabMP m odd => (bf_m f =? m) && (Z.rem (bf_l f) 2 =? (if odd then 1 else 0))
  | LabAbsM m => bf_m f =? m
  end.

Lemma rem_odd (l : Z) (odd : bool) : 0 <= l -> (Z.rem l 2 =? (if odd then 1 else 0)) = true <-> Z.odd l = odd.
Proof.
  intros H. rewrite Z.rem_mod_nonneg by lia. rewrite Zmod_odd.
  destruct (Z.odd l), odd; simpl; split; auto; discriminate.
Qed.

Lemma one_block fs : blocks_by fs (fun _ => LabAll) [LabAll] [seq 0 (length fs)].
Proof.
  rewrite <- (posg_true fd fs).
  apply (blocks_by_intro fs (fun _ => LabAll) [LabAll] sym_test).
  - constructor; [simpl; tauto|constructor].
  - simpl; auto.
  - intros lab f [<-|[]] _. simpl. tauto.
Qed.

Lemma atomic_blocks sh Nrad symm : NoDup sh -> (0 <= symm <= 2) ->
  exists blocks labels, at_get_sym_idx sh Nrad symm = Ok blocks /\
    at_get_sym_labels sh symm = Ok labels /\
    blocks_by (all_functions sh Nrad) (label_of symm true) labels blocks.
Proof.
  intros Hnd Hs. unfold at_get_sym_idx, at_get_sym_labels.
  assert (H : symm = 0 \/ symm = 1 \/ symm = 2) by lia. destruct H as [-> | [-> | ->]]; cbn [Z.eqb].
  - eexists _, _; split; [reflexivity|split; [reflexivity|]].
    unfold at_Nbf. rewrite <- all_functions_length. apply one_block.
  - eexists _, _; split; [reflexivity|split; [reflexivity|]].
    destruct (unique_m_ok sh) as (H1 & H2 & _).
    replace (map (at_m_indices sh Nrad) (unique_m sh)) with
      (map (fun lab => posg fd (sym_test lab) (all_functions sh Nrad)) (map LabM (unique_m sh))).
    2:{ rewrite map_map. apply map_ext. intros m. symmetry.
        apply (at_collect sh Nrad (fun lm => snd lm =? m)). }
    apply blocks_by_intro.
    + apply FinFun.Injective_map_NoDup; auto. intros a b E; inversion E; auto.
    + intros f Hf. apply all_functions_in in Hf. unfold label_of. cbn [Z.eqb Pos.eqb].
      apply in_map. apply H2. unfold bf_m. apply in_map. tauto.
    + intros lab f Hlab _. apply in_map_iff in Hlab. destruct Hlab as (m & <- & _).
      unfold label_of. cbn [Z.eqb Pos.eqb sym_test]. rewrite Z.eqb_eq. split; congruence.
  - eexists _, _; split; [reflexivity|split; [reflexivity|]].
    set (lb := fun i => LabLM (fst (shell sh i)) (snd (shell sh i))).
    replace (map (fun i => at_lm_indices sh Nrad (fst (shell sh i)) (snd (shell sh i))) (seq 0 (length sh))) with
      (map (fun lab => posg fd (sym_test lab) (all_functions sh Nrad)) (map lb (seq 0 (length sh)))).
    2:{ rewrite map_map. apply map_ext. intros i. symmetry.
        apply (at_collect sh Nrad (fun lm => (snd lm =? snd (shell sh i)) && (fst lm =? fst (shell sh i)))). }
    assert (E : map lb (seq 0 (length sh)) = map (fun lm => LabLM (fst lm) (snd lm)) sh).
    { rewrite <- (map_nth_seq (0, 0) sh) at 2. rewrite map_map. reflexivity. }
    rewrite E.
    apply blocks_by_intro.
    + apply FinFun.Injective_map_NoDup; auto. intros [a b] [c d] Heq; inversion Heq; auto.
    + intros f Hf. apply all_functions_in in Hf. unfold label_of. cbn [Z.eqb Pos.eqb].
      apply in_map_iff. exists (fst f). unfold bf_l, bf_m. tauto.
    + intros lab f Hlab _. apply in_map_iff in Hlab. destruct Hlab as (lm & <- & _).
      unfold label_of. cbn [Z.eqb Pos.eqb sym_test]. rewrite andb_true_iff, !Z.eqb_eq.
      split; [intros [-> ->]; reflexivity|intros Heq; inversion Heq; auto].
Qed.

Lemma atomic_sym_throws sh Nrad symm : symm < 0 \/ 2 < symm ->
  at_get_sym_idx sh Nrad symm = Throw LogicError /\ at_get_sym_labels sh symm = Throw LogicError.
Proof.
  intros H. unfold at_get_sym_idx, at_get_sym_labels.
  destruct (Z.eqb_spec symm 0); [lia|]. destruct (Z.eqb_spec symm 1); [lia|].
  destruct (Z.eqb_spec symm 2); [lia|]. auto.
Qed.

Lemma fold_max_ge (sh : list (Z * Z)) a : a <= fold_left (fun a x => Z.max a (snd x)) sh a /\
  forall x, In x sh -> snd x <= fold_left (fun a x => Z.max a (snd x)) sh a.
Proof.
  revert a; induction sh; intros a0; simpl; [split; [lia|tauto]|].
  destruct (IHsh (Z.max a0 (snd a))) as [H1 H2]. split; [lia|].
  intros x [<-|Hx]; [lia|auto].
Qed.
Lemma fold_min_le (sh : list (Z * Z)) a : fold_left (fun a x => Z.min a (snd x)) sh a <= a /\
  forall x, In x sh -> fold_left (fun a x => Z.min a (snd x)) sh a <= snd x.
Proof.
  revert a; induction sh; intros a0; simpl; [split; [lia|tauto]|].
  destruct (IHsh (Z.min a0 (snd a))) as [H1 H2]. split; [lia|].
  intros x [<-|Hx]; [lia|auto].
Qed.

Lemma absm_max_ok sh : sh <> [] -> exists mm, absm_max sh = Ok mm /\ 0 <= mm /\
  forall x, In x sh -> Z.abs (snd x) <= mm.
Proof.
  destruct sh as [|lm sh]; [congruence|]. intros _. unfold absm_max.
  eexists; split; [reflexivity|]. split; [lia|].
  destruct (fold_max_ge sh (snd lm)) as [H1 H2]. destruct (fold_min_le sh (snd lm)) as [H3 H4].
  intros x [<-|Hx]; [lia|]. specialize (H2 x Hx). specialize (H4 x Hx). lia.
Qed.

Lemma diatomic_blocks sh Nrad symm : (1 <= Nrad)%nat -> (forall l m, In (l, m) sh -> 0 <= l) ->
  (0 <= symm <= 2) ->
  exists blocks labels, di_get_sym_idx sh Nrad symm = Ok blocks /\
    di_get_sym_labels sh symm = Ok labels /\
    di_get_sym_mirror_idx sh Nrad symm = Ok (map (fun _ => []) blocks) /\
    blocks_by (pure_functions sh Nrad) (label_of symm false) labels blocks.
Proof.
  intros HN Hl Hs. unfold di_get_sym_mirror_idx. 
  assert (H : symm = 0 \/ symm = 1 \/ symm = 2) by lia.
  destruct (unique_m_ok sh) as (H1 & H2 & _).
  destruct H as [-> | [-> | ->]]; cbn [Z.eqb Pos.eqb negb]; unfold di_get_sym_idx, di_get_sym_labels;
    cbn [Z.eqb Pos.eqb bind].
  - eexists _, _; split; [reflexivity|split; [reflexivity|split; [reflexivity|]]].
    rewrite di_Nbf_length by auto. apply one_block.
  - eexists _, _; split; [reflexivity|split; [reflexivity|split; [reflexivity|]]].
    replace (map (di_m_indices sh Nrad) (unique_m sh)) with
      (map (fun lab => posg fd (sym_test lab) (pure_functions sh Nrad)) (map LabM (unique_m sh))).
    2:{ rewrite map_map. apply map_ext. intros m. symmetry.
        apply (di_collect sh Nrad (fun lm => snd lm =? m)). }
    apply blocks_by_intro.
    + apply FinFun.Injective_map_NoDup; auto. intros a b E; inversion E; auto.
    + intros f Hf. apply pure_functions_in in Hf. unfold label_of. cbn [Z.eqb Pos.eqb].
      apply in_map. apply H2. unfold bf_m. apply in_map. tauto.
    + intros lab f Hlab _. apply in_map_iff in Hlab. destruct Hlab as (m & <- & _).
      unfold label_of. cbn [Z.eqb Pos.eqb sym_test]. rewrite Z.eqb_eq. split; congruence.
  - eexists _, _; split; [reflexivity|split; [reflexivity|split; [reflexivity|]]].
    match goal with |- blocks_by _ _ ?labs ?bl =>
      replace bl with (map (fun lab => posg fd (sym_test lab) (pure_functions sh Nrad)) labs) end.
    2:{ rewrite map_flat_map. apply flat_map_ext_in. intros m _. cbn [map]. f_equal; [|f_equal].
        - symmetry. apply (di_collect sh Nrad (fun lm => (snd lm =? m) && (Z.rem (fst lm) 2 =? 0))).
        - symmetry. apply (di_collect sh Nrad (fun lm => (snd lm =? m) && (Z.rem (fst lm) 2 =? 1))). }
    apply blocks_by_intro.
    + apply NoDup_flat_map; auto.
      * intros m _. constructor; [simpl; intros [E|[]]; discriminate|].
        constructor; [simpl; tauto|constructor].
      * intros a b x _ _. simpl. intros [<-|[<-|[]]] [E|[E|[]]]; inversion E; auto.
    + intros f Hf. apply pure_functions_in in Hf. unfold label_of. cbn [Z.eqb Pos.eqb].
      apply in_flat_map. exists (bf_m f). split.
      * apply H2. unfold bf_m. apply in_map. auto.
      * destruct (Z.odd (bf_l f)); simpl; auto.
    + intros lab f Hlab Hf. apply pure_functions_in in Hf.
      assert (Hl' : 0 <= bf_l f). { unfold bf_l. destruct (fst f) as [l m] eqn:E. apply (Hl l m). simpl; auto. }
      apply in_flat_map in Hlab. destruct Hlab as (m & _ & Hlab).
      assert (E : exists odd, lab = LabMP m odd) by (destruct Hlab as [<-|[<-|[]]]; eauto).
      destruct E as [odd ->]. unfold label_of. cbn [Z.eqb Pos.eqb sym_test].
      rewrite andb_true_iff, Z.eqb_eq, rem_odd by auto.
      split; [intros [-> ->]; reflexivity|intros Heq; inversion Heq; auto].
Qed.

Lemma posg_filter_ext {A} (d : A) p q l : (forall x, p x = q x) -> posg d p l = posg d q l.
Proof. intros H. unfold posg. apply filter_ext. intros; apply H. Qed.

Lemma diatomic_blocks3 sh Nrad : sh <> [] -> (1 <= Nrad)%nat ->
  exists mm blocks mirrors,
    absm_max sh = Ok mm /\
    di_get_sym_idx sh Nrad 3 = Ok blocks /\ di_get_sym_mirror_idx sh Nrad 3 = Ok mirrors /\
    di_get_sym_labels sh 3 = Ok (map LabAbsM (zrange 0 mm)) /\
    Permutation (concat blocks ++ concat mirrors) (seq 0 (length (pure_functions sh Nrad))) /\
    (forall b, In b (blocks ++ mirrors) -> StronglySorted lt b) /\
    Forall2 (fun a b => forall g, In g b <->
       (g < length (pure_functions sh Nrad))%nat /\ bf_m (fnth (pure_functions sh Nrad) g) = a)
      (zrange 0 mm) blocks /\
    Forall2 (fun a b => forall g, In g b <->
       (g < length (pure_functions sh Nrad))%nat /\ a <> 0 /\ bf_m (fnth (pure_functions sh Nrad) g) = - a)
      (zrange 0 mm) mirrors /\
    (mirrored sh -> Forall2 (fun a bm => a <> 0 ->
        map (fun g => let f := fnth (pure_functions sh Nrad) g in (bf_l f, bf_k f)) (fst bm) =
        map (fun g => let f := fnth (pure_functions sh Nrad) g in (bf_l f, bf_k f)) (snd bm))
      (zrange 0 mm) (combine blocks mirrors)).
Proof.
  intros Hne HN. destruct (absm_max_ok sh Hne) as (mm & Hmm & Hmm0 & Hmax).
  unfold di_get_sym_mirror_idx, di_get_sym_idx, di_get_sym_labels. cbn [Z.eqb Pos.eqb negb].
  rewrite Hmm. cbn [bind]. exists mm.
  set (fs := pure_functions sh Nrad).
  assert (HB : forall m, di_m_indices sh Nrad m = posg fd (fun f => bf_m f =? m) fs).
  { intros m. apply (di_collect sh Nrad (fun lm => snd lm =? m)). }
  eexists _, _. split; [reflexivity|split; [reflexivity|split; [reflexivity|split; [reflexivity|]]]].
  assert (HBin : forall a g, In g (di_m_indices sh Nrad a) <-> (g < length fs)%nat /\ bf_m (fnth fs g) = a).
  { intros a g. rewrite HB, posg_in, Z.eqb_eq. reflexivity. }
  set (mir := fun m => if negb (m =? 0) then di_m_indices sh Nrad (- m) else []).
  assert (HMin : forall a g, In g (mir a) <-> (g < length fs)%nat /\ a <> 0 /\ bf_m (fnth fs g) = - a).
  { intros a g. unfold mir. destruct (Z.eqb_spec a 0); simpl.
    - split; [tauto|]. intros (_ & H & _). auto.
    - rewrite HBin. tauto. }
  assert (HMsort : forall a, StronglySorted lt (mir a)).
  { intros a. unfold mir. destruct (negb (a =? 0)); [rewrite HB; apply sorted_filter, seq_sorted|constructor]. }
  assert (Habs : forall g, (g < length fs)%nat -> Z.abs (bf_m (fnth fs g)) <= mm).
  { intros g Hg. apply Hmax. apply (pure_functions_in sh Nrad). apply nth_In. auto. }
  split; [|split; [|split; [|split]]].
  - apply NoDup_Permutation.
    + rewrite <- !flat_map_concat_map.
      assert (N1 : NoDup (flat_map (di_m_indices sh Nrad) (zrange 0 mm))).
      { apply NoDup_flat_map; [apply zrange_nodup| |].
        - intros. rewrite HB. apply posg_nodup.
        - intros a b x _ _ Ha Hb. apply HBin in Ha, Hb. lia. }
      assert (N2 : NoDup (flat_map mir (zrange 0 mm))).
      { apply NoDup_flat_map; [apply zrange_nodup| |].
        - intros a _. unfold mir. destruct (negb (a =? 0)); [rewrite HB; apply posg_nodup|constructor].
        - intros a b x _ _ Ha Hb. apply HMin in Ha, Hb. lia. }
      assert (D : forall x, In x (flat_map (di_m_indices sh Nrad) (zrange 0 mm)) -> ~ In x (flat_map mir (zrange 0 mm))).
      { intros x Hx Hy. apply in_flat_map in Hx, Hy. destruct Hx as (a & Ha & Hx), Hy as (b & Hb & Hy).
        apply zrange_in in Ha, Hb. apply HBin in Hx. apply HMin in Hy. lia. }
      revert N1 N2 D. generalize (flat_map mir (zrange 0 mm)) as l2.
      generalize (flat_map (di_m_indices sh Nrad) (zrange 0 mm)) as l1.
      intros l1 l2 N1 N2 D. induction N1; simpl; auto. constructor.
      * rewrite in_app_iff. intros [Hc|Hc]; auto. apply (D x); simpl; auto.
      * apply IHN1. intros y Hy. apply D. simpl; auto.
    + apply seq_NoDup.
    + intros g. rewrite in_app_iff, <- !flat_map_concat_map, !in_flat_map, in_seq. split.
      * intros [(a & _ & Hg)|(a & _ & Hg)]; [apply HBin in Hg|apply HMin in Hg]; lia.
      * intros Hg. specialize (Habs g). destruct (Z_le_gt_dec 0 (bf_m (fnth fs g))).
        -- left. exists (bf_m (fnth fs g)). rewrite zrange_in, HBin. lia.
        -- right. exists (- bf_m (fnth fs g)). rewrite zrange_in, HMin. lia.
  - intros b Hb. apply in_app_iff in Hb. destruct Hb as [Hb|Hb]; apply in_map_iff in Hb;
      destruct Hb as (a & <- & _).
    + rewrite HB. apply sorted_filter, seq_sorted.
    + apply HMsort.
  - induction (zrange 0 mm); simpl; constructor; auto.
  - fold mir. induction (zrange 0 mm); simpl; constructor; auto.
  - intros Hmir. fold mir.
    assert (HE : forall a, a <> 0 ->
      map (fun g => let f := fnth fs g in (bf_l f, bf_k f)) (di_m_indices sh Nrad a) =
      map (fun g => let f := fnth fs g in (bf_l f, bf_k f)) (mir a)).
    { intros a Ha. unfold mir. destruct (Z.eqb_spec a 0); [lia|]. simpl negb. cbv iota.
      assert (G : forall c, c <> 0 ->
        map (fun g => let f := fnth fs g in (bf_l f, bf_k f)) (di_m_indices sh Nrad c) =
        flat_map (fun l => map (fun k => (l, k)) (seq 1 (Nrad - 1)))
          (map fst (filter (fun lm => snd lm =? c) sh))).
      { intros c Hc. rewrite HB.
        rewrite <- (map_map (fun g => fnth fs g) (fun f => (bf_l f, bf_k f))).
        change (fun g => fnth fs g) with (fun g => nth g fs fd). rewrite posg_map_nth.
        unfold fs, pure_functions, all_functions. clear -Hc.
        induction sh as [|lm sh IH]; [reflexivity|].
        cbn [flat_map filter]. rewrite !filter_app, map_app, IH, filter_survives. clear IH.
        destruct (Z.eqb_spec (snd lm) c) as [E|E].
        - cbn [map flat_map]. f_equal.
          destruct (Z.eqb_spec (snd lm) 0); [lia|].
          rewrite filter_map_comm, filter_all, map_map.
          + reflexivity.
          + intros k _. unfold bf_m. simpl. rewrite E. apply Z.eqb_refl.
        - rewrite filter_map_comm || idtac.
          match goal with |- map _ (filter _ (if ?b then ?x else ?y)) ++ _ = _ =>
            assert (Hnil : filter (fun f : bfun => bf_m f =? c) (if b then x else y) = []) end.
          { destruct (snd lm =? 0); rewrite filter_map_comm;
            (match goal with |- map _ (filter ?p ?l) = _ =>
               assert (Hn : filter p l = []) by
                 (clear -E; induction l; simpl; auto; unfold bf_m at 1; simpl;
                  destruct (Z.eqb_spec (snd lm) c); [congruence|auto]) end;
             rewrite Hn; reflexivity). }
          rewrite Hnil. reflexivity. }
      rewrite G, G by lia. rewrite (Hmir a). reflexivity. }
    induction (zrange 0 mm); simpl; constructor; auto. exact (HE a).
Qed.

Lemma diatomic_sym_throws sh Nrad symm : symm < 0 \/ 3 < symm ->
  di_get_sym_idx sh Nrad symm = Throw LogicError /\ di_get_sym_labels sh symm = Throw LogicError /\
  di_get_sym_mirror_idx sh Nrad symm = Throw LogicError.
Proof.
  intros H. unfold di_get_sym_mirror_idx, di_get_sym_idx, di_get_sym_labels.
  destruct (Z.eqb_spec symm 0); [lia|]. destruct (Z.eqb_spec symm 1); [lia|].
  destruct (Z.eqb_spec symm 2); [lia|]. destruct (Z.eqb_spec symm 3); [lia|]. auto.
Qed.

(* ------------------------------------------------------------------ *)
(** ** Boundary removal *)

Lemma posg_flat_map {A} (d : A) p (F : nat -> list A) N n :
  (forall i, (i < n)%nat -> length (F i) = N) ->
  posg d p (flat_map F (seq 0 n)) =
  flat_map (fun i => map (fun k => (i * N + k)%nat) (posg d p (F i))) (seq 0 n).
Proof.
  induction n; intros H; [reflexivity|].
  rewrite seq_S, !flat_map_app, posg_app, IHn by (intros; apply H; lia).
  f_equal. cbn [flat_map Nat.add]. rewrite !app_nil_r. apply map_ext. intros k.
  f_equal. clear IHn.
  assert (forall m, (m <= n)%nat -> length (flat_map F (seq 0 m)) = (m * N)%nat).
  { induction m; intros Hm; [reflexivity|]. rewrite seq_S, flat_map_app, app_length, IHm by lia.
    simpl. rewrite app_nil_r, H by lia. lia. }
  apply H0. lia.
Qed.

Lemma posg_survives lm Nrad :
  posg fd survives (map (fun k => (lm, k)) (seq 0 Nrad)) =
  if snd lm =? 0 then seq 0 Nrad else seq 1 (Nrad - 1).
Proof.
  unfold posg. rewrite map_length, seq_length.
  rewrite (filter_ext_in' _ (fun g => (snd lm =? 0) || negb (Nat.eqb g 0))).
  - destruct (snd lm =? 0).
    + apply filter_all. auto.
    + destruct Nrad; [reflexivity|]. simpl seq. cbn [filter Nat.eqb orb negb].
      rewrite Nat.sub_0_r. apply filter_all. intros k Hk. apply in_seq in Hk.
      destruct k; [lia|]. reflexivity.
  - intros g Hg. apply in_seq in Hg.
    rewrite nth_indep with (d' := (lm, 0%nat)) by (rewrite map_length, seq_length; lia).
    rewrite (map_nth (fun k => (lm, k))). rewrite seq_nth by lia. reflexivity.
Qed.

Lemma pure_indices_positions sh Nrad :
  pure_indices sh Nrad = positions survives (all_functions sh Nrad).
Proof.
  change (positions survives (all_functions sh Nrad)) with (posg fd survives (all_functions sh Nrad)).
  rewrite all_functions_nth, posg_flat_map with (N := Nrad).
  2:{ intros. rewrite map_length, seq_length. reflexivity. }
  unfold pure_indices. apply flat_map_ext_in. intros i _. rewrite posg_survives.
  destruct (snd (shell sh i) =? 0); [reflexivity|].
  rewrite <- (map_plus_seq 1 (Nrad - 1)), map_map. apply map_ext. intros. lia.
Qed.

Lemma positions_length p fs : length (positions p fs) = length (filter p fs).
Proof.
  rewrite <- (posg_map_nth fd p fs). rewrite map_length. reflexivity.
Qed.

Lemma positions_nodup p fs : NoDup (positions p fs).
Proof. apply (posg_nodup fd). Qed.

Lemma positions_lt p fs g : In g (positions p fs) -> (g < length fs)%nat.
Proof. intros H. apply (posg_in fd) in H. tauto. Qed.

Lemma remove_ok sh Nrad F : drows F = (length sh * Nrad)%nat -> dcols F = (length sh * Nrad)%nat ->
  exists G, remove_boundaries sh Nrad F = Ok G /\
    let surv := positions survives (all_functions sh Nrad) in
    drows G = length surv /\ dcols G = length surv /\
    forall i j, dent G i j = dent F (nth i surv 0%nat) (nth j surv 0%nat).
Proof.
  intros H1 H2. unfold remove_boundaries, di_Ndummy. rewrite H1, H2, Nat.eqb_refl.
  eexists; split; [reflexivity|]. rewrite pure_indices_positions. simpl. auto.
Qed.

Lemma remove_throws sh Nrad F : drows F <> (length sh * Nrad)%nat \/ dcols F <> (length sh * Nrad)%nat ->
  remove_boundaries sh Nrad F = Throw LogicError.
Proof.
  intros H. unfold remove_boundaries, di_Ndummy.
  destruct (Nat.eqb_spec (drows F) (length sh * Nrad)), (Nat.eqb_spec (dcols F) (length sh * Nrad));
    simpl; auto. lia.
Qed.

Lemma expand_throws sh Nrad P :
  let n := length (positions survives (all_functions sh Nrad)) in
  drows P <> n \/ dcols P <> n -> expand_boundaries sh Nrad P = Throw LogicError.
Proof.
  intros n H. unfold expand_boundaries. rewrite pure_indices_positions. fold n.
  destruct (Nat.eqb_spec (drows P) n), (Nat.eqb_spec (dcols P) n); simpl; auto. lia.
Qed.

Lemma fold_store_miss {K} (r c : K -> nat) (v : K -> R) L M a b :
  (forall x, In x L -> ~ (r x = a /\ c x = b)) ->
  fold_left (fun M x => store M (r x) (c x) (v x)) L M a b = M a b.
Proof.
  revert M; induction L; intros M H; simpl; auto.
  rewrite IHL by (intros; apply H; simpl; auto). unfold store.
  destruct (Nat.eqb_spec a (r a0)), (Nat.eqb_spec b (c a0)); simpl; auto.
  exfalso. apply (H a0); simpl; auto.
Qed.

Lemma fold_store_hit {K} (r c : K -> nat) (v : K -> R) L M x0 :
  In x0 L -> (forall x, In x L -> r x = r x0 -> c x = c x0 -> v x = v x0) ->
  fold_left (fun M x => store M (r x) (c x) (v x)) L M (r x0) (c x0) = v x0.
Proof.
  revert M x0; induction L as [|y L IH]; intros M x0 Hin H; [destruct Hin|]. cbn [fold_left].
  assert (D : {exists x, In x L /\ r x = r x0 /\ c x = c x0} + {forall x, In x L -> ~ (r x = r x0 /\ c x = c x0)}).
  { clear. induction L as [|z L [IH|IH]].
    - right. simpl; tauto.
    - left. destruct IH as (x & H & H'). exists x; simpl; auto.
    - destruct (Nat.eq_dec (r z) (r x0)), (Nat.eq_dec (c z) (c x0)).
      + left. exists z; simpl; auto.
      + right. intros x [<-|Hx]; [tauto|auto].
      + right. intros x [<-|Hx]; [tauto|auto].
      + right. intros x [<-|Hx]; [tauto|auto]. }
  destruct D as [(x & Hx & E1 & E2)|D].
  - rewrite <- E1, <- E2. rewrite IH.
    + apply H; simpl; auto.
    + auto.
    + intros z Hz E3 E4. rewrite (H z), (H x); simpl; auto; congruence.
  - destruct Hin as [<-|Hin]; [|exfalso; apply (D x0); auto].
    rewrite fold_store_miss by auto. unfold store. rewrite !Nat.eqb_refl. reflexivity.
Qed.

Lemma fold_left_flat {A B S} (g : S -> B -> S) (f : A -> list B) l s :
  fold_left g (flat_map f l) s = fold_left (fun s a => fold_left g (f a) s) l s.
Proof. revert s; induction l; intros s; simpl; auto. rewrite fold_left_app. apply IHl. Qed.

Lemma fold_left_map {A B S} (g : S -> B -> S) (f : A -> B) l s :
  fold_left g (map f l) s = fold_left (fun s a => g s (f a)) l s.
Proof. revert s; induction l; intros s; simpl; auto. Qed.

Lemma fold_left_ext {A S} (g h : S -> A -> S) l s :
  (forall s a, g s a = h s a) -> fold_left g l s = fold_left h l s.
Proof. intros H. revert s; induction l; intros s; simpl; auto. rewrite H. apply IHl. Qed.

Lemma expand_ok sh Nrad P :
  let surv := positions survives (all_functions sh Nrad) in
  drows P = length surv -> dcols P = length surv ->
  exists Q, expand_boundaries sh Nrad P = Ok Q /\
    drows Q = (length sh * Nrad)%nat /\ dcols Q = (length sh * Nrad)%nat /\
    (forall i j, (i < length surv)%nat -> (j < length surv)%nat ->
       dent Q (nth i surv 0%nat) (nth j surv 0%nat) = dent P i j) /\
    (forall r c, (~ In r surv \/ ~ In c surv) -> dent Q r c = 0%R).
Proof.
  intros surv H1 H2. unfold expand_boundaries. rewrite pure_indices_positions. fold surv.
  rewrite H1, H2, Nat.eqb_refl. simpl negb. cbn [orb]. eexists; split; [reflexivity|].
  cbn [drows dcols dent]. split; [reflexivity|split; [reflexivity|]].
  set (n := length surv).
  set (L := flat_map (fun j => map (fun i => (i, j)) (seq 0 n)) (seq 0 n)).
  assert (E : forall M, fold_left (fun M j => fold_left (fun M i =>
             store M (nth i surv 0%nat) (nth j surv 0%nat) (dent P i j)) (seq 0 n) M) (seq 0 n) M =
           fold_left (fun M x => store M (nth (fst x) surv 0%nat) (nth (snd x) surv 0%nat) (dent P (fst x) (snd x))) L M).
  { intros M. unfold L. rewrite fold_left_flat. apply fold_left_ext. intros s j.
    rewrite fold_left_map. reflexivity. }
  rewrite E.
  assert (HL : forall x, In x L <-> (fst x < n)%nat /\ (snd x < n)%nat).
  { intros [i j]. unfold L. rewrite in_flat_map. simpl. split.
    - intros (j' & Hj & Hx). apply in_map_iff in Hx. destruct Hx as (i' & E' & Hi). inversion E'; subst.
      apply in_seq in Hi, Hj. lia.
    - intros [Hi Hj]. exists j. split; [apply in_seq; lia|]. apply in_map_iff. exists i.
      split; auto. apply in_seq; lia. }
  assert (Hnd : NoDup surv) by apply positions_nodup.
  assert (Hinj : forall i j, (i < n)%nat -> (j < n)%nat -> nth i surv 0%nat = nth j surv 0%nat -> i = j).
  { intros i j Hi Hj Hn. eapply NoDup_nth; eauto. }
  split.
  - intros i j Hi Hj.
    apply (fold_store_hit (fun x => nth (fst x) surv 0%nat) (fun x => nth (snd x) surv 0%nat)
             (fun x => dent P (fst x) (snd x)) L mzero (i, j)).
    + apply HL. auto.
    + intros [a b] Hx Ha Hb. apply HL in Hx. simpl in *.
      apply Hinj in Ha; try tauto. apply Hinj in Hb; try tauto. subst. reflexivity.
  - intros r c Hrc.
    rewrite (fold_store_miss (fun x => nth (fst x) surv 0%nat) (fun x => nth (snd x) surv 0%nat)
             (fun x => dent P (fst x) (snd x)) L mzero r c).
    + reflexivity.
    + intros x Hx [Hr Hc]. apply HL in Hx. destruct Hx as [Hx1 Hx2].
      destruct Hrc as [H|H]; apply H; [rewrite <- Hr|rewrite <- Hc]; apply nth_In; auto.
Qed.

Lemma remove_expand sh Nrad P :
  let n := length (positions survives (all_functions sh Nrad)) in
  drows P = n -> dcols P = n ->
  exists Q G, expand_boundaries sh Nrad P = Ok Q /\ remove_boundaries sh Nrad Q = Ok G /\
    drows G = n /\ dcols G = n /\
    forall i j, (i < n)%nat -> (j < n)%nat -> dent G i j = dent P i j.
Proof.
  intros n H1 H2. destruct (expand_ok sh Nrad P H1 H2) as (Q & HQ & HQ1 & HQ2 & HQ3 & _).
  destruct (remove_ok sh Nrad Q HQ1 HQ2) as (G & HG & HG1 & HG2 & HG3).
  exists Q, G. repeat split; auto. intros i j Hi Hj. rewrite HG3. apply HQ3; auto.
Qed.

Lemma map_find_some key l : NoDup l -> forall i v,
  map_find key i l = Some v <-> (i <= v)%nat /\ nth_error l (v - i) = Some key.
Proof.
  induction 1 as [|x l Hx Hnd IH]; intros i v; simpl.
  - split; [discriminate|]. intros [_ H]. destruct (v - i)%nat; discriminate.
  - destruct (map_find key (S i) l) as [w|] eqn:E.
    + apply IH in E. destruct E as [E1 E2]. split.
      * intros Ew. inversion Ew; subst. split; [lia|].
        replace (v - i)%nat with (S (v - S i))%nat by lia. exact E2.
      * intros [Hv Hn]. f_equal. destruct (v - i)%nat as [|k] eqn:Ek.
        -- simpl in Hn. inversion Hn; subst. exfalso. apply Hx. eapply nth_error_In; eauto.
        -- simpl in Hn.
           assert (Hw : (w - S i < length l)%nat) by (apply nth_error_Some; congruence).
           assert (H := proj1 (NoDup_nth_error l) Hnd (w - S i)%nat k Hw). rewrite E2, Hn in H.
           specialize (H eq_refl). lia.
    + destruct (Nat.eqb_spec x key).
      * subst. split.
        -- intros Ev; inversion Ev; subst. rewrite Nat.sub_diag. auto.
        -- intros [Hv Hn]. destruct (v - i)%nat as [|k] eqn:Ek; [f_equal; lia|].
           simpl in Hn. exfalso. apply Hx. eapply nth_error_In; eauto.
      * split; [discriminate|]. intros [Hv Hn]. destruct (v - i)%nat as [|k] eqn:Ek.
        -- simpl in Hn. congruence.
        -- simpl in Hn. assert (Hs : map_find key (S i) l = Some (S i + k)%nat).
           { apply IH. split; [lia|]. replace (S i + k - S i)%nat with k by lia. auto. }
           congruence.
Qed.

Lemma dummy_to_real_ok sh Nrad idx :
  let fs := all_functions sh Nrad in let surv := positions survives fs in
  (forall g, In g idx -> (g < length fs)%nat) ->
  exists r, dummy_idx_to_real_idx sh Nrad idx = Ok r /\
    (forall v, In v r -> (v < length surv)%nat) /\
    map (fun v => nth v surv 0%nat) r = filter (fun g => survives (fnth fs g)) idx.
Proof.
  intros fs surv H. unfold dummy_idx_to_real_idx. rewrite pure_indices_positions. fold fs surv.
  assert (E : existsb (fun i => Nat.leb (di_Ndummy sh Nrad) i) idx = false).
  { apply not_true_iff_false. intros E. apply existsb_exists in E. destruct E as (g & Hg & E).
    apply Nat.leb_le in E. specialize (H g Hg). unfold fs in H. rewrite all_functions_length in H.
    unfold di_Ndummy in E. lia. }
  rewrite E. eexists; split; [reflexivity|].
  assert (Hnd : NoDup surv) by apply positions_nodup.
  split.
  - intros v Hv. apply in_flat_map in Hv. destruct Hv as (g & Hg & Hv).
    destruct (map_find g 0 surv) as [w|] eqn:Ew; [|destruct Hv].
    destruct Hv as [<-|[]]. apply map_find_some in Ew; auto. destruct Ew as [_ Ew].
    rewrite Nat.sub_0_r in Ew. apply nth_error_Some. congruence.
  - clear E. induction idx as [|g idx IH]; [reflexivity|].
    cbn [flat_map filter]. rewrite map_app, IH by (intros; apply H; simpl; auto).
    destruct (map_find g 0 surv) as [w|] eqn:Ew.
    + apply map_find_some in Ew; auto. destruct Ew as [_ Ew]. rewrite Nat.sub_0_r in Ew.
      assert (Hs : In g surv) by (eapply nth_error_In; eauto).
      apply (posg_in fd) in Hs. destruct Hs as [_ Hs].
      change (nth g fs fd) with (fnth fs g) in Hs. rewrite Hs. simpl. f_equal.
      apply nth_error_nth. auto.
    + destruct (survives (fnth fs g)) eqn:Es; [|reflexivity].
      exfalso. assert (Hin : In g surv).
      { apply (posg_in fd). split; auto. apply H. simpl; auto. }
      apply In_nth_error in Hin. destruct Hin as [k Hk].
      assert (map_find g 0 surv = Some k); [|congruence].
      apply map_find_some; auto. rewrite Nat.sub_0_r. split; [lia|auto].
Qed.

Lemma dummy_to_real_throws sh Nrad idx :
  (exists g, In g idx /\ (length sh * Nrad <= g)%nat) ->
  dummy_idx_to_real_idx sh Nrad idx = Throw LogicError.
Proof.
  intros (g & Hg & H). unfold dummy_idx_to_real_idx.
  replace (existsb _ idx) with true; auto. symmetry. apply existsb_exists. exists g. split; auto.
  apply Nat.leb_le. exact H.
Qed.

(* ------------------------------------------------------------------ *)
(** ** Functions of an element *)

Lemma bf_rows_in nang nrad f Nr g :
  In g (flat_map (fun iam => map (fun j => (nrad * iam + f + j)%nat) (seq 0 Nr)) (seq 0 nang)) <->
  exists iam r, (iam < nang)%nat /\ (f <= r < f + Nr)%nat /\ g = (iam * nrad + r)%nat.
Proof.
  rewrite in_flat_map. split.
  - intros (i & Hi & Hg). apply in_map_iff in Hg. destruct Hg as (j & <- & Hj).
    apply in_seq in Hi, Hj. exists i, (f + j)%nat. repeat split; lia.
  - intros (i & r & Hi & Hr & ->). exists i. split; [apply in_seq; lia|].
    apply in_map_iff. exists (r - f)%nat. split; [|apply in_seq; lia]. nia.
Qed.

Lemma bf_rows_nodup nang nrad f Nr : (f + Nr <= nrad)%nat ->
  NoDup (flat_map (fun iam => map (fun j => (nrad * iam + f + j)%nat) (seq 0 Nr)) (seq 0 nang)).
Proof.
  intros H. apply NoDup_flat_map; [apply seq_NoDup| |].
  - intros a _. apply FinFun.Injective_map_NoDup; [|apply seq_NoDup]. intros x y E. lia.
  - intros a b x _ _ Ha Hb. apply in_map_iff in Ha, Hb.
    destruct Ha as (i & <- & Hi), Hb as (j & E & Hj). apply in_seq in Hi, Hj. nia.
Qed.

Lemma elem_facts b iel : valid_fe b -> (iel < get_nelem b)%nat ->
  exists f l N, get_idx b iel = Ok (f, l) /\ get_nbf b = Ok N /\
    (0 <= f) /\ (f - 1 <= l) /\ (l < N).
Proof.
  intros (Hn & Hb & _) Hi. assert (Hne : (1 <= get_nelem b)%nat) by lia.
  rewrite get_idx_closed, get_nbf_closed by auto.
  eexists _, _, _. split; [reflexivity|split; [reflexivity|]].
  assert (H0 : 0 <= offs b 0 iel) by (apply (offs_mono b 0 iel); auto; lia).
  split; [auto|]. split; [lia|].
  assert (Hs : offs b 0 (S iel) <= offs b 0 (get_nelem b)).
  { destruct (Nat.eq_dec (S iel) (get_nelem b)) as [->|]; [lia|].
    destruct (get_nelem b) as [|m] eqn:Em; [lia|].
    assert (offs b 0 (S iel) <= offs b 0 m) by (apply offs_mono; auto; lia).
    assert (noverlap (fe_fam b) <= count b m)%nat by (apply count_ge_right; auto; lia).
    change (offs b 0 (S m)) with (offs b 0 m + (Z.of_nat (count b m) - Z.of_nat (noverlap (fe_fam b)))).
    lia. }
  change (offs b 0 (S iel)) with (offs b 0 iel + (Z.of_nat (count b iel) - Z.of_nat (noverlap (fe_fam b)))) in Hs.
  lia.
Qed.

Lemma bf_full_ok b nang iel : valid_fe b -> (iel < get_nelem b)%nat ->
  exists l N, bf_list_full b nang iel = Ok l /\ get_nbf b = Ok N /\ 0 <= N /\ NoDup l /\
    (forall g, In g l <-> exists i r, (i < nang)%nat /\ lives_in b iel r /\ g = (i * Z.to_nat N + r)%nat) /\
    (forall g, In g l -> (g < nang * Z.to_nat N)%nat).
Proof.
  intros Hv Hi. destruct (elem_facts b iel Hv Hi) as (f & l & N & Hg & HN & H0 & H1 & H2).
  unfold bf_list_full. rewrite Hg, HN. cbn [bind].
  destruct (Z.ltb_spec f 0); [lia|]. destruct (Z.ltb_spec (l - f + 1) 0); [lia|].
  destruct (Z.ltb_spec N 0); [lia|]. cbn [orb].
  eexists _, N; split; [reflexivity|split; [reflexivity|split; [auto|]]].
  assert (Hin : forall g, In g (flat_map (fun iam => map (fun j => (Z.to_nat N * iam + Z.to_nat f + j)%nat)
             (seq 0 (Z.to_nat (l - f + 1)))) (seq 0 nang)) <->
             exists i r, (i < nang)%nat /\ lives_in b iel r /\ g = (i * Z.to_nat N + r)%nat).
  { intros g. rewrite bf_rows_in. split; intros (i & r & Ha & Hr & ->); exists i, r; repeat split; auto.
    - exists f, l. split; auto. lia.
    - destruct Hr as (f' & l' & E & Hr). rewrite Hg in E. inversion E; subst. lia.
    - destruct Hr as (f' & l' & E & Hr). rewrite Hg in E. inversion E; subst. lia. }
  split; [apply bf_rows_nodup; lia|]. split; [exact Hin|].
  intros g Hgl. apply Hin in Hgl. destruct Hgl as (i & r & Ha & (f' & l' & E & Hr) & ->).
  rewrite Hg in E. inversion E; subst. assert (r < Z.to_nat N)%nat by lia. nia.
Qed.

Lemma bf_sad_ok b iel : valid_fe b -> (iel < get_nelem b)%nat ->
  exists l, bf_list_sad b iel = Ok l /\ NoDup l /\ forall r, In r l <-> lives_in b iel r.
Proof.
  intros Hv Hi. destruct (elem_facts b iel Hv Hi) as (f & l & N & Hg & HN & H0 & H1 & H2).
  unfold bf_list_sad. rewrite Hg. cbn [bind].
  destruct (Z.ltb_spec f 0); [lia|]. destruct (Z.ltb_spec (l - f + 1) 0); [lia|]. cbn [orb].
  eexists; split; [reflexivity|]. split.
  - apply FinFun.Injective_map_NoDup; [|apply seq_NoDup]. intros x y E; lia.
  - intros r. rewrite in_map_iff. split.
    + intros (j & <- & Hj). apply in_seq in Hj. exists f, l. split; auto. lia.
    + intros (f' & l' & E & Hr). rewrite Hg in E. inversion E; subst.
      exists (r - Z.to_nat f')%nat. rewrite in_seq. lia.
Qed.

Lemma bf_dummy_m_ok b sh iel m : valid_fe b -> (iel < get_nelem b)%nat ->
  exists l N, bf_list_dummy_m b sh iel m = Ok l /\ get_nbf b = Ok N /\ NoDup l /\
    (forall g, In g l <-> exists i r, (i < length sh)%nat /\ snd (nth i sh (0, 0)) = m /\
                            lives_in b iel r /\ g = (i * Z.to_nat N + r)%nat).
Proof.
  intros Hv Hi. destruct (elem_facts b iel Hv Hi) as (f & l & N & Hg & HN & H0 & H1 & H2).
  unfold bf_list_dummy_m. rewrite Hg, HN. cbn [bind].
  destruct (Z.ltb_spec f 0); [lia|]. destruct (Z.ltb_spec (l - f + 1) 0); [lia|].
  destruct (Z.ltb_spec N 0); [lia|]. cbn [orb].
  eexists _, N; split; [reflexivity|split; [reflexivity|]]. split.
  - apply NoDup_flat_map; [apply seq_NoDup| |].
    + intros a _. destruct (snd (shell sh a) =? m); [|constructor].
      apply FinFun.Injective_map_NoDup; [|apply seq_NoDup]. intros x y E. lia.
    + intros a c x _ _ Ha Hb. destruct (snd (shell sh a) =? m), (snd (shell sh c) =? m); try tauto.
      apply in_map_iff in Ha, Hb.
      destruct Ha as (i & <- & Hx), Hb as (j & E & Hj). apply in_seq in Hx, Hj.
      assert (Hij : (Z.to_nat f + i < Z.to_nat N /\ Z.to_nat f + j < Z.to_nat N)%nat) by lia.
      clear - E Hij. nia.
  - intros g. rewrite in_flat_map. split.
    + intros (i & Hi' & Hgi). destruct (Z.eqb_spec (snd (shell sh i)) m); [|destruct Hgi].
      apply in_map_iff in Hgi. destruct Hgi as (j & <- & Hj). apply in_seq in Hi', Hj.
      exists i, (Z.to_nat f + j)%nat. repeat split; auto; try lia.
      exists f, l. split; auto. lia.
    + intros (i & r & Hi' & Hm & (f' & l' & E & Hr) & ->). rewrite Hg in E. inversion E; subst.
      exists i. split; [apply in_seq; lia|]. unfold shell. rewrite Z.eqb_refl.
      apply in_map_iff. exists (r - Z.to_nat f')%nat. rewrite in_seq. split; [|lia].
      assert (Z.to_nat f' <= r)%nat by lia. nia.
Qed.

Lemma all_functions_at sh Nrad i r : (i < length sh)%nat -> (r < Nrad)%nat ->
  fnth (all_functions sh Nrad) (i * Nrad + r) = (nth i sh (0, 0), r).
Proof.
  unfold all_functions, fnth. revert i. induction sh as [|lm sh IH]; intros i Hi Hr; simpl in Hi; [lia|].
  cbn [flat_map]. destruct i.
  - rewrite app_nth1 by (rewrite map_length, seq_length; lia). cbn [nth Nat.mul Nat.add].
    rewrite nth_indep with (d' := (lm, 0%nat)) by (rewrite map_length, seq_length; lia).
    rewrite (map_nth (fun k => (lm, k))), seq_nth by lia. reflexivity.
  - rewrite app_nth2 by (rewrite map_length, seq_length; lia). rewrite map_length, seq_length.
    replace (S i * Nrad + r - Nrad)%nat with (i * Nrad + r)%nat by lia. cbn [nth]. apply IH; lia.
Qed.

Lemma lives_in_lt b iel r N : valid_fe b -> get_nbf b = Ok N -> lives_in b iel r -> (r < Z.to_nat N)%nat.
Proof.
  intros Hv HN (f & l & Hg & Hr).
  assert (Hi : (iel < get_nelem b)%nat) by (eapply get_idx_dom; eauto; apply Hv).
  destruct (elem_facts b iel Hv Hi) as (f' & l' & N' & Hg' & HN' & H0 & H1 & H2).
  rewrite Hg in Hg'. rewrite HN in HN'. inversion Hg'; inversion HN'; subst. lia.
Qed.

Lemma NoDup_map_inv' {A B} (f : A -> B) l : NoDup (map f l) -> NoDup l.
Proof. apply NoDup_map_inv. Qed.

Lemma bf_diatomic_ok b sh iel : valid_fe b -> (iel < get_nelem b)%nat ->
  exists l N, bf_list_diatomic b sh iel = Ok l /\ get_nbf b = Ok N /\ NoDup l /\
    (forall v, In v l <-> (v < length (pure_functions sh (Z.to_nat N)))%nat /\
                          lives_in b iel (bf_k (fnth (pure_functions sh (Z.to_nat N)) v))).
Proof.
  intros Hv Hi. destruct (bf_full_ok b (length sh) iel Hv Hi) as (d & N & Hd & HN & HN0 & Hnd & Hin & Hlt).
  unfold bf_list_diatomic. rewrite HN, Hd. cbn [bind].
  set (Nr := Z.to_nat N). set (fs := all_functions sh Nr).
  destruct (dummy_to_real_ok sh Nr d) as (r & Hr & Hrlt & Hrmap).
  { intros g Hg. rewrite all_functions_length. apply Hlt; auto. }
  fold fs in Hrlt, Hrmap. set (surv := positions survives fs) in *.
  exists r, N. split; [exact Hr|split; [reflexivity|]].
  assert (Hsn : NoDup surv) by apply positions_nodup.
  split.
  - apply (NoDup_map_inv' (fun v => nth v surv 0%nat)). rewrite Hrmap. apply NoDup_filter; auto.
  - assert (Hlen : length surv = length (pure_functions sh Nr)) by apply positions_length.
    assert (Hpf : forall v, (v < length surv)%nat ->
              fnth (pure_functions sh Nr) v = fnth fs (nth v surv 0%nat)).
    { intros v Hv'. unfold pure_functions. fold fs. rewrite <- (posg_map_nth fd survives fs).
      change (posg fd survives fs) with surv. unfold fnth.
      rewrite nth_indep with (d' := nth 0 fs fd) by (rewrite map_length; auto).
      rewrite (map_nth (fun g => nth g fs fd)). reflexivity. }
    assert (Hlive : forall g, (g < length fs)%nat -> In g d <-> lives_in b iel (bf_k (fnth fs g))).
    { intros g Hg. rewrite Hin. unfold fs in Hg. rewrite all_functions_length in Hg. split.
      - intros (i & k & Hi' & Hk & ->). unfold fs, Nr.
        rewrite all_functions_at; auto. eapply lives_in_lt; eauto.
      - intros Hk. exists (g / Nr)%nat, (g mod Nr)%nat.
        assert (Nr <> 0)%nat by nia.
        assert (Hq : (g / Nr < length sh)%nat) by (apply Nat.div_lt_upper_bound; lia).
        assert (Hm : (g mod Nr < Nr)%nat) by (apply Nat.mod_upper_bound; auto).
        assert (Eg : g = (g / Nr * Nr + g mod Nr)%nat) by (rewrite Nat.mul_comm; apply Nat.div_mod; auto).
        split; auto. split; [|exact Eg].
        rewrite Eg in Hk. unfold fs in Hk. rewrite all_functions_at in Hk by auto.
        exact Hk. }
    fold Nr. intros v. split.
    + intros Hvr. specialize (Hrlt v Hvr). split; [lia|]. rewrite Hpf by auto.
      assert (Hx : In (nth v surv 0%nat) (filter (fun g => survives (fnth fs g)) d)).
      { rewrite <- Hrmap. apply (in_map (fun v => nth v surv 0%nat)). auto. }
      apply filter_In in Hx. apply Hlive; [|tauto].
      unfold fs. rewrite all_functions_length. apply Hlt. tauto.
    + intros [Hvl Hvk]. rewrite <- Hlen in Hvl. rewrite Hpf in Hvk by auto.
      assert (Hs : In (nth v surv 0%nat) surv) by (apply nth_In; auto).
      pose proof (positions_lt _ _ _ Hs) as Hsl.
      assert (Hx : In (nth v surv 0%nat) (map (fun v => nth v surv 0%nat) r)).
      { rewrite Hrmap. apply filter_In. split; [apply Hlive; auto|].
        apply (posg_in fd) in Hs. tauto. }
      apply in_map_iff in Hx. destruct Hx as (w & Hw & Hwr).
      assert (w = v). { eapply NoDup_nth; eauto. }
      subst. auto.
Qed.

(* ------------------------------------------------------------------ *)
(** ** Tables *)

Section Table.
  Variable less : Z * Z -> Z * Z -> bool.
  Hypothesis irrefl : forall a, less a a = false.
  Hypothesis trans : forall a b c, less a b = true -> less b c = true -> less a c = true.
  Hypothesis total : forall a b, less a b = false -> less b a = false -> a = b.

  Lemma lower_bound_split l p : ascending less l ->
    exists l1 l2, l = l1 ++ l2 /\ length l1 = lower_bound less l p /\
      (forall x, In x l1 -> less x p = true) /\ (forall x, In x l2 -> less x p = false).
  Proof.
    induction 1 as [|a l Hs IH Ha]; simpl.
    - exists [], []. simpl. repeat split; auto; tauto.
    - destruct (less a p) eqn:E.
      + destruct IH as (l1 & l2 & -> & Hl & H1 & H2). exists (a :: l1), l2. simpl.
        repeat split; auto. intros x [<-|Hx]; auto.
      + exists [], (a :: l). split; [reflexivity|]. split; [reflexivity|]. split; [simpl; tauto|].
        intros x [<-|Hx]; auto. rewrite Forall_forall in Ha. specialize (Ha x Hx).
        destruct (less x p) eqn:Ex; auto. rewrite <- E. symmetry. eapply trans; eauto.
  Qed.

  Lemma ascending_app l1 l2 : ascending less l1 -> ascending less l2 ->
    (forall a b, In a l1 -> In b l2 -> less a b = true) -> ascending less (l1 ++ l2).
  Proof. apply sorted_app. Qed.

  Lemma ascending_app_inv l1 l2 : ascending less (l1 ++ l2) ->
    ascending less l1 /\ ascending less l2 /\ (forall a b, In a l1 -> In b l2 -> less a b = true).
  Proof.
    induction l1; simpl; intros H.
    - split; [constructor|split; auto].
    - inversion H; subst. destruct (IHl1 H2) as (H4 & H5 & H6). apply Forall_app in H3.
      destruct H3 as [H3 H3']. split; [constructor; auto|split; auto].
      intros x b [<-|Hx] Hb; auto. rewrite Forall_forall in H3'. auto.
  Qed.

  Lemma at_app (l1 l2 : list (Z * Z)) x : at_ (l1 ++ x :: l2) (Z.of_nat (length l1)) = Ok x.
  Proof.
    unfold at_. destruct (Z.ltb_spec (Z.of_nat (length l1)) 0); [lia|].
    rewrite Nat2Z.id, nth_error_app2, Nat.sub_diag by lia. reflexivity.
  Qed.

  Lemma table_ind_found l p : ascending less l -> In p l ->
    exists i, table_ind less l p true = Ok i /\ nth_error l i = Some p.
  Proof.
    intros Ha Hp. destruct (lower_bound_split l p Ha) as (l1 & l2 & -> & Hl & H1 & H2).
    assert (Hp2 : In p l2).
    { apply in_app_iff in Hp. destruct Hp as [Hp|Hp]; auto. apply H1 in Hp. rewrite irrefl in Hp. discriminate. }
    destruct l2 as [|q l2]; [destruct Hp2|].
    assert (q = p).
    { destruct Hp2 as [->|Hp2]; auto. apply ascending_app_inv in Ha. destruct Ha as (_ & Ha & _).
      inversion Ha; subst. rewrite Forall_forall in H4. specialize (H4 p Hp2).
      rewrite (H2 q (or_introl eq_refl)) in H4. discriminate. }
    subst q. exists (length l1). unfold table_ind. rewrite <- Hl, app_length. cbn [length].
    destruct (Nat.eqb_spec (length l1) (length l1 + S (length l2))); [lia|]. cbn [andb].
    rewrite at_app. cbn [bind]. rewrite !Z.eqb_refl. cbn [negb orb]. split; auto.
    rewrite nth_error_app2, Nat.sub_diag by lia. reflexivity.
  Qed.

  Lemma table_ind_absent l p : ascending less l -> ~ In p l ->
    table_ind less l p true = Throw LogicError.
  Proof.
    intros Ha Hp. destruct (lower_bound_split l p Ha) as (l1 & l2 & -> & Hl & H1 & H2).
    unfold table_ind. rewrite <- Hl, app_length.
    destruct l2 as [|q l2]; cbn [length].
    - destruct (Nat.eqb_spec (length l1) (length l1 + 0)); [reflexivity|lia].
    - destruct (Nat.eqb_spec (length l1) (length l1 + S (length l2))); [lia|]. cbn [andb].
      rewrite at_app. cbn [bind].
      destruct (Z.eqb_spec (fst q) (fst p)), (Z.eqb_spec (snd q) (snd p)); cbn; auto.
      exfalso. apply Hp. apply in_app_iff. right. left. destruct p, q; simpl in *; congruence.
  Qed.

  Lemma table_insert_ok ind l L M p :
    (forall l, ind l L M false = table_ind less l p false) -> ascending less l ->
    exists l', table_insert ind l L M p = Ok l' /\ ascending less l' /\
      forall q, In q l' <-> q = p \/ In q l.
  Proof.
    intros Hind Ha. unfold table_insert. destruct l as [|x l0] eqn:El.
    - exists [p]. split; auto. split; [constructor; constructor|]. simpl. intuition.
    - rewrite <- El in *. rewrite Hind. clear Hind.
      destruct (lower_bound_split l p Ha) as (l1 & l2 & E & Hl & H1 & H2).
      clear El. subst l. unfold table_ind. rewrite <- Hl, app_length.
      destruct l2 as [|q l2]; cbn [length andb].
      + destruct (Nat.eqb_spec (length l1) (length l1 + 0)) as [En|En]; [|lia]. cbn [bind].
        rewrite <- En, Nat.eqb_refl. eexists; split; [reflexivity|]. rewrite app_nil_r in *. split.
        * apply ascending_app; auto; [constructor; constructor|]. intros a b Hx [<-|[]]. auto.
        * intros q. rewrite in_app_iff. simpl. intuition.
      + destruct (Nat.eqb_spec (length l1) (length l1 + S (length l2))) as [En|En]; [lia|].
        rewrite at_app. cbn [bind].
        destruct (Nat.eqb_spec (length l1) (length l1 + S (length l2))) as [En'|En']; [lia|].
        rewrite ?at_app. cbn [bind].
        unfold pair_eqb. destruct (Z.eqb_spec (fst q) (fst p)), (Z.eqb_spec (snd q) (snd p));
          cbn [andb negb].
        1:{ assert (q = p) by (destruct p, q; simpl in *; congruence). subst q.
            eexists; split; [reflexivity|]. split; auto. intros q. rewrite in_app_iff. simpl. intuition. }
        all: assert (Hqp : q <> p) by (intros ->; congruence);
          eexists; split; [reflexivity|];
          rewrite firstn_app, Nat.sub_diag, firstn_all, skipn_app, Nat.sub_diag, skipn_all;
          cbn [firstn skipn app]; rewrite app_nil_r;
          apply ascending_app_inv in Ha; destruct Ha as (A1 & A2 & A3);
          assert (Hpq : forall y, In y (q :: l2) -> less p y = true) by
            (intros y Hy; assert (Hq : less p q = true) by
               (destruct (less p q) eqn:Eq; auto; exfalso; apply Hqp; apply total; auto;
                apply H2; simpl; auto);
             destruct Hy as [<-|Hy]; auto; inversion A2; subst;
             rewrite Forall_forall in *; eauto);
          split;
          [ apply ascending_app; auto;
            [constructor; auto; apply Forall_forall; auto
            |intros a b Hx [<-|Hb]; auto]
          | intros z; rewrite !in_app_iff; simpl; intuition ].
  Qed.
End Table.

Lemma lm_less_irrefl a : lm_less a a = false.
Proof. unfold lm_less. rewrite Z.eqb_refl. simpl. apply Z.ltb_irrefl. Qed.
Lemma lm_less_trans a b c : lm_less a b = true -> lm_less b c = true -> lm_less a c = true.
Proof.
  unfold lm_less. destruct (Z.eqb_spec (snd a) (snd b)), (Z.eqb_spec (snd b) (snd c)),
    (Z.eqb_spec (snd a) (snd c)); cbn [negb]; rewrite ?Z.ltb_lt; lia.
Qed.
Lemma lm_less_total a b : lm_less a b = false -> lm_less b a = false -> a = b.
Proof.
  unfold lm_less. destruct a as [a1 a2], b as [b1 b2]. cbn [fst snd].
  destruct (Z.eqb_spec a2 b2), (Z.eqb_spec b2 a2); cbn [negb]; rewrite ?Z.ltb_ge; intros; try lia.
  subst. f_equal. lia.
Qed.
Lemma LM_less_irrefl a : LM_less a a = false.
Proof. unfold LM_less. rewrite !Z.ltb_irrefl. reflexivity. Qed.
Lemma LM_less_iff a b : LM_less a b = true <-> fst a < fst b \/ (fst a = fst b /\ snd a < snd b).
Proof.
  unfold LM_less. destruct (Z.ltb_spec (fst a) (fst b)), (Z.ltb_spec (fst b) (fst a)),
    (Z.ltb_spec (snd a) (snd b)), (Z.ltb_spec (snd b) (snd a)); split; intros; try lia; try discriminate; auto.
Qed.
Lemma LM_less_trans a b c : LM_less a b = true -> LM_less b c = true -> LM_less a c = true.
Proof. rewrite !LM_less_iff. lia. Qed.
Lemma LM_less_total a b : LM_less a b = false -> LM_less b a = false -> a = b.
Proof.
  rewrite <- !not_true_iff_false, !LM_less_iff. destruct a, b; simpl. intros. f_equal; lia.
Qed.

Lemma pair_multipoles_in i j x : In x (pair_multipoles i j) <->
  snd x = snd j - snd i /\
  Z.max (Z.abs (fst j - fst i) - 2) (Z.abs (snd j - snd i)) <= fst x <= fst j + fst i + 2.
Proof.
  destruct i as [li mi], j as [lj mj]. unfold pair_multipoles. cbn [fst snd]. rewrite in_map_iff. split.
  - intros (L & <- & HL). apply zrange_in in HL. simpl. auto.
  - intros [H1 H2]. exists (fst x). rewrite zrange_in. split; auto. destruct x; simpl in *. congruence.
Qed.

Lemma build_fold ps : forall lm lM, ascending lm_less lm -> ascending LM_less lM ->
  exists lm' lM', fold_left (fun st LM =>
      bind st (fun maps => let '(lm, lM) := maps in let '(L, M) := LM in
      bind (table_insert lmind lm L M (L, Z.abs M)) (fun lm' =>
      bind (table_insert LMind lM L M (L, M)) (fun lM' => Ok (lm', lM'))))) ps (Ok (lm, lM))
    = Ok (lm', lM') /\ ascending lm_less lm' /\ ascending LM_less lM' /\
    (forall q, In q lm' <-> In q lm \/ In q (map (fun x => (fst x, Z.abs (snd x))) ps)) /\
    (forall q, In q lM' <-> In q lM \/ In q ps).
Proof.
  induction ps as [|[L M] ps IH]; intros lm lM H1 H2.
  - exists lm, lM. simpl. repeat split; auto; tauto.
  - cbn [fold_left bind].
    destruct (table_insert_ok lm_less lm_less_irrefl lm_less_trans lm_less_total
                lmind lm L M (L, Z.abs M) (fun _ => eq_refl) H1) as (lm1 & E1 & A1 & I1).
    destruct (table_insert_ok LM_less LM_less_irrefl LM_less_trans LM_less_total
                LMind lM L M (L, M) (fun _ => eq_refl) H2) as (lM1 & E2 & A2 & I2).
    rewrite E1, E2. cbn [bind].
    destruct (IH lm1 lM1 A1 A2) as (lm' & lM' & E & B1 & B2 & J1 & J2).
    exists lm', lM'. repeat split; auto.
    + intros Hq. apply J1 in Hq. rewrite I1 in Hq. cbn [map In fst snd]. intuition.
    + intros Hq. apply J1. rewrite I1. cbn [map In fst snd] in Hq. intuition.
    + intros Hq. apply J2 in Hq. rewrite I2 in Hq. cbn [In]. intuition.
    + intros Hq. apply J2. rewrite I2. cbn [In] in Hq. intuition.
Qed.

Lemma build_tables_ok sh : exists lm lM, build_tables sh = Ok (lm, lM) /\
  ascending lm_less lm /\ ascending LM_less lM /\
  (forall L M, In (L, M) lM <-> exists i j, In i sh /\ In j sh /\ M = snd j - snd i /\
     Z.max (Z.abs (fst j - fst i) - 2) (Z.abs M) <= L <= fst j + fst i + 2) /\
  (forall L M, In (L, M) lm <-> exists M', M = Z.abs M' /\ In (L, M') lM).
Proof.
  unfold build_tables.
  set (ps := flat_map (fun i => flat_map (fun j => pair_multipoles i j) sh) sh).
  destruct (build_fold ps [] []) as (lm & lM & E & A1 & A2 & I1 & I2); try constructor.
  exists lm, lM. split; [exact E|]. split; auto. split; auto.
  assert (Hps : forall L M, In (L, M) ps <-> exists i j, In i sh /\ In j sh /\ M = snd j - snd i /\
     Z.max (Z.abs (fst j - fst i) - 2) (Z.abs M) <= L <= fst j + fst i + 2).
  { intros L M. unfold ps. rewrite in_flat_map. split.
    - intros (i & Hi & H). apply in_flat_map in H. destruct H as (j & Hj & H).
      apply pair_multipoles_in in H. cbn [fst snd] in H. exists i, j.
      destruct H as [-> H]. auto.
    - intros (i & j & Hi & Hj & -> & H). exists i. split; auto. apply in_flat_map. exists j. split; auto.
      apply pair_multipoles_in. cbn [fst snd]. auto. }
  split.
  - intros L M. rewrite I2, Hps. simpl. tauto.
  - intros L M. rewrite I1. simpl In at 1. rewrite in_map_iff. split.
    + intros [[]|((L' & M') & Heq & H)]. cbn [fst snd] in Heq. inversion Heq; subst.
      exists M'. split; auto. apply I2. auto.
    + intros (M' & -> & H). right. exists (L, M'). split; auto. apply I2 in H. simpl in H. tauto.
Qed.

Lemma tables_lookup sh lm lM : build_tables sh = Ok (lm, lM) ->
  (forall L M, In (L, M) lM -> exists i, LMind lM L M true = Ok i /\ nth_error lM i = Some (L, M)) /\
  (forall L M, ~ In (L, M) lM -> LMind lM L M true = Throw LogicError) /\
  (forall L M, In (L, Z.abs M) lm -> exists i, lmind lm L M true = Ok i /\ nth_error lm i = Some (L, Z.abs M)) /\
  (forall L M, ~ In (L, Z.abs M) lm -> lmind lm L M true = Throw LogicError).
Proof.
  intros H. destruct (build_tables_ok sh) as (lm' & lM' & E & A1 & A2 & _).
  rewrite H in E. inversion E; subst.
  repeat split; intros.
  - apply table_ind_found; auto using LM_less_irrefl, LM_less_total; exact LM_less_trans.
  - apply table_ind_absent; auto using LM_less_irrefl, LM_less_total. exact LM_less_trans.
  - apply table_ind_found; auto using lm_less_irrefl, lm_less_total; exact lm_less_trans.
  - apply table_ind_absent; auto using lm_less_irrefl, lm_less_total. exact lm_less_trans.
Qed.

Lemma coulomb_lookups sh lm lM k l : build_tables sh = Ok (lm, lM) -> In k sh -> In l sh ->
  forall L M, In (L, M) (coulomb_multipoles k l) ->
  (exists i, LMind lM L M true = Ok i /\ nth_error lM i = Some (L, M)) /\
  (exists i, lmind lm L M true = Ok i /\ nth_error lm i = Some (L, Z.abs M)).
Proof.
  intros Hb Hk Hl L M H.
  destruct (tables_lookup sh lm lM Hb) as (T1 & _ & T3 & _).
  destruct (build_tables_ok sh) as (lm' & lM' & E & _ & _ & I1 & I2).
  rewrite Hb in E. inversion E; subst lm' lM'. clear E.
  assert (HLM : In (L, M) lM).
  { apply I1. destruct k as [lk mk], l as [ll ml]. unfold coulomb_multipoles in H.
    apply in_map_iff in H. destruct H as (L' & E & H). inversion E; subst.
    apply zrange_in in H. exists (ll, ml), (lk, mk). simpl. auto. }
  split; [auto|]. apply T3. apply I2. eauto.
Qed.

Lemma exchange_lookups sh lm lM i j k l : build_tables sh = Ok (lm, lM) ->
  In i sh -> In j sh -> In k sh -> In l sh ->
  forall L M, In (L, M) (exchange_multipoles i j k l) ->
  exists n, lmind lm L M true = Ok n /\ nth_error lm n = Some (L, Z.abs M).
Proof.
  intros Hb Hi Hj Hk Hl L M H.
  destruct (tables_lookup sh lm lM Hb) as (_ & _ & T3 & _).
  destruct (build_tables_ok sh) as (lm' & lM' & E & _ & _ & I1 & I2).
  rewrite Hb in E. inversion E; subst lm' lM'. clear E.
  apply T3. apply I2. exists M. split; auto. apply I1. exists i, j. split; auto. split; auto.
  destruct i as [li mi], j as [lj mj], k as [lk mk], l as [ll ml].
  unfold exchange_multipoles in H. apply in_map_iff in H. destruct H as (L' & E & H).
  inversion E; subst. apply zrange_in in H. cbn [fst snd]. split; auto. lia.
Qed.
