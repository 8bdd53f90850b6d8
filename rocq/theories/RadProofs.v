(** Proofs about evaluation in elements, continuity and caches. *)
Require Import Reals List Arith Bool ZArith Lia Lra Permutation.
Require Import Verif.Prelude Verif.FEModel Verif.FESpec Verif.FEProofs.
Require Import Verif.ShapeModel Verif.ShapeSpec Verif.ShapeProofs.
Require Import Verif.RadModel Verif.RadSpec.
Import ListNotations.
Open Scope R_scope.

Lemma NoDup_app_make {A} (l1 l2 : list A) : NoDup l1 -> NoDup l2 -> (forall x, In x l1 -> In x l2 -> False) -> NoDup (l1 ++ l2).
Proof.
  induction l1 as [|a l1 IH]; intros H1 H2 H3; auto. inversion H1; subst. cbn [app]. constructor.
  - intros HH. apply in_app_or in HH. destruct HH; [tauto|]. apply (H3 a); simpl; auto.
  - apply IH; auto. intros x Hx. apply H3. simpl; auto.
Qed.

(* ------------------------------------------------------------------ *)
(** * Rows of an element *)

Lemma not_removed f m p : removed_at f m false false p = false.
Proof. unfold removed_at. destruct (Nat.eqb (kind_of f p) 0); apply andb_false_r. Qed.

Lemma en_all b iel : (2 <= fe_n b)%nat ->
  exists en, basis_indices b iel = Ok en /\ NoDup en /\
    (forall i, In i en -> (i < nprim (fe_fam b) (fe_n b))%nat) /\ length en = count b iel /\
    (forall i, In i en -> iel = 0%nat -> removed_at (fe_fam b) 0 (fe_zfl b) (fe_zdl b) i = false) /\
    (forall i, In i en -> (iel + 2)%nat = length (fe_bval b) -> removed_at (fe_fam b) (fe_n b - 1) (fe_zfr b) (fe_zdr b) i = false).
Proof.
  intros Hn. destruct (hip_ff b iel) eqn:Hff.
  - unfold hip_ff in Hff. destruct (fe_fam b) eqn:Hfam; try discriminate.
    apply andb_true_iff in Hff as [Hff Hzd]. apply andb_true_iff in Hff as [Hl Hzf].
    apply negb_true_iff in Hzd, Hzf.
    assert (E : exists h, basis_indices b iel = Ok (h ++ seq 2 ((fe_n b - 2) * 2) ++ [S ((fe_n b - 1) * 2)]) /\
                          NoDup h /\ (forall i, In i h -> (i < 2)%nat) /\
                          (forall i, In i h -> iel = 0%nat -> removed_at HIP 0 (fe_zfl b) (fe_zdl b) i = false)).
    { unfold basis_indices. rewrite Hfam, Hl, Hzf, Hzd, all_enabled_split by auto. cbn [noverlap].
      assert (E : forall h, drop_last HIP false false
        (h ++ seq 2 ((fe_n b - 2) * 2) ++ seq ((fe_n b - 1) * 2) 2) =
        Ok (h ++ seq 2 ((fe_n b - 2) * 2) ++ [S ((fe_n b - 1) * 2)])).
      { intros h. rewrite app_assoc.
        change (seq ((fe_n b - 1) * 2) 2) with [(fe_n b - 1) * 2; S ((fe_n b - 1) * 2)]%nat.
        rewrite drop_last_hip_ff. now rewrite <- app_assoc. }
      destruct (Nat.eqb_spec iel 0) as [E0|E0].
      - change (seq 0 2) with (seq 0 (noverlap HIP)) at 1.
        rewrite drop_first_ok. cbn [bind noverlap]. rewrite E. eexists. split; [reflexivity|]. split; [|split].
        + apply NoDup_filter, seq_NoDup.
        + intros i Hi. apply filter_In in Hi as [Hi _]. apply in_seq in Hi. lia.
        + intros i Hi _. apply filter_In in Hi as [_ Hi]. apply negb_true_iff in Hi. exact Hi.
      - cbn [bind]. rewrite E. exists (seq 0 2). split; [reflexivity|]. split; [|split].
        + apply seq_NoDup.
        + intros i Hi. apply in_seq in Hi. lia.
        + intros i _ H0. congruence. }
    destruct E as (h & E & Nh & Bh & Rh). eexists. split; [exact E|].
    split; [|split; [|split; [|split]]].
    + apply NoDup_app_make.
      * exact Nh.
      * apply NoDup_app_make; [apply seq_NoDup | repeat constructor; intros [] |].
        intros i H1 [H2|[]]. apply in_seq in H1. lia.
      * intros i H1 H2. apply Bh in H1. apply in_app_iff in H2 as [H2|[H2|[]]]; [apply in_seq in H2|]; lia.
    + intros i Hi. cbn [nprim]. rewrite !in_app_iff in Hi. destruct Hi as [Hi|[Hi|[Hi|[]]]].
      * apply Bh in Hi. lia.
      * apply in_seq in Hi. lia.
      * lia.
    + unfold count. now rewrite E.
    + intros i Hi E0. rewrite in_app_iff in Hi. destruct Hi as [Hi|Hi]; [apply Rh; assumption|].
      apply removed_elsewhere. unfold node_of. cbn [noverlap].
      assert (2 <= i)%nat by (rewrite in_app_iff in Hi; destruct Hi as [Hi|[Hi|[]]]; [apply in_seq in Hi|]; lia).
      pose proof (Nat.div_le_mono 2 i 2 ltac:(lia) H). change (2 / 2)%nat with 1%nat in H0. lia.
    + intros i _ _. rewrite Hzf, Hzd. apply not_removed.
  - assert (E : basis_indices b iel = Ok (expected_functions b iel)).
    { apply basis_indices_expected; [exact Hn|]. intros E1 E2. unfold hip_ff in Hff. rewrite E1 in Hff.
      apply Nat.eqb_eq in E2. rewrite E2 in Hff. destruct (fe_zfr b), (fe_zdr b); simpl in *; auto. }
    eexists. split; [exact E|]. split; [|split; [|split; [|split]]].
    + apply NoDup_filter, seq_NoDup.
    + intros i Hi. apply filter_In in Hi as [Hi _]. apply in_seq in Hi. rewrite nprim_eq. lia.
    + unfold count. now rewrite E.
    + intros i Hi E0. apply filter_In in Hi as [_ Hi]. apply andb_true_iff in Hi as [Hi _].
      rewrite E0, Nat.eqb_refl in Hi. apply negb_true_iff in Hi. exact Hi.
    + intros i Hi E0. apply filter_In in Hi as [_ Hi]. apply andb_true_iff in Hi as [_ Hi].
      apply Nat.eqb_eq in E0. rewrite E0 in Hi. apply negb_true_iff in Hi. exact Hi.
Qed.
Lemma en_props b iel : (2 <= fe_n b)%nat ->
  exists en, basis_indices b iel = Ok en /\ NoDup en /\
    (forall i, In i en -> (i < nprim (fe_fam b) (fe_n b))%nat) /\ length en = count b iel.
Proof. intros Hn. destruct (en_all b iel Hn) as (en & A & B & C & D & _). eexists; eauto. Qed.

Lemma sf_ok b e : (e < get_nelem b)%nat -> scaling_factor b e = Ok (half b e).
Proof.
  intros H. unfold scaling_factor, element_length, half, hi, lo.
  destruct (Nat.leb_spec (get_nelem b) e); [lia|].
  rewrite !(at_nth _ _ 0%R) by (unfold get_nelem in H; lia). reflexivity.
Qed.
Lemma half_pos b e : valid_fe b -> (e < get_nelem b)%nat -> 0 < half b e.
Proof.
  intros (_ & _ & Hi) H. unfold half, hi, lo.
  assert (nth e (fe_bval b) 0 < nth (e + 1) (fe_bval b) 0) by (apply Hi; unfold get_nelem in H; lia). lra.
Qed.

Definition pval (b : fe) (x0 : vec) (n e idx : nat) (x : R) : R :=
  prim_dnf (fe_fam b) (fe_n b) x0 n idx (half b e) x / half b e ^ n.
Lemma dnf_row b x0 n e x en : (e < get_nelem b)%nat -> (n <= max_order (fe_fam b))%nat -> basis_indices b e = Ok en ->
  fe_dnf b x0 n e x = Ok (map (fun idx => pval b x0 n e idx x) en).
Proof.
  intros He Hn E. unfold fe_dnf. rewrite E. cbn [bind]. rewrite sf_ok by exact He. cbn [bind].
  unfold eval_dnf. rewrite (proj2 (Nat.leb_le _ _) Hn). reflexivity.
Qed.

Definition end_idx (f : family) (N : nat) (right : bool) (k : nat) : nat :=
  if right then ((N - 1) * noverlap f + k)%nat else k.

Lemma end_val b x0 (right : bool) k e idx : valid_fe b -> nodes_ok (fe_fam b) (fe_n b) x0 -> (e < get_nelem b)%nat ->
  (idx < nprim (fe_fam b) (fe_n b))%nat -> (k < noverlap (fe_fam b))%nat ->
  pval b x0 k e idx (endpoint right) = if (idx =? end_idx (fe_fam b) (fe_n b) right k)%nat then 1 else 0.
Proof.
  intros Hv Hx He Hi Hk. pose proof (half_pos b e Hv He) as Hh. destruct Hv as (Hn & _ & _).
  unfold pval.
  assert (Hp : half b e ^ k <> 0) by (apply pow_nonzero; lra).
  destruct (fe_fam b) eqn:Ef.
  1:{ cbn [noverlap] in Hk. assert (k = 0)%nat as -> by lia.
      pose proof (legendre_ends (fe_n b) (half b e) (negb right) Hn) as H.
      unfold eval_dnf in H. cbn [max_order Nat.leb all_enabled nprim] in H. unfold all_enabled in H. cbn [nprim] in H.
      assert (H' : nth idx (map (fun idx => prim_dnf Legendre (fe_n b) (fun _ => 0) 0 idx (half b e) (if negb right then -1 else 1) / half b e ^ 0) (seq 0 (fe_n b))) 0
                 = nth idx (map (fun j => if (j =? (if negb right then 0 else fe_n b - 1))%nat then 1 else 0) (seq 0 (fe_n b))) 0).
      { injection H as H. exact (f_equal (fun l => nth idx l 0) H). }
      cbn [nprim] in Hi.
      rewrite !entry_map, seq_nth in H' by (rewrite ?seq_length; exact Hi).
      cbn [plus] in H'. cbn [prim_dnf] in H' |- *. unfold endpoint, end_idx. cbn [noverlap].
      destruct right; cbn [negb] in H'; rewrite H'; [|reflexivity].
      replace ((fe_n b - 1) * 1 + 0)%nat with (fe_n b - 1)%nat by lia. reflexivity. }
  all: rewrite <- Ef in *; assert (Hf : nodal (fe_fam b)) by (unfold nodal; congruence);
       destruct (Hx Hf) as (Hd & H0 & H1);
       unfold endpoint, end_idx; destruct right.
  all: try (rewrite <- H1 at 1; rewrite prim_node by (assumption || lia);
            rewrite (Nat.mul_comm (noverlap _));
            destruct (_ =? _)%nat; field; assumption).
  all: rewrite <- H0 at 1; rewrite prim_node by (assumption || lia); rewrite Nat.mul_0_r, Nat.add_0_l;
       destruct (_ =? _)%nat; field; assumption.
Qed.

Lemma end_row b x0 (right : bool) k e en : valid_fe b -> nodes_ok (fe_fam b) (fe_n b) x0 -> (e < get_nelem b)%nat ->
  (k < noverlap (fe_fam b))%nat -> basis_indices b e = Ok en ->
  fe_dnf b x0 k e (endpoint right)
  = Ok (map (fun idx => if (idx =? end_idx (fe_fam b) (fe_n b) right k)%nat then 1 else 0) en).
Proof.
  intros Hv Hx He Hk E. rewrite (dnf_row b x0 k e _ en He); [|apply nov_le_order; exact Hk | exact E].
  f_equal. apply map_ext_in. intros idx Hi. apply end_val; try assumption.
  destruct (en_props b e (proj1 Hv)) as (en' & E' & _ & B & _). rewrite E in E'. injection E' as <-. apply B. exact Hi.
Qed.

(** A sum over a row of zeros and one. *)
Lemma sum_unit (en : list nat) (g : nat -> R) t p : NoDup en -> nth_error en p = Some t ->
  sum (length en) (fun k => g k * nth k (map (fun idx => if (idx =? t)%nat then 1 else 0) en) 0) = g p.
Proof.
  intros Hd Hp. assert (Hl : (p < length en)%nat) by (apply nth_error_Some; rewrite Hp; discriminate).
  rewrite (sum_single _ p); [|exact Hl|].
  - rewrite entry_map by exact Hl. rewrite (nth_error_nth _ _ 0%nat Hp), Nat.eqb_refl. ring.
  - intros k Hk Hne. rewrite entry_map by exact Hk.
    destruct (Nat.eqb_spec (nth k en 0%nat) t) as [E|]; [|ring]. exfalso. apply Hne.
    apply (proj1 (NoDup_nth en 0%nat) Hd); [exact Hk | exact Hl |].
    rewrite E. symmetry. apply nth_error_nth. exact Hp.
Qed.
Lemma sum_unit_none (en : list nat) (g : nat -> R) t : ~ In t en ->
  sum (length en) (fun k => g k * nth k (map (fun idx => if (idx =? t)%nat then 1 else 0) en) 0) = 0.
Proof.
  intros Hn. apply sum_zero'. intros k Hk. rewrite entry_map by exact Hk.
  destruct (Nat.eqb_spec (nth k en 0%nat) t) as [E|]; [|ring]. exfalso. apply Hn. rewrite <- E. apply nth_In. exact Hk.
Qed.

(** * Continuity *)
Lemma field_row b x0 c n e x v f l : fe_dnf b x0 n e x = Ok v -> get_idx b e = Ok (f, l) ->
  field b x0 c n e x = sum (length v) (fun k => c (Z.to_nat f + k)%nat * nth k v 0).
Proof. intros E1 E2. unfold field. rewrite E1, E2. reflexivity. Qed.

Lemma idx_nonneg b e f l : (2 <= fe_n b)%nat -> get_idx b e = Ok (f, l) -> (0 <= f)%Z.
Proof.
  intros Hn E. pose proof (get_idx_dom _ _ _ _ Hn E) as Hd. rewrite get_idx_closed in E by assumption.
  injection E as <- _. change 0%Z with (offs b 0 0). apply offs_mono; auto; lia.
Qed.
Lemma idx_total b e : (2 <= fe_n b)%nat -> (e < get_nelem b)%nat -> exists f l, get_idx b e = Ok (f, l).
Proof. intros Hn He. rewrite get_idx_closed by assumption. eexists; eexists; reflexivity. Qed.

Lemma field_joins b x0 c n e : valid_fe b -> nodes_ok (fe_fam b) (fe_n b) x0 -> (S e < get_nelem b)%nat ->
  (n < noverlap (fe_fam b))%nat ->
  succeeds (fe_dnf b x0 n e 1) /\ succeeds (fe_dnf b x0 n (S e) (-1)) /\
  field b x0 c n e 1 = field b x0 c n (S e) (-1).
Proof.
  intros Hv Hx He Hn. pose proof (proj1 Hv) as H2.
  destruct (en_props b e H2) as (en1 & E1 & D1 & _ & L1).
  destruct (en_props b (S e) H2) as (en2 & E2 & D2 & _ & L2).
  destruct (idx_total b e H2 ltac:(lia)) as (f1 & l1 & I1). destruct (idx_total b (S e) H2 He) as (f2 & l2 & I2).
  pose proof (end_row b x0 true n e en1 Hv Hx ltac:(lia) Hn E1) as R1.
  pose proof (end_row b x0 false n (S e) en2 Hv Hx He Hn E2) as R2. cbn [endpoint end_idx] in R1, R2.
  split; [eexists; exact R1|]. split; [eexists; exact R2|].
  rewrite (field_row _ _ _ _ _ _ _ _ _ R1 I1), (field_row _ _ _ _ _ _ _ _ _ R2 I2), !map_length.
  destruct (layout_same_function b e f1 l1 f2 l2 en1 en2 H2 I1 I2 E1 E2 n Hn) as [P1 P2].
  rewrite (sum_unit en1 (fun k => c (Z.to_nat f1 + k)%nat) _ _ D1 P1).
  rewrite (sum_unit en2 (fun k => c (Z.to_nat f2 + k)%nat) _ _ D2 P2).
  f_equal. pose proof (idx_nonneg _ _ _ _ H2 I1). pose proof (idx_nonneg _ _ _ _ H2 I2).
  assert (f1 <= f2)%Z.
  { rewrite get_idx_closed in I1, I2 by (assumption || lia). injection I1 as <- _. injection I2 as <- _.
    pose proof (count_ge b e H2 ltac:(unfold get_nelem in He; lia)). cbn [offs plus]. lia. }
  lia.
Qed.

(** Boundary conditions. *)
Lemma removed_end f m zf zd k : (k < noverlap f)%nat ->
  removed_at f m zf zd (m * noverlap f + k) = if (k =? 0)%nat then zf else zd.
Proof.
  intros Hk. unfold removed_at. rewrite (node_of_range f m) by lia. rewrite kind_of_plus by exact Hk.
  rewrite Nat.eqb_refl. reflexivity.
Qed.
Lemma end_removed b x0 c (right : bool) k : valid_fe b -> nodes_ok (fe_fam b) (fe_n b) x0 ->
  (k < noverlap (fe_fam b))%nat ->
  (if right then (if k =? 0 then fe_zfr b else fe_zdr b) else (if k =? 0 then fe_zfl b else fe_zdl b))%nat = true ->
  let e := (if right then get_nelem b - 1 else 0)%nat in
  succeeds (fe_dnf b x0 k e (endpoint right)) /\ field b x0 c k e (endpoint right) = 0.
Proof.
  intros Hv Hx Hk Hz e. pose proof (proj1 Hv) as H2.
  assert (Hne : (1 <= get_nelem b)%nat) by (destruct Hv as (_ & H & _); unfold get_nelem; lia).
  assert (He : (e < get_nelem b)%nat) by (subst e; destruct right; lia).
  destruct (en_all b e H2) as (en & E & D & B & L & RL & RR).
  destruct (idx_total b e H2 He) as (f & l & I).
  pose proof (end_row b x0 right k e en Hv Hx He Hk E) as Rw.
  split; [eexists; exact Rw|]. rewrite (field_row _ _ _ _ _ _ _ _ _ Rw I), !map_length.
  apply (sum_unit_none en (fun k => c (Z.to_nat f + k)%nat)). intros Hin.
  destruct right; cbn [end_idx] in Hin; subst e.
  - assert (Hr := RR _ Hin ltac:(unfold get_nelem in *; destruct Hv as (_ & H & _); lia)).
    rewrite removed_end in Hr by exact Hk. congruence.
  - assert (Hr := RL _ Hin eq_refl). pose proof (removed_end (fe_fam b) 0 (fe_zfl b) (fe_zdl b) k Hk) as H0.
    rewrite Nat.mul_0_l, Nat.add_0_l in H0. congruence.
Qed.

(** The constructor's continuity check. *)
Lemma each_ok {A B} (f : A -> res B) (g : A -> B) l : (forall a, In a l -> f a = Ok (g a)) -> each f l = Ok (map g l).
Proof.
  induction l as [|a l IH]; intros H; [reflexivity|]. cbn [each map]. rewrite (H a (or_introl eq_refl)). cbn [bind].
  rewrite IH; [reflexivity|]. intros x Hx. apply H. right. exact Hx.
Qed.
Lemma diff2_same l : diff2 l l = 0.
Proof.
  unfold diff2.
  assert (Z : forall v : list R, lsum (combine v v) (fun p => (fst p - snd p) ^ 2) = 0).
  { intros v. induction v as [|a v IH]; [reflexivity|]. cbn [combine]. unfold lsum in *. cbn [fold_right map fst snd] in *. rewrite IH. ring. }
  induction l as [|v l IH]; [reflexivity|]. cbn [combine]. unfold lsum in *. cbn [fold_right map fst snd] in *.
  rewrite Z, IH. ring.
Qed.

Lemma unit_cols nov base k : (k < nov)%nat ->
  map (fun idx => if (idx =? base + k)%nat then 1 else 0) (seq base nov)
  = map (fun j => if (j =? k)%nat then 1 else 0) (seq 0 nov).
Proof.
  intros _. rewrite <- (map_plus_seq base nov), map_map. apply map_ext. intros j.
  destruct (Nat.eqb_spec (base + j) (base + k)), (Nat.eqb_spec j k); lia || reflexivity.
Qed.
Lemma border_zero eps b x0 e : 0 <= eps -> valid_fe b -> nodes_ok (fe_fam b) (fe_n b) x0 -> (S e < get_nelem b)%nat ->
  border_norm eps b x0 e = Ok 0.
Proof.
  intros He Hv Hx Hel. pose proof (proj1 Hv) as H2. unfold border_norm.
  rewrite (proj2 (coord_ends b e ltac:(lia))), (proj1 (coord_ends b (S e) Hel)). cbn [bind].
  replace (e + 1)%nat with (S e) by lia. set (rl := nth (S e) (fe_bval b) 0).
  destruct (Rltb_spec (10 * eps * (1 + Rabs rl)) (Rabs (rl - rl))) as [H|_].
  { exfalso. rewrite Rminus_diag_eq, Rabs_R0 in H by reflexivity. pose proof (Rabs_pos rl). nra. }
  set (nov := noverlap (fe_fam b)). set (g := fun k => map (fun j => if (j =? k)%nat then 1 else 0) (seq 0 nov)).
  destruct (basis_indices_shape b e H2) as (t1 & S1 & T1 & _ & _).
  destruct (basis_indices_shape b (S e) H2) as (t2 & S2 & _).
  rewrite T1 in S1 by (unfold get_nelem in Hel; lia). clear T1. cbn [Nat.eqb] in S2. unfold head_part in S2.
  rewrite (each_ok _ g), (each_ok _ g).
  - cbn [bind]. rewrite diff2_same, sqrt_0. reflexivity.
  - intros k Hk. apply in_seq in Hk. fold nov in S2 |- *.
    change (-1) with (endpoint false). rewrite (end_row b x0 false k (S e) _ Hv Hx Hel ltac:(fold nov; lia) S2). cbn [bind end_idx].
    unfold head_. rewrite map_length, app_length, seq_length.
    destruct (Nat.leb_spec nov (nov + length (seq nov ((fe_n b - 2) * nov) ++ t2))); [|lia]. f_equal.
    rewrite map_app, firstn_app, map_length, seq_length, Nat.sub_diag, app_nil_r.
    rewrite firstn_all2 by (rewrite map_length, seq_length; lia). reflexivity.
  - intros k Hk. apply in_seq in Hk. fold nov in S1 |- *.
    change 1 with (endpoint true) at 1. rewrite (end_row b x0 true k e _ Hv Hx ltac:(lia) ltac:(fold nov; lia) S1). cbn [bind end_idx].
    fold nov. rewrite app_assoc. set (pre := head_part _ _ _ _ ++ _).
    unfold tail_. rewrite map_length, app_length, seq_length.
    destruct (Nat.leb_spec nov (length pre + nov)); [|lia]. f_equal.
    rewrite map_app, skipn_app, map_length. replace (length pre + nov - nov)%nat with (length pre) by lia.
    rewrite skipn_all2 by (rewrite map_length; lia). rewrite Nat.sub_diag. cbn [app skipn].
    apply unit_cols. lia.
Qed.
Lemma continuity_ok eps b x0 : 0 <= eps -> valid_fe b -> nodes_ok (fe_fam b) (fe_n b) x0 ->
  check_bf_continuity eps b x0 = Ok tt.
Proof.
  intros He Hv Hx. unfold check_bf_continuity. destruct (get_nelem b =? 1)%nat; [reflexivity|].
  rewrite (each_ok _ (fun _ => 0)).
  - cbn [bind]. replace (existsb _ _) with false; [reflexivity|]. symmetry.
    assert (H : forall v, In v (map (fun _ : nat => 0) (seq 0 (get_nelem b - 1))) -> Rltb (sqrt eps) v = false).
    { intros v Hin. apply in_map_iff in Hin as (a & <- & _). destruct (Rltb_spec (sqrt eps) 0); [|reflexivity].
      pose proof (sqrt_pos eps). lra. }
    induction (map (fun _ : nat => 0) (seq 0 (get_nelem b - 1))) as [|v l IH]; [reflexivity|].
    cbn [existsb]. rewrite H by (left; reflexivity). apply IH. intros w Hw. apply H. right. exact Hw.
  - intros e Hin. apply in_seq in Hin. apply border_zero; auto. lia.
Qed.

Lemma each_inv {A B} (f : A -> res B) (d : B) (da : A) l m : each f l = Ok m ->
  length m = length l /\ forall i, (i < length l)%nat -> f (nth i l da) = Ok (nth i m d).
Proof.
  revert m. induction l as [|a l IH]; intros m H.
  - injection H as <-. split; [reflexivity|]. intros i Hi. cbn in Hi. lia.
  - cbn [each] in H. destruct (f a) as [v| | |] eqn:Ea; try discriminate. cbn [bind] in H.
    destruct (each f l) as [r| | |] eqn:El; try discriminate. injection H as <-.
    destruct (IH r eq_refl) as [L N]. split; [cbn [length]; lia|].
    intros [|i] Hi; [exact Ea|]. apply N. cbn [length] in Hi. lia.
Qed.
Lemma lsum_ge {A} (l : list A) (f : A -> R) a : (forall x, 0 <= f x) -> In a l -> f a <= lsum l f.
Proof.
  intros Hp. induction l as [|x l IH]; intros Hin; [destruct Hin|]. cbn [lsum].
  assert (0 <= lsum l f) by (clear - Hp; induction l as [|y l IH]; cbn [lsum]; [lra | specialize (Hp y); lra]).
  destruct Hin as [->|Hin]; [lra|]. specialize (IH Hin). specialize (Hp x). lra.
Qed.
Lemma lsum_pos {A} (l : list A) (f : A -> R) : (forall x, 0 <= f x) -> 0 <= lsum l f.
Proof. intros Hp; induction l as [|y l IH]; cbn [lsum]; [lra | specialize (Hp y); lra]. Qed.
Lemma combine_in {A B} (l : list A) (m : list B) da db i : (i < length l)%nat -> length l = length m ->
  In (nth i l da, nth i m db) (combine l m).
Proof. intros Hi Hl. rewrite <- combine_nth by exact Hl. apply nth_In. rewrite combine_length. lia. Qed.

Lemma tail_nth n l t : tail_ n l = Ok t -> length t = n /\ forall k, nth k t 0 = nth (length l - n + k) l 0.
Proof.
  unfold tail_. destruct (Nat.leb_spec n (length l)); [|discriminate]. intros E. injection E as <-.
  split; [rewrite skipn_length; lia|]. intros k.
  transitivity (nth (length l - n + k) (firstn (length l - n) l ++ skipn (length l - n) l) 0); [|rewrite firstn_skipn; reflexivity].
  rewrite app_nth2; rewrite firstn_length; [|lia]. f_equal. lia.
Qed.
Lemma head_nth n l t : head_ n l = Ok t -> length t = n /\ forall k, (k < n)%nat -> nth k t 0 = nth k l 0.
Proof.
  unfold head_. destruct (Nat.leb_spec n (length l)); [|discriminate]. intros E. injection E as <-.
  split; [rewrite firstn_length; lia|]. intros k Hk.
  transitivity (nth k (firstn n l ++ skipn n l) 0); [|rewrite firstn_skipn; reflexivity].
  rewrite app_nth1 by (rewrite firstn_length; lia). reflexivity.
Qed.

Lemma check_sound eps b x0 e n k v1 v2 : check_bf_continuity eps b x0 = Ok tt -> (S e < get_nelem b)%nat ->
  (n < noverlap (fe_fam b))%nat -> (k < noverlap (fe_fam b))%nat ->
  fe_dnf b x0 n e 1 = Ok v1 -> fe_dnf b x0 n (S e) (-1) = Ok v2 ->
  (noverlap (fe_fam b) <= length v1)%nat /\ (noverlap (fe_fam b) <= length v2)%nat /\
  Rabs (nth (length v1 - noverlap (fe_fam b) + k) v1 0 - nth k v2 0) <= sqrt eps.
Proof.
  intros Hc He Hn Hk E1 E2. unfold check_bf_continuity in Hc.
  destruct (Nat.eqb_spec (get_nelem b) 1); [lia|].
  destruct (each _ _) as [d| | |] eqn:Ed; try discriminate. cbn [bind] in Hc.
  destruct (existsb _ d) eqn:Ex; [discriminate|].
  destruct (each_inv _ 0 0%nat _ _ Ed) as [Ld Nd]. rewrite seq_length in Ld, Nd.
  specialize (Nd e ltac:(lia)). rewrite seq_nth in Nd by lia. cbn [plus] in Nd.
  assert (Hle : nth e d 0 <= sqrt eps).
  { destruct (Rltb_spec (sqrt eps) (nth e d 0)) as [H|H]; [|lra]. exfalso.
    assert (existsb (fun v => Rltb (sqrt eps) v) d = true); [|congruence].
    apply existsb_exists. exists (nth e d 0). split; [apply nth_In; lia|].
    destruct (Rltb_spec (sqrt eps) (nth e d 0)); [reflexivity|lra]. }
  unfold border_norm in Nd.
  destruct (eval_coord b 1 e) as [rl| | |]; try discriminate. cbn [bind] in Nd.
  destruct (eval_coord b (-1) (S e)) as [rr| | |]; try discriminate. cbn [bind] in Nd.
  destruct (Rltb _ _); [discriminate|].
  set (nov := noverlap (fe_fam b)) in *.
  destruct (each _ _) as [lh| | |] eqn:El in Nd; try discriminate. cbn [bind] in Nd.
  destruct (each _ _) as [rh| | |] eqn:Er in Nd; try discriminate. cbn [bind] in Nd.
  injection Nd as Nd.
  destruct (each_inv _ [] 0%nat _ _ El) as [Ll Nl]. destruct (each_inv _ [] 0%nat _ _ Er) as [Lr Nr].
  rewrite seq_length in Ll, Lr, Nl, Nr.
  specialize (Nl n Hn). specialize (Nr n Hn). rewrite seq_nth in Nl, Nr by exact Hn. cbn [plus] in Nl, Nr.
  rewrite E1 in Nl. rewrite E2 in Nr. cbn [bind] in Nl, Nr.
  assert (nov <= length v1)%nat by (unfold tail_ in Nl; destruct (Nat.leb_spec nov (length v1)); [assumption|discriminate]).
  assert (nov <= length v2)%nat by (unfold head_ in Nr; destruct (Nat.leb_spec nov (length v2)); [assumption|discriminate]).
  split; [assumption|]. split; [assumption|].
  destruct (tail_nth _ _ _ Nl) as [L1 T1]. destruct (head_nth _ _ _ Nr) as [L2 T2].
  rewrite <- T1, <- (T2 k Hk). set (a := nth k (nth n lh []) 0). set (c := nth k (nth n rh []) 0).
  assert (Hq : (a - c) ^ 2 <= diff2 lh rh).
  { unfold diff2.
    eapply Rle_trans; [|apply (lsum_ge (combine lh rh) (fun cc => lsum (combine (fst cc) (snd cc)) (fun p => (fst p - snd p) ^ 2)) (nth n lh [], nth n rh []))].
    - cbn [fst snd]. apply (lsum_ge (combine (nth n lh []) (nth n rh [])) (fun p => (fst p - snd p) ^ 2) (a, c)).
      + intros p. apply pow2_ge_0.
      + apply combine_in; lia.
    - intros p. apply lsum_pos. intros q. apply pow2_ge_0.
    - apply combine_in; lia. }
  rewrite <- Nd in Hle. eapply Rle_trans; [|exact Hle].
  rewrite <- (sqrt_Rsqr_abs (a - c)). apply sqrt_le_1_alt. unfold Rsqr. lra.
Qed.
