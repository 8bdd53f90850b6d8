Require Import Reals ZArith List Bool Arith Lia Lra Permutation.
Require Import Verif.Prelude Verif.FEModel Verif.FESpec.
Import ListNotations.

(* ------------------------------------------------------------------ *)
(** * Segments *)

Lemma segment_skip {A} (a l : list A) k n :
  k = Z.of_nat (length a) -> n = Z.of_nat (length l) ->
  segment k n (a ++ l) = Ok l.
Proof.
  intros -> ->. unfold segment.
  replace (_ && _ && _)%bool with true.
  - rewrite !Nat2Z.id, skipn_app, skipn_all, Nat.sub_diag. simpl.
    now rewrite firstn_all.
  - symmetry. rewrite !andb_true_iff, !Z.leb_le, app_length. lia.
Qed.

Lemma segment_take {A} (a l : list A) k :
  k = Z.of_nat (length a) -> segment 0 k (a ++ l) = Ok a.
Proof.
  intros ->. unfold segment.
  replace (_ && _ && _)%bool with true.
  - rewrite !Nat2Z.id. simpl skipn.
    rewrite firstn_app, firstn_all, Nat.sub_diag. simpl. now rewrite app_nil_r.
  - symmetry. rewrite !andb_true_iff, !Z.leb_le, app_length. lia.
Qed.

Lemma at_last {A} (l : list A) a k : k = Z.of_nat (length l) -> at_ (l ++ [a]) k = Ok a.
Proof.
  intros ->. unfold at_. destruct (Z.ltb_spec (Z.of_nat (length l)) 0); [lia|].
  rewrite Nat2Z.id, nth_error_app2, Nat.sub_diag by lia. reflexivity.
Qed.

Lemma at_nth {A} (l : list A) i d : i < length l -> at_ l (Z.of_nat i) = Ok (nth i l d).
Proof.
  intros H. unfold at_. destruct (Z.ltb_spec (Z.of_nat i) 0); [lia|].
  rewrite Nat2Z.id, (nth_error_nth' l d) by auto. reflexivity.
Qed.

(* ------------------------------------------------------------------ *)
(** * Drop rules *)

Ltac len := cbn [noverlap]; rewrite ?app_length, ?seq_length; cbn [length]; lia.

Lemma nprim_eq f n : nprim f n = n * noverlap f.
Proof. destruct f; simpl; lia. Qed.

Lemma noverlap_pos f : 1 <= noverlap f.
Proof. destruct f; simpl; lia. Qed.

Lemma seq_app3 n k : 2 <= n ->
  seq 0 (n * k) = seq 0 k ++ seq k ((n - 2) * k) ++ seq ((n - 1) * k) k.
Proof.
  intros H.
  replace (n * k) with (k + ((n - 2) * k + k)) by nia.
  rewrite seq_app, seq_app. do 2 f_equal.
  replace ((n - 1) * k) with (0 + k + (n - 2) * k) by nia. reflexivity.
Qed.

Lemma filter_all {A} (p : A -> bool) l : (forall a, In a l -> p a = true) -> filter p l = l.
Proof.
  induction l; intros H; simpl; auto.
  rewrite H by (left; auto). rewrite IHl; auto. intros; apply H; right; auto.
Qed.

Lemma filter_ext_in' {A} (p q : A -> bool) l :
  (forall a, In a l -> p a = q a) -> filter p l = filter q l.
Proof. apply filter_ext_in. Qed.

Lemma node_of_range f m p : m * noverlap f <= p < (m + 1) * noverlap f -> node_of f p = m.
Proof.
  intros H. unfold node_of. pose proof (noverlap_pos f).
  symmetry. apply (Nat.div_unique p (noverlap f) m (p - m * noverlap f)); nia.
Qed.

Lemma kind_of_plus f m j : j < noverlap f -> kind_of f (m * noverlap f + j) = j.
Proof.
  intros H. unfold kind_of. rewrite Nat.add_comm, Nat.mod_add by lia.
  now apply Nat.mod_small.
Qed.

Lemma drop_first_ok f zf zd rest :
  drop_first f zf zd (seq 0 (noverlap f) ++ rest) =
  Ok (filter (fun p => negb (removed_at f 0 zf zd p)) (seq 0 (noverlap f)) ++ rest).
Proof.
  destruct f; simpl drop_first; unfold drop_first_lip, drop_first_hip, drop_first_hipk.
  1,2: destruct zf, zd; cbv iota; try reflexivity;
    rewrite (segment_skip (seq 0 1) rest) by len;
    reflexivity.
  - destruct zf, zd; simpl andb; cbv iota.
    + rewrite (segment_skip (seq 0 2) rest) by len.
      reflexivity.
    + change (seq 0 (noverlap HIP) ++ rest) with ([0] ++ (1 :: rest)).
      rewrite (segment_skip [0] (1 :: rest)) by len.
      reflexivity.
    + change (at_ (seq 0 (noverlap HIP) ++ rest) 0) with (@Ok nat 0). cbn [bind].
      rewrite (segment_skip (seq 0 2) rest) by len.
      reflexivity.
    + reflexivity.
  - rewrite (segment_take (seq 0 3) rest) by len. cbn [bind].
    rewrite (segment_skip (seq 0 3) rest) by len.
    destruct zf, zd; reflexivity.
  - rewrite (segment_take (seq 0 4) rest) by len. cbn [bind].
    rewrite (segment_skip (seq 0 4) rest) by len.
    destruct zf, zd; reflexivity.
Qed.

Lemma map_plus_seq b k : map (fun j => b + j) (seq 0 k) = seq b k.
Proof. induction k as [|k IH]; auto. rewrite !seq_S, map_app, IH. reflexivity. Qed.

Lemma filter_last f m zf zd :
  filter (fun p => negb (removed_at f m zf zd p)) (seq (m * noverlap f) (noverlap f)) =
  map (fun j => m * noverlap f + j)
      (filter (fun j => negb (if Nat.eqb j 0 then zf else zd)) (seq 0 (noverlap f))).
Proof.
  replace (seq (m * noverlap f) (noverlap f)) with
      (map (fun j => m * noverlap f + j) (seq 0 (noverlap f))).
  2:{ apply map_plus_seq. }
  assert (H : forall l, (forall j, In j l -> j < noverlap f) ->
    filter (fun p => negb (removed_at f m zf zd p)) (map (fun j => m * noverlap f + j) l) =
    map (fun j => m * noverlap f + j) (filter (fun j => negb (if Nat.eqb j 0 then zf else zd)) l)).
  { induction l; intros Hl; simpl; auto.
    unfold removed_at at 1. rewrite kind_of_plus by (apply Hl; left; auto).
    rewrite (node_of_range f m) by (pose proof (Hl a (or_introl eq_refl)); nia).
    rewrite Nat.eqb_refl. simpl.
    rewrite IHl by (intros; apply Hl; right; auto).
    destruct (if Nat.eqb a 0 then zf else zd); reflexivity. }
  apply H. intros j Hj. apply in_seq in Hj. lia.
Qed.

Lemma drop_last_ok f m zf zd l :
  (f = HIP -> zf || zd = true) ->
  drop_last f zf zd (l ++ seq (m * noverlap f) (noverlap f)) =
  Ok (l ++ filter (fun p => negb (removed_at f m zf zd p)) (seq (m * noverlap f) (noverlap f))).
Proof.
  intros Hhip. rewrite filter_last. generalize (m * noverlap f). intros b.
  destruct f; simpl drop_last; unfold drop_last_lip, drop_last_hip, drop_last_hipk; simpl seq.
  1,2: destruct zf, zd; cbv iota;
    try (rewrite (segment_take l [b]) by len);
    simpl; rewrite ?Nat.add_0_r, ?app_nil_r; reflexivity.
  - destruct zf, zd; simpl andb; cbv iota.
    + rewrite (segment_take l [b; S b]) by len.
      simpl. now rewrite app_nil_r.
    + rewrite (segment_take l [b; S b]) by len.
      cbn [bind].
      change [b; S b] with ([b] ++ [S b]). rewrite app_assoc.
      rewrite (at_last (l ++ [b]) (S b)) by len.
      simpl. rewrite Nat.add_1_r. reflexivity.
    + change [b; S b] with ([b] ++ [S b]). rewrite app_assoc.
      rewrite (segment_take (l ++ [b]) [S b]) by len.
      simpl. rewrite Nat.add_0_r. reflexivity.
    + discriminate (Hhip eq_refl).
  - rewrite (segment_take l [b; S b; S (S b)]) by len.
    cbn [bind].
    rewrite (segment_skip l [b; S b; S (S b)]) by len.
    destruct zf, zd; simpl; rewrite ?Nat.add_0_r, ?Nat.add_1_r, ?app_nil_r;
      rewrite ?(Nat.add_comm b 2); reflexivity.
  - rewrite (segment_take l [b; S b; S (S b); S (S (S b))]) by len.
    cbn [bind].
    rewrite (segment_skip l [b; S b; S (S b); S (S (S b))]) by len.
    destruct zf, zd; simpl; rewrite ?Nat.add_0_r, ?Nat.add_1_r, ?app_nil_r;
      rewrite ?(Nat.add_comm b 2), ?(Nat.add_comm b 3); reflexivity.
Qed.

(** What HIP does when neither condition is requested at the right end. *)
Lemma drop_last_hip_ff l b :
  drop_last HIP false false (l ++ [b; S b]) = Ok (l ++ [S b]).
Proof.
  simpl. unfold drop_last_hip. simpl andb; cbv iota.
  rewrite (segment_take l [b; S b]) by len.
  cbn [bind].
  change [b; S b] with ([b] ++ [S b]). rewrite app_assoc.
  rewrite (at_last (l ++ [b]) (S b)) by len.
  reflexivity.
Qed.

Lemma removed_elsewhere f m zf zd p : node_of f p <> m -> removed_at f m zf zd p = false.
Proof. intros H. unfold removed_at. destruct (Nat.eqb_spec (node_of f p) m); [lia|reflexivity]. Qed.

Lemma filter_andb {A} (p q : A -> bool) l :
  filter (fun a => p a && q a) l = filter q (filter p l).
Proof.
  induction l; simpl; auto. destruct (p a); simpl; destruct (q a); rewrite IHl; reflexivity.
Qed.

Lemma all_enabled_split f n : 2 <= n ->
  all_enabled f n = seq 0 (noverlap f) ++ seq (noverlap f) ((n - 2) * noverlap f)
                    ++ seq ((n - 1) * noverlap f) (noverlap f).
Proof. intros. unfold all_enabled. rewrite nprim_eq. now apply seq_app3. Qed.

Definition head_part (f : family) (b : bool) (zf zd : bool) : list nat :=
  if b then filter (fun p => negb (removed_at f 0 zf zd p)) (seq 0 (noverlap f))
  else seq 0 (noverlap f).
Definition tail_part (f : family) (n : nat) (b : bool) (zf zd : bool) : list nat :=
  if b then filter (fun p => negb (removed_at f (n - 1) zf zd p)) (seq ((n - 1) * noverlap f) (noverlap f))
  else seq ((n - 1) * noverlap f) (noverlap f).

Lemma basis_indices_split b iel : 2 <= fe_n b ->
  (fe_fam b = HIP -> iel + 2 = length (fe_bval b) -> fe_zfr b || fe_zdr b = true) ->
  basis_indices b iel =
  Ok (head_part (fe_fam b) (Nat.eqb iel 0) (fe_zfl b) (fe_zdl b)
      ++ seq (noverlap (fe_fam b)) ((fe_n b - 2) * noverlap (fe_fam b))
      ++ tail_part (fe_fam b) (fe_n b) (Nat.eqb (iel + 2) (length (fe_bval b))) (fe_zfr b) (fe_zdr b)).
Proof.
  intros Hn Hhip. unfold basis_indices. rewrite all_enabled_split by auto.
  unfold head_part, tail_part.
  destruct (Nat.eqb iel 0).
  - rewrite drop_first_ok. cbn [bind].
    destruct (Nat.eqb_spec (iel + 2) (length (fe_bval b))); [|reflexivity].
    rewrite app_assoc, drop_last_ok by auto. now rewrite app_assoc.
  - cbn [bind].
    destruct (Nat.eqb_spec (iel + 2) (length (fe_bval b))); [|reflexivity].
    rewrite app_assoc, drop_last_ok by auto. now rewrite app_assoc.
Qed.

Lemma expected_split b iel : 2 <= fe_n b ->
  expected_functions b iel =
  head_part (fe_fam b) (Nat.eqb iel 0) (fe_zfl b) (fe_zdl b)
      ++ seq (noverlap (fe_fam b)) ((fe_n b - 2) * noverlap (fe_fam b))
      ++ tail_part (fe_fam b) (fe_n b) (Nat.eqb (iel + 2) (length (fe_bval b))) (fe_zfr b) (fe_zdr b).
Proof.
  intros Hn. unfold expected_functions. set (f := fe_fam b). set (n := fe_n b) in *.
  rewrite seq_app3 by auto. rewrite !filter_app.
  pose proof (noverlap_pos f) as Hk.
  f_equal; [|f_equal].
  - unfold head_part.
    rewrite (filter_ext_in _ (fun p => negb (Nat.eqb iel 0 && removed_at f 0 (fe_zfl b) (fe_zdl b) p))).
    + destruct (Nat.eqb iel 0); simpl; auto. apply filter_all; reflexivity.
    + intros p Hp. apply in_seq in Hp.
      rewrite (removed_elsewhere f (n - 1) (fe_zfr b)).
      * rewrite !andb_false_r. simpl. now rewrite andb_true_r.
      * rewrite (node_of_range f 0) by lia. lia.
  - apply filter_all. intros p Hp. apply in_seq in Hp.
    assert (Hnode : node_of f p <> 0 /\ node_of f p <> n - 1).
    { unfold node_of. split.
      - intros H. apply Nat.div_small_iff in H; lia.
      - assert (p / noverlap f < n - 1) by (apply Nat.div_lt_upper_bound; nia). lia. }
    rewrite !removed_elsewhere by tauto. rewrite !andb_false_r. reflexivity.
  - unfold tail_part.
    rewrite (filter_ext_in _ (fun p => negb (Nat.eqb (iel + 2) (length (fe_bval b)) && removed_at f (n-1) (fe_zfr b) (fe_zdr b) p))).
    + destruct (Nat.eqb (iel + 2) (length (fe_bval b))); simpl; auto. apply filter_all; reflexivity.
    + intros p Hp. apply in_seq in Hp.
      rewrite (removed_elsewhere f 0).
      * rewrite !andb_false_r. reflexivity.
      * rewrite (node_of_range f (n - 1)) by nia. lia.
Qed.

Lemma basis_indices_expected b iel : 2 <= fe_n b ->
  (fe_fam b = HIP -> iel + 2 = length (fe_bval b) -> fe_zfr b || fe_zdr b = true) ->
  basis_indices b iel = Ok (expected_functions b iel).
Proof. intros. rewrite expected_split by auto. now apply basis_indices_split. Qed.

(* ------------------------------------------------------------------ *)
(** * Function numbering *)

Lemma head_part_length f b zf zd :
  length (head_part f b zf zd) = noverlap f - (if b then ndropped f zf zd else 0).
Proof. destruct f, b, zf, zd; reflexivity. Qed.

Lemma tail_part_length f n b zf zd :
  length (tail_part f n b zf zd) = noverlap f - (if b then ndropped f zf zd else 0).
Proof.
  unfold tail_part. destruct b.
  - rewrite filter_last, map_length. destruct f, zf, zd; reflexivity.
  - rewrite seq_length. lia.
Qed.

Definition hip_ff (b : fe) (iel : nat) : bool :=
  match fe_fam b with
  | HIP => Nat.eqb (iel + 2) (length (fe_bval b)) && negb (fe_zfr b) && negb (fe_zdr b)
  | _ => false
  end.

(** Every element's function list: the left part, the interior, the right part. *)
Lemma basis_indices_shape b iel : 2 <= fe_n b ->
  exists tl, basis_indices b iel =
  Ok (head_part (fe_fam b) (Nat.eqb iel 0) (fe_zfl b) (fe_zdl b)
      ++ seq (noverlap (fe_fam b)) ((fe_n b - 2) * noverlap (fe_fam b)) ++ tl)
  /\ (iel + 2 <> length (fe_bval b) ->
      tl = seq ((fe_n b - 1) * noverlap (fe_fam b)) (noverlap (fe_fam b)))
  /\ length tl <= noverlap (fe_fam b)
  /\ (length tl = if hip_ff b iel then 1 else
        noverlap (fe_fam b) - (if Nat.eqb (iel + 2) (length (fe_bval b))
                               then ndropped (fe_fam b) (fe_zfr b) (fe_zdr b) else 0)).
Proof.
  intros Hn. destruct (hip_ff b iel) eqn:Hff.
  - unfold hip_ff in Hff. destruct (fe_fam b) eqn:Hfam; try discriminate.
    apply andb_true_iff in Hff as [Hff Hzd]. apply andb_true_iff in Hff as [Hl Hzf].
    apply negb_true_iff in Hzd, Hzf. exists [S ((fe_n b - 1) * 2)].
    split; [|split; [|split]].
    + unfold basis_indices. rewrite Hfam, Hl, Hzf, Hzd, all_enabled_split by auto.
      unfold head_part. cbn [noverlap].
      assert (E : forall h, drop_last HIP false false
        (h ++ seq 2 ((fe_n b - 2) * 2) ++ seq ((fe_n b - 1) * 2) 2) =
        Ok (h ++ seq 2 ((fe_n b - 2) * 2) ++ [S ((fe_n b - 1) * 2)])).
      { intros h. rewrite app_assoc.
        change (seq ((fe_n b - 1) * 2) 2) with [(fe_n b - 1) * 2; S ((fe_n b - 1) * 2)].
        rewrite drop_last_hip_ff. now rewrite <- app_assoc. }
      destruct (Nat.eqb iel 0).
      * change (seq 0 2) with (seq 0 (noverlap HIP)) at 1.
        rewrite drop_first_ok. cbn [bind noverlap]. apply E.
      * cbn [bind]. apply E.
    + intros H. apply Nat.eqb_eq in Hl. lia.
    + simpl. lia.
    + reflexivity.
  - eexists. split; [apply basis_indices_split; auto|].
    + unfold hip_ff in Hff. intros E1 E2. rewrite E1 in Hff.
      apply Nat.eqb_eq in E2. rewrite E2 in Hff.
      destruct (fe_zfr b), (fe_zdr b); simpl in *; auto.
    + split; [|split].
      * intros H. unfold tail_part. apply Nat.eqb_neq in H. now rewrite H.
      * rewrite tail_part_length. lia.
      * apply tail_part_length.
Qed.

(** Number of functions of an element. *)
Definition count (b : fe) (iel : nat) : nat :=
  match basis_indices b iel with Ok en => length en | _ => 0 end.

Lemma count_ok b iel : 2 <= fe_n b ->
  exists en, basis_indices b iel = Ok en /\ length en = count b iel.
Proof.
  intros H. destruct (basis_indices_shape b iel H) as (tl & E & _).
  eexists. split; [exact E|]. unfold count. now rewrite E.
Qed.

Lemma count_value b iel : 2 <= fe_n b ->
  count b iel =
  (noverlap (fe_fam b) - (if Nat.eqb iel 0 then ndropped (fe_fam b) (fe_zfl b) (fe_zdl b) else 0))
  + (fe_n b - 2) * noverlap (fe_fam b)
  + (if hip_ff b iel then 1 else
        noverlap (fe_fam b) - (if Nat.eqb (iel + 2) (length (fe_bval b))
                               then ndropped (fe_fam b) (fe_zfr b) (fe_zdr b) else 0)).
Proof.
  intros H. destruct (basis_indices_shape b iel H) as (tl & E & _ & _ & L).
  unfold count. rewrite E, !app_length, seq_length, head_part_length, L. lia.
Qed.

Lemma count_ge b iel : 2 <= fe_n b -> iel + 2 <> length (fe_bval b) ->
  noverlap (fe_fam b) <= count b iel.
Proof.
  intros H Hl. rewrite count_value by auto.
  apply Nat.eqb_neq in Hl. unfold hip_ff. rewrite Hl.
  destruct (fe_fam b); simpl; lia.
Qed.

Lemma count_ge_right b iel : 2 <= fe_n b -> iel <> 0 ->
  noverlap (fe_fam b) <= count b iel.
Proof.
  intros H Hl. rewrite count_value by auto. apply Nat.eqb_neq in Hl. rewrite Hl.
  rewrite Nat.sub_0_r, <- Nat.add_assoc. apply Nat.le_add_r.
Qed.

Lemma count_interior b iel : 2 <= fe_n b -> iel <> 0 -> iel + 2 <> length (fe_bval b) ->
  count b iel = fe_n b * noverlap (fe_fam b).
Proof.
  intros H H0 Hl. rewrite count_value by auto.
  apply Nat.eqb_neq in Hl, H0. unfold hip_ff. rewrite Hl, H0.
  destruct (fe_fam b); simpl; lia.
Qed.

(** Offset of the k-th element after element i. *)
Fixpoint offs (b : fe) (i k : nat) : Z :=
  match k with
  | O => 0
  | S k' => offs b i k' + (Z.of_nat (count b (i + k')) - Z.of_nat (noverlap (fe_fam b)))
  end%Z.

Lemma offs_head b i k :
  (offs b i (S k) = Z.of_nat (count b i) - Z.of_nat (noverlap (fe_fam b)) + offs b (S i) k)%Z.
Proof.
  induction k.
  - simpl. rewrite Nat.add_0_r. lia.
  - change (offs b i (S (S k))) with
      (offs b i (S k) + (Z.of_nat (count b (i + S k)) - Z.of_nat (noverlap (fe_fam b))))%Z.
    rewrite IHk. simpl. rewrite Nat.add_succ_r. lia.
Qed.

Definition start (b : fe) (prev : option Z) : Z :=
  match prev with None => 0 | Some l => l - Z.of_nat (noverlap (fe_fam b)) + 1 end%Z.

Lemma bf_loop_closed b m : 2 <= fe_n b -> forall i prev,
  bf_loop b prev (seq i m) =
  Ok (map (fun k => (start b prev + offs b i k,
                     start b prev + offs b i k + Z.of_nat (count b (i + k)) - 1)%Z) (seq 0 m)).
Proof.
  intros Hn. induction m as [|m IH]; intros i prev; [reflexivity|].
  cbn [seq bf_loop]. destruct (count_ok b i Hn) as (en & E & L).
  rewrite E. cbn [bind]. rewrite IH. cbn [bind map]. rewrite Nat.add_0_r, L.
  f_equal. f_equal.
  - unfold start; simpl offs; destruct prev; f_equal; lia.
  - rewrite <- seq_shift, map_map. apply map_ext. intros k.
    rewrite offs_head, Nat.add_succ_r, Nat.add_succ_l.
    unfold start. destruct prev; f_equal; lia.
Qed.

Lemma update_bf_list_closed b : 2 <= fe_n b -> fe_bval b <> [] ->
  update_bf_list b =
  Ok (map (fun k => (offs b 0 k, offs b 0 k + Z.of_nat (count b k) - 1)%Z) (seq 0 (get_nelem b))).
Proof.
  intros Hn Hb. unfold update_bf_list. destruct (fe_bval b) eqn:E; [congruence|].
  rewrite bf_loop_closed by auto. f_equal.
Qed.

Lemma get_idx_closed b iel : 2 <= fe_n b -> iel < get_nelem b ->
  get_idx b iel = Ok (offs b 0 iel, offs b 0 iel + Z.of_nat (count b iel) - 1)%Z.
Proof.
  intros Hn Hi. unfold get_idx. rewrite update_bf_list_closed; auto.
  - cbn [bind]. rewrite (at_nth _ iel (offs b 0 0, offs b 0 0 + Z.of_nat (count b 0) - 1)%Z)
      by (rewrite map_length, seq_length; auto).
    f_equal.
    rewrite (map_nth (fun k => (offs b 0 k, offs b 0 k + Z.of_nat (count b k) - 1)%Z)).
    rewrite seq_nth by auto. reflexivity.
  - unfold get_nelem in Hi. destruct (fe_bval b); simpl in Hi; [lia|congruence].
Qed.

Lemma get_nbf_closed b : 2 <= fe_n b -> 1 <= get_nelem b ->
  get_nbf b = Ok (offs b 0 (get_nelem b) + Z.of_nat (noverlap (fe_fam b)))%Z.
Proof.
  intros Hn Hi. unfold get_nbf. rewrite update_bf_list_closed; auto.
  2:{ unfold get_nelem in Hi. destruct (fe_bval b); simpl in Hi; [lia|congruence]. }
  cbn [bind]. destruct (get_nelem b) as [|m]; [lia|].
  rewrite seq_S, map_app. cbn [map plus].
  destruct (map _ (seq 0 m) ++ _) eqn:E.
  - destruct (map _ (seq 0 m)); discriminate.
  - rewrite <- E, last_last. simpl. f_equal. lia.
Qed.

Lemma offs_mono b i j : 2 <= fe_n b -> i <= j -> j < get_nelem b -> (offs b 0 i <= offs b 0 j)%Z.
Proof.
  intros Hn Hij Hj. induction j.
  - replace i with 0 by lia. lia.
  - destruct (Nat.eq_dec i (S j)) as [->|]; [lia|].
    simpl. assert (noverlap (fe_fam b) <= count b j).
    { apply count_ge; auto. unfold get_nelem in Hj. lia. }
    specialize (IHj ltac:(lia) ltac:(lia)). lia.
Qed.

Lemma get_idx_dom b iel f l : 2 <= fe_n b -> get_idx b iel = Ok (f, l) -> iel < get_nelem b.
Proof.
  intros Hn H. destruct (lt_dec iel (get_nelem b)); auto. exfalso.
  unfold get_idx in H. destruct (fe_bval b) eqn:E.
  - unfold update_bf_list in H. rewrite E in H. discriminate.
  - rewrite update_bf_list_closed in H by (auto; congruence). cbn [bind] in H.
    unfold at_ in H. destruct (Z.ltb_spec (Z.of_nat iel) 0); [lia|].
    rewrite Nat2Z.id in H.
    rewrite (proj2 (nth_error_None _ _)) in H; [discriminate|].
    rewrite map_length, seq_length. lia.
Qed.

Lemma layout_total b : 2 <= fe_n b -> 2 <= length (fe_bval b) ->
  (forall iel, iel < get_nelem b -> exists f l en,
     get_idx b iel = Ok (f, l) /\ basis_indices b iel = Ok en /\
     (l - f + 1 = Z.of_nat (length en))%Z /\ (0 <= f)%Z) /\
  (exists l, get_idx b 0 = Ok (0%Z, l)) /\
  exists N, get_nbf b = Ok N.
Proof.
  intros Hn Hb. assert (1 <= get_nelem b) by (unfold get_nelem; lia).
  split; [|split].
  - intros iel Hi. destruct (count_ok b iel Hn) as (en & E & L).
    do 3 eexists. split; [now apply get_idx_closed|]. split; [exact E|].
    split; [lia|]. change 0%Z with (offs b 0 0). apply offs_mono; auto; lia.
  - eexists. rewrite get_idx_closed by (auto; lia). reflexivity.
  - eexists. now apply get_nbf_closed.
Qed.

Lemma layout_shared b iel f1 l1 f2 l2 : 2 <= fe_n b ->
  get_idx b iel = Ok (f1, l1) -> get_idx b (S iel) = Ok (f2, l2) ->
  forall g, (in_range g (f1, l1) /\ in_range g (f2, l2)) <->
            exists k, (k < noverlap (fe_fam b)) /\ (g = f2 + Z.of_nat k)%Z.
Proof.
  intros Hn H1 H2 g.
  pose proof (get_idx_dom _ _ _ _ Hn H2) as Hd.
  rewrite get_idx_closed in H1, H2 by (auto; lia).
  injection H1; intros <- <-; injection H2; intros <- <-; clear H1 H2.
  unfold in_range; cbn [fst snd offs plus].
  assert (noverlap (fe_fam b) <= count b iel).
  { apply count_ge; auto. unfold get_nelem in Hd; lia. }
  assert (noverlap (fe_fam b) <= count b (S iel)) by (apply count_ge_right; auto).
  split.
  - intros [[A B] [C D]].
    exists (Z.to_nat (g - (offs b 0 iel + (Z.of_nat (count b iel) - Z.of_nat (noverlap (fe_fam b)))))).
    lia.
  - intros (k & Hk & ->). lia.
Qed.

Lemma head_part_nth f zf zd k : k < noverlap f -> nth_error (head_part f false zf zd) k = Some k.
Proof.
  intros H. unfold head_part.
  rewrite (nth_error_nth' _ 0) by (rewrite seq_length; auto).
  rewrite seq_nth by auto. reflexivity.
Qed.

Lemma layout_same_function b iel f1 l1 f2 l2 en1 en2 : 2 <= fe_n b ->
  get_idx b iel = Ok (f1, l1) -> get_idx b (S iel) = Ok (f2, l2) ->
  basis_indices b iel = Ok en1 -> basis_indices b (S iel) = Ok en2 ->
  forall k, k < noverlap (fe_fam b) ->
    nth_error en1 (Z.to_nat (f2 + Z.of_nat k - f1)) =
      Some ((fe_n b - 1) * noverlap (fe_fam b) + k) /\
    nth_error en2 k = Some k.
Proof.
  intros Hn H1 H2 E1 E2 k Hk.
  pose proof (get_idx_dom _ _ _ _ Hn H2) as Hd.
  rewrite get_idx_closed in H1, H2 by (auto; lia).
  injection H1; intros <- <-; injection H2; intros <- <-; clear H1 H2.
  assert (Hl : iel + 2 <> length (fe_bval b)) by (unfold get_nelem in Hd; lia).
  destruct (basis_indices_shape b iel Hn) as (t1 & S1 & T1 & _ & _).
  destruct (basis_indices_shape b (S iel) Hn) as (t2 & S2 & _).
  assert (C : length en1 = count b iel) by (unfold count; now rewrite E1).
  rewrite S1 in E1. rewrite S2 in E2. injection E1; intros <-; injection E2; intros <-.
  rewrite T1 in * by auto. clear T1 E1 E2.
  split.
  - cbn [offs plus]. rewrite <- C.
    rewrite !app_length, !seq_length.
    set (h := length (head_part _ _ _ _)). set (m := (fe_n b - 2) * _).
    replace (Z.to_nat _) with (h + (m + k)) by lia.
    rewrite nth_error_app2 by (subst h; lia).
    fold h. replace (h + (m + k) - h) with (m + k) by lia.
    rewrite nth_error_app2 by (rewrite seq_length; lia).
    rewrite seq_length. replace (m + k - m) with k by lia.
    rewrite (nth_error_nth' _ 0) by (rewrite seq_length; exact Hk).
    rewrite seq_nth by exact Hk. reflexivity.
  - unfold head_part. cbn [Nat.eqb]. rewrite nth_error_app1 by (rewrite seq_length; exact Hk).
    now apply (head_part_nth (fe_fam b) (fe_zfl b) (fe_zdl b)).
Qed.

Lemma layout_disjoint b i j f1 l1 f2 l2 : 2 <= fe_n b ->
  get_idx b i = Ok (f1, l1) -> get_idx b j = Ok (f2, l2) -> i + 1 < j ->
  forall g, ~ (in_range g (f1, l1) /\ in_range g (f2, l2)).
Proof.
  intros Hn H1 H2 Hij g [G1 G2].
  pose proof (get_idx_dom _ _ _ _ Hn H2) as Hd.
  rewrite get_idx_closed in H1, H2 by (auto; lia).
  injection H1; intros <- <-; injection H2; intros <- <-; clear H1 H2.
  unfold in_range in *; cbn [fst snd] in *.
  assert (offs b 0 (S (S i)) <= offs b 0 j)%Z by (apply offs_mono; auto; lia).
  cbn [offs plus] in H.
  assert (count b (S i) = fe_n b * noverlap (fe_fam b)).
  { apply count_interior; auto. unfold get_nelem in Hd. lia. }
  nia.
Qed.

Lemma layout_cover b N : 2 <= fe_n b -> 2 <= length (fe_bval b) -> get_nbf b = Ok N ->
  forall g, (0 <= g < N)%Z <->
    exists iel f l, get_idx b iel = Ok (f, l) /\ in_range g (f, l).
Proof.
  intros Hn Hb HN g. assert (Hne : 1 <= get_nelem b) by (unfold get_nelem; lia).
  rewrite get_nbf_closed in HN by auto. injection HN; intros <-. clear HN.
  set (k := noverlap (fe_fam b)).
  assert (Hcov : forall m, m < get_nelem b ->
    (0 <= g < offs b 0 m + Z.of_nat (count b m))%Z ->
    exists iel f l, get_idx b iel = Ok (f, l) /\ in_range g (f, l)).
  { induction m as [|m IH]; intros Hm Hg.
    - exists 0. do 2 eexists. split; [apply get_idx_closed; auto|].
      unfold in_range; simpl in *; lia.
    - destruct (Z_lt_dec g (offs b 0 (S m))) as [Hlt|Hge].
      + apply IH; [lia|]. cbn [offs plus] in Hlt. lia.
      + exists (S m). do 2 eexists. split; [apply get_idx_closed; auto|].
        unfold in_range; cbn [fst snd]; lia. }
  split.
  - intros Hg. apply (Hcov (get_nelem b - 1)); [lia|].
    destruct (get_nelem b) as [|m]; [lia|]. cbn [offs plus] in Hg.
    replace (S m - 1) with m by lia. lia.
  - intros (iel & f & l & H & Hr). pose proof (get_idx_dom _ _ _ _ Hn H) as Hd.
    rewrite get_idx_closed in H by auto. injection H; intros <- <-. clear H.
    unfold in_range in Hr; cbn [fst snd] in Hr.
    assert (0 <= offs b 0 iel)%Z.
    { change 0%Z with (offs b 0 0). apply offs_mono; auto; lia. }
    split; [lia|].
    destruct (Nat.eq_dec (S iel) (get_nelem b)) as [E|E].
    + rewrite <- E. cbn [offs plus]. lia.
    + assert (offs b 0 (S iel) <= offs b 0 (get_nelem b - 1))%Z by (apply offs_mono; auto; lia).
      destruct (get_nelem b) as [|m]; [lia|]. replace (S m - 1) with m in * by lia.
      cbn [offs plus] in *.
      assert (k <= count b m) by (apply count_ge_right; auto; lia).
      subst k. lia.
Qed.

Lemma nbf_sum b N : 2 <= fe_n b -> 2 <= length (fe_bval b) -> get_nbf b = Ok N ->
  (N = zsum (get_nelem b) (fun i => Z.of_nat (count b i))
       - (Z.of_nat (get_nelem b) - 1) * Z.of_nat (noverlap (fe_fam b)))%Z.
Proof.
  intros Hn Hb HN. rewrite get_nbf_closed in HN by (auto; unfold get_nelem; lia).
  injection HN; intros <-.
  assert (H : forall m, (offs b 0 m = zsum m (fun i => Z.of_nat (count b i))
    - Z.of_nat m * Z.of_nat (noverlap (fe_fam b)))%Z).
  { induction m; cbn [offs zsum plus]; [reflexivity|]. rewrite IHm, Nat2Z.inj_succ. ring. }
  rewrite H. ring.
Qed.

Lemma ndropped_le f zf zd : ndropped f zf zd <= noverlap f.
Proof. unfold ndropped; destruct f, zf, zd; simpl; lia. Qed.

(** Closed formula for the number of functions. *)
Lemma nbf_formula b : 2 <= fe_n b -> 2 <= length (fe_bval b) ->
  (fe_fam b = HIP -> fe_zfr b || fe_zdr b = true) ->
  get_nbf b = Ok (Z.of_nat (get_nelem b) * Z.of_nat ((fe_n b - 1) * noverlap (fe_fam b))
      + Z.of_nat (noverlap (fe_fam b))
      - Z.of_nat (ndropped (fe_fam b) (fe_zfl b) (fe_zdl b))
      - Z.of_nat (ndropped (fe_fam b) (fe_zfr b) (fe_zdr b)))%Z.
Proof.
  intros Hn Hb Hhip. rewrite get_nbf_closed by (auto; unfold get_nelem; lia). f_equal.
  set (k := noverlap (fe_fam b)). set (n := fe_n b) in *.
  set (dl := ndropped (fe_fam b) (fe_zfl b) (fe_zdl b)).
  set (dr := ndropped (fe_fam b) (fe_zfr b) (fe_zdr b)).
  assert (dl <= k) by apply ndropped_le. assert (dr <= k) by apply ndropped_le.
  assert (Hff : forall i, hip_ff b i = false).
  { intros i. unfold hip_ff. destruct (fe_fam b); auto. specialize (Hhip eq_refl).
    destruct (fe_zfr b), (fe_zdr b); simpl in *; rewrite ?andb_false_r; try discriminate; auto. }
  assert (Hc : forall i, Z.of_nat (count b i) =
    (Z.of_nat n * Z.of_nat k - (if Nat.eqb i 0 then Z.of_nat dl else 0)
     - (if Nat.eqb (i + 2) (length (fe_bval b)) then Z.of_nat dr else 0))%Z).
  { intros i. rewrite count_value, Hff by auto. fold k n dl dr.
    destruct (Nat.eqb i 0), (Nat.eqb (i + 2) (length (fe_bval b))); nia. }
  assert (H1 : forall m, m + 2 <= length (fe_bval b) -> 1 <= m ->
    (offs b 0 m = Z.of_nat m * (Z.of_nat n * Z.of_nat k - Z.of_nat k) - Z.of_nat dl)%Z).
  { induction m as [|m IH]; intros Hm Hm1; [lia|]. cbn [offs plus]. rewrite Hc. fold k.
    destruct (Nat.eqb_spec (m + 2) (length (fe_bval b))); [lia|].
    destruct (Nat.eqb_spec m 0).
    - subst m. cbn [offs]. change (Z.of_nat 1) with 1%Z. ring.
    - rewrite IH, Nat2Z.inj_succ by lia. ring. }
  unfold get_nelem in *. destruct (length (fe_bval b)) as [|[|m]] eqn:El; [lia|lia|].
  replace (S (S m) - 1) with (S m) by lia. cbn [offs plus]. rewrite Hc. fold k.
  destruct (Nat.eqb_spec (m + 2) (S (S m))); [|lia].
  rewrite Nat2Z.inj_mul, Nat2Z.inj_sub by lia. change (Z.of_nat 1) with 1%Z.
  destruct (Nat.eqb_spec m 0).
  - subst m. cbn [offs]. change (Z.of_nat 1) with 1%Z. ring.
  - rewrite H1, Nat2Z.inj_succ by lia. ring.
Qed.

(* ------------------------------------------------------------------ *)
(** * Locating an element *)

Lemma begin_ok b i : i < get_nelem b -> element_begin b i = Ok (nth i (fe_bval b) 0%R).
Proof.
  intros H. unfold element_begin. destruct (Nat.leb_spec (get_nelem b) i); [lia|].
  apply at_nth. unfold get_nelem in H. lia.
Qed.

Lemma end_ok b i : i < get_nelem b -> element_end b i = Ok (nth (i + 1) (fe_bval b) 0%R).
Proof.
  intros H. unfold element_end. destruct (Nat.leb_spec (get_nelem b) i); [lia|].
  apply at_nth. unfold get_nelem in H. lia.
Qed.

Lemma increasing_le l i j : increasing l -> i <= j -> j < length l ->
  (nth i l 0 <= nth j l 0)%R.
Proof.
  intros H Hij Hj. destruct (Nat.eq_dec i j) as [->|]; [lra|].
  left. apply H; lia.
Qed.

Lemma find_loop_ok b r : valid_fe b -> forall fuel left right,
  left < right -> right < get_nelem b -> right - left <= fuel ->
  (nth (left + 1) (fe_bval b) 0 < r)%R -> (r < nth right (fe_bval b) 0%R)%R ->
  exists i, find_loop b (Fin r) left right fuel = Ok i /\ i < get_nelem b /\ in_element b i r.
Proof.
  intros (_ & Hlen & Hinc). induction fuel as [|fuel IH]; intros left right Hlr0 Hr Hf Hl Hu; [lia|].
  assert (Hlr : left + 1 < right).
  { destruct (lt_dec (left + 1) right); auto. exfalso.
    replace right with (left + 1) in Hu by lia. lra. }
  cbn [find_loop]. set (m := (right + left) / 2).
  assert (Hm : left < m < right).
  { pose proof (Nat.div_mod (right + left) 2 ltac:(lia)).
    pose proof (Nat.mod_upper_bound (right + left) 2 ltac:(lia)). fold m in H. lia. }
  rewrite begin_ok, end_ok by lia. cbn [bind fleb fltb].
  destruct (Rleb_spec (nth m (fe_bval b) 0%R) r); simpl andb; cbv iota.
  - destruct (Rleb_spec r (nth (m + 1) (fe_bval b) 0%R)).
    + exists m. repeat split; auto; lia.
    + destruct (Rltb_spec r (nth m (fe_bval b) 0%R)); [lra|].
      apply IH; try lia; try lra.
  - destruct (Rltb_spec r (nth m (fe_bval b) 0%R)); [|lra].
    apply IH; try lia; try lra.
Qed.

Lemma find_element_finite b r fuel : valid_fe b -> get_nelem b <= fuel ->
  exists i, find_element b (Fin r) fuel = Ok i /\ i < get_nelem b /\
    ((r <= nth 0 (fe_bval b) 0%R)%R -> i = 0) /\
    ((nth (get_nelem b) (fe_bval b) 0 <= r)%R -> i = get_nelem b - 1) /\
    ((nth 0 (fe_bval b) 0 <= r <= nth (get_nelem b) (fe_bval b) 0%R)%R -> in_element b i r).
Proof.
  intros Hv Hf. pose proof Hv as (Hn & Hlen & Hinc).
  assert (Hne : 1 <= get_nelem b) by (unfold get_nelem; lia).
  assert (H01 : (nth 0 (fe_bval b) 0 < nth 1 (fe_bval b) 0%R)%R) by (apply Hinc; lia).
  assert (Hlast : (nth (get_nelem b - 1) (fe_bval b) 0 < nth (get_nelem b) (fe_bval b) 0%R)%R).
  { apply Hinc; unfold get_nelem in *; lia. }
  assert (H1l : (nth 1 (fe_bval b) 0 <= nth (get_nelem b) (fe_bval b) 0%R)%R).
  { apply increasing_le; auto; unfold get_nelem in *; lia. }
  unfold find_element. destruct (fe_bval b) eqn:Eb; [simpl in Hlen; lia|]. rewrite <- Eb in *.
  rewrite end_ok by lia. cbn [bind fleb].
  destruct (Rleb_spec r (nth (0 + 1) (fe_bval b) 0%R)) as [Hle|Hgt].
  - exists 0. simpl plus in Hle. repeat split; auto.
    + intros H.
      destruct (Nat.eq_dec (get_nelem b) 1); [lia|].
      assert (nth 1 (fe_bval b) 0 < nth (get_nelem b) (fe_bval b) 0%R)%R.
      { apply Hinc; unfold get_nelem in *; lia. } lra.
    + lra.
  - simpl plus in Hgt. rewrite begin_ok by lia. cbn [bind fleb].
    destruct (Rleb_spec (nth (get_nelem b - 1) (fe_bval b) 0%R) r).
    + exists (get_nelem b - 1). split; auto. split; [lia|]. split; [lra|]. split; auto.
      intros H. unfold in_element. replace (get_nelem b - 1 + 1) with (get_nelem b) by lia. lra.
    + destruct (Nat.eq_dec (get_nelem b) 1) as [E|E].
      { rewrite E in *. simpl in *. lra. }
      destruct (find_loop_ok b r Hv fuel 0 (get_nelem b - 1)) as (i & E1 & E2 & E3);
        try lia; simpl; try lra.
      exists i. repeat split; auto; try lra; apply E3.
Qed.

Lemma find_element_inf b fuel : valid_fe b ->
  find_element b NInf fuel = Ok 0 /\ 
  find_element b PInf fuel = Ok (get_nelem b - 1).
Proof.
  intros (Hn & Hlen & Hinc). unfold find_element.
  destruct (fe_bval b) eqn:Eb; [simpl in Hlen; lia|].
  assert (1 <= get_nelem b) by (unfold get_nelem; rewrite Eb; lia).
  rewrite end_ok, begin_ok by lia. split; reflexivity.
Qed.

Lemma find_loop_nan b fuel : forall left right, left < get_nelem b -> right < get_nelem b ->
  find_loop b NaN left right fuel = OutOfFuel.
Proof.
  induction fuel as [|fuel IH]; intros left right Hl Hr; auto.
  cbn [find_loop].
  assert (Hm : (right + left) / 2 < get_nelem b) by (apply Nat.div_lt_upper_bound; lia).
  rewrite begin_ok, end_ok by auto. cbn [bind fleb fltb andb]. now apply IH.
Qed.

Lemma find_element_nan b fuel : valid_fe b -> find_element b NaN fuel = OutOfFuel.
Proof.
  intros (Hn & Hlen & Hinc). unfold find_element.
  destruct (fe_bval b) eqn:Eb; [simpl in Hlen; lia|].
  assert (1 <= get_nelem b) by (unfold get_nelem; rewrite Eb; lia).
  rewrite end_ok, begin_ok by lia. cbn [bind fleb]. apply find_loop_nan; lia.
Qed.

(* ------------------------------------------------------------------ *)
(** * Adding a boundary *)

Lemma insertR_perm x l : Permutation (x :: l) (insertR x l).
Proof.
  induction l; simpl; auto. destruct (Rleb x a); auto.
  rewrite perm_swap. now constructor.
Qed.

Lemma sortR_perm l : Permutation l (sortR l).
Proof.
  induction l; simpl; auto. rewrite IHl at 1. apply insertR_perm.
Qed.

Definition sorted_le (l : list R) : Prop :=
  forall i j, i < j -> j < length l -> (nth i l 0 <= nth j l 0)%R.

Lemma sorted_le_cons a l : (forall y, In y l -> (a <= y)%R) -> sorted_le l -> sorted_le (a :: l).
Proof.
  intros Ha Hs i j Hij Hj. destruct j as [|j]; [lia|]. simpl in Hj.
  destruct i as [|i]; simpl.
  - apply Ha. apply nth_In. lia.
  - apply Hs; lia.
Qed.

Lemma sorted_le_tail a l : sorted_le (a :: l) -> sorted_le l /\ forall y, In y l -> (a <= y)%R.
Proof.
  intros H. split.
  - intros i j Hij Hj. apply (H (S i) (S j)); simpl; lia.
  - intros y Hy. apply (In_nth _ _ 0%R) in Hy as (n & Hn & <-).
    apply (H 0 (S n)); simpl; lia.
Qed.

Lemma insertR_sorted x l : sorted_le l -> sorted_le (insertR x l).
Proof.
  induction l as [|a l IH]; intros H; simpl.
  - intros i j Hij Hj. simpl in Hj. lia.
  - apply sorted_le_tail in H as [Hs Ha]. destruct (Rleb_spec x a).
    + apply sorted_le_cons; [|now apply sorted_le_cons].
      intros y [->|Hy]; auto. specialize (Ha y Hy). lra.
    + apply sorted_le_cons; auto.
      intros y Hy. apply (Permutation_in _ (Permutation_sym (insertR_perm x l))) in Hy.
      destruct Hy as [->|Hy]; auto. lra.
Qed.

Lemma sortR_sorted l : sorted_le (sortR l).
Proof.
  induction l; simpl; [intros i j Hij Hj; simpl in Hj; lia|]. now apply insertR_sorted.
Qed.

Lemma sorted_nodup_increasing l : sorted_le l -> NoDup l -> increasing l.
Proof.
  intros Hs Hd i j Hij Hj. destruct (Hs i j Hij Hj) as [H|H]; auto. exfalso.
  assert (i = j); [|lia]. apply (proj1 (NoDup_nth l 0%R) Hd); auto; lia.
Qed.

Lemma increasing_nodup l : increasing l -> NoDup l.
Proof.
  intros H. apply (NoDup_nth l 0%R). intros i j Hi Hj E.
  destruct (lt_eq_lt_dec i j) as [[L|]|L]; auto.
  - specialize (H i j L Hj). lra.
  - specialize (H j i L Hi). lra.
Qed.

Lemma existsb_Reqb l r : existsb (fun v => Reqb v r) l = true <-> In r l.
Proof.
  rewrite existsb_exists. split.
  - intros (x & Hx & E). destruct (Reqb_spec x r); [now subst|discriminate].
  - intros H. exists r. split; auto. destruct (Reqb_spec r r); auto.
Qed.

Lemma add_boundary_ok b r : increasing (fe_bval b) ->
  let b' := add_boundary b r in
  increasing (fe_bval b') /\ In r (fe_bval b') /\
  (forall v, In v (fe_bval b') <-> v = r \/ In v (fe_bval b)) /\
  length (fe_bval b') = length (fe_bval b) + (if in_dec Req_EM_T r (fe_bval b) then 0 else 1) /\
  fe_fam b' = fe_fam b /\ fe_n b' = fe_n b /\ fe_zfl b' = fe_zfl b /\ fe_zdl b' = fe_zdl b /\
  fe_zfr b' = fe_zfr b /\ fe_zdr b' = fe_zdr b.
Proof.
  intros Hinc. unfold add_boundary.
  destruct (existsb (fun v => Reqb v r) (fe_bval b)) eqn:E.
  - apply existsb_Reqb in E. simpl. destruct (in_dec Req_EM_T r (fe_bval b)); [|tauto].
    repeat split; auto; try lia. intros [->|]; auto.
  - assert (Hni : ~ In r (fe_bval b)).
    { intros H. apply existsb_Reqb in H. congruence. }
    simpl. pose proof (sortR_perm (fe_bval b ++ [r])) as P.
    destruct (in_dec Req_EM_T r (fe_bval b)); [tauto|].
    assert (Hin : forall v, In v (sortR (fe_bval b ++ [r])) <-> v = r \/ In v (fe_bval b)).
    { intros v. split; intros H.
      - apply (Permutation_in _ (Permutation_sym P)) in H. apply in_app_or in H.
        destruct H as [|[|[]]]; auto.
      - apply (Permutation_in _ P). apply in_or_app. destruct H; [right; left; auto|left; auto]. }
    repeat split; auto; try apply Hin; auto.
    + apply sorted_nodup_increasing; [apply sortR_sorted|].
      apply (Permutation_NoDup P).
      apply (Permutation_NoDup (l := r :: fe_bval b)).
      * apply Permutation_cons_append.
      * constructor; auto. now apply increasing_nodup.
    + rewrite <- (Permutation_length P), app_length. simpl. lia.
Qed.

Lemma add_boundary_idem b r : increasing (fe_bval b) ->
  add_boundary (add_boundary b r) r = add_boundary b r.
Proof.
  intros H. unfold add_boundary at 1.
  destruct (add_boundary_ok b r H) as (_ & Hin & _).
  apply existsb_Reqb in Hin. now rewrite Hin.
Qed.

Lemma add_boundary_history b rs : increasing (fe_bval b) ->
  let b' := fold_left add_boundary rs b in
  increasing (fe_bval b') /\
  (forall v, In v (fe_bval b') <-> In v rs \/ In v (fe_bval b)) /\
  fe_fam b' = fe_fam b /\ fe_n b' = fe_n b.
Proof.
  revert b. induction rs as [|r rs IH]; intros b H; simpl.
  - repeat split; auto. intros [[]|]; auto.
  - destruct (add_boundary_ok b r H) as (H1 & H2 & H3 & _ & H5 & H6 & _).
    specialize (IH _ H1). simpl in IH. destruct IH as (I1 & I2 & I3 & I4).
    repeat split; auto; try congruence.
    + intros Hv. apply I2 in Hv as [Hv|Hv]; auto. apply H3 in Hv as [->|]; auto.
    + intros Hv. apply I2. rewrite H3. destruct Hv as [[->|]|]; auto.
Qed.

(* ------------------------------------------------------------------ *)
(** * Coordinates *)

Lemma coord_ok b x iel : iel < get_nelem b ->
  eval_coord b x iel =
  Ok (/ 2 * (nth iel (fe_bval b) 0 + nth (iel + 1) (fe_bval b) 0%R)
      + (nth (iel + 1) (fe_bval b) 0 - nth iel (fe_bval b) 0%R) / 2 * x)%R.
Proof.
  intros H. unfold eval_coord, element_midpoint, scaling_factor, element_length.
  rewrite begin_ok, end_ok by auto. destruct (Nat.leb_spec (get_nelem b) iel); [lia|].
  rewrite !(at_nth _ _ 0%R) by (unfold get_nelem in H; lia). reflexivity.
Qed.

Lemma coord_ends b iel : iel < get_nelem b ->
  eval_coord b (-1) iel = Ok (nth iel (fe_bval b) 0%R) /\
  eval_coord b 1 iel = Ok (nth (iel + 1) (fe_bval b) 0%R).
Proof. intros H. rewrite !coord_ok by auto. split; f_equal; field. Qed.

Lemma coord_mono b iel x y rx ry : valid_fe b -> iel < get_nelem b ->
  (x < y)%R -> eval_coord b x iel = Ok rx -> eval_coord b y iel = Ok ry -> (rx < ry)%R.
Proof.
  intros (_ & _ & Hinc) H Hxy. rewrite !coord_ok by auto.
  intros E1 E2. injection E1; intros <-. injection E2; intros <-.
  assert (nth iel (fe_bval b) 0 < nth (iel + 1) (fe_bval b) 0%R)%R
    by (apply Hinc; unfold get_nelem in H; lia). nra.
Qed.

Lemma coord_inside b iel x rx : valid_fe b -> iel < get_nelem b ->
  (-1 <= x <= 1)%R -> eval_coord b x iel = Ok rx -> in_element b iel rx.
Proof.
  intros (_ & _ & Hinc) H Hx. rewrite coord_ok by auto. intros E. injection E; intros <-.
  assert (nth iel (fe_bval b) 0 < nth (iel + 1) (fe_bval b) 0%R)%R
    by (apply Hinc; unfold get_nelem in H; lia).
  unfold in_element. split; nra.
Qed.

Lemma prim_ok b y iel : valid_fe b -> iel < get_nelem b ->
  eval_prim b y iel =
  if Rltb y (nth iel (fe_bval b) 0%R) || Rltb (nth (iel + 1) (fe_bval b) 0%R) y
  then Throw LogicError
  else Ok ((y - / 2 * (nth iel (fe_bval b) 0 + nth (iel + 1) (fe_bval b) 0%R))
      / ((nth (iel + 1) (fe_bval b) 0 - nth iel (fe_bval b) 0%R) / 2))%R.
Proof.
  intros Hv H. unfold eval_prim, element_midpoint, scaling_factor, element_length.
  rewrite begin_ok, end_ok by auto. destruct (Nat.leb_spec (get_nelem b) iel); [lia|].
  rewrite !(at_nth _ _ 0%R) by (unfold get_nelem in H; lia). reflexivity.
Qed.

Lemma prim_coord b x iel : valid_fe b -> iel < get_nelem b -> (-1 <= x <= 1)%R ->
  bind (eval_coord b x iel) (fun r => eval_prim b r iel) = Ok x.
Proof.
  intros Hv H Hx. pose proof (coord_inside b iel x) as Hin.
  rewrite coord_ok in * by auto. cbn [bind]. specialize (Hin _ Hv H Hx eq_refl).
  rewrite prim_ok by auto. unfold in_element in Hin.
  assert (nth iel (fe_bval b) 0 < nth (iel + 1) (fe_bval b) 0%R)%R.
  { apply Hv; unfold get_nelem in H; lia. }
  destruct (Rltb_spec (/ 2 * (nth iel (fe_bval b) 0 + nth (iel + 1) (fe_bval b) 0%R)
      + (nth (iel + 1) (fe_bval b) 0 - nth iel (fe_bval b) 0%R) / 2 * x)%R (nth iel (fe_bval b) 0%R)); [lra|].
  destruct (Rltb_spec (nth (iel + 1) (fe_bval b) 0%R) (/ 2 * (nth iel (fe_bval b) 0 + nth (iel + 1) (fe_bval b) 0%R)
      + (nth (iel + 1) (fe_bval b) 0 - nth iel (fe_bval b) 0%R) / 2 * x)%R); [lra|].
  simpl orb. cbv iota. f_equal. field. lra.
Qed.

Lemma coord_prim b y iel : valid_fe b -> iel < get_nelem b -> in_element b iel y ->
  bind (eval_prim b y iel) (fun x => eval_coord b x iel) = Ok y.
Proof.
  intros Hv H Hy. rewrite prim_ok by auto. unfold in_element in Hy.
  assert (nth iel (fe_bval b) 0 < nth (iel + 1) (fe_bval b) 0%R)%R.
  { apply Hv; unfold get_nelem in H; lia. }
  destruct (Rltb_spec y (nth iel (fe_bval b) 0%R)); [lra|].
  destruct (Rltb_spec (nth (iel + 1) (fe_bval b) 0%R) y); [lra|].
  simpl orb. cbv iota. cbn [bind]. rewrite coord_ok by auto. f_equal. field. lra.
Qed.

Lemma prim_outside b y iel : valid_fe b -> iel < get_nelem b -> ~ in_element b iel y ->
  eval_prim b y iel = Throw LogicError.
Proof.
  intros Hv H Hy. rewrite prim_ok by auto. unfold in_element in Hy.
  destruct (Rltb_spec y (nth iel (fe_bval b) 0%R)); [reflexivity|].
  destruct (Rltb_spec (nth (iel + 1) (fe_bval b) 0%R) y); [reflexivity|]. exfalso. lra.
Qed.

Lemma elem_throw b iel x : get_nelem b <= iel ->
  element_begin b iel = Throw LogicError /\ element_end b iel = Throw LogicError /\
  element_length b iel = Throw LogicError /\ eval_coord b x iel = Throw LogicError /\
  eval_prim b x iel = Throw LogicError.
Proof.
  intros H. unfold eval_coord, eval_prim, element_midpoint, scaling_factor, element_begin, element_end, element_length.
  destruct (Nat.leb_spec (get_nelem b) iel); [|lia]. repeat split; reflexivity.
Qed.

(* ------------------------------------------------------------------ *)
(** * Assembly *)

Definition both_in (r : nat * nat) (i j : nat) : bool :=
  (Nat.leb (fst r) i && Nat.ltb i (fst r + snd r) && (Nat.leb (fst r) j && Nat.ltb j (fst r + snd r)))%bool.

Lemma assemble_sum idx blk els i j :
  assemble idx blk els i j =
  lsum els (fun e => if both_in (idx e) i j then blk e (i - fst (idx e)) (j - fst (idx e)) else 0%R).
Proof.
  unfold assemble.
  assert (H : forall M, fold_left (fun M iel => add_block (fst (idx iel)) (snd (idx iel)) (blk iel) M) els M i j
    = (M i j + lsum els (fun e => if both_in (idx e) i j then blk e (i - fst (idx e))%nat (j - fst (idx e))%nat else 0))%R).
  { induction els as [|e els IH]; intros M; simpl; [ring|].
    rewrite IH. unfold add_block at 1. unfold both_in at 2.
    destruct (_ && _ && _)%bool; ring. }
  rewrite H. unfold mzero. ring.
Qed.

Lemma elem_range_ok b e : 2 <= fe_n b -> e < get_nelem b ->
  elem_range b e = (Z.to_nat (offs b 0 e), count b e) /\ (0 <= offs b 0 e)%Z.
Proof.
  intros Hn He. unfold elem_range. rewrite get_idx_closed by auto. split.
  - f_equal. lia.
  - change 0%Z with (offs b 0 0). apply offs_mono; auto; lia.
Qed.

Lemma matrix_element_sum b blk i j : 2 <= fe_n b ->
  matrix_element b blk i j =
  sum (get_nelem b) (fun e =>
    match get_idx b e with
    | Ok (f, l) =>
      if ((f <=? Z.of_nat i) && (Z.of_nat i <=? l) && ((f <=? Z.of_nat j) && (Z.of_nat j <=? l)))%Z
      then blk e (Z.to_nat (Z.of_nat i - f)) (Z.to_nat (Z.of_nat j - f)) else 0%R
    | _ => 0%R
    end).
Proof.
  intros Hn. unfold matrix_element. rewrite assemble_sum, lsum_seq0.
  apply sum_ext. intros e He.
  destruct (elem_range_ok b e Hn He) as [E Hp]. rewrite E, get_idx_closed by auto.
  unfold both_in. cbn [fst snd].
  set (o := offs b 0 e) in *. set (c := count b e).
  replace (Z.to_nat o <=? i) with (o <=? Z.of_nat i)%Z.
  2:{ destruct (Z.leb_spec o (Z.of_nat i)), (Nat.leb_spec (Z.to_nat o) i); lia. }
  replace (Z.to_nat o <=? j) with (o <=? Z.of_nat j)%Z.
  2:{ destruct (Z.leb_spec o (Z.of_nat j)), (Nat.leb_spec (Z.to_nat o) j); lia. }
  replace (i <? Z.to_nat o + c) with (Z.of_nat i <=? o + Z.of_nat c - 1)%Z.
  2:{ destruct (Z.leb_spec (Z.of_nat i) (o + Z.of_nat c - 1)), (Nat.ltb_spec i (Z.to_nat o + c)); lia. }
  replace (j <? Z.to_nat o + c) with (Z.of_nat j <=? o + Z.of_nat c - 1)%Z.
  2:{ destruct (Z.leb_spec (Z.of_nat j) (o + Z.of_nat c - 1)), (Nat.ltb_spec j (Z.to_nat o + c)); lia. }
  destruct (_ && _ && _)%bool; auto. f_equal; lia.
Qed.

Lemma matrix_element_order b blk els i j : Permutation els (seq 0 (get_nelem b)) ->
  assemble (elem_range b) blk els i j = matrix_element b blk i j.
Proof. intros P. unfold matrix_element. rewrite !assemble_sum. now apply lsum_perm. Qed.

Lemma matrix_element_sym b blk i j :
  (forall e p q, blk e p q = blk e q p) -> matrix_element b blk i j = matrix_element b blk j i.
Proof.
  intros H. unfold matrix_element. rewrite !assemble_sum. apply lsum_ext. intros e _.
  unfold both_in. rewrite andb_comm, H. reflexivity.
Qed.

Lemma matrix_element_zero b blk i j : 2 <= fe_n b ->
  (forall e f l, get_idx b e = Ok (f, l) ->
     ~ (in_range (Z.of_nat i) (f, l) /\ in_range (Z.of_nat j) (f, l))) ->
  matrix_element b blk i j = 0%R.
Proof.
  intros Hn H. rewrite matrix_element_sum by auto. apply sum_zero'. intros e He.
  destruct (get_idx b e) as [[f l]| | |] eqn:E; auto. specialize (H e f l E).
  unfold in_range in H; cbn [fst snd] in H.
  destruct (Z.leb_spec f (Z.of_nat i)), (Z.leb_spec (Z.of_nat i) l),
    (Z.leb_spec f (Z.of_nat j)), (Z.leb_spec (Z.of_nat j) l); simpl; auto.
  exfalso. apply H. lia.
Qed.

Lemma element_block_sym mid sf xl xr nq xq wq f g i j :
  element_block mid sf xl xr nq xq wq f g g i j = element_block mid sf xl xr nq xq wq f g g j i.
Proof. unfold element_block. apply sum_ext. intros q _. ring. Qed.

Lemma element_block_value mid sf xl xr nq xq wq f lh rh i j :
  element_block mid sf xl xr nq xq wq f lh rh i j =
  sum nq (fun q =>
    let x := ((xr - xl) / 2 * xq q + (xr + xl) / 2)%R in
    match f (mid + sf * x)%R with
    | Some fv => (sf * ((xr - xl) / 2) * wq q * fv * lh x i * rh x j)%R
    | None => 0%R
    end).
Proof.
  unfold element_block. apply sum_ext. intros q _. cbv zeta.
  destruct (f _); ring.
Qed.

(* ------------------------------------------------------------------ *)
(** * Factory *)

Lemma get_basis_ok p n pb : get_basis p n = Ok pb <->
  (2 <= n)%Z /\
  ((p = 3 /\ pb = mkPoly Legendre NoNodes 3 n) \/ (p = 4 /\ pb = mkPoly LIP GaussLobatto 4 n) \/
   (p = 5 /\ pb = mkPoly HIP GaussLobatto 5 n) \/ (p = 8 /\ pb = mkPoly HIP2 GaussLobatto 8 n) \/
   (p = 9 /\ pb = mkPoly HIP3 GaussLobatto 9 n) \/ (p = 100 /\ pb = mkPoly LIP ChebyshevNodes 4 n) \/
   (p = 101 /\ pb = mkPoly HIP ChebyshevNodes 5 n))%Z.
Proof.
  unfold get_basis. destruct (Z.ltb_spec n 2).
  - split; [discriminate|]. intros []; lia.
  - split.
    + intros H1. split; auto.
      destruct p as [|p|p]; try discriminate H1.
      do 7 (try match goal with q : positive |- _ => destruct q end; try discriminate H1);
      injection H1; intros <-; tauto.
    + intros [_ H1].
      destruct H1 as [[-> ->]|[[-> ->]|[[-> ->]|[[-> ->]|[[-> ->]|[[-> ->]|[-> ->]]]]]]]; reflexivity.
Qed.

Lemma get_basis_throws p n : 
  (exists e, get_basis p n = Throw e) <-> (n < 2)%Z \/ ~ In p [3; 4; 5; 8; 9; 100; 101]%Z.
Proof.
  split.
  - intros [e He]. destruct (Z_lt_dec n 2); auto. right. intros Hin.
    assert (exists pb, get_basis p n = Ok pb) as [pb Hpb].
    { simpl in Hin. decompose [or] Hin; try subst p; try tauto;
      eexists; apply get_basis_ok; split; try lia; tauto || (left; split; reflexivity) || idtac.
      all: try (do 6 (try (right; left; split; reflexivity)); fail).
      all: repeat (first [ left; split; reflexivity | right; split; reflexivity | right ]). }
    congruence.
  - intros H. destruct (get_basis p n) as [pb|e| |] eqn:E.
    + apply get_basis_ok in E as [H1 H2]. exfalso. destruct H as [H|H]; [lia|]. apply H.
      simpl. decompose [or and] H2; subst; tauto.
    + eauto.
    + exfalso. unfold get_basis in E. destruct (n <? 2)%Z; try discriminate.
      destruct p as [|p|p]; try discriminate E.
      do 7 (try match goal with q : positive |- _ => destruct q end; try discriminate E).
    + exfalso. unfold get_basis in E. destruct (n <? 2)%Z; try discriminate.
      destruct p as [|p|p]; try discriminate E.
      do 7 (try match goal with q : positive |- _ => destruct q end; try discriminate E).
Qed.

Lemma get_basis_rebuild p n pb : get_basis p n = Ok pb -> (p < 100)%Z ->
  get_basis (pb_id pb) (pb_nnodes pb) = Ok pb.
Proof.
  intros H Hp. pose proof H as H0. apply get_basis_ok in H as [Hn H].
  decompose [or and] H; subst; try lia; exact H0.
Qed.

Lemma get_basis_T_agrees p n pb : get_basis_T p n = Ok pb <->
  get_basis p n = Ok pb /\ pb_nodes pb <> ChebyshevNodes.
Proof.
  rewrite get_basis_ok. unfold get_basis_T. destruct (Z.ltb_spec n 2).
  - split; [discriminate|]. intros [[] _]; lia.
  - split.
    + intros H1.
      destruct p as [|p|p]; try discriminate H1.
      do 4 (try match goal with q : positive |- _ => destruct q end; try discriminate H1);
      injection H1; intros <-; (split; [split; auto; tauto|discriminate]).
    + intros [[_ H1] H2]. 
      decompose [or and] H1; subst; try reflexivity; now elim H2.
Qed.

(* ------------------------------------------------------------------ *)
(** * Concrete bases used as examples *)

Lemma increasing_cons2 a b l : (a < b)%R -> increasing (b :: l) -> increasing (a :: b :: l).
Proof.
  intros H Hi i j Hij Hj. destruct j as [|j]; [lia|]. simpl in Hj.
  destruct i as [|i].
  - destruct j as [|j]; [exact H|].
    assert (b < nth (S j) (b :: l) 0)%R by (apply (Hi 0 (S j)); simpl; lia).
    change (nth 0 (a :: b :: l) 0%R) with a. change (nth (S (S j)) (a :: b :: l) 0%R) with (nth (S j) (b :: l) 0%R). lra.
  - apply (Hi i j); simpl; lia.
Qed.

Lemma increasing_single a : increasing [a].
Proof. intros i j Hij Hj. simpl in Hj. lia. Qed.

Lemma increasing_sample : increasing [0; 1; 3; 7]%R.
Proof. repeat apply increasing_cons2; try lra. apply increasing_single. Qed.

Lemma hip_ff_removes b iel : 2 <= fe_n b -> fe_fam b = HIP -> iel + 2 = length (fe_bval b) ->
  fe_zfr b = false -> fe_zdr b = false ->
  exists en, basis_indices b iel = Ok en /\ ~ In ((fe_n b - 1) * 2) en /\
             In ((fe_n b - 1) * 2) (expected_functions b iel).
Proof.
  intros Hn Hf Hl Hz1 Hz2.
  unfold basis_indices. rewrite Hf, Hz1, Hz2, all_enabled_split by auto.
  apply Nat.eqb_eq in Hl as Hlb. rewrite Hlb. cbn [noverlap].
  change (seq ((fe_n b - 1) * 2) 2) with [(fe_n b - 1) * 2; S ((fe_n b - 1) * 2)].
  assert (Hexp : In ((fe_n b - 1) * 2) (expected_functions b iel)).
  { unfold expected_functions. rewrite Hf, Hz1, Hz2. apply filter_In. split.
    - apply in_seq. cbn [noverlap]. lia.
    - rewrite (removed_elsewhere HIP 0).
      + unfold removed_at. destruct (Nat.eqb (kind_of HIP _) 0); now rewrite !andb_false_r.
      + rewrite (node_of_range HIP (fe_n b - 1)) by (cbn [noverlap]; lia). lia. }
  destruct (Nat.eqb iel 0).
  - change (seq 0 2) with (seq 0 (noverlap HIP)). rewrite drop_first_ok. cbn [bind noverlap].
    rewrite app_assoc, drop_last_hip_ff. eexists. split; [reflexivity|]. split; auto.
    intros Hin. rewrite !in_app_iff in Hin. destruct Hin as [[Hin|Hin]|[Hin|[]]]; try lia.
    + apply filter_In in Hin as [Hin _]. apply in_seq in Hin. lia.
    + apply in_seq in Hin. lia.
  - cbn [bind]. rewrite app_assoc, drop_last_hip_ff. eexists. split; [reflexivity|]. split; auto.
    intros Hin. rewrite !in_app_iff in Hin. destruct Hin as [[Hin|Hin]|[Hin|[]]]; try lia.
    + apply in_seq in Hin. lia.
    + apply in_seq in Hin. lia.
Qed.

Lemma get_basis_chebyshev : exists p n pb pb',
  get_basis p n = Ok pb /\ get_basis (pb_id pb) (pb_nnodes pb) = Ok pb' /\ pb <> pb'.
Proof.
  exists 100%Z, 15%Z. do 2 eexists. split; [reflexivity|]. split; [reflexivity|]. discriminate.
Qed.
