(** Proofs about the evaluators of the shape functions. *)
Require Import Reals List Arith Bool Lia Lra.
Require Import Verif.Prelude Verif.FEModel Verif.FESpec Verif.FEProofs Verif.ShapeTables Verif.ShapeModel Verif.ShapeSpec
  Verif.ShapeLip Verif.ShapeDer Verif.ShapePoly Verif.ShapeLeg Verif.ShapeOrth.
Import ListNotations.
Open Scope R_scope.

Lemma nov_pos f : (0 < noverlap f)%nat. Proof. destruct f; cbn; lia. Qed.
Lemma nprim_nov f N : nprim f N = (noverlap f * N)%nat. Proof. destruct f; cbn; lia. Qed.
Lemma idx_node f N idx : (idx < nprim f N)%nat -> (idx / noverlap f < N)%nat.
Proof. rewrite nprim_nov. intros H. apply Nat.div_lt_upper_bound; [pose proof (nov_pos f); lia | exact H]. Qed.
Lemma idx_kind f idx : (idx mod noverlap f < noverlap f)%nat.
Proof. apply Nat.mod_upper_bound. pose proof (nov_pos f). lia. Qed.

Lemma scal_r_der f x l c : derivable_pt_lim f x l -> derivable_pt_lim (fun y => f y * c) x (l * c).
Proof.
  intros H. apply (derivable_pt_lim_ext (fun y => c * f y)); [intros; ring|].
  rewrite Rmult_comm. apply derivable_pt_lim_scal. exact H.
Qed.

Lemma prim_der f N x0 n idx len x : good f N x0 -> (idx < nprim f N)%nat -> (n < max_order f)%nat ->
  derivable_pt_lim (prim_dnf f N x0 n idx len) x (prim_dnf f N x0 (S n) idx len x).
Proof.
  intros Hg Hi Hn. pose proof (idx_node f N idx Hi) as Hnode. pose proof (idx_kind f idx) as Hk.
  destruct f; cbn [prim_dnf max_order] in *.
  - apply leg_dnf_der. exact Hn.
  - apply lip_der; assumption.
  - apply scal_r_der. cbn [hip_table].
    apply (hip_der (fun k => lip_dnf N x0 k (idx / noverlap HIP))); [|exact Hn|exact Hk].
    intros k Hk'. apply lip_der; assumption.
  - apply scal_r_der. cbn [hip_table].
    apply (hip2_der (fun k => lip_dnf N x0 k (idx / noverlap HIP2))); [|exact Hn|exact Hk].
    intros k Hk'. apply lip_der; [assumption..|lia].
  - apply scal_r_der. cbn [hip_table].
    apply (hip3_der (fun k => lip_dnf N x0 k (idx / noverlap HIP3))); [|exact Hn|exact Hk].
    intros k Hk'. apply lip_der; [assumption..|lia].
Qed.

(** The change of variable r = mid + len x. *)
Lemma local_der (F : R -> R) len mid r l : len <> 0 -> derivable_pt_lim F ((r - mid) / len) l ->
  derivable_pt_lim (fun r => F ((r - mid) / len)) r (l / len).
Proof.
  intros Hl H. apply (derivable_pt_lim_comp (fun r => (r - mid) / len) F); [|exact H].
  apply der_lin.
Qed.

Lemma entry_map (g : nat -> R) en k : (k < length en)%nat -> nth k (map g en) 0 = g (nth k en 0%nat).
Proof.
  intros H. rewrite (nth_indep _ 0 (g 0%nat)) by (rewrite map_length; exact H). apply map_nth.
Qed.
Lemma entry_dnf f N x0 en n len x k : (n <= max_order f)%nat -> (k < length en)%nat ->
  entry (eval_dnf f N x0 en n len x) k = prim_dnf f N x0 n (nth k en 0%nat) len x / len ^ n.
Proof.
  intros Hn Hk. unfold eval_dnf. rewrite (proj2 (Nat.leb_le _ _) Hn). cbn [entry].
  rewrite (entry_map (fun idx => prim_dnf f N x0 n idx len x / len ^ n)) by assumption. reflexivity.
Qed.

Lemma derivative_tables f N x0 en n len mid r k :
  good f N x0 -> (forall i, In i en -> (i < nprim f N)%nat) -> (n < max_order f)%nat -> len <> 0 ->
  (k < length en)%nat ->
  succeeds (eval_dnf f N x0 en n len ((r - mid) / len)) /\
  succeeds (eval_dnf f N x0 en (S n) len ((r - mid) / len)) /\
  derivable_pt_lim (fun r => entry (eval_dnf f N x0 en n len ((r - mid) / len)) k) r
                   (entry (eval_dnf f N x0 en (S n) len ((r - mid) / len)) k).
Proof.
  intros Hg Hen Hn Hl Hk. split; [|split].
  - unfold succeeds, eval_dnf. rewrite (proj2 (Nat.leb_le _ _)) by lia. eexists; reflexivity.
  - unfold succeeds, eval_dnf. rewrite (proj2 (Nat.leb_le _ _)) by lia. eexists; reflexivity.
  - rewrite entry_dnf by (assumption || lia).
    apply (derivable_pt_lim_ext (fun r => prim_dnf f N x0 n (nth k en 0%nat) len ((r - mid) / len) * / len ^ n)).
    { intros y. rewrite entry_dnf by (assumption || lia). reflexivity. }
    assert (Hp : len ^ n <> 0) by (apply pow_nonzero; exact Hl).
    set (D := prim_dnf f N x0 (S n) (nth k en 0%nat) len ((r - mid) / len)).
    replace (D / len ^ S n) with (D / len * / len ^ n) by (cbn [pow]; field; split; assumption).
    apply (scal_r_der (fun r => prim_dnf f N x0 n (nth k en 0%nat) len ((r - mid) / len))).
    apply (local_der (prim_dnf f N x0 n (nth k en 0%nat) len)); [exact Hl|].
    apply prim_der; [exact Hg | apply Hen; apply nth_In; exact Hk | exact Hn].
Qed.

Lemma order_refused f N x0 en n len x : (max_order f < n)%nat -> eval_dnf f N x0 en n len x = Throw LogicError.
Proof. intros H. unfold eval_dnf. rewrite (proj2 (Nat.leb_gt _ _) H). reflexivity. Qed.

(** * Nodal values *)
Lemma own_idx f i k idx : (k < noverlap f)%nat ->
  (idx =? noverlap f * i + k)%nat = ((idx / noverlap f =? i) && (idx mod noverlap f =? k))%nat%bool.
Proof.
  intros Hk. pose proof (nov_pos f). pose proof (idx_kind f idx).
  assert (E : idx = (noverlap f * (idx / noverlap f) + idx mod noverlap f)%nat) by (apply Nat.div_mod; lia).
  apply eq_true_iff_eq. rewrite andb_true_iff, !Nat.eqb_eq. split.
  - intros ->. split.
    + symmetry. apply (Nat.div_unique _ _ _ k); [exact Hk | reflexivity].
    + symmetry. apply (Nat.mod_unique _ _ i); [exact Hk | reflexivity].
  - intros [H1 H2]. rewrite E, H1, H2. reflexivity.
Qed.
Lemma prim_node f N x0 idx i k len : nodal f -> distinct N x0 -> (idx < nprim f N)%nat -> (i < N)%nat ->
  (k < noverlap f)%nat ->
  prim_dnf f N x0 k idx len (x0 i) = if (idx =? noverlap f * i + k)%nat then len ^ k else 0.
Proof.
  intros Hf Hd Hi HiN Hk. rewrite own_idx by assumption.
  pose proof (idx_node f N idx Hi) as Hnode. pose proof (idx_kind f idx) as Hkind.
  assert (Hl := lip_nodes N x0 (idx / noverlap f) i Hd Hnode HiN).
  destruct f; [destruct (Hf eq_refl)|..]; cbn [prim_dnf].
  - cbn [noverlap] in *. assert (k = 0%nat) as -> by lia. rewrite Nat.div_1_r, Nat.mod_1_r in *. cbn [Nat.eqb].
    rewrite andb_true_r, Hl. reflexivity.
  - unfold hermite_dnf. cbn [hip_table]. destruct (Nat.eqb_spec (idx / noverlap HIP) i) as [E|E].
    + rewrite <- E. rewrite hip_own; try exact Hk; try exact Hkind; try reflexivity.
      * cbn [andb]. destruct (Nat.eqb_spec (idx mod noverlap HIP) k) as [->|]; ring.
      * rewrite E at 2. exact Hl.
    + rewrite hip_other; [cbn [andb]; ring | exact Hk | exact Hkind | exact Hl].
  - unfold hermite_dnf. cbn [hip_table]. destruct (Nat.eqb_spec (idx / noverlap HIP2) i) as [E|E].
    + rewrite <- E. rewrite hip2_own; try exact Hk; try exact Hkind; try reflexivity.
      * cbn [andb]. destruct (Nat.eqb_spec (idx mod noverlap HIP2) k) as [->|]; ring.
      * rewrite E at 2. exact Hl.
    + rewrite hip2_other; [cbn [andb]; ring | exact Hk | exact Hkind | exact Hl].
  - unfold hermite_dnf. cbn [hip_table]. destruct (Nat.eqb_spec (idx / noverlap HIP3) i) as [E|E].
    + rewrite <- E. rewrite hip3_own; try exact Hk; try exact Hkind; try reflexivity.
      * cbn [andb]. destruct (Nat.eqb_spec (idx mod noverlap HIP3) k) as [->|]; ring.
      * rewrite E at 2. exact Hl.
    + rewrite hip3_other; [cbn [andb]; ring | exact Hk | exact Hkind | exact Hl].
Qed.
Lemma nov_le_order f k : (k < noverlap f)%nat -> (k <= max_order f)%nat.
Proof. destruct f; cbn; lia. Qed.
Lemma nodal_values f N x0 i k len : nodal f -> distinct N x0 -> (i < N)%nat -> (k < noverlap f)%nat -> len <> 0 ->
  eval_dnf f N x0 (all_enabled f N) k len (x0 i)
  = Ok (map (fun idx => if (idx =? noverlap f * i + k)%nat then 1 else 0) (all_enabled f N)).
Proof.
  intros Hf Hd Hi Hk Hl. unfold eval_dnf. rewrite (proj2 (Nat.leb_le _ _) (nov_le_order f k Hk)).
  f_equal. apply map_ext_in. intros idx Hidx. unfold all_enabled in Hidx. apply in_seq in Hidx.
  rewrite prim_node; [|assumption|assumption|lia|assumption|assumption].
  assert (len ^ k <> 0) by (apply pow_nonzero; exact Hl).
  destruct (_ =? _)%nat; field; assumption.
Qed.

Lemma dot_sum c v : length c = length v -> dot c v = sum (length v) (fun k => nth k c 0 * nth k v 0).
Proof.
  revert v; induction c as [|a c IH]; intros [|b v] H; try discriminate; [reflexivity|].
  cbn [dot length]. rewrite sum_shift. cbn [nth]. rewrite IH by (injection H; auto). reflexivity.
Qed.
Lemma dot_unit c n k : length c = n -> (k < n)%nat ->
  dot c (map (fun idx => if (idx =? k)%nat then 1 else 0) (seq 0 n)) = nth k c 0.
Proof.
  intros Hc Hk. rewrite dot_sum by (rewrite map_length, seq_length; exact Hc).
  rewrite map_length, seq_length. rewrite (sum_single n k); [|exact Hk|].
  - rewrite (entry_map (fun idx => if (idx =? k)%nat then 1 else 0)) by (rewrite seq_length; exact Hk).
    rewrite seq_nth by exact Hk. cbn [plus]. rewrite Nat.eqb_refl. ring.
  - intros i Hi Hne. rewrite (entry_map (fun idx => if (idx =? k)%nat then 1 else 0)) by (rewrite seq_length; exact Hi).
    rewrite seq_nth by exact Hi. cbn [plus]. apply Nat.eqb_neq in Hne. rewrite Hne. ring.
Qed.

Lemma joins f N1 x1 len1 c1 N2 x2 len2 c2 k :
  nodal f -> distinct N1 x1 -> distinct N2 x2 -> (0 < N1)%nat -> (0 < N2)%nat ->
  x1 (N1 - 1)%nat = 1 -> x2 0%nat = -1 -> len1 <> 0 -> len2 <> 0 ->
  length c1 = nprim f N1 -> length c2 = nprim f N2 ->
  (forall j, (j < noverlap f)%nat -> nth (noverlap f * (N1 - 1) + j) c1 0 = nth j c2 0) ->
  (k < noverlap f)%nat ->
  exists v1 v2, eval_dnf f N1 x1 (all_enabled f N1) k len1 1 = Ok v1 /\
                eval_dnf f N2 x2 (all_enabled f N2) k len2 (-1) = Ok v2 /\ dot c1 v1 = dot c2 v2.
Proof.
  intros Hf H1 H2 HN1 HN2 Hr Hl Hl1 Hl2 Hc1 Hc2 Hj Hk.
  rewrite <- Hr, <- Hl. rewrite !nodal_values by (assumption || lia).
  do 2 eexists. split; [reflexivity|]. split; [reflexivity|].
  unfold all_enabled. rewrite !dot_unit; [|assumption| |assumption|].
  - rewrite Hj by assumption. f_equal. lia.
  - rewrite nprim_nov. nia.
  - rewrite nprim_nov. replace (N1 - 1)%nat with (pred N1) by lia. nia.
Qed.

(** * Degrees *)
Lemma pr_poly fi (x0 : vec) l : isPoly (S (length (filter (fun i => negb (i =? fi)%nat) l)))
  (fun x => pr fi (fun i => (x - x0 i) / (x0 fi - x0 i)) [] l).
Proof.
  induction l as [|i l IH]; [apply (isPoly_const 0 1)|]. cbn [pr filter]. unfold skip; cbn [existsb orb].
  destruct (i =? fi)%nat; cbn [negb].
  - apply (isPoly_ext _ (fun x => pr fi (fun i => (x - x0 i) / (x0 fi - x0 i)) [] l)); [intros; ring | exact IH].
  - cbn [length]. apply (isPoly_mul 1 _ (fun x => (x - x0 i) / (x0 fi - x0 i)) _ (isPoly_lin _ _) IH).
Qed.
Lemma filter_ne fi N : (fi < N)%nat -> length (filter (fun i => negb (i =? fi)%nat) (seq 0 N)) = (N - 1)%nat.
Proof.
  intros H. replace (seq 0 N) with (seq 0 fi ++ fi :: seq (S fi) (N - S fi)).
  2:{ change (fi :: seq (S fi) (N - S fi)) with (seq fi (S (N - S fi))). rewrite <- seq_app. f_equal. lia. }
  rewrite filter_app. cbn [filter]. rewrite Nat.eqb_refl. cbn [negb]. rewrite app_length.
  assert (G : forall l : list nat, (forall i, In i l -> i <> fi) -> length (filter (fun i => negb (i =? fi)%nat) l) = length l).
  { induction l as [|i l IH]; intros Hl; [reflexivity|]. cbn [filter].
    rewrite (proj2 (Nat.eqb_neq i fi)) by (apply Hl; left; reflexivity). cbn [negb length].
    rewrite IH; [reflexivity|]. intros; apply Hl; right; assumption. }
  rewrite !G; [rewrite !seq_length; lia| |]; intros i Hi; apply in_seq in Hi; lia.
Qed.
Lemma lip_poly N x0 fi : distinct N x0 -> (fi < N)%nat -> isPoly (S (N - 1)) (lip_dnf N x0 0 fi).
Proof.
  intros Hd Hf. apply (isPoly_ext _ (fun x => pr fi (fun i => (x - x0 i) / (x0 fi - x0 i)) [] (seq 0 N))).
  { intros x. symmetry. apply lip_val; assumption. }
  rewrite <- (filter_ne fi N Hf). apply pr_poly.
Qed.
(** The factor q_j of each Hermite shape, in powers of x - x_i. *)
Definition qpoly (f : family) (k : nat) (p1 p2 p3 : R) : list R :=
  match f, k with
  | HIP, 0%nat => [1; -2 * p1] | HIP, 1%nat => [0; 1]
  | HIP2, 0%nat => [1; -3 * p1; 6 * p1 ^ 2 - 3 / 2 * p2] | HIP2, 1%nat => [0; 1; -3 * p1] | HIP2, 2%nat => [0; 0; 1 / 2]
  | HIP3, 0%nat => [1; -4 * p1; 10 * p1 ^ 2 - 2 * p2; -20 * p1 ^ 3 + 10 * p1 * p2 - 2 / 3 * p3]
  | HIP3, 1%nat => [0; 1; -4 * p1; 10 * p1 ^ 2 - 2 * p2] | HIP3, 2%nat => [0; 0; 1 / 2; -2 * p1]
  | HIP3, 3%nat => [0; 0; 0; 1 / 6]
  | _, _ => []
  end.
Lemma qpoly_ok f k L x xi p1 p2 p3 : f = HIP \/ f = HIP2 \/ f = HIP3 -> (k < noverlap f)%nat ->
  hip_table f 0 k L x xi p1 p2 p3 = L 0%nat ^ noverlap f * peval (qpoly f k p1 p2 p3) (x - xi).
Proof.
  intros [->|[->| ->]] Hk; cbn [noverlap hip_table] in *;
    do 4 (destruct k as [|k]; [try lia; tables; cbn [qpoly peval]; field|]); lia.
Qed.
Lemma qpoly_len f k p1 p2 p3 : (length (qpoly f k p1 p2 p3) <= noverlap f)%nat.
Proof. destruct f; cbn; [lia|lia|..]; do 4 (destruct k as [|k]; [cbn; lia|]); cbn; lia. Qed.
Lemma prim_poly f N x0 idx len : nodal f -> distinct N x0 -> (idx < nprim f N)%nat ->
  isPoly (nprim f N) (prim_dnf f N x0 0 idx len).
Proof.
  intros Hf Hd Hi. pose proof (idx_node f N idx Hi) as Hnode. pose proof (idx_kind f idx) as Hkind.
  assert (HH : f = HIP \/ f = HIP2 \/ f = HIP3 -> isPoly (nprim f N) (hermite_dnf f N x0 0 idx len)).
  { intros Hh. pose proof (nov_pos f).
    apply (isPoly_ext _ (fun x => len ^ (idx mod noverlap f) *
      (lip_dnf N x0 0 (idx / noverlap f) x ^ noverlap f *
       peval (qpoly f (idx mod noverlap f) (lipxi N x0 1 (idx / noverlap f)) (lipxi N x0 2 (idx / noverlap f))
                (lipxi N x0 3 (idx / noverlap f))) (x - x0 (idx / noverlap f)%nat)))).
    { intros x. unfold hermite_dnf. rewrite qpoly_ok by assumption. ring. }
    apply isPoly_scal. apply (isPoly_le (S (noverlap f * (N - 1) + (noverlap f - 1)))).
    { rewrite nprim_nov. replace N with (S (N - 1)) at 2 by lia. nia. }
    apply (isPoly_mul (noverlap f * (N - 1)) (noverlap f - 1)).
    - apply isPoly_pow. apply lip_poly; assumption.
    - apply isPoly_shift. pose proof (qpoly_len f (idx mod noverlap f) (lipxi N x0 1 (idx / noverlap f)) (lipxi N x0 2 (idx / noverlap f))
                (lipxi N x0 3 (idx / noverlap f))). lia. }
  destruct f; [destruct (Hf eq_refl)|..]; cbn [prim_dnf]; try (apply HH; tauto).
  apply (isPoly_le (S (N - 1))); [cbn in *; lia|]. apply lip_poly; [assumption|]. cbn in Hi. exact Hi.
Qed.

(** * Reproduction of polynomials *)
Lemma cnt_app b l l' : cnt b (l ++ l') = (cnt b l + cnt b l')%nat.
Proof. induction l; cbn [app cnt]; [reflexivity|]. rewrite IHl. destruct (Req_EM_T a b); lia. Qed.
Lemma cnt_repeat b a n : cnt b (repeat a n) = if Req_EM_T a b then n else 0%nat.
Proof. induction n; cbn [repeat cnt]; destruct (Req_EM_T a b); try reflexivity; rewrite ?IHn; reflexivity. Qed.
Definition roots (nov N : nat) (x0 : vec) : list R := flat_map (fun i => repeat (x0 i) nov) (seq 0 N).
Lemma roots_S nov N x0 : roots nov (S N) x0 = roots nov N x0 ++ repeat (x0 N) nov.
Proof. unfold roots. rewrite seq_S, flat_map_app. cbn [flat_map plus]. rewrite app_nil_r. reflexivity. Qed.
Lemma roots_len nov N x0 : length (roots nov N x0) = (nov * N)%nat.
Proof. induction N; [cbn; lia|]. rewrite roots_S, app_length, repeat_length, IHN. lia. Qed.
Lemma roots_cnt nov N x0 b k : distinct N x0 -> (k < cnt b (roots nov N x0))%nat ->
  exists i, (i < N)%nat /\ x0 i = b /\ (k < nov)%nat.
Proof.
  revert k. induction N; intros k Hd; [cbn; lia|].
  rewrite roots_S, cnt_app, cnt_repeat.
  assert (Hd' : distinct N x0) by (intros i j Hi Hj; apply Hd; lia).
  destruct (Req_EM_T (x0 N) b) as [E|E]; intros Hk.
  - destruct (cnt b (roots nov N x0)) as [|m] eqn:Em.
    + exists N. split; [lia|]. split; [exact E | lia].
    + destruct (IHN 0%nat Hd') as [i [Hi [Eb _]]]; [lia|].
      assert (i = N) by (apply Hd; [lia..|congruence]). lia.
  - destruct (IHN k Hd') as [i [Hi H]]; [lia|]. exists i. split; [lia | exact H].
Qed.
Lemma reproduces f N x0 c len x : nodal f -> distinct N x0 -> len <> 0 -> (length c <= nprim f N)%nat ->
  sum (nprim f N) (fun idx =>
    peval (pderk (idx mod noverlap f) c) (x0 (idx / noverlap f)%nat) / len ^ (idx mod noverlap f)
    * prim_dnf f N x0 0 idx len x) = peval c x.
Proof.
  intros Hf Hd Hl Hc.
  set (co := fun idx => peval (pderk (idx mod noverlap f) c) (x0 (idx / noverlap f)%nat) / len ^ (idx mod noverlap f)).
  assert (HP : isPoly (nprim f N) (fun x => peval c x + -1 * sum (nprim f N) (fun idx => co idx * prim_dnf f N x0 0 idx len x))).
  { apply (isPoly_add (nprim f N) (peval c)); [exists c; split; [exact Hc | reflexivity]|].
    apply (isPoly_scal (nprim f N) (-1) (fun x => sum (nprim f N) (fun idx => co idx * prim_dnf f N x0 0 idx len x))).
    apply (isPoly_sum (nprim f N) (nprim f N) (fun idx x => co idx * prim_dnf f N x0 0 idx len x)).
    intros i Hi. apply (isPoly_scal _ (co i)). apply prim_poly; assumption. }
  destruct HP as [l [Hll El]].
  assert (Z : peval l x = 0).
  { apply (no_roots (roots (noverlap f) N x0)); [rewrite roots_len, <- nprim_nov; exact Hll|].
    intros b k Hk. apply (roots_cnt _ _ _ _ _ Hd) in Hk. destruct Hk as [i [Hi [<- Hk]]].
    assert (Hkm := nov_le_order f k Hk).
    assert (Hg : good f N x0) by (destruct f; [destruct (Hf eq_refl)|exact Hd..]).
    rewrite <- (chain_pderk (fun k x => peval (pderk k c) x + -1 * sum (nprim f N) (fun idx => co idx * prim_dnf f N x0 k idx len x))
                 l (max_order f)); [|exact El| |exact Hkm].
    2:{ intros j y Hj.
        apply (derivable_pt_lim_plus (peval (pderk j c)) (fun x => -1 * sum (nprim f N) (fun idx => co idx * prim_dnf f N x0 j idx len x)));
          [apply pderk_der|].
        apply (derivable_pt_lim_scal (fun x => sum (nprim f N) (fun idx => co idx * prim_dnf f N x0 j idx len x))).
        assert (G : forall m, (m <= nprim f N)%nat ->
          derivable_pt_lim (fun x => sum m (fun idx => co idx * prim_dnf f N x0 j idx len x)) y
                           (sum m (fun idx => co idx * prim_dnf f N x0 (S j) idx len y))).
        { induction m; intros Hm; cbn [sum]; [apply derivable_pt_lim_const|].
          apply (derivable_pt_lim_plus (fun x => sum m (fun idx => co idx * prim_dnf f N x0 j idx len x))
                   (fun x => co m * prim_dnf f N x0 j m len x)); [apply IHm; lia|].
          apply derivable_pt_lim_scal. apply prim_der; [exact Hg | lia | exact Hj]. }
        apply G. lia. }
    cbv beta. pose proof (nov_pos f).
    rewrite (sum_single (nprim f N) (noverlap f * i + k)).
    - rewrite prim_node; [|assumption|assumption| |assumption|assumption].
      2:{ rewrite nprim_nov. nia. }
      rewrite Nat.eqb_refl. unfold co.
      replace ((noverlap f * i + k) / noverlap f)%nat with i by (apply (Nat.div_unique _ _ _ k); [exact Hk | reflexivity]).
      replace ((noverlap f * i + k) mod noverlap f)%nat with k by (apply (Nat.mod_unique _ _ i); [exact Hk | reflexivity]).
      field. apply pow_nonzero. exact Hl.
    - rewrite nprim_nov. nia.
    - intros idx Hidx Hne. rewrite prim_node by assumption. apply Nat.eqb_neq in Hne. rewrite Hne. ring. }
  rewrite <- El in Z. change (sum (nprim f N) (fun idx => co idx * prim_dnf f N x0 0 idx len x) = peval c x). lra.
Qed.

(** * B/r *)
Lemma pr_map_S fi a l : (0 < fi)%nat -> pr fi a [] (map S l) = pr (fi - 1) (fun i => a (S i)) [] l.
Proof.
  intros H. induction l as [|i l IH]; [reflexivity|]. cbn [map pr]. rewrite IH. unfold skip; cbn [existsb orb].
  destruct (Nat.eqb_spec (S i) fi), (Nat.eqb_spec i (fi - 1)); try lia; reflexivity.
Qed.
Lemma pr_ext_a fi a b l : (forall i, a i = b i) -> pr fi a [] l = pr fi b [] l.
Proof. intros H. induction l; cbn [pr]; [reflexivity|]. rewrite IHl, H. reflexivity. Qed.
Lemma distinct_red N x0 : distinct N x0 -> distinct (N - 1) (fun i => x0 (S i)).
Proof. intros H i j Hi Hj E. apply H in E; lia. Qed.
Lemma deflate N x0 i x : distinct N x0 -> x0 0%nat = -1 -> (1 <= i < N)%nat ->
  lip_dnf N x0 0 i x = (x + 1) / (x0 i + 1) * lip_dnf (N - 1) (fun i => x0 (S i)) 0 (i - 1) x.
Proof.
  intros Hd H0 Hi. rewrite !lip_val; [|apply distinct_red; assumption|lia|assumption|lia].
  destruct N as [|N]; [lia|]. cbn [seq pr]. rewrite <- seq_shift, pr_map_S by lia.
  unfold skip; cbn [existsb orb]. rewrite (proj2 (Nat.eqb_neq 0 i)) by lia.
  replace (S N - 1)%nat with N by lia. rewrite H0.
  replace (x - -1) with (x + 1) by ring. replace (x0 i - -1) with (x0 i + 1) by ring.
  f_equal. apply pr_ext_a. intros k. replace (S (i - 1)) with i by lia. reflexivity.
Qed.
Lemma x0_plus1 N x0 i : distinct N x0 -> x0 0%nat = -1 -> (1 <= i < N)%nat -> x0 i + 1 <> 0.
Proof. intros Hd H0 Hi E. assert (i = 0%nat) by (apply Hd; [lia..|lra]). lia. Qed.

Lemma over_val f N x0 idx len x : origin f N x0 -> (1 <= idx < nprim f N)%nat -> len <> 0 ->
  len * (x + 1) * over_r f N x0 0 idx len x = prim_dnf f N x0 0 idx len x.
Proof.
  intros [Hg H0] Hi Hl. pose proof (idx_node f N idx ltac:(lia)) as Hnode. pose proof (idx_kind f idx) as Hkind.
  assert (HH : f = HIP \/ f = HIP2 \/ f = HIP3 -> len * (x + 1) * hermite_over_r f N x0 0 idx len x = hermite_dnf f N x0 0 idx len x).
  { intros Hh. assert (Hd : distinct N x0) by (destruct Hh as [->|[->| ->]]; exact Hg).
    assert (Hm : x0 0%nat = -1) by (apply H0; destruct Hh as [->|[->| ->]]; discriminate).
    unfold hermite_over_r, hermite_dnf, zpow.
    set (node := (idx / noverlap f)%nat) in *. set (kind := (idx mod noverlap f)%nat) in *.
    replace (len ^ 1) with len by ring.
    destruct (Nat.eqb_spec node 0) as [En|En].
    - assert (Hk : (0 < kind)%nat).
      { destruct kind eqn:Ek; [|lia]. exfalso. unfold node, kind in *.
        pose proof (Nat.div_mod idx (noverlap f) ltac:(pose proof (nov_pos f); lia)). nia. }
      rewrite En.
      match goal with |- _ * (?u * _) = _ => transitivity ((x + 1) * u * len ^ kind); [field; exact Hl|] end.
      f_equal.
      destruct Hh as [->|[->| ->]]; cbn [hip_table];
        [apply hip_or_first_val | apply hip2_or_first_val | apply hip3_or_first_val]; (exact Hm || (split; assumption)).
    - match goal with |- _ * (?u * _) = _ => transitivity ((x + 1) * u * len ^ kind); [field; exact Hl|] end.
      f_equal.
      assert (Hx : x0 node + 1 <> 0) by (apply (x0_plus1 N); [assumption..|lia]).
      destruct Hh as [->|[->| ->]]; cbn [hip_table];
        [apply hip_or_rest_val | apply hip2_or_rest_val | apply hip3_or_rest_val];
        first [exact Hx | exact Hkind | apply deflate; [assumption..|lia]]. }
  destruct f; cbn [over_r prim_dnf]; try (apply HH; tauto).
  - cbn [nprim] in Hi. apply leg_over_val; assumption.
  - cbn [nprim] in Hi. cbn in Hg. assert (Hm : x0 0%nat = -1) by (apply H0; discriminate).
    rewrite deflate by assumption. unfold lip_over_r. cbn [plus pow]. field.
    split; [apply (x0_plus1 N); assumption | exact Hl].
Qed.

Lemma zpow_S len kind n : len <> 0 -> zpow len kind n = len * zpow len kind (S n).
Proof.
  intros H. unfold zpow. cbn [pow]. field. split; [apply pow_nonzero; exact H | exact H].
Qed.
Lemma over_der f N x0 n idx len x : origin f N x0 -> (1 <= idx < nprim f N)%nat -> len <> 0 ->
  (n < max_over_r f)%nat ->
  derivable_pt_lim (over_r f N x0 n idx len) x (len * over_r f N x0 (S n) idx len x).
Proof.
  intros [Hg H0] Hi Hl Hn. pose proof (idx_node f N idx ltac:(lia)) as Hnode. pose proof (idx_kind f idx) as Hkind.
  assert (HH : f = HIP \/ f = HIP2 \/ f = HIP3 ->
    derivable_pt_lim (hermite_over_r f N x0 n idx len) x (len * hermite_over_r f N x0 (S n) idx len x)).
  { intros Hh. assert (Hd : distinct N x0) by (destruct Hh as [->|[->| ->]]; exact Hg).
    assert (Hm : x0 0%nat = -1) by (apply H0; destruct Hh as [->|[->| ->]]; discriminate).
    assert (Hn2 : (n < 2)%nat) by (destruct Hh as [->|[->| ->]]; exact Hn).
    unfold hermite_over_r. set (node := (idx / noverlap f)%nat) in *. set (kind := (idx mod noverlap f)%nat) in *.
    rewrite (zpow_S len kind n Hl).
    match goal with |- derivable_pt_lim _ _ (len * (?u * ?z)) => replace (len * (u * z)) with (u * (len * z)) by ring end.
    destruct (Nat.eqb_spec node 0) as [En|En].
    - assert (Hk : (0 < kind)%nat).
      { destruct kind eqn:Ek; [|lia]. exfalso. unfold node, kind in *.
        pose proof (Nat.div_mod idx (noverlap f) ltac:(pose proof (nov_pos f); lia)). nia. }
      apply scal_r_der.
      assert (HL : forall k, (k < 2)%nat -> derivable_pt_lim (lip_dnf N x0 k 0) x (lip_dnf N x0 (S k) 0 x)).
      { intros k Hk'. apply lip_der; [assumption|lia|lia]. }
      destruct Hh as [->|[->| ->]];
        [apply (hip_or_first_der (fun k => lip_dnf N x0 k 0)) | apply (hip2_or_first_der (fun k => lip_dnf N x0 k 0))
        | apply (hip3_or_first_der (fun k => lip_dnf N x0 k 0))]; first [exact HL | exact Hn2 | split; assumption].
    - apply scal_r_der.
      assert (Hx : x0 node + 1 <> 0) by (apply (x0_plus1 N); [assumption..|lia]).
      set (xr := fun i => x0 (S i)).
      assert (HL : forall k, (k < 2)%nat -> derivable_pt_lim (lip_dnf (N - 1) xr k (node - 1)) x (lip_dnf (N - 1) xr (S k) (node - 1) x)).
      { intros k Hk'. apply lip_der; [apply distinct_red; assumption|lia|lia]. }
      destruct Hh as [->|[->| ->]];
        [apply (hip_or_rest_der (fun k => lip_dnf (N - 1) xr k (node - 1))) | apply (hip2_or_rest_der (fun k => lip_dnf (N - 1) xr k (node - 1)))
        | apply (hip3_or_rest_der (fun k => lip_dnf (N - 1) xr k (node - 1)))]; first [exact HL | exact Hx | exact Hn2 | exact Hkind]. }
  destruct f; cbn [over_r]; try (apply HH; tauto).
  - apply leg_over_der; assumption.
  - cbn in Hg, Hi, Hn. unfold lip_over_r. set (xr := fun k => x0 (S k)).
    assert (Hm : x0 0%nat = -1) by (apply H0; discriminate).
    replace (len * (1 / len ^ (S n + 1) * lip_dnf (N - 1) xr (S n) (idx - 1) x / (x0 idx + 1)))
      with (1 / len ^ (n + 1) / (x0 idx + 1) * lip_dnf (N - 1) xr (S n) (idx - 1) x).
    2:{ replace (S n + 1)%nat with (S (n + 1)) by lia. cbn [pow]. field.
        repeat split; first [exact Hl | apply pow_nonzero; exact Hl | apply (x0_plus1 N); assumption]. }
    apply (derivable_pt_lim_ext (fun y => 1 / len ^ (n + 1) / (x0 idx + 1) * lip_dnf (N - 1) xr n (idx - 1) y)).
    { intros y. unfold over_r, lip_over_r. fold xr. unfold Rdiv. ring. }
    apply derivable_pt_lim_scal. apply lip_der; [apply distinct_red; assumption | lia | exact Hn].
Qed.
Lemma over_ok f N x0 en n len x : (n <= max_over_r f)%nat -> en <> [] -> (forall i, In i en -> (1 <= i)%nat) ->
  eval_over_r f N x0 en n len x = Ok (map (fun idx => over_r f N x0 n idx len x) en).
Proof.
  intros Hn He Hi. unfold eval_over_r. rewrite (proj2 (Nat.leb_le _ _) Hn).
  destruct en as [|[|i] en]; [congruence | pose proof (Hi 0%nat (or_introl eq_refl)); lia | reflexivity].
Qed.
Lemma over_r_value f N x0 en len x k : origin f N x0 -> en <> [] ->
  (forall i, In i en -> (1 <= i < nprim f N)%nat) -> len <> 0 -> (k < length en)%nat ->
  succeeds (eval_over_r f N x0 en 0 len x) /\
  len * (x + 1) * entry (eval_over_r f N x0 en 0 len x) k = entry (eval_dnf f N x0 en 0 len x) k.
Proof.
  intros Ho He Hi Hl Hk. rewrite over_ok; [|lia|exact He|intros i H; apply Hi; exact H].
  split; [eexists; reflexivity|]. cbn [entry]. rewrite (entry_map (fun idx => over_r f N x0 0 idx len x)) by exact Hk.
  rewrite entry_dnf by (exact Hk || lia). rewrite over_val; [cbn [pow]; field | exact Ho | apply Hi; apply nth_In; exact Hk | exact Hl].
Qed.
Lemma over_r_derivs f N x0 en n len r k : origin f N x0 -> en <> [] ->
  (forall i, In i en -> (1 <= i < nprim f N)%nat) -> len <> 0 -> (k < length en)%nat -> (n < max_over_r f)%nat ->
  succeeds (eval_over_r f N x0 en (S n) len (r / len - 1)) /\
  derivable_pt_lim (fun r => entry (eval_over_r f N x0 en n len (r / len - 1)) k) r
                   (entry (eval_over_r f N x0 en (S n) len (r / len - 1)) k).
Proof.
  intros Ho He Hi Hl Hk Hn. rewrite over_ok; [|lia|exact He|intros i H; apply Hi; exact H].
  split; [eexists; reflexivity|]. cbn [entry]. rewrite (entry_map (fun idx => over_r f N x0 (S n) idx len (r / len - 1))) by exact Hk.
  set (idx := nth k en 0%nat).
  apply (derivable_pt_lim_ext (fun r => over_r f N x0 n idx len ((r - len) / len))).
  { intros y. rewrite over_ok; [|lia|exact He|intros i H; apply Hi; exact H]. cbn [entry].
    rewrite (entry_map (fun idx => over_r f N x0 n idx len (y / len - 1))) by exact Hk.
    f_equal. field. exact Hl. }
  replace (r / len - 1) with ((r - len) / len) by (field; exact Hl).
  replace (over_r f N x0 (S n) idx len ((r - len) / len))
    with (len * over_r f N x0 (S n) idx len ((r - len) / len) / len) by (field; exact Hl).
  apply (local_der (over_r f N x0 n idx len)); [exact Hl|].
  apply over_der; [exact Ho | apply Hi; apply nth_In; exact Hk | exact Hl | exact Hn].
Qed.

(** * The statements of the properties *)
Lemma map_dot (g h : nat -> R) n : dot (map g (seq 0 n)) (map h (seq 0 n)) = sum n (fun i => g i * h i).
Proof.
  rewrite dot_sum by (rewrite !map_length; reflexivity). rewrite map_length, seq_length.
  apply sum_ext. intros i Hi. rewrite !entry_map by (rewrite seq_length; exact Hi). rewrite seq_nth by exact Hi. reflexivity.
Qed.
Lemma value_row f N x0 len x : eval_dnf f N x0 (all_enabled f N) 0 len x
  = Ok (map (fun idx => prim_dnf f N x0 0 idx len x) (seq 0 (nprim f N))).
Proof.
  unfold eval_dnf. replace (0 <=? max_order f)%nat with true by reflexivity. f_equal. unfold all_enabled.
  apply map_ext. intros i. cbn [pow]. field.
Qed.
Lemma reproduction f N x0 c len x : nodal f -> distinct N x0 -> len <> 0 -> (length c <= nprim f N)%nat ->
  exists v, eval_dnf f N x0 (all_enabled f N) 0 len x = Ok v /\
    dot (map (fun idx => peval (pderk (idx mod noverlap f) c) (x0 (idx / noverlap f)%nat) / len ^ (idx mod noverlap f))
             (all_enabled f N)) v = peval c x.
Proof.
  intros Hf Hd Hl Hc. rewrite value_row. eexists. split; [reflexivity|]. unfold all_enabled.
  rewrite map_dot. apply reproduces; assumption.
Qed.
Lemma lip_reproduction N x0 c len x : distinct N x0 -> (length c <= N)%nat ->
  exists v, eval_dnf LIP N x0 (all_enabled LIP N) 0 len x = Ok v /\
    dot (map (fun i => peval c (x0 i)) (seq 0 N)) v = peval c x.
Proof.
  intros Hd Hc. rewrite value_row. eexists. split; [reflexivity|]. rewrite map_dot.
  rewrite <- (reproduces LIP N x0 c 1 x); [|discriminate|assumption|lra|exact Hc].
  apply sum_ext. intros i Hi. cbn [noverlap nprim prim_dnf]. rewrite Nat.mod_1_r, Nat.div_1_r. cbn [pow pderk]. field.
Qed.
Lemma lip_unity N x0 len x : distinct N x0 -> (1 <= N)%nat ->
  exists v, eval_dnf LIP N x0 (all_enabled LIP N) 0 len x = Ok v /\ lsum v (fun y => y) = 1.
Proof.
  intros Hd HN. destruct (lip_reproduction N x0 [1] len x Hd HN) as [v [Ev Dv]]. exists v. split; [exact Ev|].
  rewrite value_row in Ev. injection Ev as <-. rewrite map_dot in Dv. rewrite lsum_map, lsum_seq0.
  etransitivity; [|etransitivity; [exact Dv|cbn; ring]]. apply sum_ext. intros. cbn [peval]. ring.
Qed.
Lemma lip_identity N x0 i len : distinct N x0 -> (i < N)%nat ->
  eval_dnf LIP N x0 (all_enabled LIP N) 0 len (x0 i) = Ok (map (fun j => if (j =? i)%nat then 1 else 0) (seq 0 N)).
Proof.
  intros Hd Hi. rewrite value_row. f_equal. apply map_ext_in. intros j Hj. apply in_seq in Hj. cbn [prim_dnf].
  apply lip_nodes; [assumption|lia|assumption].
Qed.

Lemma sorted_nth l : sorted_le l -> forall i j, (i <= j < length l)%nat -> nth i l 0 <= nth j l 0.
Proof.
  intros Hs i j H. destruct (Nat.eq_dec i j) as [->|]; [lra|]. apply Hs; lia.
Qed.
Lemma lip_ctor_ok e x l : lip_ctor e x = Ok l ->
  Permutation.Permutation x l /\ (forall i j, (i <= j < length l)%nat -> nth i l 0 <= nth j l 0) /\
  l <> [] /\ Rabs (nth 0 l 0 + 1) < e /\ Rabs (nth (length l - 1) l 0 - 1) < e.
Proof.
  unfold lip_ctor. pose proof (FEProofs.sortR_perm x) as Hp. pose proof (FEProofs.sortR_sorted x) as Hs.
  destruct (sortR x) as [|a s] eqn:Es; [discriminate|].
  destruct (Rleb_spec e (Rabs (a + 1))); [discriminate|].
  destruct (Rleb_spec e (Rabs (last (a :: s) 0 - 1))) as [|Hl]; [discriminate|].
  intros H. injection H as <-. split; [exact Hp|]. split; [apply sorted_nth; exact Hs|].
  split; [discriminate|]. split; [cbn [nth]; lra|].
  replace (nth (length (a :: s) - 1) (a :: s) 0) with (last (a :: s) 0); [lra|].
  clear. revert a. induction s as [|b s IH]; intros a; [reflexivity|].
  transitivity (last (b :: s) 0); [reflexivity|]. rewrite IH. cbn [length].
  replace (S (S (length s)) - 1)%nat with (S (S (length s) - 1)) by lia. reflexivity.
Qed.
Lemma lip_ctor_distinct e x l : lip_ctor e x = Ok l -> NoDup x -> distinct (length l) (fun i => nth i l 0).
Proof.
  intros H Hx. apply lip_ctor_ok in H. destruct H as [Hp _].
  apply (Permutation.Permutation_NoDup Hp) in Hx. intros i j Hi Hj E. apply (proj1 (NoDup_nth l 0) Hx); assumption.
Qed.
Lemma lip_ctor_duplicates : exists x l, ~ NoDup x /\ lip_ctor (/ 1000) x = Ok l.
Proof.
  exists [-1; -1; 1], [-1; -1; 1]. split.
  - intros H. inversion H; subst. apply H2. left. reflexivity.
  - unfold lip_ctor, sortR. cbn [fold_right insertR].
    repeat (match goal with |- context [Rleb ?a ?b] => destruct (Rleb_spec a b); try lra; cbn [insertR last] end); try reflexivity.
    all: exfalso; unfold Rabs in *; repeat destruct Rcase_abs in *; lra.
Qed.

Lemma legendre_ends N len (left : bool) : (2 <= N)%nat ->
  eval_dnf Legendre N (fun _ => 0) (all_enabled Legendre N) 0 len (if left then -1 else 1)
  = Ok (map (fun j => if (j =? if left then 0 else N - 1)%nat then 1 else 0) (seq 0 N)).
Proof.
  intros HN. rewrite value_row. f_equal. apply map_ext_in. intros j Hj. apply in_seq in Hj. cbn [prim_dnf].
  apply leg_ends; [assumption|lia].
Qed.
Lemma legendre_complete N c len : (2 <= N)%nat -> (length c <= N)%nat ->
  exists a, length a = N /\ forall x, exists v,
    eval_dnf Legendre N (fun _ => 0) (all_enabled Legendre N) 0 len x = Ok v /\ dot a v = peval c x.
Proof.
  intros HN Hc. destruct (leg_complete N c HN Hc) as [a Ha]. exists (map a (seq 0 N)).
  split; [rewrite map_length, seq_length; reflexivity|]. intros x. rewrite value_row. eexists. split; [reflexivity|].
  rewrite map_dot. apply Ha.
Qed.
Lemma legendre_stiffness N i j len : (2 <= N)%nat -> (i < N)%nat -> (j < N)%nat -> len <> 0 ->
  integral (fun x => entry (eval_dnf Legendre N (fun _ => 0) (all_enabled Legendre N) 1 len x) i *
                     entry (eval_dnf Legendre N (fun _ => 0) (all_enabled Legendre N) 1 len x) j * (len * len)) (-1) 1
    (if (interior N i || interior N j)%bool then (if (i =? j)%nat then 1 else 0)
     else if (i =? j)%nat then 1 / 2 else - (1 / 2)).
Proof.
  intros HN Hi Hj Hl. apply (ShapeOrth.integral_ext (fun x => leg_dnf N 1 i x * leg_dnf N 1 j x)).
  - intros x. unfold all_enabled; cbn [nprim]. rewrite !entry_dnf; try (rewrite seq_length; assumption); try (cbn; lia).
    rewrite !seq_nth by assumption. cbn [plus prim_dnf pow]. field. exact Hl.
  - apply ShapeOrth.stiffness; assumption.
Qed.
Lemma over_r_refused f N x0 en n len x :
  (max_over_r f < n)%nat \/ en = [] \/ hd 1%nat en = 0%nat -> eval_over_r f N x0 en n len x = Throw LogicError.
Proof.
  intros H. unfold eval_over_r. destruct (Nat.leb_spec n (max_over_r f)); [|reflexivity].
  destruct H as [H|[->|H]]; [lia|reflexivity|]. destruct en as [|[|i] en]; [reflexivity..|discriminate H].
Qed.

Lemma nodes3_ok : distinct 3 (fun i => INR i - 1) /\ INR 0 - 1 = -1 /\ INR 2 - 1 = 1.
Proof.
  split; [|cbn; lra]. intros i j _ _ E. apply INR_eq. lra.
Qed.
Lemma good_all_ok : forall f, good f 3 (fun i => INR i - 1) /\ origin f 3 (fun i => INR i - 1).
Proof.
  assert (G : forall f, good f 3 (fun i => INR i - 1)) by (intros []; cbn; [lia|apply nodes3_ok..]).
  intros f. split; [apply G|]. split; [apply G|]. intros _. apply nodes3_ok.
Qed.
Lemma enabled_ok : forall f, [1; 2]%nat <> [] /\ forall i, In i [1; 2]%nat -> (1 <= i < nprim f 3)%nat.
Proof. intros f. split; [discriminate|]. intros i [<-|[<-|[]]]; destruct f; cbn; lia. Qed.
Lemma ctor_ok : exists l, lip_ctor (/ 1000) [1; -1; 0] = Ok l.
Proof.
  exists [-1; 0; 1]. unfold lip_ctor, sortR. cbn [fold_right insertR].
  destruct (Rleb_spec (-1) 0); [|lra]. cbn [insertR]. destruct (Rleb_spec 1 (-1)); [lra|]. destruct (Rleb_spec 1 0); [lra|].
  replace (-1 + 1) with 0 by ring. cbn [last]. replace (1 - 1) with 0 by ring. rewrite Rabs_R0.
  destruct (Rleb_spec (/ 1000) 0); [lra|]. reflexivity.
Qed.
