(** Proofs: tables of integers and frozen occupations. *)
Require Import ZArith List Bool Arith Ascii String Lia.
Require Import Verif.Prelude Verif.TabModel Verif.TabSpec Verif.TabName Verif.AngModel Verif.AngSpec Verif.AngProofs Verif.OcModel Verif.OcSpec.
Import ListNotations.
Open Scope Z_scope.

(* ------------------------------------------------------------------ *)
(** * Lines *)
Lemma in_int_ok z : in_int z = true <-> int_range z.
Proof. unfold in_int, int_range. rewrite andb_true_iff, Z.leb_le, Z.ltb_lt. reflexivity. Qed.
Lemma drop_ok ds rest : all_of digit ds -> head_not digit rest -> drop_digits (ds ++ rest) = rest.
Proof.
  intros Hd Hr. induction ds as [|c t IH]; cbn [append drop_digits].
  - destruct rest as [|c t]; [reflexivity|]. cbn [drop_digits]. destruct (isdigit c) eqn:E; [|reflexivity].
    exfalso. apply Hr. unfold isdigit in E. apply andb_true_iff in E. destruct E as [A B]. apply Z.leb_le in A, B. unfold digit, code in *. lia.
  - destruct Hd as [H1 H2]. assert (E : isdigit c = true) by (unfold isdigit, digit, code in *; apply andb_true_intro; split; apply Z.leb_le; lia).
    rewrite E. apply IH. exact H2.
Qed.
Lemma app_nil_s (s : string) : (s ++ "" = s)%string.
Proof. induction s as [|c t IH]; [reflexivity|]. cbn [append]. rewrite IH. reflexivity. Qed.
Lemma length_app_s (a b : string) : String.length (a ++ b) = (String.length a + String.length b)%nat.
Proof. induction a as [|c t IH]; [reflexivity|]. cbn [append String.length]. rewrite IH. reflexivity. Qed.
Lemma head_digit ds : all_of digit ds -> ds <> EmptyString -> exists c t, ds = String c t /\ isdigit c = true /\ code c <> 45 /\ code c <> 43 /\ ~ blank c.
Proof.
  intros H N. destruct ds as [|c t]; [congruence|]. destruct H as [H _]. exists c, t. split; [reflexivity|]. unfold isdigit, digit, code, blank in *.
  split; [apply andb_true_intro; split; apply Z.leb_le; lia|]. lia.
Qed.
Lemma read_num bs sg ds rest : all_of blank bs -> all_of digit ds -> ds <> EmptyString -> head_not digit rest ->
  read_int (bs ++ sign_text sg ++ ds ++ rest)%string = if in_int (signed sg (value ds)) then Some (signed sg (value ds), rest) else None.
Proof.
  intros Hb Hd Hn Hr. destruct (head_digit ds Hd Hn) as (c & t & E & D & N1 & N2 & Nb).
  unfold read_int. rewrite skip_ok; [|exact Hb|].
  - destruct sg; cbn [sign_text append].
    + change (code "+" =? 45) with false. change (code "+" =? 43) with true. cbv iota.
      rewrite (digits_ok _ _ Hd Hr), (drop_ok _ _ Hd Hr), Z.mul_0_l, Z.add_0_l. rewrite E at 1. cbn [append]. rewrite D. reflexivity.
    + change (code "-" =? 45) with true. cbv iota.
      rewrite (digits_ok _ _ Hd Hr), (drop_ok _ _ Hd Hr), Z.mul_0_l, Z.add_0_l. rewrite E at 1. cbn [append]. rewrite D. reflexivity.
    + subst ds. cbn [append]. rewrite (proj2 (Z.eqb_neq _ _) N1), (proj2 (Z.eqb_neq _ _) N2). cbv iota. rewrite D.
      change (String c (t ++ rest)) with (String c t ++ rest)%string.
      rewrite (digits_ok _ _ Hd Hr), (drop_ok _ _ Hd Hr), Z.mul_0_l, Z.add_0_l. reflexivity.
  - destruct sg; cbn [sign_text append head_not]; try (unfold blank; cbn; lia). rewrite E. cbn [append head_not]. exact Nb.
Qed.
Lemma not_digit rest : head_not digit rest -> match rest with String c _ => isdigit c = false | EmptyString => True end.
Proof.
  destruct rest as [|c t]; [intros; exact I|]. cbn [head_not]. intros H. destruct (isdigit c) eqn:E; [|reflexivity].
  exfalso. apply H. unfold isdigit in E. apply andb_true_iff in E. destruct E as [A B]. apply Z.leb_le in A, B. unfold digit, code in *. lia.
Qed.
Lemma code_char c n : (n < 256)%nat -> code c = Z.of_nat n -> c = ascii_of_nat n.
Proof. intros H E. unfold code in E. apply Nat2Z.inj in E. rewrite <- E. symmetry. apply ascii_nat_embedding. Qed.
Lemma read_junk bs sg rest : all_of blank bs -> head_not digit rest ->
  match sg with NoSign => head_not (fun c => blank c \/ plus_minus c) rest | _ => True end -> read_int (bs ++ sign_text sg ++ rest)%string = None.
Proof.
  intros Hb Hr Hs. pose proof (not_digit rest Hr) as D. unfold read_int. rewrite skip_ok; [|exact Hb|].
  - destruct sg; cbn [sign_text append].
    + change (code "+" =? 45) with false. change (code "+" =? 43) with true. cbv iota. destruct rest as [|c t]; [reflexivity|]. rewrite D. reflexivity.
    + change (code "-" =? 45) with true. cbv iota. destruct rest as [|c t]; [reflexivity|]. rewrite D. reflexivity.
    + destruct rest as [|c t]; [reflexivity|]. cbn [head_not] in Hs.
      destruct (Z.eqb_spec (code c) 45) as [E|_]; [exfalso; apply Hs; right; right; apply (code_char c 45); [lia | exact E]|].
      destruct (Z.eqb_spec (code c) 43) as [E|_]; [exfalso; apply Hs; right; left; apply (code_char c 43); [lia | exact E]|].
      rewrite D. reflexivity.
  - destruct sg; cbn [sign_text append head_not]; try (unfold blank; cbn; lia). destruct rest as [|c t]; [exact I|]. cbn [head_not] in *. tauto.
Qed.
Lemma means_ints s row : line_means s row -> forall fuel, (String.length s < fuel)%nat -> read_ints fuel s = row.
Proof.
  induction 1 as [bs Hb | bs sg ds rest row Hb Hd Hn Hr Hv Hm IH | bs sg rest Hb Hr Hs | bs sg ds rest Hb Hd Hn Hr Hv]; intros fuel F;
    (destruct fuel as [|fuel]; [lia|]); cbn [read_ints].
  - replace bs with (bs ++ sign_text NoSign ++ "")%string by (cbn [sign_text append]; apply app_nil_s). rewrite read_junk; [reflexivity | exact Hb | exact I | exact I].
  - rewrite read_num by assumption. rewrite (proj2 (in_int_ok _) Hv). f_equal. apply IH.
    rewrite !length_app_s in F. assert (1 <= String.length ds)%nat by (destruct ds; [congruence | cbn; lia]). lia.
  - rewrite read_junk by assumption. reflexivity.
  - rewrite read_num by assumption. destruct (in_int _) eqn:E; [|reflexivity]. apply in_int_ok in E. contradiction.
Qed.
Theorem means_row s row : line_means s row -> read_row s = row.
Proof. intros H. apply (means_ints s row H). lia. Qed.

Lemma lines_one l t : one_line l -> lines (l ++ String NL t) = l :: lines t.
Proof.
  induction l as [|c s IH]; cbn [append]; intros H.
  - reflexivity.
  - destruct H as [H1 H2]. cbn [lines]. destruct (Z.eqb_spec (code c) 10) as [E|_]; [exfalso; apply H1; apply (code_char c 10); [lia | exact E]|].
    rewrite IH by exact H2. reflexivity.
Qed.
Lemma lines_last l : one_line l -> lines l = match l with EmptyString => [] | _ => [l] end.
Proof.
  induction l as [|c s IH]; [reflexivity|]. intros [H1 H2]. cbn [lines]. destruct (Z.eqb_spec (code c) 10) as [E|_]; [exfalso; apply H1; apply (code_char c 10); [lia | exact E]|].
  rewrite IH by exact H2. destruct s; reflexivity.
Qed.
Lemma lines_text ls last : Forall one_line ls -> one_line last -> lines (text ls last) = all_lines ls last.
Proof.
  intros H L. unfold all_lines. induction H as [|l ls Hl _ IH]; cbn [text app].
  - apply lines_last. exact L.
  - rewrite lines_one by exact Hl. rewrite IH. reflexivity.
Qed.
Lemma nonblank_filter rs ds : nonblank rs ds -> filter (fun r => negb (List.length r =? 0)%nat) rs = ds.
Proof. induction 1; cbn [filter List.length Nat.eqb negb]; congruence. Qed.
Lemma map_means ls rows : Forall2 line_means ls rows -> map read_row ls = rows.
Proof. induction 1 as [|l r ls rs H _ IH]; [reflexivity|]. cbn [map]. rewrite (means_row l r H), IH. reflexivity. Qed.
Theorem read_table ls last rows data : Forall one_line ls -> one_line last -> Forall2 line_means (all_lines ls last) rows -> nonblank rows data ->
  ((forall r r', In r data -> In r' data -> List.length r = List.length r') -> read_raw_ascii_imat (Some (text ls last)) = Ok data) /\
  (forall r r', In r data -> In r' data -> List.length r <> List.length r' -> read_raw_ascii_imat (Some (text ls last)) = Throw RuntimeError).
Proof.
  intros H L M N. unfold read_raw_ascii_imat. rewrite (lines_text ls last H L), (map_means _ _ M), (nonblank_filter _ _ N).
  destruct data as [|d data]; [split; [reflexivity | intros r r' []]|]. split.
  - intros E. destruct (forallb _ _) eqn:F; [reflexivity|]. exfalso. rewrite <- not_true_iff_false in F. apply F. apply forallb_forall.
    intros x Hx. apply Nat.eqb_eq. apply E; [exact Hx | left; reflexivity].
  - intros r r' H1 H2 Hne. destruct (forallb _ _) eqn:F; [|reflexivity]. exfalso. rewrite forallb_forall in F. apply Hne.
    pose proof (F r H1) as A. pose proof (F r' H2) as B. apply Nat.eqb_eq in A, B. congruence.
Qed.
Theorem read_shape file M : read_raw_ascii_imat file = Ok M -> forall r, In r M -> List.length r = cols M /\ r <> [] /\ Forall int_range r.
Proof.
  unfold read_raw_ascii_imat. destruct file as [t|]; [|discriminate]. set (rows := filter _ _).
  assert (R : forall r, In r rows -> r <> [] /\ Forall int_range r).
  { intros r Hr. unfold rows in Hr. apply filter_In in Hr. destruct Hr as [Hr Hl]. split; [intros ->; discriminate|].
    apply in_map_iff in Hr. destruct Hr as (l & <- & _). unfold read_row. generalize (S (String.length l)) as fuel. clear. intros fuel. revert l.
    induction fuel as [|f IH]; intros l; cbn [read_ints]; [constructor|].
    destruct (read_int l) as [[v s]|] eqn:E; [|constructor]. constructor; [|apply IH].
    unfold read_int in E. destruct (match skip_space l with EmptyString => _ | String _ _ => _ end) as [neg q]. destruct q as [|c q]; [discriminate|].
    destruct (isdigit c); [|discriminate]. destruct (in_int _) eqn:I in E; [|discriminate]. injection E as <- <-. apply in_int_ok. exact I. }
  destruct rows as [|d rows]; intros H; [injection H as <-; intros r []|].
  destruct (forallb _ _) eqn:F in H; [|discriminate]. injection H as <-. rewrite forallb_forall in F. intros r Hr. split; [|apply R; exact Hr].
  cbn [cols]. apply Nat.eqb_eq. apply F. exact Hr.
Qed.

(* ------------------------------------------------------------------ *)
(** * Rows of occupations *)
Lemma same_list_ok a : forall b, same_list a b = true <-> a = b.
Proof.
  induction a as [|x a IH]; intros [|y b]; cbn [same_list]; split; intros H; try reflexivity; try discriminate.
  - apply andb_true_iff in H. destruct H as [A B]. apply Nat.eqb_eq in A. apply IH in B. congruence.
  - injection H as -> ->. rewrite Nat.eqb_refl. apply IH. reflexivity.
Qed.
Lemma find_block_ok idx ds : forall k0 k, find_block idx ds k0 = Some k -> (k0 <= k < k0 + List.length ds)%nat /\ nth (k - k0) ds [] = idx.
Proof.
  induction ds as [|d ds IH]; intros k0 k; cbn [find_block]; [discriminate|]. destruct (same_list d idx) eqn:E.
  - intros H. injection H as <-. apply same_list_ok in E. subst. cbn [List.length]. split; [lia|]. rewrite Nat.sub_diag. reflexivity.
  - intros H. destruct (IH _ _ H) as [A B]. cbn [List.length]. split; [lia|]. replace (k - k0)%nat with (S (k - S k0)) by lia. exact B.
Qed.
Lemma find_block_in idx ds : In idx ds -> forall k0, exists k, find_block idx ds k0 = Some k.
Proof.
  induction ds as [|d ds IH]; intros H k0; [destruct H|]. cbn [find_block]. destruct (same_list d idx) eqn:E; [eexists; reflexivity|].
  destruct H as [->|H]; [|apply IH; exact H]. rewrite (proj2 (same_list_ok idx idx) eq_refl) in E. discriminate.
Qed.
(** Sums over blocks. *)
Lemma zsum_app a b : zsum (a ++ b) = zsum a + zsum b.
Proof. induction a as [|x a IH]; cbn [app zsum fold_right]; [reflexivity|]. fold (zsum (a ++ b)). fold (zsum a). lia. Qed.
Lemma total_S n f : total (S n) f = total n f + f n.
Proof. unfold total. rewrite seq_S, map_app, zsum_app, Nat.add_0_l. f_equal. cbn. apply Z.add_0_r. Qed.
Lemma total_ext n f g : (forall i, (i < n)%nat -> f i = g i) -> total n f = total n g.
Proof. induction n as [|n IH]; intros H; [reflexivity|]. rewrite !total_S, IH by (intros; apply H; lia). rewrite H by lia. reflexivity. Qed.
Lemma total_set n f k v : (k < n)%nat -> total n (set_at f k v) = total n f - f k + v.
Proof.
  induction n as [|n IH]; intros H; [lia|]. rewrite !total_S. destruct (Nat.eq_dec k n) as [->|Hk].
  - rewrite (total_ext n (set_at f n v) f) by (intros i Hi; unfold set_at; destruct (Nat.eqb_spec i n); [lia | reflexivity]).
    unfold set_at. rewrite Nat.eqb_refl. lia.
  - rewrite IH by lia. unfold set_at at 1. destruct (Nat.eqb_spec n k); [lia|]. lia.
Qed.
Lemma total_set_out n f k v : (n <= k)%nat -> total n (set_at f k v) = total n f.
Proof. intros H. apply total_ext. intros i Hi. unfold set_at. destruct (Nat.eqb_spec i k); [lia | reflexivity]. Qed.
Lemma total_shift_in n f k v : (k < n)%nat -> total n (fun i => set_at f (n + k) v (n + i)%nat) = total n (fun i => f (n + i)%nat) - f (n + k)%nat + v.
Proof.
  intros H. rewrite <- (total_set n (fun i => f (n + i)%nat) k v H). apply total_ext. intros i Hi. unfold set_at.
  destruct (Nat.eqb_spec (n + i) (n + k)), (Nat.eqb_spec i k); try lia; reflexivity.
Qed.
Lemma total_shift_out n f k v : (k < n)%nat -> total n (fun i => set_at f k v (n + i)%nat) = total n (fun i => f (n + i)%nat).
Proof. intros H. apply total_ext. intros i Hi. unfold set_at. destruct (Nat.eqb_spec (n + i) k); [lia | reflexivity]. Qed.

Section Rows.
Variables (dsym : list (list nat)) (idxf : list Z -> res (list nat)) (restricted : bool).
Let n := List.length dsym.

(** A successful row. *)
Lemma row_ok st row st' : occ_row dsym idxf restricted st row = Ok st' -> exists idx k,
  idxf row = Ok idx /\ idx <> [] /\ (k < n)%nat /\ nth k dsym [] = idx /\ find_block idx dsym 0 = Some k /\
  o_a st' = o_a st + alpha_of row /\ o_b st' = o_b st + beta_of row /\
  (restricted = true -> alpha_of row = beta_of row) /\
  o_fix st' = (if restricted then set_at (o_fix st) k (alpha_of row + beta_of row)
               else set_at (set_at (o_fix st) k (alpha_of row)) (n + k) (beta_of row)).
Proof.
  unfold occ_row, alpha_of, beta_of. destruct (idxf row) as [idx| | |]; cbn [bind]; try discriminate.
  destruct (Nat.eqb_spec (List.length idx) 0) as [E|E]; [discriminate|].
  destruct (find_block idx dsym 0) as [k|] eqn:F; [|discriminate]. intros H. exists idx, k.
  destruct (find_block_ok _ _ _ _ F) as [A B]. rewrite Nat.sub_0_r in B.
  split; [reflexivity|]. split; [intros ->; apply E; reflexivity|]. split; [unfold n; lia|]. split; [exact B|]. split; [exact F|].
  unfold add_int in H. destruct (in_int (o_a st + _)); cbn [bind] in H; [|discriminate].
  destruct (in_int (o_b st + _)); cbn [bind] in H; [|discriminate]. destruct restricted.
  - destruct (Z.eqb_spec (nth 0 row 0) (nth 1 row 0)) as [Q|Q]; [|discriminate]. destruct (in_int (nth 0 row 0 + nth 1 row 0)); cbn [bind] in H; [|discriminate].
    injection H as <-. cbn [o_a o_b o_fix]. repeat split. intros _. exact Q.
  - injection H as <-. cbn [o_a o_b o_fix]. repeat split. discriminate.
Qed.
Definition idx_of (row : list Z) : list nat := match idxf row with Ok l => l | _ => [] end.

(** Blocks that no row names keep their value. *)
Lemma rows_keep rows : forall st st', occ_rows dsym idxf restricted st rows = Ok st' ->
  forall k, (k < n)%nat -> (forall row, In row rows -> idx_of row <> nth k dsym []) ->
  o_fix st' k = o_fix st k /\ o_fix st' (n + k)%nat = o_fix st (n + k)%nat.
Proof.
  induction rows as [|r rs IH]; intros st st' H k Hk Hn; cbn [occ_rows] in H; [injection H as <-; auto|].
  destruct (occ_row dsym idxf restricted st r) as [s1| | |] eqn:E; cbn [bind] in H; try discriminate.
  destruct (IH s1 st' H k Hk (fun row Hr => Hn row (or_intror Hr))) as [A B]. rewrite A, B.
  destruct (row_ok _ _ _ E) as (idx & j & Hi & _ & Hj & Hd & _ & _ & _ & _ & ->).
  assert (Hjk : j <> k). { intros ->. apply (Hn r (or_introl eq_refl)). unfold idx_of. rewrite Hi. symmetry. exact Hd. }
  unfold set_at. destruct restricted.
  - destruct (Nat.eqb_spec k j); [lia|]. destruct (Nat.eqb_spec (n + k) j); [lia|]. auto.
  - destruct (Nat.eqb_spec k (n + j)); [lia|]. destruct (Nat.eqb_spec k j); [lia|].
    destruct (Nat.eqb_spec (n + k) (n + j)); [lia|]. destruct (Nat.eqb_spec (n + k) j); [lia|]. auto.
Qed.
Lemma rows_totals rows : forall st st', occ_rows dsym idxf restricted st rows = Ok st' ->
  o_a st' = o_a st + zsum (map alpha_of rows) /\ o_b st' = o_b st + zsum (map beta_of rows) /\ (restricted = true -> forall row, In row rows -> alpha_of row = beta_of row).
Proof.
  induction rows as [|r rs IH]; intros st st' H; cbn [occ_rows] in H; [injection H as <-; cbn; repeat split; try lia; intros _ row []|].
  destruct (occ_row dsym idxf restricted st r) as [s1| | |] eqn:E; cbn [bind] in H; try discriminate.
  destruct (IH s1 st' H) as (A & B & C). destruct (row_ok _ _ _ E) as (idx & j & _ & _ & _ & _ & _ & Ha & Hb & Hr & _).
  cbn [map zsum fold_right]. fold (zsum (map alpha_of rs)). fold (zsum (map beta_of rs)). repeat split; try lia.
  intros Q row [<-|Hin]; [apply Hr; exact Q | apply C; assumption].
Qed.
(** Rows that name different blocks: every row is found again. *)
Lemma rows_entries rows : NoDup (map idx_of rows) -> forall st st', occ_rows dsym idxf restricted st rows = Ok st' ->
  forall row, In row rows -> exists k, (k < n)%nat /\ nth k dsym [] = idx_of row /\ idx_of row <> [] /\
    (restricted = true -> o_fix st' k = alpha_of row + beta_of row) /\
    (restricted = false -> o_fix st' k = alpha_of row /\ o_fix st' (n + k)%nat = beta_of row).
Proof.
  intros N. induction rows as [|r rs IH]; intros st st' H row Hin; cbn [occ_rows] in H; [destruct Hin|].
  destruct (occ_row dsym idxf restricted st r) as [s1| | |] eqn:E; cbn [bind] in H; try discriminate.
  cbn [map] in N. apply NoDup_cons_iff in N. destruct N as [N1 N2]. destruct Hin as [<-|Hin]; [|apply (IH N2 s1 st' H row Hin)].
  destruct (row_ok _ _ _ E) as (idx & j & Hi & Hne & Hj & Hd & _ & _ & _ & _ & Hf).
  assert (Q : idx_of r = idx) by (unfold idx_of; rewrite Hi; reflexivity).
  exists j. split; [exact Hj|]. rewrite Q. split; [exact Hd|]. split; [exact Hne|].
  destruct (rows_keep rs s1 st' H j Hj) as [A B].
  { intros row Hr Heq. apply N1. rewrite Q, <- Hd, <- Heq. apply in_map. exact Hr. }
  rewrite A, B, Hf. unfold set_at. destruct restricted; split; intros X; try discriminate.
  - rewrite Nat.eqb_refl. reflexivity.
  - rewrite !Nat.eqb_refl. destruct (Nat.eqb_spec j (n + j)); [unfold n in *; lia|]. auto.
Qed.
Lemma rows_sum rows : NoDup (map idx_of rows) -> forall st st', occ_rows dsym idxf restricted st rows = Ok st' ->
  (forall k, (k < n)%nat -> In (nth k dsym []) (map idx_of rows) -> o_fix st k = 0 /\ o_fix st (n + k)%nat = 0) ->
  if restricted then total n (o_fix st') = total n (o_fix st) + zsum (map alpha_of rows) + zsum (map beta_of rows)
  else total n (o_fix st') = total n (o_fix st) + zsum (map alpha_of rows) /\
       total n (fun k => o_fix st' (n + k)%nat) = total n (fun k => o_fix st (n + k)%nat) + zsum (map beta_of rows).
Proof.
  intros N. induction rows as [|r rs IH]; intros st st' H Z0; cbn [occ_rows] in H.
  { injection H as <-. cbn. destruct restricted; lia. }
  destruct (occ_row dsym idxf restricted st r) as [s1| | |] eqn:E; cbn [bind] in H; try discriminate.
  cbn [map] in N. apply NoDup_cons_iff in N. destruct N as [N1 N2].
  destruct (row_ok _ _ _ E) as (idx & j & Hi & Hne & Hj & Hd & _ & _ & _ & _ & Hf).
  assert (Q : idx_of r = idx) by (unfold idx_of; rewrite Hi; reflexivity).
  destruct (Z0 j Hj) as [Za Zb]; [rewrite Hd; left; exact Q|].
  specialize (IH N2 s1 st' H).
  assert (P : forall k, (k < n)%nat -> In (nth k dsym []) (map idx_of rs) -> o_fix s1 k = 0 /\ o_fix s1 (n + k)%nat = 0).
  { intros k Hk Hin. destruct (Z0 k Hk (or_intror Hin)) as [A B].
    assert (Hjk : j <> k) by (intros ->; apply N1; rewrite Q, <- Hd; exact Hin).
    rewrite Hf. unfold set_at. destruct restricted.
    - destruct (Nat.eqb_spec k j); [lia|]. destruct (Nat.eqb_spec (n + k) j); [lia|]. auto.
    - destruct (Nat.eqb_spec k (n + j)); [lia|]. destruct (Nat.eqb_spec k j); [lia|].
      destruct (Nat.eqb_spec (n + k) (n + j)); [lia|]. destruct (Nat.eqb_spec (n + k) j); [lia|]. auto. }
  specialize (IH P). cbn [map zsum fold_right]. fold (zsum (map alpha_of rs)). fold (zsum (map beta_of rs)).
  destruct restricted; rewrite Hf in IH.
  - rewrite total_set in IH by exact Hj. lia.
  - destruct IH as [IH1 IH2]. rewrite total_set_out in IH1 by lia. rewrite total_set in IH1 by exact Hj.
    rewrite total_shift_in in IH2 by exact Hj. rewrite total_shift_out in IH2 by exact Hj.
    unfold set_at in IH2. destruct (Nat.eqb_spec (n + j) j) in IH2; [lia|]. lia.
Qed.
Theorem all_ok nela nelb rows f : occ_all dsym idxf restricted nela nelb rows = Ok f ->
  zsum (map alpha_of rows) = nela /\ zsum (map beta_of rows) = nelb /\ (restricted = true -> forall row, In row rows -> alpha_of row = beta_of row) /\
  (forall k, (k < n)%nat -> (forall row, In row rows -> idx_of row <> nth k dsym []) -> f k = 0 /\ f (n + k)%nat = 0) /\
  (NoDup (map idx_of rows) ->
     (forall row, In row rows -> exists k, (k < n)%nat /\ nth k dsym [] = idx_of row /\ idx_of row <> [] /\
        (restricted = true -> f k = alpha_of row + beta_of row) /\ (restricted = false -> f k = alpha_of row /\ f (n + k)%nat = beta_of row)) /\
     (restricted = true -> total n f = nela + nelb) /\
     (restricted = false -> total n f = nela /\ total n (fun k => f (n + k)%nat) = nelb)).
Proof.
  unfold occ_all. set (s0 := mkOcc (fun _ => 0) 0 0). destruct (occ_rows dsym idxf restricted s0 rows) as [st| | |] eqn:E; cbn [bind]; try discriminate.
  destruct (Z.eqb_spec (o_a st) nela) as [Ha|]; cbn [negb]; [|discriminate]. destruct (Z.eqb_spec (o_b st) nelb) as [Hb|]; cbn [negb]; [|discriminate].
  intros H. injection H as <-. destruct (rows_totals rows _ _ E) as (A & B & C). cbn [o_a o_b s0] in A, B.
  assert (TZ : forall m, total m (fun _ => 0) = 0) by (induction m as [|m IH]; [reflexivity | rewrite total_S; lia]).
  split; [lia|]. split; [lia|]. split; [exact C|]. split.
  - intros k Hk Hn. destruct (rows_keep rows _ _ E k Hk Hn) as [P Q]. rewrite P, Q. auto.
  - intros N. split; [apply (rows_entries rows N _ _ E)|].
    pose proof (rows_sum rows N _ _ E (fun k _ _ => conj eq_refl eq_refl)) as T. cbn [o_fix s0] in T. rewrite !TZ in T.
    destruct restricted; split; intros X; try discriminate; lia.
Qed.
(** Acceptance. *)
Lemma rows_accept rows : forall st,
  (forall row, In row rows -> exists idx, idxf row = Ok idx /\ idx <> [] /\ In idx dsym) ->
  (forall row, In row rows -> 0 <= alpha_of row /\ 0 <= beta_of row) -> (restricted = true -> forall row, In row rows -> alpha_of row = beta_of row) ->
  0 <= o_a st -> 0 <= o_b st -> o_a st + o_b st + zsum (map alpha_of rows) + zsum (map beta_of rows) < 2 ^ 31 ->
  exists st', occ_rows dsym idxf restricted st rows = Ok st'.
Proof.
  induction rows as [|r rs IH]; intros st Hi Hp Hr Pa Pb Hs; cbn [occ_rows]; [eexists; reflexivity|].
  destruct (Hi r (or_introl eq_refl)) as (idx & Ei & Ne & Hin). destruct (find_block_in idx dsym Hin 0) as [k Fk].
  destruct (Hp r (or_introl eq_refl)) as [P1 P2].
  cbn [map zsum fold_right] in Hs. fold (zsum (map alpha_of rs)) in Hs. fold (zsum (map beta_of rs)) in Hs.
  assert (Sa : 0 <= zsum (map alpha_of rs) /\ 0 <= zsum (map beta_of rs)).
  { assert (Hp' : forall row, In row rs -> 0 <= alpha_of row /\ 0 <= beta_of row) by (intros; apply Hp; right; assumption). clear -Hp'.
    induction rs as [|x rs IH]; cbn [map zsum fold_right]; [lia|]. destruct (Hp' x (or_introl eq_refl)).
    destruct (IH (fun row H => Hp' row (or_intror H))) as [A B]. unfold zsum in A, B. lia. }
  assert (I : forall z, 0 <= z < 2 ^ 31 -> in_int z = true).
  { intros z Hz. apply in_int_ok. unfold int_range. generalize dependent (2 ^ 31). intros; lia. }
  assert (E : exists s1, occ_row dsym idxf restricted st r = Ok s1 /\ o_a s1 = o_a st + alpha_of r /\ o_b s1 = o_b st + beta_of r).
  { unfold occ_row. rewrite Ei. cbn [bind]. destruct (Nat.eqb_spec (List.length idx) 0) as [L|_]; [destruct idx; [congruence | discriminate]|].
    rewrite Fk. unfold add_int. fold (alpha_of r). fold (beta_of r). rewrite (I (o_a st + alpha_of r)) by lia. cbn [bind].
    rewrite (I (o_b st + beta_of r)) by lia. cbn [bind]. destruct restricted.
    - rewrite (Hr eq_refl r (or_introl eq_refl)), Z.eqb_refl. rewrite (I (beta_of r + beta_of r)); cbn [bind]; [eexists; repeat split; cbn [o_a o_b]; try reflexivity|].
      pose proof (Hr eq_refl r (or_introl eq_refl)) as Q. lia.
    - eexists. split; [reflexivity|]. cbn [o_a o_b]. split; reflexivity. }
  destruct E as (s1 & E & Ea & Eb). rewrite E. cbn [bind]. apply IH.
  - intros; apply Hi; right; assumption.
  - intros; apply Hp; right; assumption.
  - intros Q row Hq. apply Hr; [exact Q | right; exact Hq].
  - lia.
  - lia.
  - lia.
Qed.
Theorem all_accept nela nelb rows :
  (forall row, In row rows -> exists idx, idxf row = Ok idx /\ idx <> [] /\ In idx dsym) ->
  (forall row, In row rows -> 0 <= alpha_of row /\ 0 <= beta_of row) -> (restricted = true -> forall row, In row rows -> alpha_of row = beta_of row) ->
  zsum (map alpha_of rows) = nela -> zsum (map beta_of rows) = nelb -> nela + nelb < 2 ^ 31 -> exists f, occ_all dsym idxf restricted nela nelb rows = Ok f.
Proof.
  intros Hi Hp Hr Ha Hb Hs. unfold occ_all.
  destruct (rows_accept rows (mkOcc (fun _ => 0) 0 0) Hi Hp Hr) as (st & E); cbn [o_a o_b]; try lia.
  rewrite E. cbn [bind]. destruct (rows_totals rows _ _ E) as (A & B & _). cbn [o_a o_b] in A, B.
  rewrite (proj2 (Z.eqb_eq (o_a st) nela)) by lia. rewrite (proj2 (Z.eqb_eq (o_b st) nelb)) by lia. cbn [negb]. eexists. reflexivity.
Qed.
End Rows.

(* ------------------------------------------------------------------ *)
(** * The two drivers *)
Lemma posg_key {A} (d : A) p q l : posg d p l = posg d q l -> posg d p l <> [] -> exists x, p x = true /\ q x = true.
Proof.
  intros E N. destruct (posg d p l) as [|g t] eqn:G; [congruence|].
  assert (Hp : In g (posg d p l)) by (rewrite G; left; reflexivity). assert (Hq : In g (posg d q l)) by (rewrite <- E; left; reflexivity).
  unfold posg in Hp, Hq. apply filter_In in Hp, Hq. exists (nth g l d). tauto.
Qed.
Lemma row3 row : List.length row = 3%nat -> block_key row = [nth 2 row 0].
Proof. destruct row as [|a [|b [|c [|d r]]]]; try discriminate. reflexivity. Qed.
Lemma row4 row : List.length row = 4%nat -> block_key row = [nth 2 row 0; nth 3 row 0].
Proof. destruct row as [|a [|b [|c [|d [|e r]]]]]; try discriminate. reflexivity. Qed.
Lemma at_key sh Nrad symm row row' : (symm = 1 -> List.length row = 3%nat /\ List.length row' = 3%nat) -> (symm <> 1 -> List.length row = 4%nat /\ List.length row' = 4%nat) ->
  idx_of (at_row_idx sh Nrad symm) row = idx_of (at_row_idx sh Nrad symm) row' -> idx_of (at_row_idx sh Nrad symm) row <> [] -> block_key row = block_key row'.
Proof.
  unfold idx_of, at_row_idx. intros H3 H4. destruct (Z.eqb_spec symm 1) as [E|E].
  - destruct (H3 E) as [L L']. rewrite (row3 row L), (row3 row' L'). unfold at_m_indices.
    rewrite (at_collect sh Nrad (fun lm => snd lm =? nth 2 row 0)), (at_collect sh Nrad (fun lm => snd lm =? nth 2 row' 0)).
    intros Q N. destruct (posg_key _ _ _ _ Q N) as (x & A & B). apply Z.eqb_eq in A, B. congruence.
  - destruct (H4 E) as [L L']. rewrite (row4 row L), (row4 row' L'). unfold at_lm_indices.
    rewrite (at_collect sh Nrad (fun lm => (snd lm =? nth 3 row 0) && (fst lm =? nth 2 row 0))), (at_collect sh Nrad (fun lm => (snd lm =? nth 3 row' 0) && (fst lm =? nth 2 row' 0))).
    intros Q N. destruct (posg_key _ _ _ _ Q N) as (x & A & B). apply andb_true_iff in A, B. destruct A as [A1 A2], B as [B1 B2].
    apply Z.eqb_eq in A1, A2, B1, B2. congruence.
Qed.
Lemma di_key sh Nrad nc row row' : List.length row = nc -> List.length row' = nc -> (nc = 3 \/ nc = 4)%nat ->
  idx_of (di_row_idx sh Nrad nc) row = idx_of (di_row_idx sh Nrad nc) row' -> idx_of (di_row_idx sh Nrad nc) row <> [] -> block_key row = block_key row'.
Proof.
  unfold idx_of, di_row_idx. intros L L' [->| ->]; cbn [Nat.eqb].
  - rewrite (row3 row L), (row3 row' L'). unfold di_m_indices.
    rewrite (di_collect sh Nrad (fun lm => snd lm =? nth 2 row 0)), (di_collect sh Nrad (fun lm => snd lm =? nth 2 row' 0)).
    intros Q N. destruct (posg_key _ _ _ _ Q N) as (x & A & B). apply Z.eqb_eq in A, B. congruence.
  - rewrite (row4 row L), (row4 row' L'). unfold di_m_indices_odd.
    rewrite (di_collect sh Nrad (fun lm => (snd lm =? nth 2 row 0) && (Z.rem (fst lm) 2 =? (if nth 3 row 0 =? -1 then 1 else 0)))),
            (di_collect sh Nrad (fun lm => (snd lm =? nth 2 row' 0) && (Z.rem (fst lm) 2 =? (if nth 3 row' 0 =? -1 then 1 else 0)))).
    destruct (Z.eqb_spec (nth 3 row 0) 1) as [P|P], (Z.eqb_spec (nth 3 row 0) (-1)) as [P'|P']; cbn [negb andb]; try congruence;
      destruct (Z.eqb_spec (nth 3 row' 0) 1) as [R|R], (Z.eqb_spec (nth 3 row' 0) (-1)) as [R'|R']; cbn [negb andb]; try congruence;
      intros Q N; destruct (posg_key _ _ _ _ Q N) as (x & A & B); apply andb_true_iff in A, B; destruct A as [A1 A2], B as [B1 B2];
      apply Z.eqb_eq in A1, A2, B1, B2; try congruence; exfalso; congruence.
Qed.
Lemma nodup_keys {A B C} (f : A -> B) (g : A -> C) l : (forall x y, In x l -> In y l -> f x = f y -> g x = g y) -> NoDup (map g l) -> NoDup (map f l).
Proof.
  induction l as [|x l IH]; intros H N; [constructor|]. cbn [map] in *. apply NoDup_cons_iff in N. destruct N as [N1 N2]. constructor.
  - intros Hin. apply in_map_iff in Hin. destruct Hin as (y & E & Hy). apply N1. rewrite (H x y); [apply in_map; exact Hy | left; reflexivity | right; exact Hy | symmetry; exact E].
  - apply IH; [intros a b Ha Hb; apply H; right; assumption | exact N2].
Qed.
(** Rows of a successful run name blocks. *)
Lemma rows_named dsym idxf restricted rows : forall st st', occ_rows dsym idxf restricted st rows = Ok st' -> forall row, In row rows -> idx_of idxf row <> [].
Proof.
  induction rows as [|r rs IH]; intros st st' H row Hin; [destruct Hin|]. cbn [occ_rows] in H.
  destruct (occ_row dsym idxf restricted st r) as [s1| | |] eqn:E; cbn [bind] in H; try discriminate.
  destruct Hin as [<-|Hin]; [|apply (IH s1 st' H row Hin)].
  destruct (row_ok _ _ _ _ _ _ E) as (idx & j & Hi & Hne & _). unfold idx_of. rewrite Hi. exact Hne.
Qed.
Lemma all_named dsym idxf restricted nela nelb rows f : occ_all dsym idxf restricted nela nelb rows = Ok f -> forall row, In row rows -> idx_of idxf row <> [].
Proof.
  unfold occ_all. destruct (occ_rows _ _ _ _ rows) as [st| | |] eqn:E; cbn [bind]; try discriminate. intros _. apply (rows_named _ _ _ _ _ _ E).
Qed.


Lemma frozen_from dsym idxf block restricted nela nelb occs f : occ_all dsym idxf restricted nela nelb occs = Ok f ->
  (forall row, In row occs -> idx_of idxf row = block row) ->
  (forall row row', In row occs -> In row' occs -> idx_of idxf row = idx_of idxf row' -> idx_of idxf row <> [] -> block_key row = block_key row') ->
  frozen_ok dsym block restricted nela nelb occs f.
Proof.
  intros H B K. pose proof (all_named _ _ _ _ _ _ _ H) as Nm. destruct (all_ok _ _ _ _ _ _ _ H) as (A1 & A2 & A3 & A4 & A5).
  unfold frozen_ok. split; [exact A1|]. split; [exact A2|]. split; [exact A3|]. split.
  - intros k Hk Hn. apply A4; [exact Hk|]. intros row Hr. rewrite (B row Hr). apply Hn. exact Hr.
  - intros N. destruct A5 as (E1 & E2 & E3).
    { apply (nodup_keys _ block_key); [|exact N]. intros x y Hx Hy E. apply K; try assumption. apply Nm. exact Hx. }
    split; [|split; [exact E2 | exact E3]]. intros row Hr. destruct (E1 row Hr) as (k & P). rewrite (B row Hr) in P. exists k. exact P.
Qed.
Theorem at_frozen sh Nrad symm restricted nela nelb file f : at_readocc sh Nrad symm restricted nela nelb file = Ok f ->
  exists dsym occs, at_get_sym_idx sh Nrad symm = Ok dsym /\ read_raw_ascii_imat file = Ok occs /\
    ((symm = 1 /\ cols occs = 3%nat) \/ (symm = 2 /\ cols occs = 4%nat)) /\
    frozen_ok dsym (at_named sh Nrad symm) restricted nela nelb occs f.
Proof.
  unfold at_readocc. destruct (at_get_sym_idx sh Nrad symm) as [dsym| | |] eqn:D; cbn [bind]; try discriminate.
  destruct (Z.eqb_spec symm 0) as [|S0]; [discriminate|]. destruct (read_raw_ascii_imat file) as [occs| | |] eqn:R; cbn [bind]; try discriminate.
  assert (S12 : symm = 1 \/ symm = 2).
  { unfold at_get_sym_idx in D. destruct (Z.eqb_spec symm 0); [lia|]. destruct (Z.eqb_spec symm 1); [auto|]. destruct (Z.eqb_spec symm 2); [auto | discriminate]. }
  destruct (_ && _) eqn:C1; [discriminate|]. destruct (_ && _) eqn:C2 in |- *; [discriminate|]. intros H. exists dsym, occs. split; [reflexivity|]. split; [reflexivity|].
  assert (C : (symm = 1 /\ cols occs = 3%nat) \/ (symm = 2 /\ cols occs = 4%nat)).
  { destruct S12 as [->| ->]; cbn [Z.eqb Pos.eqb andb] in C1, C2; [left | right]; (split; [reflexivity|]); apply Nat.eqb_eq.
    - apply negb_false_iff. exact C1.
    - apply negb_false_iff. exact C2. }
  split; [exact C|]. apply (frozen_from _ _ _ _ _ _ _ _ H).
  - intros row Hr. unfold idx_of, at_row_idx, at_named. destruct (symm =? 1).
    + unfold at_m_indices. rewrite (at_collect sh Nrad (fun lm => snd lm =? nth 2 row 0)). reflexivity.
    + unfold at_lm_indices. rewrite (at_collect sh Nrad (fun lm => (snd lm =? nth 3 row 0) && (fst lm =? nth 2 row 0))). reflexivity.
  - intros row row' Hr Hr' E N. destruct (read_shape _ _ R row Hr) as (L & _). destruct (read_shape _ _ R row' Hr') as (L' & _).
    apply (at_key sh Nrad symm); try assumption; intros Q; destruct C as [[Q1 Q2]|[Q1 Q2]]; try lia; rewrite <- Q2; split; assumption.
Qed.
Theorem di_frozen sh Nrad Z1 Z2 symm restricted nela nelb file f : di_readocc sh Nrad Z1 Z2 symm restricted nela nelb file = Ok f ->
  exists dsym occs, di_get_sym_idx sh Nrad symm = Ok dsym /\ read_raw_ascii_imat file = Ok occs /\
    symm <> 0 /\ (cols occs = 3%nat \/ (cols occs = 4%nat /\ Z1 = Z2 /\ symm = 2)) /\
    (cols occs = 4%nat -> forall row, In row occs -> nth 3 row 0 = 1 \/ nth 3 row 0 = -1) /\
    frozen_ok dsym (di_named sh Nrad) restricted nela nelb occs f.
Proof.
  unfold di_readocc. destruct (di_get_sym_idx sh Nrad symm) as [dsym| | |] eqn:D; cbn [bind]; try discriminate.
  destruct (Z.eqb_spec symm 0) as [|S0]; [discriminate|]. destruct (read_raw_ascii_imat file) as [occs| | |] eqn:R; cbn [bind]; try discriminate.
  intros H. exists dsym, occs. split; [reflexivity|]. split; [reflexivity|]. split; [exact S0|].
  assert (C : (cols occs = 3%nat \/ (cols occs = 4%nat /\ Z1 = Z2 /\ symm = 2)) /\ occ_all dsym (di_row_idx sh Nrad (cols occs)) restricted nela nelb occs = Ok f).
  { destruct (Z.eqb_spec Z1 Z2) as [EZ|EZ], (Nat.eqb_spec (cols occs) 3) as [E3|E3], (Nat.eqb_spec (cols occs) 4) as [E4|E4], (Z.eqb_spec symm 2) as [E2|E2];
      cbn [negb andb] in H; try discriminate; try lia; (split; [auto | exact H]). }
  destruct C as [C K]. split; [exact C|]. pose proof (all_named _ _ _ _ _ _ _ K) as Nm.
  assert (Par : cols occs = 4%nat -> forall row, In row occs -> nth 3 row 0 = 1 \/ nth 3 row 0 = -1).
  { intros E row Hr. specialize (Nm row Hr). unfold idx_of, di_row_idx in Nm. rewrite E in Nm. cbn [Nat.eqb] in Nm.
    destruct (Z.eqb_spec (nth 3 row 0) 1); [auto|]. destruct (Z.eqb_spec (nth 3 row 0) (-1)); [auto|]. cbn [negb andb] in Nm. congruence. }
  split; [exact Par|]. apply (frozen_from _ _ _ _ _ _ _ _ K).
  - intros row Hr. destruct (read_shape _ _ R row Hr) as (L & _). unfold idx_of, di_row_idx, di_named. rewrite L.
    destruct (Nat.eqb_spec (cols occs) 3) as [E3|E3].
    + unfold di_m_indices. rewrite (di_collect sh Nrad (fun lm => snd lm =? nth 2 row 0)). reflexivity.
    + destruct C as [C|(C & _)]; [lia|]. destruct (Par C row Hr) as [P|P]; rewrite P; cbn [Z.eqb Pos.eqb negb andb]; unfold di_m_indices_odd.
      * rewrite (di_collect sh Nrad (fun lm => (snd lm =? nth 2 row 0) && (Z.rem (fst lm) 2 =? 0))). reflexivity.
      * rewrite (di_collect sh Nrad (fun lm => (snd lm =? nth 2 row 0) && (Z.rem (fst lm) 2 =? 1))). reflexivity.
  - intros row row' Hr Hr' E N. destruct (read_shape _ _ R row Hr) as (L & _). destruct (read_shape _ _ R row' Hr') as (L' & _).
    apply (di_key sh Nrad (cols occs)); try assumption. destruct C as [C|(C & _)]; auto.
Qed.
(** Acceptance by the atomic driver. *)
Theorem at_accept sh Nrad symm restricted nela nelb file dsym occs :
  at_get_sym_idx sh Nrad symm = Ok dsym -> read_raw_ascii_imat file = Ok occs ->
  ((symm = 1 /\ cols occs = 3%nat) \/ (symm = 2 /\ cols occs = 4%nat)) ->
  (forall row, In row occs -> at_named sh Nrad symm row <> [] /\ In (at_named sh Nrad symm row) dsym) ->
  (forall row, In row occs -> 0 <= alpha_of row /\ 0 <= beta_of row) -> (restricted = true -> forall row, In row occs -> alpha_of row = beta_of row) ->
  zsum (map alpha_of occs) = nela -> zsum (map beta_of occs) = nelb -> nela + nelb < 2 ^ 31 ->
  exists f, at_readocc sh Nrad symm restricted nela nelb file = Ok f.
Proof.
  intros D R C Hn Hp Hr Ha Hb Hs. unfold at_readocc. rewrite D. cbn [bind].
  assert (B : forall row, at_row_idx sh Nrad symm row = Ok (at_named sh Nrad symm row)).
  { intros row. unfold at_row_idx, at_named. destruct (symm =? 1).
    - unfold at_m_indices. rewrite (at_collect sh Nrad (fun lm => snd lm =? nth 2 row 0)). reflexivity.
    - unfold at_lm_indices. rewrite (at_collect sh Nrad (fun lm => (snd lm =? nth 3 row 0) && (fst lm =? nth 2 row 0))). reflexivity. }
  destruct (all_accept dsym (at_row_idx sh Nrad symm) restricted nela nelb occs) as (f & E); try assumption.
  { intros row Hin. exists (at_named sh Nrad symm row). split; [apply B | apply Hn; exact Hin]. }
  exists f. rewrite R. cbn [bind]. destruct C as [[-> C]|[-> C]]; cbn [Z.eqb Pos.eqb]; rewrite C; cbn [Nat.eqb negb andb]; exact E.
Qed.

(** * Witnesses *)
Theorem duplicate_refuted : ~ (forall sh Nrad symm nela nelb file f dsym, at_get_sym_idx sh Nrad symm = Ok dsym ->
  at_readocc sh Nrad symm true nela nelb file = Ok f -> total (List.length dsym) f = nela + nelb).
Proof.
  intros H. specialize (H [(0, 0)] 2%nat 1 2 2 (Some (text ["1 1 0"; "1 1 0"]%string "")) (set_at (set_at (fun _ => 0) 0 2) 0 2) [[0%nat; 1%nat]] eq_refl).
  assert (E : total 1 (set_at (set_at (fun _ => 0) 0 2) 0 2) = 2 + 2) by (apply H; vm_compute; reflexivity). vm_compute in E. discriminate.
Qed.
Theorem negative_refuted : ~ (forall sh Nrad symm nela nelb file f k, at_readocc sh Nrad symm true nela nelb file = Ok f -> 0 <= f k).
Proof.
  intros H. specialize (H [(0, 0); (1, 1)] 2%nat 1 2 2 (Some (text ["3 3 0"; "-1 -1 1"]%string "")) (set_at (set_at (fun _ => 0) 0 6) 1 (-2)) 1%nat).
  assert (E : 0 <= set_at (set_at (fun _ => 0) 0 6) 1 (-2) 1) by (apply H; vm_compute; reflexivity). vm_compute in E. apply E. reflexivity.
Qed.
Theorem junk_refuted : ~ (forall t M, read_raw_ascii_imat (Some t) = Ok M -> all_of (fun c => blank c \/ digit c \/ plus_minus c) t).
Proof.
  intros H. specialize (H "2 2 0.5 p"%string [[2; 2; 0]] eq_refl). cbn [all_of] in H.
  destruct H as (_ & _ & _ & _ & _ & H & _). unfold blank, digit, plus_minus in H. destruct H as [H|[H|[H|H]]]; try discriminate; cbn in H; lia.
Qed.
