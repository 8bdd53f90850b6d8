(** Proofs about the exchange matrix of a diatomic basis over its functions, and the
    shortcut for densities that are the same for m and -m. *)
Require Import Reals ZArith List Bool Arith Lia Lra Permutation.
Require Import Verif.Prelude Verif.AngModel Verif.AngSpec Verif.AngProofs Verif.CholModel Verif.CholSpec Verif.CholProofs
  Verif.JKModel Verif.JKSpec Verif.JKProofs Verif.GauntModel Verif.GauntSpec Verif.GauntProofs
  Verif.TwoDModel Verif.TwoDSpec Verif.TwoDProofs Verif.TeiModel Verif.DiaModel Verif.DiaSpec Verif.DiaProofs Verif.DiaExch.
Import ListNotations.
Local Open Scope R_scope.

(* ---------- screening over functions ---------- *)

Lemma block_shell_norm b (P Q : mat) i l : (0 < lnbf (db_lay b))%nat -> expands b P Q ->
  (i < length (db_sh b))%nat -> (l < length (db_sh b))%nat -> block_norm (lnbf (db_lay b)) Q i l = shell_norm b P i l.
Proof.
  intros HN [HQ HZ] Hi Hl. unfold block_norm, shell_norm. f_equal. set (N := lnbf (db_lay b)).
  pose proof (sum_basis2 b (fun u v => P u v * P u v) (fun x y => Q x y * Q x y)
    (fun k l' _ _ => if (Nat.eqb k i && Nat.eqb l' l)%bool then 1 else 0) HN) as H.
  assert (E : expands b (fun u v => P u v * P u v) (fun x y => Q x y * Q x y)).
  { split; [intros u v Hu Hv; now rewrite HQ|]. intros x y Hn. rewrite HZ by auto. ring. }
  specialize (H E). fold N in H.
  transitivity (sum (dia_size b) (fun u => sum (dia_size b) (fun v =>
     (if (Nat.eqb (sh_ix b u) i && Nat.eqb (sh_ix b v) l)%bool then 1 else 0) * (P u v * P u v)))).
  - rewrite <- H.
    rewrite <- (sum_pick2 (length (db_sh b)) (length (db_sh b)) i l
      (fun k l' => sum N (fun c => sum N (fun d => Q (fn N k c) (fn N l' d) * Q (fn N k c) (fn N l' d))))) by auto.
    apply sum_ext. intros k _. apply sum_ext. intros l' _. destruct (_ && _)%bool.
    + apply sum_ext. intros c _. apply sum_ext. intros d _. ring.
    + symmetry. apply sum_zero'. intros c _. apply sum_zero'. intros d _. ring.
  - apply sum_ext. intros u _. apply sum_ext. intros v _. destruct (_ && _)%bool; ring.
Qed.

Lemma screened_expands b (P Q : mat) : (0 < lnbf (db_lay b))%nat -> expands b P Q ->
  expands b (dia_screened b P) (screened (lnbf (db_lay b)) (db_thr b) Q).
Proof.
  intros HN HE. split.
  - intros u v Hu Hv. destruct (sh_rad b u HN Hu) as (Hi & Ha & Eu). destruct (sh_rad b v HN Hv) as (Hj & Hc & Ev).
    unfold dia_screened. rewrite Eu, Ev, screened_at by auto. rewrite (block_shell_norm b P Q) by auto. rewrite <- Eu, <- Ev.
    destruct HE as [HQ _]. now rewrite HQ.
  - intros x y Hn. destruct HE as [_ HZ]. unfold screened. destruct (Rltb _ _); [reflexivity|]. now apply HZ.
Qed.

Lemma KV_dia b I Lcut (P : mat) (Q : dmat) r t : (0 < lnbf (db_lay b))%nat -> expands b P (dent Q) ->
  KV b I Q Lcut (sh_ix b r) (rad_ix b r) (sh_ix b t) (rad_ix b t) = dia_K b I Lcut (dia_screened b P) r t.
Proof.
  intros HN HE. unfold KV, full_exchange, dia_K, dia_integral. f_equal.
  exact (sum_basis2 b (dia_screened b P) _ (fun i l c d => dia_tensor b I Lcut i (sh_ix b r) (sh_ix b t) l c (rad_ix b r) (rad_ix b t) d) HN
    (screened_expands b P (dent Q) HN HE)).
Qed.

(** The exchange matrix before the blocks are copied. *)
Lemma di_exchange_shells b s lm lM I Lcut order P : dbasis_ok b -> build_tables (db_sh b) = Ok (lm, lM) -> stores b s lm I ->
  density (dia_size b) P -> (Lmax_of b <= Lcut)%Z -> all_pairs b order ->
  exists Q r, expands b (dent P) (dent Q) /\
    is_shell_matrix r (length (db_sh b)) (lnbf (db_lay b)) (fun j a k c => if skipped b j k then 0 else KV b I Q Lcut j a k c) /\
    di_exchange b s order P = bind (bind r (fun K => if db_absm b then di_mirror (db_sh b) (lnbf (db_lay b)) K else Ok K))
      (remove_boundaries (db_sh b) (lnbf (db_lay b))).
Proof.
  intros Hb Etab Hst HP Hcut Hord. destruct (tables_ok (db_sh b)) as (lm' & lM' & Htb).
  pose proof (tb_build _ _ _ Htb) as E'. rewrite Etab in E'. injection E' as <- <-.
  destruct (dcouples_ok b Hb) as (g & Eg & Hco).
  assert (HN : (0 < lnbf (db_lay b))%nat) by apply Hb.
  destruct (expand_density b P HP) as (Q & EQ & RQ & CQ & HQ).
  assert (Hsz := stores_nonempty b s lm lM I Hb Htb Hst).
  assert (Hne : db_sh b <> []).
  { intros Hnil. destruct Hst as [Hs _]. apply Hsz. rewrite Hs. destruct (length lm) eqn:El; [lia|].
    destruct lm as [|[L Ma] lm0]; [cbn in El; lia|].
    destruct (build_tables_ok (db_sh b)) as (lm1 & lM1 & E1 & _ & _ & I1 & I2). rewrite Etab in E1. injection E1 as <- <-.
    destruct (proj1 (I2 L Ma)) as (M' & _ & H1); [now left|]. apply I1 in H1. destruct H1 as (i & j & Hi & _). rewrite Hnil in Hi. destruct Hi. }
  destruct (absm_max_ok (db_sh b) Hne) as (mabs & Em & Hm0 & Hmax).
  assert (Hm : forall i, (i < length (db_sh b))%nat -> (Z.abs (m_of (db_sh b) i) <= mabs)%Z).
  { intros i Hi. unfold m_of. apply Hmax. now apply nth_In. }
  destruct (buckets_ok (db_sh b) (lnbf (db_lay b)) (db_thr b) mabs Q RQ CQ Hm) as (bk & Ebk & HI & Hbk).
  exists Q. eexists. split; [exact HQ|]. split.
  - exact (di_K_loop_ok b s I lm lM g Q Lcut Hb Hco Htb Hst RQ CQ Hcut mabs bk order Hm HI Hbk Hord).
  - unfold di_exchange. destruct (Nat.eqb_spec (ds_size s) 0) as [Hz|_]; [contradiction|].
    rewrite EQ. cbn [bind]. rewrite Etab. cbn [bind]. rewrite Eg. cbn [bind]. rewrite Em. cbn [bind]. rewrite Ebk. cbn [bind].
    destruct (fold_res _ order _); reflexivity.
Qed.

Lemma di_exchange_ok b s lm lM I Lcut order P : dbasis_ok b -> build_tables (db_sh b) = Ok (lm, lM) -> stores b s lm I ->
  density (dia_size b) P -> (Lmax_of b <= Lcut)%Z -> all_pairs b order -> db_absm b = false ->
  is_matrix (di_exchange b s order P) (dia_size b) (dia_K b I Lcut (dia_screened b (dent P))).
Proof.
  intros Hb Etab Hst HP Hcut Hord Habs. assert (HN : (0 < lnbf (db_lay b))%nat) by apply Hb.
  destruct (di_exchange_shells b s lm lM I Lcut order P Hb Etab Hst HP Hcut Hord) as (Q & r & HE & HS & E).
  rewrite E, Habs. assert (Hr : bind r (fun K => Ok K) = r) by (destruct r; reflexivity). rewrite Hr.
  destruct (remove_shell b _ _ HN HS) as (M & EM & RM & CM & VM). exists M. split; [exact EM|]. split; [exact RM|]. split; [exact CM|].
  intros x y Hx Hy. rewrite VM by auto. unfold skipped. rewrite Habs. cbn [andb]. now apply KV_dia.
Qed.

(* ---------- the mirror image of a shell ---------- *)

Section Mirror.
Variable b : dbasis.
Let sh := db_sh b.
Let N := lnbf (db_lay b).
Let nsh := length sh.
Hypothesis Hsh : paired_shells (db_sh b).

Definition sg (i : nat) : nat := match mirror_of sh i with Some i' => i' | None => i end.

Lemma mirror_exists i : (i < nsh)%nat -> mirror_of sh i = Some (sg i).
Proof.
  intros Hi. unfold sg. destruct (mirror_of sh i) as [i'|] eqn:E; [reflexivity|]. exfalso.
  destruct Hsh as [_ Hp]. destruct (nth i sh (0, 0)%Z) as [l m] eqn:En.
  assert (Hin : In (l, m) sh) by (rewrite <- En; apply nth_In; exact Hi). apply Hp in Hin.
  destruct (In_nth _ _ (0, 0)%Z Hin) as (i' & Hi' & En'). unfold mirror_of in E.
  pose proof (find_none _ _ E i') as H. fold sh in En'. cbv beta in H. rewrite En, En' in H. cbn [fst snd] in H.
  rewrite !Z.eqb_refl in H. discriminate H. apply in_seq. fold sh in Hi'. lia.
Qed.
Lemma sg_ok i : (i < nsh)%nat -> (sg i < nsh)%nat /\ l_of sh (sg i) = l_of sh i /\ m_of sh (sg i) = (- m_of sh i)%Z.
Proof. intros Hi. exact (mirror_of_some sh i (sg i) (mirror_exists i Hi)). Qed.
Lemma sg_inj i j : (i < nsh)%nat -> (j < nsh)%nat -> sg i = sg j -> i = j.
Proof.
  intros Hi Hj E. destruct (sg_ok i Hi) as (_ & L1 & M1). destruct (sg_ok j Hj) as (_ & L2 & M2). rewrite E in L1, M1.
  destruct Hsh as [Hn _]. apply (proj1 (NoDup_nth sh (0, 0)%Z) Hn); [exact Hi|exact Hj|].
  unfold l_of, m_of in *. apply injective_projections; lia.
Qed.
Lemma sg_perm : Permutation (map sg (seq 0 nsh)) (seq 0 nsh).
Proof.
  apply NoDup_Permutation_bis.
  - assert (G : forall l, NoDup l -> (forall x, In x l -> (x < nsh)%nat) -> NoDup (map sg l)).
    { induction l as [|x l IH]; intros Hl Hlt; cbn [map]; constructor.
      - intros Hin. apply in_map_iff in Hin. destruct Hin as (y & E & Hy). apply sg_inj in E; [|apply Hlt; now right|apply Hlt; now left].
        subst. inversion Hl; contradiction.
      - inversion Hl; subst. apply IH; auto. intros. apply Hlt. now right. }
    apply G; [apply seq_NoDup|]. intros x Hx. apply in_seq in Hx. lia.
  - rewrite map_length. auto.
  - intros x Hx. apply in_map_iff in Hx. destruct Hx as (y & <- & Hy). apply in_seq in Hy. apply in_seq. destruct (sg_ok y); lia.
Qed.
Lemma sum_sg (f : nat -> R) : sum nsh f = sum nsh (fun i => f (sg i)).
Proof. rewrite <- (lsum_seq0 nsh f), <- (lsum_perm _ _ _ sg_perm), lsum_map, lsum_seq0. reflexivity. Qed.

Lemma fnth_all s n i c : (i < length s)%nat -> (c < n)%nat -> fnth (all_functions s n) (i * n + c) = (nth i s (0, 0)%Z, c).
Proof.
  revert i. induction s as [|x s IH]; intros i Hi Hc; [cbn in Hi; lia|]. unfold fnth, all_functions in *. cbn [flat_map].
  destruct i as [|i].
  - rewrite app_nth1 by (rewrite map_length, seq_length; lia). cbn [Nat.mul Nat.add nth].
    rewrite (nth_indep _ _ ((fun k => (x, k)) 0%nat)) by (rewrite map_length, seq_length; lia).
    rewrite (map_nth (fun k => (x, k)) (seq 0 n) 0%nat), seq_nth by lia. reflexivity.
  - rewrite app_nth2 by (rewrite map_length, seq_length; lia). rewrite map_length, seq_length.
    replace (S i * n + c - n)%nat with (i * n + c)%nat by lia. cbn [nth]. apply IH; [cbn in Hi; lia|exact Hc].
Qed.

Lemma surv_iff i c : (i < nsh)%nat -> (c < N)%nat -> In (fn N i c) (survivors b) <-> (m_of sh i = 0%Z \/ c <> 0%nat).
Proof.
  intros Hi Hc. unfold survivors, positions. rewrite filter_In, in_seq, all_functions_length. fold sh N nsh.
  unfold fn. rewrite fnth_all by auto. unfold survives, bf_m, bf_k. cbn [fst snd]. rewrite orb_true_iff, negb_true_iff, Z.eqb_eq, Nat.eqb_neq.
  unfold m_of. split; [tauto|]. intros H. split; [|exact H]. split; [lia|]. nia.
Qed.

Lemma surv_pos i c : (i < nsh)%nat -> (c < N)%nat -> In (fn N i c) (survivors b) ->
  exists u, (u < dia_size b)%nat /\ nth u (survivors b) 0%nat = fn N i c /\ sh_ix b u = i /\ rad_ix b u = c.
Proof.
  intros Hi Hc Hin. destruct (In_nth _ _ 0%nat Hin) as (u & Hu & Eu). exists u. split; [exact Hu|]. split; [exact Eu|].
  unfold sh_ix, rad_ix. rewrite Eu. fold N. split; [now apply fn_shell|]. unfold fn. rewrite Nat.add_comm, Nat.mod_add by lia. now apply Nat.mod_small.
Qed.

Lemma expanded_mirror (P Q : mat) : expands b P Q -> mirror_symmetric b P -> forall i l c d, (i < nsh)%nat -> (l < nsh)%nat -> (c < N)%nat -> (d < N)%nat ->
  Q (fn N (sg i) c) (fn N (sg l) d) = Q (fn N i c) (fn N l d).
Proof.
  intros [HQ HZ] Hsym i l c d Hi Hl Hc Hd. destruct (sg_ok i Hi) as (Hi' & Li & Mi). destruct (sg_ok l Hl) as (Hl' & Ll & Ml).
  assert (Si : In (fn N (sg i) c) (survivors b) <-> In (fn N i c) (survivors b)) by (rewrite !surv_iff by auto; lia).
  assert (Sl : In (fn N (sg l) d) (survivors b) <-> In (fn N l d) (survivors b)) by (rewrite !surv_iff by auto; lia).
  destruct (in_dec Nat.eq_dec (fn N i c) (survivors b)) as [A|A].
  2:{ rewrite (HZ (fn N i c)) by auto. apply HZ. left. tauto. }
  destruct (in_dec Nat.eq_dec (fn N l d) (survivors b)) as [B|B].
  2:{ rewrite (HZ _ (fn N l d)) by auto. apply HZ. right. tauto. }
  destruct (surv_pos i c Hi Hc A) as (u & Hu & Eu & Su & Ru). destruct (surv_pos l d Hl Hd B) as (v & Hv & Ev & Sv & Rv).
  destruct (surv_pos (sg i) c Hi' Hc (proj2 Si A)) as (u' & Hu' & Eu' & Su' & Ru').
  destruct (surv_pos (sg l) d Hl' Hd (proj2 Sl B)) as (v' & Hv' & Ev' & Sv' & Rv').
  rewrite <- Eu, <- Ev, <- Eu', <- Ev', !HQ by auto. apply Hsym; unfold mirror_functions; rewrite ?Su, ?Su', ?Sv, ?Sv', ?Ru, ?Ru', ?Rv, ?Rv'; fold sh; auto 10.
Qed.

Lemma screened_mirror (P Q : mat) : expands b P Q -> mirror_symmetric b P -> forall i l c d, (i < nsh)%nat -> (l < nsh)%nat -> (c < N)%nat -> (d < N)%nat ->
  screened N (db_thr b) Q (fn N (sg i) c) (fn N (sg l) d) = screened N (db_thr b) Q (fn N i c) (fn N l d).
Proof.
  intros HE Hsym i l c d Hi Hl Hc Hd. rewrite !screened_at by auto.
  replace (block_norm N Q (sg i) (sg l)) with (block_norm N Q i l).
  - rewrite (expanded_mirror P Q HE Hsym) by auto. reflexivity.
  - unfold block_norm. f_equal. apply sum_ext. intros c' Hc'. apply sum_ext. intros d' Hd'. now rewrite (expanded_mirror P Q HE Hsym).
Qed.
End Mirror.

(* ---------- integrals are unchanged when every m changes sign ---------- *)

Lemma gaunt_neg eval L M l m lp mp : generator_ok eval ->
  gaunt_coefficient eval L (- M) l (- m) lp (- mp) = gaunt_coefficient eval L M l m lp mp.
Proof.
  intros (_ & _ & Hneg & _). unfold gaunt_coefficient. f_equal.
  - unfold parity_sign. try rewrite Z.odd_opp. try rewrite Z.even_opp. reflexivity.
  - rewrite Hneg. f_equal; lia.
Qed.

Lemma mod_neg eval L M lj mj li mi : generator_ok eval ->
  modified_gaunt_coefficient eval lj (- mj) L (- M) li (- mi) = modified_gaunt_coefficient eval lj mj L M li mi.
Proof.
  intros H. unfold modified_gaunt_coefficient. rewrite Z.abs_opp.
  assert (E0 : gaunt_coefficient eval L (- M) 0 0 L (- M) = gaunt_coefficient eval L M 0 0 L M).
  { exact (gaunt_neg eval L M 0 0 L M H). }
  rewrite E0, (gaunt_neg eval lj mj li mi L M H). f_equal. f_equal.
  apply fold_left_ext. intros s Lp. f_equal. rewrite (gaunt_neg eval lj mj li mi Lp M H). f_equal.
  exact (gaunt_neg eval Lp M 2 0 L M H).
Qed.

Lemma multipole_neg Rh L M : multipole_factor Rh L (- M) = multipole_factor Rh L M.
Proof. unfold multipole_factor. now rewrite Z.abs_opp, Z.odd_opp. Qed.

Lemma tensor_mirror b I Lcut i j k l x y z w : dbasis_ok b -> paired_shells (db_sh b) ->
  (i < length (db_sh b))%nat -> (j < length (db_sh b))%nat -> (k < length (db_sh b))%nat -> (l < length (db_sh b))%nat ->
  dia_tensor b I Lcut (sg b i) (sg b j) (sg b k) (sg b l) x y z w = dia_tensor b I Lcut i j k l x y z w.
Proof.
  intros Hb Hp Hi Hj Hk Hl. assert (Hg : generator_ok (db_eval b)) by apply Hb.
  destruct (sg_ok b Hp i Hi) as (_ & Li & Mi). destruct (sg_ok b Hp j Hj) as (_ & Lj & Mj).
  destruct (sg_ok b Hp k Hk) as (_ & Lk & Mk). destruct (sg_ok b Hp l Hl) as (_ & Ll & Ml).
  unfold dia_tensor. rewrite Li, Lj, Lk, Ll, Mi, Mj, Mk, Ml.
  set (mi := m_of (db_sh b) i). set (mj := m_of (db_sh b) j). set (mk := m_of (db_sh b) k). set (ml := m_of (db_sh b) l).
  replace (- mj - - mi)%Z with (- (mj - mi))%Z by lia. replace (- mk - - ml)%Z with (- (mk - ml))%Z by lia.
  replace (- (mk - ml) =? - (mj - mi))%Z with (mk - ml =? mj - mi)%Z.
  2:{ destruct (Z.eqb_spec (mk - ml) (mj - mi)); destruct (Z.eqb_spec (- (mk - ml)) (- (mj - mi))); auto; lia. }
  destruct (_ =? _)%Z; [|reflexivity]. rewrite Z.abs_opp. apply lsum_ext. intros L _. rewrite multipole_neg. f_equal.
  apply sum_ext. intros ch _. apply sum_ext. intros ch' _. unfold channel_coupling.
  rewrite !mod_neg, !gaunt_neg by exact Hg. reflexivity.
Qed.

Lemma KV_mirror b I Lcut (P : mat) (Q : dmat) j a k c : dbasis_ok b -> paired_shells (db_sh b) -> expands b P (dent Q) -> mirror_symmetric b P ->
  (j < length (db_sh b))%nat -> (k < length (db_sh b))%nat -> KV b I Q Lcut (sg b j) a (sg b k) c = KV b I Q Lcut j a k c.
Proof.
  intros Hb Hp HE Hs Hj Hk. assert (HN : (0 < lnbf (db_lay b))%nat) by apply Hb. unfold KV, full_exchange. f_equal.
  rewrite (sum_sg b Hp). apply sum_ext. intros i Hi. rewrite (sum_sg b Hp). apply sum_ext. intros l Hl.
  apply sum_ext. intros x Hx. apply sum_ext. intros y Hy. rewrite tensor_mirror by auto. f_equal.
  exact (screened_mirror b Hp P (dent Q) HE Hs i l x y Hi Hl Hx Hy).
Qed.

Lemma KV_offdiag b I Lcut (P : mat) (Q : dmat) j a k c : dbasis_ok b -> expands b P (dent Q) -> m_diagonal b P ->
  m_of (db_sh b) j <> m_of (db_sh b) k -> KV b I Q Lcut j a k c = 0.
Proof.
  intros Hb HE Hd Hne. assert (HN : (0 < lnbf (db_lay b))%nat) by apply Hb. unfold KV, full_exchange.
  rewrite sum_zero'; [ring|]. intros i Hi. apply sum_zero'. intros l Hl. apply sum_zero'. intros x Hx. apply sum_zero'. intros y Hy.
  destruct (Z.eq_dec (m_of (db_sh b) i) (m_of (db_sh b) l)) as [E|E].
  - unfold dia_tensor. destruct (Z.eqb_spec (m_of (db_sh b) k - m_of (db_sh b) l) (m_of (db_sh b) j - m_of (db_sh b) i)); [lia|ring].
  - rewrite screened_at by auto. destruct (Rltb _ _); [ring|]. destruct HE as [HQ HZ].
    destruct (in_dec Nat.eq_dec (fn (lnbf (db_lay b)) i x) (survivors b)) as [A|A]; [|rewrite HZ by auto; ring].
    destruct (in_dec Nat.eq_dec (fn (lnbf (db_lay b)) l y) (survivors b)) as [B|B]; [|rewrite HZ by auto; ring].
    destruct (surv_pos b i x Hi Hx A) as (u & Hu & Eu & Su & _). destruct (surv_pos b l y Hl Hy B) as (v & Hv & Ev & Sv & _).
    rewrite <- Eu, <- Ev, HQ, Hd by (auto; rewrite Su, Sv; exact E). ring.
Qed.

(** The shortcut computes the same matrix. *)
Lemma di_exchange_absm b s lm lM I Lcut order P : dbasis_ok b -> build_tables (db_sh b) = Ok (lm, lM) -> stores b s lm I ->
  density (dia_size b) P -> (Lmax_of b <= Lcut)%Z -> all_pairs b order ->
  db_absm b = true -> paired_shells (db_sh b) -> mirror_symmetric b (dent P) -> m_diagonal b (dent P) ->
  is_matrix (di_exchange b s order P) (dia_size b) (dia_K b I Lcut (dia_screened b (dent P))).
Proof.
  intros Hb Etab Hst HP Hcut Hord Habs Hp Hs Hd. assert (HN : (0 < lnbf (db_lay b))%nat) by apply Hb.
  destruct (di_exchange_shells b s lm lM I Lcut order P Hb Etab Hst HP Hcut Hord) as (Q & r & HE & (K & -> & RK & CK & VK) & E).
  rewrite E, Habs. cbn [bind].
  pose proof (di_mirror_ok (db_sh b) (lnbf (db_lay b)) K RK CK) as HM.
  destruct (remove_shell b _ _ HN HM) as (M & EM & RM & CM & VM). exists M. split; [exact EM|]. split; [exact RM|]. split; [exact CM|].
  intros x y Hx Hy. rewrite VM by auto. rewrite <- (KV_dia b I Lcut (dent P) Q x y HN HE).
  destruct (sh_rad b x HN Hx) as (Hj & Ha & _). destruct (sh_rad b y HN Hy) as (Hk & Hc & _).
  set (j := sh_ix b x) in *. set (k := sh_ix b y) in *. set (a := rad_ix b x) in *. set (c := rad_ix b y) in *.
  unfold mirrored. unfold skipped in VK. rewrite Habs in VK. cbn [andb] in VK.
  destruct (Z.ltb_spec (m_of (db_sh b) j) 0) as [Mj|Mj]; destruct (Z.ltb_spec (m_of (db_sh b) k) 0) as [Mk|Mk]; cbn [andb].
  - rewrite (mirror_exists b Hp j Hj), (mirror_exists b Hp k Hk).
    destruct (sg_ok b Hp j Hj) as (Hj' & _ & Mj'). destruct (sg_ok b Hp k Hk) as (Hk' & _ & Mk').
    rewrite VK by auto. destruct (Z.ltb_spec (m_of (db_sh b) (sg b j)) 0); [lia|]. destruct (Z.ltb_spec (m_of (db_sh b) (sg b k)) 0); [lia|]. cbn [orb].
    now apply (KV_mirror b I Lcut (dent P)).
  - rewrite VK by auto. destruct (Z.ltb_spec (m_of (db_sh b) j) 0); [|lia]. cbn [orb]. symmetry. apply (KV_offdiag b I Lcut (dent P)); auto. lia.
  - rewrite VK by auto. destruct (Z.ltb_spec (m_of (db_sh b) k) 0); [|lia]. rewrite orb_true_r. symmetry. apply (KV_offdiag b I Lcut (dent P)); auto. lia.
  - rewrite VK by auto. destruct (Z.ltb_spec (m_of (db_sh b) j) 0); [lia|]. destruct (Z.ltb_spec (m_of (db_sh b) k) 0); [lia|]. reflexivity.
Qed.
