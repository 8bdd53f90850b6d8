(** Proofs about densities on a grid. *)
Require Import Reals ZArith List Bool Arith Lia Lra Psatz Sorted.
Require Import Verif.Prelude Verif.AngModel Verif.AngSpec Verif.FEProofs Verif.AngProofs Verif.DlModel Verif.DlSpec Verif.DlProofs Verif.DgModel Verif.DgSpec.
Import ListNotations.
Open Scope R_scope.

(** Sums over lists. *)
Lemma sum_list {A} (d : A) (f : A -> R) l : sum (length l) (fun k => f (nth k l d)) = lsum l f.
Proof.
  induction l as [|a l IH]; [reflexivity|]. cbn [length]. rewrite sum_shift. cbn [nth lsum]. rewrite <- IH. reflexivity.
Qed.
Lemma sum_support N (f : nat -> R) l : NoDup l -> (forall v, In v l -> (v < N)%nat) -> (forall v, (v < N)%nat -> ~ In v l -> f v = 0) -> lsum l f = sum N f.
Proof.
  revert f. induction l as [|a l IH]; intros f ND HB HZ.
  - cbn. symmetry. apply sum_zero'. intros i Hi. apply HZ; [exact Hi | intros []].
  - inversion ND as [|? ? N1 N2]; subst. cbn [lsum].
    rewrite (sum_ext N f (fun i => (if Nat.eqb i a then 1 else 0) * f i + (if Nat.eqb i a then 0 else f i))) by (intros i _; destruct (Nat.eqb i a); ring).
    rewrite sum_plus, sum_indicator. rewrite (proj2 (Nat.ltb_lt a N)) by (apply HB; left; reflexivity). f_equal.
    rewrite <- (IH (fun i => if Nat.eqb i a then 0 else f i)).
    + clear -N1. induction l as [|b l IH]; [reflexivity|]. cbn [lsum]. rewrite IH by (intros H; apply N1; right; exact H).
      destruct (Nat.eqb_spec b a) as [->|]; [exfalso; apply N1; left; reflexivity | reflexivity].
    + exact N2.
    + intros v Hv. apply HB. right. exact Hv.
    + intros v Hv Hn. destruct (Nat.eqb_spec v a) as [|E]; [reflexivity|]. apply HZ; [exact Hv|]. intros [H|H]; [congruence | contradiction].
Qed.
Lemma lsum_plus {A} (l : list A) f g : lsum l (fun x => f x + g x) = lsum l f + lsum l g.
Proof. induction l as [|a l IH]; cbn; [ring | rewrite IH; ring]. Qed.
Lemma lsum_ext_in {A} (l : list A) f g : (forall x, In x l -> f x = g x) -> lsum l f = lsum l g.
Proof. intros H. induction l as [|a l IH]; cbn; [reflexivity|]. rewrite H by (left; reflexivity). rewrite IH; [reflexivity|]. intros x Hx. apply H. right. exact Hx. Qed.
Lemma lsum_sum {A} (l : list A) n (f : A -> nat -> R) : lsum l (fun x => sum n (f x)) = sum n (fun i => lsum l (fun x => f x i)).
Proof.
  induction n as [|n IH]; cbn [sum].
  - induction l as [|a l IHl]; cbn; [reflexivity | rewrite IHl; ring].
  - rewrite lsum_plus, IH. reflexivity.
Qed.

(** The functions of an element. *)
Lemma flat_nth {A B} (d : A) (f : A -> list B) l : flat_map f l = flat_map (fun i => f (nth i l d)) (seq 0 (length l)).
Proof. rewrite <- (map_nth_seq d l) at 1. rewrite !flat_map_concat_map, map_map. reflexivity. Qed.
Definition allv (b : pbasis) (iel : nat) (mu cth phi : R) (d : nat) : R * R := point_value b iel mu cth phi (fnth (all_functions (pb_sh b) (pb_Nrad b)) d).
Lemma seq_no_zero n : filter (fun j => negb (Nat.eqb j 0)) (seq 0 n) = seq 1 (n - 1).
Proof.
  destruct n as [|n]; [reflexivity|]. cbn [seq filter Nat.eqb negb]. replace (S n - 1)%nat with n by lia.
  apply filter_all. intros k Hk. apply in_seq in Hk. destruct k; [lia | reflexivity].
Qed.
Lemma row_values b iel x mu cth phi : (S iel < length (pb_bval b))%nat -> fits b -> joined b ->
  x = 2 * (mu - nth iel (pb_bval b) 0) / (nth (S iel) (pb_bval b) 0 - nth iel (pb_bval b) 0) - 1 ->
  el_row b iel x cth phi = map (allv b iel mu cth phi) (filter (fun d => survives (fnth (all_functions (pb_sh b) (pb_Nrad b)) d)) (el_dummy b iel)).
Proof.
  intros Hi HF HJ Hx. specialize (HF iel Hi). specialize (HJ iel Hi). unfold el_row, el_dummy. rewrite (flat_nth (0%Z, 0%Z)).
  rewrite filter_flat, map_flat. apply flat_ext. intros i Ii. apply in_seq in Ii. rewrite filter_map_comm, map_map.
  fold (shell (pb_sh b) i). set (lm := shell (pb_sh b) i). unfold el_nfun. destruct (pb_idx b iel) as [i1 i2] eqn:EI. cbn [fst snd] in *.
  set (nf := (i2 - i1 + 1)%nat). cbv zeta.
  assert (AT : forall j, (j < nf)%nat -> fnth (all_functions (pb_sh b) (pb_Nrad b)) (pb_Nrad b * i + i1 + j) = (lm, (i1 + j)%nat)).
  { intros j Hj. replace (pb_Nrad b * i + i1 + j)%nat with (i * pb_Nrad b + (i1 + j))%nat by lia. apply all_functions_at; [lia | subst nf; lia]. }
  assert (FE : filter (fun j => survives (fnth (all_functions (pb_sh b) (pb_Nrad b)) (pb_Nrad b * i + i1 + j))) (seq 0 nf)
             = seq (if ((iel =? 0)%nat && negb (snd lm =? 0)%Z)%bool then 1 else 0) (nf - (if ((iel =? 0)%nat && negb (snd lm =? 0)%Z)%bool then 1 else 0))).
  { rewrite (filter_ext_in' _ (fun j => ((snd lm =? 0)%Z || negb (Nat.eqb (i1 + j) 0))%bool)).
    2:{ intros j Hj. apply in_seq in Hj. rewrite AT by lia. reflexivity. }
    destruct (Z.eqb_spec (snd lm) 0) as [E|E]; cbn [negb orb].
    - rewrite andb_false_r, Nat.sub_0_r. apply filter_all. reflexivity.
    - rewrite andb_true_r. destruct (Nat.eqb_spec iel 0) as [E0|E0].
      + rewrite (proj2 HJ E0). cbn [Nat.add]. apply seq_no_zero.
      + rewrite Nat.sub_0_r. apply filter_all. intros j _. destruct (Nat.eqb_spec (i1 + j) 0) as [Z0|]; [|reflexivity]. exfalso. apply E0, HJ. lia. }
  rewrite FE. apply map_ext_in. intros j Hj. apply in_seq in Hj.
  assert (J : (j < nf)%nat) by (destruct ((iel =? 0)%nat && negb (snd lm =? 0)%Z)%bool; lia).
  unfold allv. rewrite AT by exact J. unfold point_value, radial_value, bf_k, bf_m; cbn [fst snd]. rewrite EI; cbn [fst snd].
  rewrite (proj2 (Nat.leb_le i1 (i1 + j))), (proj2 (Nat.leb_le (i1 + j) i2)) by (subst nf; lia). cbn [andb]. rewrite <- Hx.
  replace (i1 + j - i1)%nat with j by lia. rewrite sph_form. unfold dl_scal; cbn [fst snd]. f_equal; ring.
Qed.
Lemma pure_nth_all b v : let fs := all_functions (pb_sh b) (pb_Nrad b) in let surv := positions survives fs in
  (v < length surv)%nat -> fnth (pure_functions (pb_sh b) (pb_Nrad b)) v = fnth fs (nth v surv 0%nat).
Proof.
  intros fs surv H. unfold pure_functions. fold fs. rewrite <- (posg_map_nth fd survives fs). change (posg fd survives fs) with surv. unfold fnth.
  rewrite nth_indep with (d' := nth 0 fs fd) by (rewrite map_length; exact H). rewrite (map_nth (fun g => nth g fs fd)). reflexivity.
Qed.
Lemma el_list_ok b iel : (S iel < length (pb_bval b))%nat -> fits b -> joined b ->
  exists idx, el_list b iel = Ok idx /\ NoDup idx /\ (forall v, In v idx -> (v < nfun b)%nat) /\
  (forall v, (v < nfun b)%nat -> ~ In v idx -> let k := bf_k (fnth (pure_functions (pb_sh b) (pb_Nrad b)) v) in ~ (fst (pb_idx b iel) <= k <= snd (pb_idx b iel))%nat) /\
  forall x mu cth phi, x = 2 * (mu - nth iel (pb_bval b) 0) / (nth (S iel) (pb_bval b) 0 - nth iel (pb_bval b) 0) - 1 ->
    el_row b iel x cth phi = map (fun v => point_value b iel mu cth phi (fnth (pure_functions (pb_sh b) (pb_Nrad b)) v)) idx.
Proof.
  intros Hi HF HJ. pose proof (HF iel Hi) as HF1. unfold el_list. rewrite (proj2 (Nat.ltb_ge _ _)) by lia.
  set (fs := all_functions (pb_sh b) (pb_Nrad b)).
  assert (LF : length fs = (length (pb_sh b) * pb_Nrad b)%nat) by apply all_functions_length.
  assert (IN : forall d, In d (el_dummy b iel) <-> exists i k, (i < length (pb_sh b))%nat /\ (fst (pb_idx b iel) <= k <= snd (pb_idx b iel))%nat /\ d = (i * pb_Nrad b + k)%nat).
  { intros d. unfold el_dummy, el_nfun. rewrite in_flat_map. split.
    - intros (i & I1 & I2). apply in_seq in I1. apply in_map_iff in I2. destruct I2 as (j & <- & J). apply in_seq in J.
      exists i, (fst (pb_idx b iel) + j)%nat. split; [lia|]. split; lia.
    - intros (i & k & I1 & K & ->). exists i. split; [apply in_seq; lia|]. apply in_map_iff. exists (k - fst (pb_idx b iel))%nat. split; [lia|]. apply in_seq. lia. }
  destruct (dummy_to_real_ok (pb_sh b) (pb_Nrad b) (el_dummy b iel)) as (idx & E & LT & MP).
  { intros d Hd. apply IN in Hd. destruct Hd as (i & k & I1 & K & ->). rewrite all_functions_length. nia. }
  fold fs in LT, MP. set (surv := positions survives fs) in *.
  assert (LS : length surv = nfun b) by apply positions_length.
  assert (PN : forall v, (v < length surv)%nat -> fnth (pure_functions (pb_sh b) (pb_Nrad b)) v = fnth fs (nth v surv 0%nat)) by (intros v Hv; apply (pure_nth_all b v Hv)).
  assert (ND : NoDup (el_dummy b iel)).
  { unfold el_dummy. apply NoDup_flat_map.
    - apply seq_NoDup.
    - intros i _. apply FinFun.Injective_map_NoDup; [intros p q; lia | apply seq_NoDup].
    - intros i j d _ _ Hd1 Hd2. apply in_map_iff in Hd1, Hd2. destruct Hd1 as (p & <- & P), Hd2 as (q & E2 & Q). apply in_seq in P, Q. unfold el_nfun in P, Q.
      destruct (Nat.lt_trichotomy i j) as [L|[L|L]]; [exfalso; nia | exact L | exfalso; nia]. }
  exists idx. split; [exact E|]. split.
  { apply (NoDup_map_inv' (fun v => nth v surv 0%nat)). rewrite MP. apply NoDup_filter. exact ND. }
  split; [intros v Hv; rewrite <- LS; apply LT; exact Hv|]. split.
  - intros v Hv NI. cbv zeta. intros K. apply NI. rewrite <- LS in Hv. rewrite PN in K by exact Hv. set (g := nth v surv 0%nat) in *.
    assert (G : In g surv) by (apply nth_In; exact Hv). pose proof G as G'. unfold surv in G'.
    assert (GL : (g < length fs)%nat) by (apply (positions_lt survives fs g G')).
    assert (GS : survives (fnth fs g) = true) by (apply (posg_in fd survives fs g) in G'; apply G').
    assert (GD : In g (el_dummy b iel)).
    { apply IN. rewrite LF in GL. assert (pb_Nrad b <> 0)%nat by lia. exists (g / pb_Nrad b)%nat, (g mod pb_Nrad b)%nat.
      assert (Eg : g = (g / pb_Nrad b * pb_Nrad b + g mod pb_Nrad b)%nat) by (rewrite Nat.mul_comm; apply Nat.div_mod; assumption).
      assert (Q1 : (g / pb_Nrad b < length (pb_sh b))%nat) by (apply Nat.div_lt_upper_bound; lia).
      assert (Q2 : (g mod pb_Nrad b < pb_Nrad b)%nat) by (apply Nat.mod_upper_bound; assumption).
      split; [exact Q1|]. split; [|exact Eg]. rewrite Eg in K. unfold fs in K. rewrite all_functions_at in K by assumption. exact K. }
    assert (GM : In g (map (fun v => nth v surv 0%nat) idx)) by (rewrite MP; apply filter_In; split; assumption).
    apply in_map_iff in GM. destruct GM as (v' & V1 & V2).
    assert (NS : NoDup surv) by apply positions_nodup.
    assert (v' = v) as <-; [|exact V2]. apply (proj1 (NoDup_nth surv 0%nat) NS); [apply LT; exact V2 | exact Hv | exact V1].
  - intros x mu cth phi Hx. rewrite (row_values b iel x mu cth phi Hi HF HJ Hx). fold fs. rewrite <- MP, map_map. apply map_ext_in. intros v Hv.
    unfold allv. fold fs. rewrite PN by (apply LT; exact Hv). reflexivity.
Qed.
Lemma sum_row b iel mu cth phi idx (M : mat) o (pr : R * R -> R) : pr (0, 0) = 0 ->
  (forall c z, pr (dl_scal c z) = c * pr z) ->
  NoDup idx -> (forall v, In v idx -> (v < nfun b)%nat) ->
  (forall v, (v < nfun b)%nat -> ~ In v idx -> let k := bf_k (fnth (pure_functions (pb_sh b) (pb_Nrad b)) v) in ~ (fst (pb_idx b iel) <= k <= snd (pb_idx b iel))%nat) ->
  let bf := map (point_value b iel mu cth phi) (pure_functions (pb_sh b) (pb_Nrad b)) in
  sum (length idx) (fun k => pr (nth k (map (fun v => point_value b iel mu cth phi (fnth (pure_functions (pb_sh b) (pb_Nrad b)) v)) idx) (0, 0)) * M (nth k idx 0%nat) o)
  = sum (length bf) (fun i => M i o * pr (nth i bf (0, 0))).
Proof.
  intros P0 PS ND LT OUT bf. set (pv := fun v => point_value b iel mu cth phi (fnth (pure_functions (pb_sh b) (pb_Nrad b)) v)).
  rewrite (sum_ext (length idx) _ (fun k => (fun v => M v o * pr (pv v)) (nth k idx 0%nat))).
  2:{ intros k Hk. rewrite (nth_indep _ (0, 0) (pv 0%nat)) by (rewrite map_length; exact Hk). rewrite map_nth. ring. }
  rewrite (sum_list 0%nat (fun v => M v o * pr (pv v))). rewrite (sum_support (nfun b)); [|exact ND | exact LT|].
  - unfold bf. rewrite map_length. apply sum_ext. intros i Hi. rewrite nth_values by exact Hi. reflexivity.
  - intros v Hv NI. specialize (OUT v Hv NI). cbv zeta in OUT. unfold pv, point_value. rewrite PS. unfold radial_value.
    destruct ((fst (pb_idx b iel) <=? _) && (_ <=? snd (pb_idx b iel)))%nat%bool eqn:B; [|ring].
    apply andb_true_iff in B. destruct B as [B1 B2]. apply Nat.leb_le in B1, B2. exfalso. apply OUT. split; assumption.
Qed.
Lemma find_exact l mu iel : StronglySorted Rlt l -> (S iel < length l)%nat -> nth iel l 0 < mu < nth (S iel) l 0 -> find_el l mu 0 = Some iel.
Proof.
  intros HS Hi Hm. destruct (find_el l mu 0) as [j|] eqn:E.
  - apply find_some in E. rewrite Nat.sub_0_r in E. destruct E as (_ & E2 & E3). f_equal.
    destruct (Nat.lt_trichotomy j iel) as [L|[L|L]]; [exfalso | exact L | exfalso].
    + assert (nth (S j) l 0 <= nth iel l 0) by (destruct (Nat.eq_dec (S j) iel) as [->|]; [lra | left; apply sorted_nth; [exact HS | lia]]). lra.
    + assert (nth (S iel) l 0 <= nth j l 0) by (destruct (Nat.eq_dec (S iel) j) as [->|]; [lra | left; apply sorted_nth; [exact HS | lia]]). lra.
  - exfalso. apply (find_none _ _ _ E iel Hi). lra.
Qed.
Lemma node_in b iel x : nth iel (pb_bval b) 0 < nth (S iel) (pb_bval b) 0 -> -1 < x < 1 ->
  nth iel (pb_bval b) 0 < node_mu b iel x < nth (S iel) (pb_bval b) 0 /\
  x = 2 * (node_mu b iel x - nth iel (pb_bval b) 0) / (nth (S iel) (pb_bval b) 0 - nth iel (pb_bval b) 0) - 1 /\
  node_mu b iel x = nth iel (pb_bval b) 0 + (nth (S iel) (pb_bval b) 0 - nth iel (pb_bval b) 0) * (x + 1) / 2.
Proof.
  intros H Hx. unfold node_mu. set (lo := nth iel (pb_bval b) 0) in *. set (hi := nth (S iel) (pb_bval b) 0) in *. cbv zeta.
  assert (P1 : 0 < (hi - lo) * (x + 1)) by (apply Rmult_lt_0_compat; lra). assert (P2 : 0 < (hi - lo) * (1 - x)) by (apply Rmult_lt_0_compat; lra).
  split; [lra|]. split; [field; lra | field].
Qed.
Lemma point_all b iel mu cth phi : (S iel < length (pb_bval b))%nat -> mesh (pb_bval b) -> fits b ->
  nth iel (pb_bval b) 0 < mu < nth (S iel) (pb_bval b) 0 ->
  eval_point b mu cth phi = Ok (map (point_value b iel mu cth phi) (pure_functions (pb_sh b) (pb_Nrad b))).
Proof.
  intros Hi (HL & H0 & HS) HF Hm. unfold eval_point. rewrite (find_exact _ _ _ HS Hi Hm). specialize (HF iel Hi). destruct (pb_idx b iel) as [i1 i2] eqn:EI. cbn [fst snd] in HF.
  rewrite (proj2 (Nat.leb_le i1 i2)), (proj2 (Nat.ltb_lt i2 _)) by lia. cbn [andb]. f_equal. apply pure_map. intros i k _ Hk. apply entry_value. exact Hk.
Qed.
Lemma sq_norm_orb bf C n : sq_norm (orbitals bf C n) = sum n (fun o => norm2 (orbital bf C o)).
Proof.
  unfold sq_norm, orbitals. rewrite map_length, seq_length. apply sum_ext. intros o Ho.
  rewrite (nth_indep _ (0, 0) (orbital bf C 0%nat)) by (rewrite map_length, seq_length; exact Ho). rewrite map_nth, seq_nth by exact Ho. reflexivity.
Qed.
Lemma grid_point_ok b g iel idx a q : mesh (pb_bval b) -> fits b -> joined b -> fitting b g -> (S iel < length (pb_bval b))%nat ->
  el_list b iel = Ok idx -> -1 < fst q < 1 ->
  (quiet g -> exists p, grid_point b g idx iel a q = Ok p /\ point_of b g iel a q p) /\
  (gi_asserts g = true -> gi_nelb g <> 0%nat -> dcols (gi_B g) <> gi_nelb g -> grid_point b g idx iel a q = UB).
Proof.
  intros HM HF HJ (F1 & F2 & F3 & F4) Hi EL Hq. destruct a as [[cth phi] wang], q as [x w]. cbn [fst] in Hq.
  destruct (el_list_ok b iel Hi HF HJ) as (idx' & E' & ND & LT & OUT & ROW). rewrite EL in E'. injection E' as <-.
  pose proof HM as (HL & H0 & HS). pose proof (sorted_nth _ HS iel (S iel) ltac:(lia)) as LH.
  destruct (node_in b iel x LH Hq) as (N1 & N2 & N3). set (mu := node_mu b iel x) in *.
  pose proof (ROW x mu cth phi N2) as RW. unfold grid_point. cbv zeta. rewrite RW, map_length, Nat.ltb_irrefl.
  set (row := map _ idx) in *. set (bf := map (point_value b iel mu cth phi) (pure_functions (pb_sh b) (pb_Nrad b))).
  assert (OV : forall M n, orb_vals M n idx row = orbitals bf M n).
  { intros M n. unfold orb_vals, orbitals. apply map_ext. intros o. unfold orbital, row, bf. f_equal; apply sum_row; try assumption; reflexivity. }
  rewrite !OV. fold mu. unfold stc. rewrite F1, F2. split.
  - intros HB. eexists. split.
    + rewrite (proj2 (andb_false_iff _ _)); [reflexivity|]. destruct HB as [HB|HB]; [left; rewrite HB; reflexivity|].
      destruct (Nat.eqb_spec (gi_nelb g) 0) as [E|E]; [left; apply andb_false_r|]. right. cbn [negb].
      destruct HB as [HB|HB]; [contradiction|]. unfold orbitals. rewrite map_length, seq_length, HB, Nat.eqb_refl. reflexivity.
    + unfold point_of; cbn [g_mu g_cth g_phi g_wquad g_dV g_dena g_denb g_orba g_orbb g_Torba g_Torbb]. split; [exact N3|]. split; [reflexivity|]. split; [reflexivity|].
      split; [reflexivity|]. split; [unfold node_w; ring|]. exists bf. split; [apply point_all; assumption|]. split; [unfold bf; apply map_length|].
      split; [reflexivity|]. rewrite <- !sq_norm_orb.
      destruct (Nat.eqb_spec (gi_nelb g) 0) as [E|E]; cbn [negb].
      * rewrite E. repeat split; reflexivity.
      * split; [reflexivity|]. split; [reflexivity|]. split; [|split; reflexivity]. unfold orbitals. rewrite firstn_map. f_equal.
        replace (dcols (gi_B g)) with (gi_nelb g + (dcols (gi_B g) - gi_nelb g))%nat by lia. rewrite seq_app, firstn_app, seq_length, Nat.sub_diag, firstn_O, app_nil_r.
        apply firstn_all2. rewrite seq_length. lia.
  - intros HX HB HC. rewrite HX. destruct (Nat.eqb_spec (gi_nelb g) 0) as [E|E]; [contradiction|]. cbn [negb andb]. unfold orbitals. rewrite map_length, seq_length.
    destruct (Nat.eqb_spec (dcols (gi_B g)) (gi_nelb g)); [contradiction | reflexivity].
Qed.

(** The loops. *)
Lemma g_flat_ok {A B} (f : A -> res (list B)) (Pr : A -> list B -> Prop) l : (forall a, In a l -> exists r, f a = Ok r /\ Pr a r) ->
  exists rs, g_flat f l = Ok (concat rs) /\ Forall2 Pr l rs.
Proof.
  intros H. induction l as [|a l IH]; [exists []; split; [reflexivity | constructor]|].
  destruct (H a (or_introl eq_refl)) as (r & E & P). destruct IH as (rs & E2 & P2); [intros; apply H; right; assumption|].
  exists (r :: rs). cbn [g_flat concat]. rewrite E; cbn [bind]. rewrite E2; cbn [bind]. split; [reflexivity | constructor; assumption].
Qed.
Lemma concat_at {A B} (Pr : A -> list B -> Prop) n (d : A) (e : B) l rs : Forall2 Pr l rs -> (forall a r, Pr a r -> length r = n) ->
  length (concat rs) = (length l * n)%nat /\
  forall i j, (i < length l)%nat -> (j < n)%nat -> exists r, Pr (nth i l d) r /\ nth (i * n + j) (concat rs) e = nth j r e.
Proof.
  intros H HL. induction H as [|a r l rs P F IH]; [split; [reflexivity | cbn; lia]|]. destruct IH as [IH1 IH2]. cbn [concat length]. split.
  - rewrite app_length, IH1, (HL a r P). lia.
  - intros [|i] j Hi Hj.
    + exists r. split; [exact P|]. cbn [Nat.mul Nat.add]. apply app_nth1. rewrite (HL a r P). exact Hj.
    + destruct (IH2 i j ltac:(lia) Hj) as (r' & P' & E). exists r'. split; [exact P'|]. rewrite app_nth2 by (rewrite (HL a r P); cbn; lia). rewrite (HL a r P).
      replace (S i * n + j - n)%nat with (i * n + j)%nat by (cbn; lia). exact E.
Qed.
Lemma checks b g idx : fitting b g -> (forall v, In v idx -> (v < nfun b)%nat) -> forall (A : Type) (r : res A),
  (if (dcols (gi_A g) <? gi_nela g)%nat then UB
  else if (negb (gi_nelb g =? 0)%nat && (dcols (gi_B g) <? gi_nelb g)%nat)%bool then UB
  else if existsb (fun i => (drows (gi_A g) <=? i)%nat) idx then UB
  else if (negb (gi_nelb g =? 0)%nat && existsb (fun i => (drows (gi_B g) <=? i)%nat) idx)%bool then UB else r) = r.
Proof.
  intros (F1 & F2 & F3 & F4) LT A r. rewrite (proj2 (Nat.ltb_ge _ _) F3), (proj2 (Nat.ltb_ge _ _) F4), andb_false_r, F1, F2.
  assert (E : existsb (fun i => (nfun b <=? i)%nat) idx = false).
  { destruct (existsb _ idx) eqn:E; [|reflexivity]. apply existsb_exists in E. destruct E as (v & V1 & V2). apply Nat.leb_le in V2. specialize (LT v V1). lia. }
  rewrite E, andb_false_r. reflexivity.
Qed.
Lemma grid_element_ok b g iel : mesh (pb_bval b) -> fits b -> joined b -> fitting b g -> inner (gi_quad g) -> (S iel < length (pb_bval b))%nat ->
  quiet g ->
  exists ps, grid_element b g iel = Ok ps /\ length ps = (length (gi_ang g) * length (gi_quad g))%nat /\
  forall ia iq, (ia < length (gi_ang g))%nat -> (iq < length (gi_quad g))%nat ->
    point_of b g iel (nth ia (gi_ang g) (0, 0, 0)) (nth iq (gi_quad g) (0, 0)) (nth (ia * length (gi_quad g) + iq) ps gp0).
Proof.
  intros HM HF HJ HG HQ Hi HB. destruct (el_list_ok b iel Hi HF HJ) as (idx & EL & ND & LT & _). unfold grid_element. rewrite EL. cbn [bind].
  rewrite (checks b g idx HG LT). unfold inner in HQ. rewrite Forall_forall in HQ.
  set (nq := length (gi_quad g)). set (G := fun a => g_flat (fun q => bind (grid_point b g idx iel a q) (fun p => Ok [p])) (gi_quad g)).
  destruct (g_flat_ok G (fun a r => length r = nq /\ forall iq, (iq < nq)%nat -> point_of b g iel a (nth iq (gi_quad g) (0, 0)) (nth iq r gp0)) (gi_ang g)) as (rs & E & F).
  { intros a _. destruct (g_flat_ok (fun q => bind (grid_point b g idx iel a q) (fun p => Ok [p])) (fun q r => exists p, r = [p] /\ point_of b g iel a q p) (gi_quad g)) as (rq & E & F).
    - intros q Hq. destruct (grid_point_ok b g iel idx a q HM HF HJ HG Hi EL (HQ q Hq)) as [OK _]. destruct (OK HB) as (p & E & P). rewrite E. cbn [bind]. exists [p]. split; [reflexivity|]. exists p. split; [reflexivity | exact P].
    - exists (concat rq). split; [exact E|]. destruct (concat_at _ 1 (0, 0) gp0 _ _ F) as [L N]; [intros a0 r (p & -> & _); reflexivity|]. split; [rewrite L; unfold nq; lia|].
      intros iq Hiq. destruct (N iq 0%nat Hiq ltac:(lia)) as (r & (p & -> & P) & E2). replace (iq * 1 + 0)%nat with iq in E2 by lia. rewrite E2. exact P. }
  exists (concat rs). split; [exact E|]. destruct (concat_at _ nq (0, 0, 0) gp0 _ _ F) as [L N]; [intros a r [LL _]; exact LL|]. split; [exact L|].
  intros ia iq Ha Hiq. destruct (N ia iq Ha Hiq) as (r & (_ & P) & E2). rewrite E2. apply P. exact Hiq.
Qed.
Lemma grid_ok b g : mesh (pb_bval b) -> fits b -> joined b -> fitting b g -> inner (gi_quad g) ->
  quiet g ->
  let nel := (length (pb_bval b) - 1)%nat in let na := length (gi_ang g) in let nq := length (gi_quad g) in
  exists ps, density_grid b g = Ok ps /\ length ps = (nel * na * nq)%nat /\
  forall iel ia iq, (iel < nel)%nat -> (ia < na)%nat -> (iq < nq)%nat ->
    point_of b g iel (nth ia (gi_ang g) (0, 0, 0)) (nth iq (gi_quad g) (0, 0)) (nth ((iel * na + ia) * nq + iq) ps gp0).
Proof.
  intros HM HF HJ HG HQ HB nel na nq. assert (HL : (2 <= length (pb_bval b))%nat) by apply HM.
  destruct (g_flat_ok (grid_element b g) (fun iel r => length r = (na * nq)%nat /\ forall ia iq, (ia < na)%nat -> (iq < nq)%nat ->
    point_of b g iel (nth ia (gi_ang g) (0, 0, 0)) (nth iq (gi_quad g) (0, 0)) (nth (ia * nq + iq) r gp0)) (seq 0 nel)) as (rs & E & F).
  { intros iel I. apply in_seq in I. destruct (grid_element_ok b g iel HM HF HJ HG HQ ltac:(unfold nel in I; lia) HB) as (ps & E & L & P). exists ps. split; [exact E|]. split; [exact L | exact P]. }
  destruct (concat_at _ (na * nq) 0%nat gp0 _ _ F) as [L N]; [intros a r [LL _]; exact LL|]. rewrite seq_length in L, N.
  exists (concat rs). unfold density_grid. fold nel. destruct (Nat.eqb_spec nel 0) as [Z0|_]; [exfalso; unfold nel in Z0; lia|]. cbv zeta. rewrite E. cbn [bind]. fold na nq.
  replace (nel * nq * na)%nat with (length (concat rs)) by (rewrite L; lia). rewrite Nat.ltb_irrefl. split; [reflexivity|]. split; [rewrite L; lia|].
  intros iel ia iq I1 I2 I3. destruct (N iel (ia * nq + iq)%nat I1) as (r & (_ & P) & E2); [nia|]. rewrite seq_nth in P by exact I1. cbn [Nat.add] in P.
  replace ((iel * na + ia) * nq + iq)%nat with (iel * (na * nq) + (ia * nq + iq))%nat by lia. rewrite E2. apply P; assumption.
Qed.
Lemma grid_ub b g : mesh (pb_bval b) -> fits b -> joined b -> fitting b g -> inner (gi_quad g) -> gi_quad g <> [] -> gi_ang g <> [] ->
  gi_asserts g = true -> gi_nelb g <> 0%nat -> dcols (gi_B g) <> gi_nelb g -> density_grid b g = UB.
Proof.
  intros HM HF HJ HG HQ Q0 A0 HX HB HC. assert (HL : (2 <= length (pb_bval b))%nat) by apply HM. unfold density_grid.
  destruct (length (pb_bval b) - 1)%nat as [|n] eqn:EN; [lia|]. cbn [Nat.eqb]. cbv zeta. cbn [seq g_flat].
  destruct (el_list_ok b 0 ltac:(lia) HF HJ) as (idx & EL & _ & LT & _). unfold grid_element at 1. rewrite EL. cbn [bind]. rewrite (checks b g idx HG LT).
  destruct (gi_ang g) as [|a an]; [contradiction|]. destruct (gi_quad g) as [|q qs] eqn:EQ; [contradiction|]. cbn [g_flat].
  inversion HQ as [|? ? Hq _]; subst. destruct (grid_point_ok b g 0 idx a q HM HF HJ HG ltac:(lia) EL Hq) as [_ U]. rewrite (U HX HB HC). reflexivity.
Qed.

(** Integrals over the grid. *)
Lemma norm_trace (den : gpoint -> R) (sel : gpoint -> list (R * R)) ps n : (forall p, In p ps -> length (sel p) = n /\ den p = sq_norm (sel p)) ->
  grid_norm den ps = sum n (fun i => fst (grid_overlap sel ps i i)).
Proof.
  intros H. unfold grid_norm, grid_overlap; cbn [fst]. rewrite <- lsum_sum. apply lsum_ext_in. intros p Hp. destruct (H p Hp) as [L ->]. unfold sq_norm. rewrite L. symmetry. apply sum_scal_r.
Qed.
Lemma overlap_hermitian sel ps i j : grid_overlap sel ps j i = dl_conj (grid_overlap sel ps i j).
Proof.
  unfold grid_overlap, dl_conj; cbn [fst snd]. f_equal.
  - apply lsum_ext_in. intros p _. ring.
  - induction ps as [|p ps IH]; cbn [lsum]; [ring|]. rewrite IH. ring.
Qed.
Lemma points_in b g ps : (let nel := (length (pb_bval b) - 1)%nat in let na := length (gi_ang g) in let nq := length (gi_quad g) in
  length ps = (nel * na * nq)%nat /\
  forall iel ia iq, (iel < nel)%nat -> (ia < na)%nat -> (iq < nq)%nat ->
    point_of b g iel (nth ia (gi_ang g) (0, 0, 0)) (nth iq (gi_quad g) (0, 0)) (nth ((iel * na + ia) * nq + iq) ps gp0)) ->
  forall p, In p ps -> exists iel a q, (S iel < length (pb_bval b))%nat /\ In a (gi_ang g) /\ In q (gi_quad g) /\ point_of b g iel a q p.
Proof.
  cbv zeta. intros [L P] p Hp. set (nel := (length (pb_bval b) - 1)%nat) in *. set (na := length (gi_ang g)) in *. set (nq := length (gi_quad g)) in *.
  destruct (In_nth ps p gp0 Hp) as (k & K & <-). rewrite L in K. assert (nq <> 0)%nat by nia. assert (na <> 0)%nat by nia.
  assert (K1 : k = (k / nq * nq + k mod nq)%nat) by (rewrite Nat.mul_comm; apply Nat.div_mod; assumption).
  assert (K2 : (k / nq)%nat = (k / nq / na * na + (k / nq) mod na)%nat) by (rewrite Nat.mul_comm; apply Nat.div_mod; assumption).
  assert (B1 : (k mod nq < nq)%nat) by (apply Nat.mod_upper_bound; assumption). assert (B2 : ((k / nq) mod na < na)%nat) by (apply Nat.mod_upper_bound; assumption).
  assert (B3 : (k / nq < nel * na)%nat) by (apply Nat.div_lt_upper_bound; lia). assert (B4 : (k / nq / na < nel)%nat) by (apply Nat.div_lt_upper_bound; lia).
  specialize (P _ _ _ B4 B2 B1). rewrite <- K2, <- K1 in P. exists (k / nq / na)%nat, (nth ((k / nq) mod na) (gi_ang g) (0, 0, 0)), (nth (k mod nq) (gi_quad g) (0, 0)).
  split; [unfold nel in B4; lia|]. split; [apply nth_In; exact B2|]. split; [apply nth_In; exact B1 | exact P].
Qed.
Lemma grid_integrals b g ps : mesh (pb_bval b) -> fits b -> joined b -> fitting b g -> inner (gi_quad g) ->
  quiet g -> density_grid b g = Ok ps -> 0 < gi_Rh g ->
  Forall (fun q => 0 <= snd q) (gi_quad g) -> Forall (fun a => -1 <= fst (fst a) <= 1 /\ 0 <= snd a) (gi_ang g) ->
  (forall p, In p ps -> 0 <= g_dena p /\ 0 <= g_denb p /\ 0 <= g_dV p) /\
  0 <= grid_norm g_dena ps /\ grid_norm g_dena ps = sum (gi_nela g) (fun i => fst (grid_overlap g_orba ps i i)) /\
  0 <= grid_norm g_denb ps /\ grid_norm g_denb ps = sum (gi_nelb g) (fun i => fst (grid_overlap g_orbb ps i i)) /\
  (forall i j, grid_overlap g_orba ps j i = dl_conj (grid_overlap g_orba ps i j)) /\ (forall i j, grid_overlap g_orbb ps j i = dl_conj (grid_overlap g_orbb ps i j)).
Proof.
  intros HM HF HJ HG HQ HB E HR HW HA. destruct (grid_ok b g HM HF HJ HG HQ HB) as (ps' & E' & LP). rewrite E in E'. injection E' as <-.
  pose proof (points_in b g ps LP) as PI. rewrite Forall_forall in HW, HA. unfold inner in HQ. rewrite Forall_forall in HQ.
  assert (POS : forall p, In p ps -> 0 <= g_dena p /\ 0 <= g_denb p /\ 0 <= g_dV p).
  { intros p Hp. destruct (PI p Hp) as (iel & [[cth phi] wang] & [x w] & Hi & Ia & Iq & PO). specialize (HW _ Iq). specialize (HQ _ Iq). specialize (HA _ Ia). cbn [fst snd] in *.
    pose proof HM as (HL & H0 & HS). pose proof (sorted_nth _ HS iel (S iel) ltac:(lia)) as LH.
    assert (L0 : 0 <= nth iel (pb_bval b) 0) by (destruct iel; [lra | left; pose proof (sorted_nth _ HS 0 (S iel) ltac:(lia)); lra]).
    unfold point_of in PO. cbv zeta in PO. destruct PO as (P1 & P2 & P3 & P4 & P5 & bf & _ & _ & _ & _ & _ & _ & P6 & P7).
    set (lo := nth iel (pb_bval b) 0) in *. set (hi := nth (S iel) (pb_bval b) 0) in *.
    assert (M0 : 0 <= g_mu p). { rewrite P1. assert (0 < (hi - lo) * (x + 1)) by (apply Rmult_lt_0_compat; lra). lra. }
    assert (W0 : 0 <= g_wquad p) by (rewrite P4; apply Rmult_le_pos; [apply Rmult_le_pos; lra | apply HA]).
    assert (C0 : 0 <= cosh (g_mu p) ^ 2 - cth ^ 2). { pose proof (cosh_sinh (g_mu p)) as CS. assert (0 <= sinh (g_mu p) * sinh (g_mu p)) by apply Rle_0_sqr. destruct HA as [[A1 A2] _].
      assert (0 <= (1 - cth) * (1 + cth)) by (apply Rmult_le_pos; lra). replace (cosh (g_mu p) ^ 2) with (cosh (g_mu p) * cosh (g_mu p)) by ring. replace (cth ^ 2) with (cth * cth) by ring. lra. }
    rewrite P6, P7. repeat split.
    - apply sum_nonneg. intros o _. unfold norm2. apply Rplus_le_le_0_compat; apply Rle_0_sqr.
    - apply sum_nonneg. intros o _. unfold norm2. apply Rplus_le_le_0_compat; apply Rle_0_sqr.
    - rewrite P5. apply Rmult_le_pos; [|exact W0]. apply Rmult_le_pos; [|exact C0]. apply Rmult_le_pos; [apply pow_le; lra | apply sinh_nonneg; exact M0]. }
  assert (NN : forall den : gpoint -> R, (forall p, In p ps -> 0 <= den p) -> 0 <= grid_norm den ps).
  { intros den HD. assert (HV : forall p, In p ps -> 0 <= g_dV p) by (intros p Hp; apply (POS p Hp)). unfold grid_norm. clear -HD HV. induction ps as [|p ps IH]; cbn [lsum]; [lra|].
    assert (0 <= lsum ps (fun p => den p * g_dV p)) by (apply IH; intros; [apply HD | apply HV]; right; assumption).
    pose proof (Rmult_le_pos _ _ (HD p (or_introl eq_refl)) (HV p (or_introl eq_refl))). lra. }
  assert (PO : forall p, In p ps -> (length (g_orba p) = gi_nela g /\ g_dena p = sq_norm (g_orba p)) /\ (length (g_orbb p) = gi_nelb g /\ g_denb p = sq_norm (g_orbb p))).
  { intros p Hp. destruct (PI p Hp) as (iel & [[cth phi] wang] & [x w] & _ & _ & _ & PO). unfold point_of in PO. cbv zeta in PO.
    destruct PO as (_ & _ & _ & _ & _ & bf & _ & _ & O & O' & _ & _ & D & D'). rewrite O, D, O', D', !sq_norm_orb. unfold orbitals. rewrite !map_length, !seq_length. repeat split; reflexivity. }
  split; [exact POS|]. split; [apply NN; intros p Hp; apply (POS p Hp)|]. split; [apply norm_trace; intros p Hp; apply (PO p Hp)|].
  split; [apply NN; intros p Hp; apply (POS p Hp)|]. split; [apply norm_trace; intros p Hp; apply (PO p Hp)|]. split; intros; apply overlap_hermitian.
Qed.

(** A case: a mesh of two elements with two linear functions in each, an m = 0 and an m = 1
    shell, five functions, more beta orbitals than electrons. *)
Definition bg : pbasis := mkPB [(0, 0); (1, 1)]%Z 3 [0; 1; 3] (fun _ x k => if (k =? 0)%nat then (1 - x) / 2 else (1 + x) / 2)
  (fun iel => (iel, S iel)) (fun l m th => if (m =? 0)%Z then 1 else sin th).
Definition gg (asserts : bool) : ginput := mkGI 1 [(- (1 / 2), 1); (1 / 2, 1)] [(0, 0, 2); (1 / 2, PI, 2)] (mkD 5 5 mid) (mkD 5 5 mid) mid 2 1 asserts.
Lemma bg_ok a : mesh (pb_bval bg) /\ fits bg /\ joined bg /\ fitting bg (gg a) /\ inner (gi_quad (gg a)).
Proof.
  split; [|split; [|split; [|split]]].
  - split; [cbn; lia|]. split; [reflexivity|]. cbn. repeat (constructor; [|repeat (constructor; [lra|]); try constructor]); constructor.
  - intros iel H. cbn in *. lia.
  - intros iel H. cbn in *. lia.
  - unfold fitting. cbn. lia.
  - repeat constructor; cbn; lra.
Qed.
Lemma assertion_hit : ~ (forall b g, mesh (pb_bval b) -> fits b -> joined b -> fitting b g -> inner (gi_quad g) -> exists ps, density_grid b g = Ok ps).
Proof.
  intros H. destruct (bg_ok true) as (H1 & H2 & H3 & H4 & H5). destruct (H bg (gg true) H1 H2 H3 H4 H5) as [ps E].
  rewrite (grid_ub bg (gg true) H1 H2 H3 H4 H5) in E; cbn; try discriminate; reflexivity.
Qed.
