(** The tables and the densities in the points of one element. *)
Require Import Reals ZArith List Bool Arith Lia Lra.
Require Import Verif.Prelude Verif.FEModel Verif.FESpec Verif.FEProofs Verif.AngModel Verif.AngProofs Verif.JKModel Verif.DftModel Verif.DftSpec Verif.DftProofs Verif.DftXc Verif.DftFock Verif.DftAtom Verif.PmModel Verif.PmDens Verif.SgModel Verif.SgSpec Verif.SgXc.
Import ListNotations.
Local Open Scope R_scope.

Definition drp := mkR 0 0 (fun _ => 0) (fun _ => 0) (fun _ => 0).
Definition rp (pts : list rpoint) (ip : nat) : rpoint := nth ip pts drp.
Lemma sum_rp (pts : list rpoint) F : sum (length pts) (fun ip => F (rp pts ip)) = lsum pts F.
Proof.
  unfold rp. rewrite <- lsum_seq0. rewrite <- (lsum_map (fun ip => nth ip pts drp)). f_equal. apply (map_nth_seq drp).
Qed.
Definition cube (Ps : list (list dmat)) (s : nat) : list dmat := nth s Ps [].
Definition rargs (n : nat) (pol : bool) (Ps : list (list dmat)) (q : rpoint) : xargs :=
  if pol then rargs2 n (cube Ps 0) (cube Ps 1) q else rargs1 n (cube Ps 0) q.

(** The worker holds the values in the points. *)
Record sg_rep (fl : flags) (n : nat) (pts : list rpoint) (w : sgworker) : Prop := {
  sr_fl : w_fl (sg_w w) = fl;
  sr_n : g_n (w_g (sg_w w)) = length pts;
  sr_nodup : NoDup (sg_ind w);
  sr_lt : forall i, In i (sg_ind w) -> (i < n)%nat;
  sr_pos : forall ip, (ip < length pts)%nat -> 0 < q_r (rp pts ip);
  sr_r : length (sg_r w) = length pts /\ forall ip, (ip < length pts)%nat -> nth ip (sg_r w) 0 = q_r (rp pts ip);
  sr_wr : length (sg_wr w) = length pts /\
     forall ip, (ip < length pts)%nat -> q_w (rp pts ip) = 4 * PI * (q_r (rp pts ip) * q_r (rp pts ip)) * nth ip (sg_wr w) 0;
  sr_w : forall ip, (ip < length pts)%nat -> g_w (w_g (sg_w w)) ip = q_w (rp pts ip);
  sr_out : forall ip i, (ip < length pts)%nat -> (i < n)%nat -> ~ In i (sg_ind w) ->
     q_f (rp pts ip) i = 0 /\ q_d (rp pts ip) i = 0 /\ q_l (rp pts ip) i = 0;
  sr_f : is_mat (sg_f w) (length (sg_ind w)) (length pts) (fun i ip => q_f (rp pts ip) (nth i (sg_ind w) 0%nat));
  sr_d : f_grad fl = true -> is_mat (sg_d w) (length (sg_ind w)) (length pts) (fun i ip => q_d (rp pts ip) (nth i (sg_ind w) 0%nat));
  sr_l : f_lapl fl = true -> is_mat (sg_l w) (length (sg_ind w)) (length pts) (fun i ip => q_l (rp pts ip) (nth i (sg_ind w) 0%nat)) }.

(* ------------------------------------------------------------------ *)
(** * compute_bf *)
Section Elem.
Variables (b : abasis) (iel : nat).
Hypothesis HB : sg_grid_ok b.
Hypothesis Hiel : (iel < get_nelem (ab_fe b))%nat.
Let first := fst (elem_range (ab_fe b) iel).
Let Nr := snd (elem_range (ab_fe b) iel).
Definition sg_el_ind := map (fun j => (fst (elem_range (ab_fe b) iel) + j)%nat) (seq 0 (snd (elem_range (ab_fe b) iel))).
Lemma sg_range : (first + Nr <= at_nr b)%nat /\ bf_list_sad (ab_fe b) iel = Ok sg_el_ind.
Proof.
  destruct HB as (Hv & _). destruct (elem_facts (ab_fe b) iel Hv Hiel) as (f & l & N & Hg & HN & H0 & H1 & H2).
  unfold sg_el_ind, first, Nr, at_nr, elem_range, bf_list_sad. rewrite Hg, HN. cbn [fst snd bind]. split; [lia|].
  destruct (Z.ltb_spec f 0); [lia|]. destruct (Z.ltb_spec (l - f + 1) 0); [lia|]. reflexivity.
Qed.
Lemma sg_len : length sg_el_ind = Nr.
Proof. unfold sg_el_ind. rewrite map_length, seq_length. reflexivity. Qed.
Lemma sg_nth j : (j < Nr)%nat -> nth j sg_el_ind 0%nat = (first + j)%nat.
Proof. intros H. apply (nth_map_seq (fun j => (first + j)%nat)). exact H. Qed.
Lemma sg_in mu : In mu sg_el_ind <-> (first <= mu < first + Nr)%nat.
Proof.
  unfold sg_el_ind. fold first Nr. rewrite in_map_iff. split.
  - intros (j & <- & Hj). apply in_seq in Hj. lia.
  - intros H. exists (mu - first)%nat. split; [lia|apply in_seq; lia].
Qed.
Lemma sg_nodup : NoDup sg_el_ind.
Proof. unfold sg_el_ind. apply FinFun.Injective_map_NoDup; [intros x y E; lia|apply seq_NoDup]. Qed.
Lemma sg_radial A ir mu : radial_value b A iel ir mu
  = if (Nat.leb first mu && Nat.ltb mu (first + Nr))%bool then dent (A iel) ir (mu - first)%nat else 0.
Proof. apply radial_eq. Qed.
Lemma sg_tables A : In A [ab_f b iel; ab_d b iel; ab_l b iel] -> drows A = length (ab_r b iel) /\ dcols A = Nr.
Proof. intros H. destruct HB as (_ & He). apply (proj2 (proj2 (He iel Hiel))). exact H. Qed.
Lemma sg_len_pts : length (sg_elem_points b iel) = length (ab_r b iel).
Proof. unfold sg_elem_points. rewrite map_length, seq_length. reflexivity. Qed.
Lemma sg_nth_pts ip : (ip < length (ab_r b iel))%nat -> rp (sg_elem_points b iel) ip = sg_point b iel ip.
Proof. intros H. apply (nth_map_seq (sg_point b iel)). exact H. Qed.
Lemma sg_table_ok A : In (A iel) [ab_f b iel; ab_d b iel; ab_l b iel] ->
  is_mat (dT (A iel)) Nr (length (ab_r b iel)) (fun i ip => radial_value b A iel ip (nth i sg_el_ind 0%nat)).
Proof.
  intros HA. destruct (sg_tables _ HA) as [E1 E2]. split; [exact E2|split; [exact E1|]]. intros i ip Hi Hip. cbn [dT dent].
  rewrite sg_nth, sg_radial by auto. destruct (Nat.leb_spec first (first + i)); [|lia]. destruct (Nat.ltb_spec (first + i) (first + Nr)); [|lia].
  cbn [andb]. replace (first + i - first)%nat with i by lia. reflexivity.
Qed.

Lemma sg_compute_bf_ok w : exists w', sg_compute_bf b iel w = Ok w' /\ sg_ind w' = sg_el_ind /\
  sg_rep (w_fl (sg_w w)) (at_nr b) (sg_elem_points b iel) w'.
Proof.
  unfold sg_compute_bf. destruct sg_range as [Hle ->]. cbn [bind].
  assert (He := proj2 HB iel Hiel). destruct He as (Hr & Hw & _). rewrite Hw, Nat.eqb_refl. cbn [negb].
  eexists; split; [reflexivity|]. split; [reflexivity|].
  constructor; cbn [sg_r sg_wr sg_ind sg_f sg_d sg_l sg_w w_fl w_g plain_grid g_n g_w]; rewrite ?sg_len_pts, ?sg_len.
  - reflexivity.
  - reflexivity.
  - apply sg_nodup.
  - intros i Hi. apply sg_in in Hi. lia.
  - intros ip Hip. rewrite sg_nth_pts by auto. apply Hr, nth_In. exact Hip.
  - split; [reflexivity|]. intros ip Hip. rewrite sg_nth_pts by auto. reflexivity.
  - split; [exact Hw|]. intros ip Hip. rewrite sg_nth_pts by auto. reflexivity.
  - intros ip Hip. rewrite sg_nth_pts by auto. cbn [sg_point q_w]. ring.
  - intros ip i Hip Hi Hn. rewrite sg_nth_pts by auto. cbn [sg_point q_f q_d q_l]. rewrite !sg_radial. rewrite sg_in in Hn.
    destruct (Nat.leb_spec first i), (Nat.ltb_spec i (first + Nr)); cbn [andb]; auto. exfalso. lia.
  - apply (is_mat_ext _ _ _ _ _ (sg_table_ok (ab_f b) ltac:(left; reflexivity))). intros i ip _ Hip. rewrite sg_nth_pts by auto. reflexivity.
  - intros ->. apply (is_mat_ext _ _ _ _ _ (sg_table_ok (ab_d b) ltac:(right; left; reflexivity))). intros i ip _ Hip. rewrite sg_nth_pts by auto. reflexivity.
  - intros ->. apply (is_mat_ext _ _ _ _ _ (sg_table_ok (ab_l b) ltac:(right; right; left; reflexivity))). intros i ip _ Hip. rewrite sg_nth_pts by auto. reflexivity.
Qed.
End Elem.

(* ------------------------------------------------------------------ *)
(** * update_density *)
Lemma contract_sum n m (c : nat -> R) (P : nat -> mat) X :
  contract n (fun i j => sum m (fun l => c l * P l i j)) X = sum m (fun l => c l * contract n (P l) X).
Proof.
  unfold contract. transitivity (sum n (fun i => sum m (fun l => c l * sum n (fun j => P l i j * X i j)))).
  - apply sum_ext. intros i _. transitivity (sum n (fun j => sum m (fun l => c l * (P l i j * X i j)))).
    + apply sum_ext. intros j _. rewrite <- sum_scal_r. apply sum_ext. intros. ring.
    + rewrite sum_swap. apply sum_ext. intros. apply sum_scal.
  - rewrite sum_swap. apply sum_ext. intros l _. apply sum_scal.
Qed.
Lemma slice_ok' ind n P : (forall i, In i ind -> (i < n)%nat) -> drows P = n -> dcols P = n ->
  exists S, slice ind P = Ok S /\ is_mat S (length ind) (length ind) (fun i j => dent P (nth i ind 0%nat) (nth j ind 0%nat)).
Proof.
  intros Hlt Hr Hc. apply tab_ok. intros i j Hi Hj. rewrite (vget_ok _ i 0%nat), (vget_ok _ j 0%nat) by auto. cbn [bind].
  apply (get_ok P n n (dent P)); [repeat split; auto| |]; apply Hlt, nth_In; auto.
Qed.
Lemma fold_res_app {S X} (f : S -> X -> res S) l1 l2 : forall s,
  fold_res f (l1 ++ l2) s = bind (fold_res f l1 s) (fun s' => fold_res f l2 s').
Proof.
  induction l1 as [|x l1 IH]; intros s; cbn [app fold_res]; [reflexivity|].
  destruct (f s x) as [s'|e| |]; cbn [bind]; [apply IH|reflexivity..].
Qed.
Lemma sum_snoc m f : sum (S m) f = sum m f + f m. Proof. reflexivity. Qed.
Lemma sum_slices_ok ind n c P0 : (forall i, In i ind -> (i < n)%nat) -> (forall P, In P P0 -> is_density n P) ->
  exists S, sum_slices ind c P0 = Ok S /\
    is_mat S (length ind) (length ind) (fun i j => sum (length P0) (fun l => c l * part P0 l (nth i ind 0%nat) (nth j ind 0%nat))).
Proof.
  intros Hlt HP. unfold sum_slices.
  set (g := fun P => unres (slice ind P) dempty).
  assert (Hg : forall P, In P P0 -> slice ind P = Ok (g P) /\ is_mat (g P) (length ind) (length ind) (fun i j => dent P (nth i ind 0%nat) (nth j ind 0%nat))).
  { intros P Hi. destruct (HP P Hi) as (R1 & R2 & _). destruct (slice_ok' ind n P Hlt R1 R2) as (S & ES & HS). unfold g. rewrite ES. auto. }
  rewrite (each_ok _ g) by (intros P Hi; apply Hg, Hi). cbn [bind].
  assert (Hm : forall m, (m <= length P0)%nat -> exists S, fold_res (fun A l => bind (vget (map g P0) l) (fun X => dadd A (dscale (c l) X))) (seq 0 m) (dzero (length ind) (length ind)) = Ok S /\
    is_mat S (length ind) (length ind) (fun i j => sum m (fun l => c l * part P0 l (nth i ind 0%nat) (nth j ind 0%nat)))).
  { induction m as [|m IH]; intros Hle; [eexists; split; [reflexivity|apply dzero_ok]|].
    destruct (IH ltac:(lia)) as (S & ES & HS). rewrite seq_S, fold_res_app, ES. cbn [bind fold_res plus].
    rewrite (vget_ok _ m dempty) by (rewrite map_length; lia). cbn [bind].
    assert (Hin : In (nth m P0 dempty) P0) by (apply nth_In; lia).
    assert (En : nth m (map g P0) dempty = g (nth m P0 dempty)).
    { rewrite (nth_indep _ dempty (g dempty)) by (rewrite map_length; lia). apply map_nth. }
    rewrite En. destruct (dadd_ok _ _ _ _ _ _ HS (dscale_ok (c m) _ _ _ _ (proj2 (Hg _ Hin)))) as (T & ET & HT). rewrite ET. cbn [bind].
    exists T. split; [reflexivity|]. apply (is_mat_ext _ _ _ _ _ HT). intros i j _ _. rewrite sum_snoc. reflexivity. }
  apply Hm. lia.
Qed.

Section Dens.
Variables (fl : flags) (n : nat) (pts : list rpoint) (w : sgworker).
Hypothesis HF : flags_ok fl.
Hypothesis HW : sg_rep fl n pts w.
Let N := length pts.
Let NF := length (sg_ind w).
Let ix i := nth i (sg_ind w) 0%nat.

(** sum_i (P X)_i Y_i for P = sum_l c_l P_l *)
Lemma sg_dot (c : nat -> R) P0 S X Y (x y : nat -> nat -> R) Z ip : (forall P, In P P0 -> is_density n P) -> 
  is_mat S NF NF (fun i j => sum (length P0) (fun l => c l * part P0 l (ix i) (ix j))) ->
  is_mat X NF N (fun i ip => x ip (ix i)) -> is_mat Y NF N (fun i ip => y ip (ix i)) -> (ip < N)%nat ->
  (forall i, (i < n)%nat -> ~ In i (sg_ind w) -> x ip i = 0 /\ y ip i = 0) ->
  dprod S X = Ok Z -> coldot Z Y ip = Ok (sum (length P0) (fun l => c l * contract n (part P0 l) (fun i j => y ip i * x ip j))).
Proof.
  intros HP HS HX HY Hip Ho EZ. destruct (dprod_ok _ _ _ _ _ _ _ HS HX) as (Z' & EZ' & HZ). rewrite EZ' in EZ. injection EZ as ->.
  rewrite (coldot_ok _ _ _ _ _ _ ip HZ HY Hip). f_equal.
  rewrite <- contract_sum. rewrite <- (contract_local n (sg_ind w)); [|apply (sr_nodup _ _ _ _ HW)|apply (sr_lt _ _ _ _ HW)|].
  - apply sum_ext. intros i Hi. rewrite <- sum_scal_r. apply sum_ext. intros j Hj. fold (ix i) (ix j). ring.
  - intros i j Hi Hj [H|H]; [destruct (Ho i Hi H) as [E1 E2]; rewrite E2|destruct (Ho j Hj H) as [E1 E2]; rewrite E1]; ring.
Qed.

Section One.
Variable P0 : list dmat.
Hypothesis HP : forall P, In P P0 -> is_density n P.
Definition psm := unres (sum_slices (sg_ind w) (fun _ => 1) P0) dempty.
Definition plm := unres (sum_slices (sg_ind w) ll1 P0) dempty.
Definition prods := unres (sg_products w P0) (mkSP dempty dempty dempty).
Lemma psm_ok c S : sum_slices (sg_ind w) c P0 = Ok S -> is_mat S NF NF (fun i j => sum (length P0) (fun l => c l * part P0 l (ix i) (ix j))).
Proof. intros E. destruct (sum_slices_ok (sg_ind w) n c P0 (sr_lt _ _ _ _ HW) HP) as (S' & E' & H). rewrite E in E'. injection E' as ->. exact H. Qed.
Lemma prods_ok : sg_products w P0 = Ok prods /\
  dprod psm (sg_f w) = Ok (sp_v prods) /\ (f_grad fl = true -> (f_tau fl = true \/ f_lapl fl = true) -> dprod psm (sg_d w) = Ok (sp_p prods)) /\
  (f_tau fl = true -> dprod plm (sg_f w) = Ok (sp_l prods)) /\
  sum_slices (sg_ind w) (fun _ => 1) P0 = Ok psm /\ sum_slices (sg_ind w) ll1 P0 = Ok plm.
Proof.
  destruct (sum_slices_ok (sg_ind w) n (fun _ => 1) P0 (sr_lt _ _ _ _ HW) HP) as (S & ES & HS).
  destruct (sum_slices_ok (sg_ind w) n ll1 P0 (sr_lt _ _ _ _ HW) HP) as (L & EL & HL).
  unfold psm, plm. rewrite ES, EL. cbn [unres]. unfold prods, sg_products. rewrite (sr_fl _ _ _ _ HW), ES, EL. cbn [bind].
  destruct (dprod_ok _ _ _ _ _ _ _ HS (sr_f _ _ _ _ HW)) as (V & EV & _). rewrite EV. cbn [bind].
  assert (Hv : exists Vp, (if (f_tau fl || f_lapl fl)%bool then dprod S (sg_d w) else Ok dempty) = Ok Vp /\
     (f_tau fl = true \/ f_lapl fl = true -> dprod S (sg_d w) = Ok Vp)).
  { destruct (f_tau fl || f_lapl fl)%bool eqn:Ef.
    - apply orb_true_iff in Ef. destruct (dprod_ok _ _ _ _ _ _ _ HS (sr_d _ _ _ _ HW (HF Ef))) as (Z & EZ & _). exists Z. auto.
    - apply orb_false_iff in Ef. destruct Ef as [-> ->]. eexists; split; [reflexivity|]. intros [H|H]; discriminate. }
  destruct Hv as (Vp & -> & HVp). cbn [bind].
  assert (Hl : exists Vl, (if f_tau fl then dprod L (sg_f w) else Ok dempty) = Ok Vl /\ (f_tau fl = true -> dprod L (sg_f w) = Ok Vl)).
  { destruct (f_tau fl); [|eexists; split; [reflexivity|discriminate]].
    destruct (dprod_ok _ _ _ _ _ _ _ HL (sr_f _ _ _ _ HW)) as (Z & EZ & _). exists Z. auto. }
  destruct Hl as (Vl & -> & HVl). cbn [bind unres sp_v sp_p sp_l]. split; [reflexivity|]. split; [reflexivity|]. split; [auto|]. split; [auto|]. auto.
Qed.

Lemma symP l : (l < length P0)%nat -> sym_mat n (part P0 l).
Proof. intros H. apply (HP (nth l P0 dempty)). apply nth_In. exact H. Qed.
Lemma rsum_ext Ps X Y : (forall l i j, (l < length Ps)%nat -> X l i j = Y l i j) -> rsum n Ps X = rsum n Ps Y.
Proof. intros H. unfold rsum. apply sum_ext. intros l Hl. apply contract_ext. auto. Qed.
Lemma rsum_1 X : sum (length P0) (fun l => 1 * contract n (part P0 l) X) = rsum n P0 (fun _ => X).
Proof. unfold rsum. apply sum_ext. intros. ring. Qed.

Lemma out_fd ip i : (ip < N)%nat -> (i < n)%nat -> ~ In i (sg_ind w) -> q_f (rp pts ip) i = 0 /\ q_d (rp pts ip) i = 0 /\ q_l (rp pts ip) i = 0.
Proof. apply (sr_out _ _ _ _ HW). Qed.

Lemma dot_ff ip : (ip < N)%nat -> coldot (sp_v prods) (sg_f w) ip = Ok (rdens n P0 (rp pts ip)).
Proof.
  intros Hip. destruct prods_ok as (_ & E & _ & _ & ES & _).
  rewrite (sg_dot (fun _ => 1) P0 _ _ _ (fun ip => q_f (rp pts ip)) (fun ip => q_f (rp pts ip)) _ ip HP (psm_ok _ _ ES) (sr_f _ _ _ _ HW) (sr_f _ _ _ _ HW) Hip); auto.
  - rewrite rsum_1. reflexivity.
  - intros i Hi Ho. destruct (out_fd ip i Hip Hi Ho) as (A & B & C). auto.
Qed.
Lemma dot_fd ip : (ip < N)%nat -> f_grad fl = true -> coldot (sp_v prods) (sg_d w) ip = Ok (/ 2 * rgrad n P0 (rp pts ip)).
Proof.
  intros Hip Hg. destruct prods_ok as (_ & E & _ & _ & ES & _).
  rewrite (sg_dot (fun _ => 1) P0 _ _ _ (fun ip => q_f (rp pts ip)) (fun ip => q_d (rp pts ip)) _ ip HP (psm_ok _ _ ES) (sr_f _ _ _ _ HW) (sr_d _ _ _ _ HW Hg) Hip); auto.
  - f_equal. rewrite rsum_1. unfold rgrad, rsum. rewrite <- sum_scal. apply sum_ext. intros l Hl. unfold r_g. rewrite contract_add.
    rewrite (sum_sym n (part P0 l) (fun i j => q_f (rp pts ip) i * q_d (rp pts ip) j)) by (apply symP, Hl).
    rewrite (contract_ext n (part P0 l) (fun i j => q_f (rp pts ip) j * q_d (rp pts ip) i) (fun i j => q_d (rp pts ip) i * q_f (rp pts ip) j)) by (intros; ring). field.
  - intros i Hi Ho. destruct (out_fd ip i Hip Hi Ho) as (A & B & C). auto.
Qed.
Lemma dot_dd ip : (ip < N)%nat -> f_tau fl = true \/ f_lapl fl = true -> coldot (sp_p prods) (sg_d w) ip = Ok (rsum n P0 (fun _ => r_k (rp pts ip))).
Proof.
  intros Hip Hg. destruct prods_ok as (_ & _ & E & _ & ES & _). assert (Hd := HF Hg).
  rewrite (sg_dot (fun _ => 1) P0 _ _ _ (fun ip => q_d (rp pts ip)) (fun ip => q_d (rp pts ip)) _ ip HP (psm_ok _ _ ES) (sr_d _ _ _ _ HW Hd) (sr_d _ _ _ _ HW Hd) Hip); auto.
  - rewrite rsum_1. reflexivity.
  - intros i Hi Ho. destruct (out_fd ip i Hip Hi Ho) as (A & B & C). auto.
Qed.
Lemma dot_lf ip : (ip < N)%nat -> f_tau fl = true -> coldot (sp_l prods) (sg_f w) ip = Ok (rsum n P0 (fun l i j => ll1 l * r_n (rp pts ip) i j)).
Proof.
  intros Hip Hg. destruct prods_ok as (_ & _ & _ & E & _ & ES).
  rewrite (sg_dot ll1 P0 _ _ _ (fun ip => q_f (rp pts ip)) (fun ip => q_f (rp pts ip)) _ ip HP (psm_ok _ _ ES) (sr_f _ _ _ _ HW) (sr_f _ _ _ _ HW) Hip); auto.
  - f_equal. unfold rsum. apply sum_ext. intros l _. rewrite contract_scal. reflexivity.
  - intros i Hi Ho. destruct (out_fd ip i Hip Hi Ho) as (A & B & C). auto.
Qed.
Lemma dot_fl ip : (ip < N)%nat -> f_lapl fl = true -> coldot (sp_v prods) (sg_l w) ip = Ok (rsum n P0 (fun _ i j => q_l (rp pts ip) i * q_f (rp pts ip) j)).
Proof.
  intros Hip Hg. destruct prods_ok as (_ & E & _ & _ & ES & _).
  rewrite (sg_dot (fun _ => 1) P0 _ _ _ (fun ip => q_f (rp pts ip)) (fun ip => q_l (rp pts ip)) _ ip HP (psm_ok _ _ ES) (sr_f _ _ _ _ HW) (sr_l _ _ _ _ HW Hg) Hip); auto.
  - rewrite rsum_1. reflexivity.
  - intros i Hi Ho. destruct (out_fd ip i Hip Hi Ho) as (A & B & C). auto.
Qed.

Lemma r_at ip : (ip < N)%nat -> vget (sg_r w) ip = Ok (q_r (rp pts ip)).
Proof. intros H. destruct (sr_r _ _ _ _ HW) as [L E]. rewrite (vget_ok _ _ 0) by (rewrite L; exact H). rewrite E by exact H. reflexivity. Qed.
Lemma sg_tau_ok ip : (ip < N)%nat -> f_tau fl = true -> sg_tau w prods ip = Ok (rtau n P0 (rp pts ip)).
Proof.
  intros Hip Hg. unfold sg_tau. rewrite dot_dd, dot_lf, r_at by auto. cbn [bind]. assert (Hr := sr_pos _ _ _ _ HW ip Hip).
  rewrite rdiv_ok by nra. cbn [bind]. f_equal. unfold rtau. f_equal. f_equal. f_equal. unfold rang, rsum, Rdiv. rewrite <- sum_scal_r. apply sum_ext. intros l _.
  rewrite contract_scal.
  assert (E : contract n (part P0 l) (r_a (rp pts ip) l) = ll1 l / (q_r (rp pts ip) * q_r (rp pts ip)) * contract n (part P0 l) (r_n (rp pts ip))) by (rewrite <- contract_scal; reflexivity).
  rewrite E. unfold Rdiv. ring.
Qed.
Lemma sg_lapl_ok ip : (ip < N)%nat -> f_lapl fl = true -> sg_lapl w prods ip = Ok (rlapl n P0 (rp pts ip)).
Proof.
  intros Hip Hg. unfold sg_lapl. rewrite dot_dd, dot_fl, dot_fd, r_at by auto. cbn [bind]. assert (Hr := sr_pos _ _ _ _ HW ip Hip).
  rewrite rdiv_ok by lra. cbn [bind]. f_equal. unfold rlapl, rgrad, rsum. set (q := rp pts ip) in *.
  transitivity (sum (length P0) (fun l => 2 * contract n (part P0 l) (r_k q) + 2 * contract n (part P0 l) (fun i j => q_l q i * q_f q j) + 2 / q_r q * contract n (part P0 l) (r_g q))).
  - rewrite !sum_plus, !sum_scal. field. lra.
  - apply sum_ext. intros l Hl. unfold r_l. rewrite !contract_add, !contract_scal.
    rewrite (sum_sym n (part P0 l) (fun i j => q_f q i * q_l q j)) by (apply symP, Hl).
    rewrite (contract_ext n (part P0 l) (fun i j => q_f q j * q_l q i) (fun i j => q_l q i * q_f q j)) by (intros; ring).
    change (contract n (part P0 l) (fun i j => q_d q i * q_d q j)) with (contract n (part P0 l) (r_k q)).
    change (contract n (part P0 l) (fun i j => r_g q i j)) with (contract n (part P0 l) (r_g q)). ring.
Qed.
End One.

Variables (pol : bool) (Ps : list (list dmat)).
Hypothesis HL : length Ps = nspin pol.
Hypothesis HC : forall P, In P Ps -> cube_ok n P.

Definition sg_dens (d : densb) : Prop := arg_rep fl N pol (fun ip => rargs n pol Ps (rp pts ip)) d /\
  (f_grad fl = true -> is_mat (d_grho d) (nspin pol) N (fun s ip => rgrad n (cube Ps s) (rp pts ip))).
Lemma cube_in s : (s < nspin pol)%nat -> In (cube Ps s) Ps.
Proof. intros H. apply nth_In. lia. Qed.
Lemma cube_all s : (s < nspin pol)%nat -> forall P, In P (cube Ps s) -> is_density n P.
Proof. intros H. apply (HC _ (cube_in s H)). Qed.

Lemma sg_update_ok : exists d, sg_update_density pol w Ps = Ok (mkSG (sg_r w) (sg_wr w) (sg_ind w) (sg_f w) (sg_d w) (sg_l w) (mkW fl (w_g (sg_w w)) d (w_x (sg_w w)))) /\ sg_dens d.
Proof.
  unfold sg_update_density.
  assert (En : existsb (fun P : list dmat => match P with [] => true | _ => false end) Ps = false).
  { apply not_true_is_false. intros H. apply existsb_exists in H. destruct H as (P & Hi & E). destruct (HC P Hi) as [Hne _]. destruct P; [congruence|discriminate]. }
  rewrite En, andb_false_r. rewrite (sr_fl _ _ _ _ HW), (sr_n _ _ _ _ HW). fold N.
  rewrite (each_ok _ prods) by (intros P Hi; apply prods_ok, (HC P Hi)). cbn [bind].
  assert (VG : forall s, (s < nspin pol)%nat -> vget (map prods Ps) s = Ok (prods (cube Ps s))).
  { intros s Hs. rewrite (vget_ok _ s (prods [])) by (rewrite map_length; lia). rewrite map_nth. reflexivity. }
  destruct (tab_ok (nspin pol) N (fun s ip => bind (vget (map prods Ps) s) (fun X => coldot (sp_v X) (sg_f w) ip)) (fun s ip => rdens n (cube Ps s) (rp pts ip))) as (rho & Er & Hr).
  { intros s ip Hs Hip. rewrite VG by auto. cbn [bind]. apply dot_ff; auto. apply cube_all, Hs. }
  rewrite Er. cbn [bind].
  assert (Hgs : exists gs, (if f_grad fl then
          bind (tab (nspin pol) N (fun s ip => bind (vget (map prods Ps) s) (fun X => bind (coldot (sp_v X) (sg_d w) ip) (fun x => Ok (2 * x))))) (fun grho =>
          bind (tab (nsigma pol) N (fun k ip =>
                  bind (get grho (if Nat.eqb k 2 then 1 else 0) ip) (fun x => bind (get grho (if Nat.eqb k 0 then 0 else 1) ip) (fun y => Ok (x * y))))) (fun sigma =>
          Ok (grho, sigma)))
        else Ok (d_grho (w_d (sg_w w)), d_sigma (w_d (sg_w w)))) = Ok gs /\ (f_grad fl = true ->
     is_mat (fst gs) (nspin pol) N (fun s ip => rgrad n (cube Ps s) (rp pts ip)) /\
     is_mat (snd gs) (nsigma pol) N (fun k ip => rgrad n (cube Ps (if Nat.eqb k 2 then 1 else 0)) (rp pts ip) * rgrad n (cube Ps (if Nat.eqb k 0 then 0 else 1)) (rp pts ip)))).
  { destruct (f_grad fl) eqn:Ef; [|eexists; split; [reflexivity|discriminate]].
    destruct (tab_ok (nspin pol) N (fun s ip => bind (vget (map prods Ps) s) (fun X => bind (coldot (sp_v X) (sg_d w) ip) (fun x => Ok (2 * x)))) (fun s ip => rgrad n (cube Ps s) (rp pts ip))) as (G & EG & HG).
    { intros s ip Hs Hip. rewrite VG by auto. cbn [bind]. rewrite dot_fd; auto; [|apply cube_all, Hs]. cbn [bind]. f_equal. field. }
    rewrite EG. cbn [bind].
    destruct (tab_ok (nsigma pol) N (fun k ip => bind (get G (if Nat.eqb k 2 then 1 else 0) ip) (fun x => bind (get G (if Nat.eqb k 0 then 0 else 1) ip) (fun y => Ok (x * y))))
      (fun k ip => rgrad n (cube Ps (if Nat.eqb k 2 then 1 else 0)) (rp pts ip) * rgrad n (cube Ps (if Nat.eqb k 0 then 0 else 1)) (rp pts ip))) as (S & ES & HS).
    { intros k ip Hk Hip. assert (Hb : ((if Nat.eqb k 2 then 1 else 0) < nspin pol)%nat /\ ((if Nat.eqb k 0 then 0 else 1) < nspin pol)%nat).
      { destruct pol; cbn [nsigma nspin] in *; destruct (Nat.eqb_spec k 2), (Nat.eqb_spec k 0); lia. }
      rewrite (get_ok _ _ _ _ _ ip HG (proj1 Hb) Hip). cbn [bind]. rewrite (get_ok _ _ _ _ _ ip HG (proj2 Hb) Hip). reflexivity. }
    rewrite ES. eexists; split; [reflexivity|]. intros _. auto. }
  destruct Hgs as (gs & Egs & Hgs). rewrite Egs. cbn [bind].
  assert (Ht : exists t, (if f_tau fl then tab (nspin pol) N (fun s ip => bind (vget (map prods Ps) s) (fun X => sg_tau w X ip)) else Ok (d_tau (w_d (sg_w w)))) = Ok t /\
    (f_tau fl = true -> is_mat t (nspin pol) N (fun s ip => rtau n (cube Ps s) (rp pts ip)))).
  { destruct (f_tau fl) eqn:Ef; [|eexists; split; [reflexivity|discriminate]].
    destruct (tab_ok (nspin pol) N (fun s ip => bind (vget (map prods Ps) s) (fun X => sg_tau w X ip)) (fun s ip => rtau n (cube Ps s) (rp pts ip))) as (T & ET & HT).
    { intros s ip Hs Hip. rewrite VG by auto. cbn [bind]. apply sg_tau_ok; auto. apply cube_all, Hs. }
    exists T. auto. }
  destruct Ht as (t & Et & Ht). rewrite Et. cbn [bind].
  assert (Hla : exists t, (if f_lapl fl then tab (nspin pol) N (fun s ip => bind (vget (map prods Ps) s) (fun X => sg_lapl w X ip)) else Ok (d_lapl (w_d (sg_w w)))) = Ok t /\
    (f_lapl fl = true -> is_mat t (nspin pol) N (fun s ip => rlapl n (cube Ps s) (rp pts ip)))).
  { destruct (f_lapl fl) eqn:Ef; [|eexists; split; [reflexivity|discriminate]].
    destruct (tab_ok (nspin pol) N (fun s ip => bind (vget (map prods Ps) s) (fun X => sg_lapl w X ip)) (fun s ip => rlapl n (cube Ps s) (rp pts ip))) as (T & ET & HT).
    { intros s ip Hs Hip. rewrite VG by auto. cbn [bind]. apply sg_lapl_ok; auto. apply cube_all, Hs. }
    exists T. auto. }
  destruct Hla as (la & Ela & Hla). rewrite Ela. cbn [bind]. eexists; split; [reflexivity|].
  assert (I2 : forall s, (s < nspin pol)%nat -> pol = true /\ (s = 0 \/ s = 1)%nat \/ pol = false /\ s = 0%nat).
  { intros s Hs. destruct pol; cbn [nspin] in *; [left|right]; split; auto; lia. }
  assert (I3 : forall s, (s < nsigma pol)%nat -> pol = true /\ (s = 0 \/ s = 1 \/ s = 2)%nat \/ pol = false /\ s = 0%nat).
  { intros s Hs. destruct pol; cbn [nsigma] in *; [left|right]; split; auto; lia. }
  split; [|exact (fun H => proj1 (Hgs H))].
  constructor; cbn [d_pol d_rho d_sigma d_tau d_lapl].
  - reflexivity.
  - intros ip _. unfold rargs. destruct pol; cbn; auto.
  - apply (is_mat_ext _ _ _ _ _ Hr). intros s ip Hs _. unfold rargs. destruct (I2 s Hs) as [ [ -> [ -> | -> ] ] | [ -> -> ] ]; reflexivity.
  - intros H. apply (is_mat_ext _ _ _ _ _ (proj2 (Hgs H))). intros s ip Hs _. unfold rargs. destruct (I3 s Hs) as [ [ -> [ -> | [ -> | -> ] ] ] | [ -> -> ] ]; reflexivity.
  - intros H. apply (is_mat_ext _ _ _ _ _ (Ht H)). intros s ip Hs _. unfold rargs. destruct (I2 s Hs) as [ [ -> [ -> | -> ] ] | [ -> -> ] ]; reflexivity.
  - intros H. apply (is_mat_ext _ _ _ _ _ (Hla H)). intros s ip Hs _. unfold rargs. destruct (I2 s Hs) as [ [ -> [ -> | -> ] ] | [ -> -> ] ]; reflexivity.
Qed.
End Dens.
