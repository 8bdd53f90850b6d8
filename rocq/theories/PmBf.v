(** The basis functions on the points of one radius. *)
Require Import Reals ZArith List Bool Arith Lia Lra Permutation.
Require Import Verif.Prelude Verif.FEModel Verif.FESpec Verif.FEProofs Verif.AngModel Verif.AngSpec Verif.AngProofs Verif.JKModel Verif.JKProofs Verif.DftModel Verif.DftSpec Verif.DftProofs Verif.DftXc Verif.DftFock Verif.DftFockR Verif.DftAtom Verif.DdfModel Verif.DdfSpec Verif.DdfProofs Verif.DdfDrv Verif.PmModel Verif.PmSpec Verif.PmProofs Verif.PmDens Verif.PmXc.
Import ListNotations.
Local Open Scope R_scope.

(** * Lists *)
Lemma insert_perm m l : Permutation (insert_Z m l) (m :: l).
Proof.
  induction l as [|x l IH]; cbn [insert_Z]; [reflexivity|]. destruct (m <=? x)%Z; [reflexivity|].
  rewrite IH. apply perm_swap.
Qed.
Lemma sort_perm l : Permutation (fold_right insert_Z [] l) l.
Proof. induction l as [|x l IH]; cbn [fold_right]; [reflexivity|]. rewrite insert_perm. constructor. exact IH. Qed.
Lemma distinct_ok ms : NoDup (distinct ms) /\ forall m, In m (distinct ms) <-> In m ms.
Proof.
  unfold distinct.
  assert (G : forall acc, NoDup acc -> NoDup (fold_left (fun acc m => if existsb (Z.eqb m) acc then acc else acc ++ [m]) ms acc) /\
     forall m, In m (fold_left (fun acc m => if existsb (Z.eqb m) acc then acc else acc ++ [m]) ms acc) <-> In m acc \/ In m ms).
  { induction ms as [|x ms IH]; intros acc Hn; cbn [fold_left]; [split; [exact Hn|intros; cbn; tauto]|].
    destruct (existsb (Z.eqb x) acc) eqn:E.
    - destruct (IH acc Hn) as [A B]. split; [exact A|]. intros m. rewrite B. apply existsb_exists in E. destruct E as (y & Hy & Ey).
      apply Z.eqb_eq in Ey. subst y. cbn [In]. split; [tauto|]. intros [?|[<-|?]]; tauto.
    - assert (Hx : ~ In x acc).
      { intros Hi. assert (existsb (Z.eqb x) acc = true) by (apply existsb_exists; exists x; split; [exact Hi|apply Z.eqb_refl]). congruence. }
      destruct (IH (acc ++ [x])) as [A B].
      + apply (Permutation_NoDup (Permutation_cons_append acc x)). constructor; assumption.
      + split; [exact A|]. intros m. rewrite B, in_app_iff. cbn [In]. tauto. }
  destruct (G [] ltac:(constructor)) as [A B]. split; [exact A|]. intros m. rewrite B. cbn. tauto.
Qed.
Lemma m_list_ok sh : NoDup (m_list sh) /\ forall m, In m (m_list sh) <-> In m (map snd sh).
Proof.
  unfold m_list. destruct (distinct_ok (map snd sh)) as [A B]. assert (P := sort_perm (distinct (map snd sh))). split.
  - apply (Permutation_NoDup (Permutation_sym P) A).
  - intros m. rewrite <- B. split; intros H; [apply (Permutation_in m P H)|apply (Permutation_in m (Permutation_sym P) H)].
Qed.
Lemma flat_map_filter {A B} (p : A -> bool) (f : A -> list B) l : flat_map (fun a => if p a then f a else []) l = flat_map f (filter p l).
Proof. induction l as [|a l IH]; [reflexivity|]. cbn [flat_map filter]. destruct (p a); cbn [flat_map app]; rewrite IH; reflexivity. Qed.
Lemma flat_map_nth {A B} (f : A -> list B) l d : flat_map f l = flat_map (fun i => f (nth i l d)) (seq 0 (length l)).
Proof.
  induction l as [|a l IH]; [reflexivity|]. cbn [flat_map length seq]. f_equal. rewrite IH, <- seq_shift. rewrite !flat_map_concat_map, map_map. reflexivity.
Qed.

(** * Filling the matrices *)
Lemma set_row_ok M r v R0 N h : is_mat M R0 N h -> (r < R0)%nat -> exists M', set_row M r v = Ok M' /\
  is_mat M' R0 N (fun i j => if Nat.eqb i r then v j else h i j).
Proof.
  intros (H1 & H2 & H3) Hr. unfold set_row. rewrite H1. destruct (Nat.ltb_spec r R0); [|lia]. eexists; split; [reflexivity|].
  split; [reflexivity|split; [exact H2|]]. intros i j Hi Hj. cbn [dent]. destruct (Nat.eqb i r); auto.
Qed.
Lemma fold_snoc {S T} (f : S -> T -> res S) l x s : fold_res f (l ++ [x]) s = bind (fold_res f l s) (fun s' => f s' x).
Proof.
  revert s. induction l as [|y l IHl]; intros s; cbn [app fold_res bind].
  - destruct (f s x); reflexivity.
  - destruct (f s y); cbn [bind]; auto.
Qed.
Lemma fill_shell_ok Nr v (x : nat -> nat -> nat -> R) M ish R0 N h : is_mat M R0 N h -> (ish * Nr + Nr <= R0)%nat ->
  (forall j, (j < Nr)%nat -> v ish j = Ok (x ish j)) -> exists M', fill_shell Nr v M ish = Ok M' /\
  is_mat M' R0 N (fun r ia => if (Nat.leb (ish * Nr) r && Nat.ltb r (ish * Nr + Nr))%bool then x ish (r - ish * Nr)%nat ia else h r ia).
Proof.
  intros HM HR Hv. unfold fill_shell.
  assert (G : forall k, (k <= Nr)%nat -> exists M', fold_res (fun M j => bind (v ish j) (fun y => set_row M (ish * Nr + j) y)) (seq 0 k) M = Ok M' /\
    is_mat M' R0 N (fun r ia => if (Nat.leb (ish * Nr) r && Nat.ltb r (ish * Nr + k))%bool then x ish (r - ish * Nr)%nat ia else h r ia)).
  { induction k as [|k IH]; intros Hk.
    - exists M. split; [reflexivity|]. apply (is_mat_ext _ _ _ _ _ HM). intros r ia _ _.
      destruct (Nat.leb_spec (ish * Nr) r), (Nat.ltb_spec r (ish * Nr + 0)); cbn [andb]; try reflexivity. lia.
    - destruct (IH ltac:(lia)) as (M1 & E1 & H1). rewrite seq_S, fold_snoc, E1. cbn [bind Nat.add]. rewrite Hv by lia. cbn [bind].
      destruct (set_row_ok M1 (ish * Nr + k) (x ish k) R0 N _ H1 ltac:(lia)) as (M2 & E2 & H2). exists M2. split; [exact E2|].
      apply (is_mat_ext _ _ _ _ _ H2). intros r ia _ _.
      destruct (Nat.eqb_spec r (ish * Nr + k)) as [->|Hne].
      + destruct (Nat.leb_spec (ish * Nr) (ish * Nr + k)); [|lia]. destruct (Nat.ltb_spec (ish * Nr + k) (ish * Nr + S k)); [|lia]. cbn [andb].
        replace (ish * Nr + k - ish * Nr)%nat with k by lia. reflexivity.
      + destruct (Nat.leb_spec (ish * Nr) r), (Nat.ltb_spec r (ish * Nr + k)), (Nat.ltb_spec r (ish * Nr + S k)); cbn [andb]; try reflexivity; lia. }
  apply G. lia.
Qed.
Lemma fill_rows_ok nsh Nr v (x : nat -> nat -> nat -> R) M N h : is_mat M (nsh * Nr) N h ->
  (forall ish j, (ish < nsh)%nat -> (j < Nr)%nat -> v ish j = Ok (x ish j)) -> exists M', fill_rows nsh Nr v M = Ok M' /\
  is_mat M' (nsh * Nr) N (fun r ia => x (r / Nr)%nat (r mod Nr)%nat ia).
Proof.
  intros HM Hv. unfold fill_rows.
  assert (G : forall k, (k <= nsh)%nat -> exists M', fold_res (fill_shell Nr v) (seq 0 k) M = Ok M' /\
    is_mat M' (nsh * Nr) N (fun r ia => if Nat.ltb r (k * Nr) then x (r / Nr)%nat (r mod Nr)%nat ia else h r ia)).
  { induction k as [|k IH]; intros Hk.
    - exists M. split; [reflexivity|]. apply (is_mat_ext _ _ _ _ _ HM). intros r ia _ _. reflexivity.
    - destruct (IH ltac:(lia)) as (M1 & E1 & H1). rewrite seq_S, fold_snoc, E1. cbn [bind Nat.add].
      destruct (fill_shell_ok Nr v x M1 k (nsh * Nr) N _ H1 ltac:(nia)) as (M2 & E2 & H2); [intros; apply Hv; lia|].
      exists M2. split; [exact E2|]. apply (is_mat_ext _ _ _ _ _ H2). intros r ia _ _.
      destruct (Nat.leb_spec (k * Nr) r), (Nat.ltb_spec r (k * Nr + Nr)), (Nat.ltb_spec r (S k * Nr)), (Nat.ltb_spec r (k * Nr)); cbn [andb]; try reflexivity; try lia.
      assert (E3 : (r / Nr = k)%nat) by (symmetry; apply (Nat.div_unique _ Nr k (r - k * Nr)); lia).
      assert (E4 : (r mod Nr = r - k * Nr)%nat) by (symmetry; apply (Nat.mod_unique _ Nr k (r - k * Nr)); lia).
      rewrite E3, E4. reflexivity. }
  destruct (G nsh (le_n _)) as (M' & E & H). exists M'. split; [exact E|]. apply (is_mat_ext _ _ _ _ _ H). intros r ia Hr _.
  destruct (Nat.ltb_spec r (nsh * Nr)); [reflexivity|lia].
Qed.

(** * One radius *)
Section Elem.
Variables (fl : flags) (b : abasis) (Rh : R) (ru : list (R * R)) (iel irad : nat).
Hypothesis HF : flags_ok fl.
Hypothesis HB : pm_grid_ok b Rh ru.
Hypothesis Hiel : (iel < get_nelem (ab_fe b))%nat.
Hypothesis Hir : (irad < length (ab_r b iel))%nat.
Let first := fst (elem_range (ab_fe b) iel).
Let Nr := snd (elem_range (ab_fe b) iel).
Let nr := at_nr b.
Let sh := ab_sh b.
Let nsh := length sh.
Let mu := nth irad (ab_r b iel) 0.
Let n := at_nbf b.
Let pts := di_row_points b Rh (plane ru) iel irad.
Lemma HD : di_grid_ok b Rh (plane ru). Proof. exact (proj1 HB). Qed.
Lemma HA : at_grid_ok b (plane ru). Proof. exact (proj2 HD). Qed.

Lemma len_plane : length (plane ru) = length ru. Proof. apply map_length. Qed.
Lemma ang_plane ia : (ia < length ru)%nat -> ang (plane ru) ia = (fst (nu ru ia), 0, 2 * PI * snd (nu ru ia)).
Proof.
  intros H. unfold ang, plane, nu. rewrite (nth_indep _ _ ((fun q => (fst q, 0, 2 * PI * snd q)) (0, 0))) by (rewrite map_length; exact H).
  rewrite (map_nth (fun q => (fst q, 0, 2 * PI * snd q))). reflexivity.
Qed.
Lemma len_row : length pts = length ru.
Proof. exact (eq_trans (di_len b Rh (plane ru) iel irad) len_plane). Qed.
Let c ia := fst (nu ru ia).
Let sth ia := sqrt (1 - c ia * c ia).
Definition hh (ia : nat) : R := Rh * sqrt (sinh mu * sinh mu + sth ia * sth ia).
Definition hphi (ia : nat) : R := Rh * sinh mu * sth ia.
Lemma c_range ia : (ia < length ru)%nat -> -1 < c ia < 1.
Proof. intros H. destruct HA as (_ & _ & Hc & _). assert (X := Hc ia). rewrite len_plane, ang_plane in X by exact H. exact (X H). Qed.
Lemma sth_pos ia : (ia < length ru)%nat -> 0 < sth ia.
Proof. intros H. apply sqrt_lt_R0. assert (X := c_range ia H). nra. Qed.
Lemma pm_sin_eq ia : (ia < length ru)%nat -> pm_sin (c ia) = sth ia.
Proof.
  intros H. assert (X := c_range ia H). unfold pm_sin, sth. f_equal. rewrite Rmax_left; [ring|]. nra.
Qed.
Lemma sinh_mu : 0 < sinh mu.
Proof. exact (sinh_pos b Rh (plane ru) iel irad HD Hiel Hir). Qed.
Lemma Rh_pos : 0 < Rh. Proof. exact (proj1 HD). Qed.
Lemma hh_pos ia : (ia < length ru)%nat -> 0 < hh ia.
Proof. intros H. assert (A := sinh_mu). assert (B := sth_pos ia H). assert (C := Rh_pos). unfold hh. apply Rmult_lt_0_compat; [exact C|]. apply sqrt_lt_R0. nra. Qed.
Lemma hphi_pos ia : (ia < length ru)%nat -> 0 < hphi ia.
Proof. intros H. assert (A := sinh_mu). assert (B := sth_pos ia H). assert (C := Rh_pos). unfold hphi. apply Rmult_lt_0_compat; [apply Rmult_lt_0_compat|]; assumption. Qed.
Lemma pm_scale_eq ia : (ia < length ru)%nat -> pm_scale Rh mu ru ia = hh ia.
Proof. intros H. unfold pm_scale. fold (c ia). rewrite pm_sin_eq by exact H. reflexivity. Qed.
Lemma pm_scale_phi_eq ia : (ia < length ru)%nat -> pm_scale_phi Rh mu ru ia = hphi ia.
Proof. intros H. unfold pm_scale_phi. fold (c ia). rewrite pm_sin_eq by exact H. reflexivity. Qed.
Lemma inv_square_eq h : 0 < h -> inv_square h = 1 / (h * h).
Proof. intros H. unfold inv_square. destruct (Rltb_spec 0 h); [reflexivity|contradiction]. Qed.

(** The values of the functions *)
Let fr A k := radial_value b A iel irad k.
Let Yv i ia := ab_Y b (raw_l b i) (raw_m b i) (c ia) 0.
Let dYv i ia := dtheta (ab_Y b) (raw_l b i) (raw_m b i) (c ia) 0.
Let radop i := fr (ab_l b) (raw_k b i) + cosh mu / sinh mu * fr (ab_d b) (raw_k b i)
                      - (IZR (raw_l b i * (raw_l b i + 1)) + IZR (raw_m b i * raw_m b i) / (sinh mu * sinh mu)) * fr (ab_f b) (raw_k b i).
Lemma row_pt ia : (ia < length ru)%nat -> pt pts ia = di_raw_point b Rh (plane ru) iel irad ia.
Proof. intros H. apply (di_pt b Rh (plane ru) iel irad). rewrite len_plane. exact H. Qed.
Lemma at_w ia : (ia < length ru)%nat -> p_w (pt pts ia) = pm_weight Rh mu (nth irad (ab_wrad b iel) 0) ru ia.
Proof.
  intros H. rewrite row_pt by exact H. unfold di_raw_point. cbn [p_w]. rewrite ang_plane by exact H. cbn [a_w a_cth fst snd]. fold mu.
  unfold pm_weight. fold (c ia). rewrite pm_sin_eq by exact H. fold (sth ia).
  assert (Q : sqrt (sinh mu * sinh mu + sth ia * sth ia) * sqrt (sinh mu * sinh mu + sth ia * sth ia) = sinh mu * sinh mu + sth ia * sth ia) by (apply sqrt_sqrt; nra).
  set (s := sqrt (sinh mu * sinh mu + sth ia * sth ia)) in *. 
  transitivity (2 * PI * snd (nu ru ia) * nth irad (ab_wrad b iel) 0 * (Rh * Rh * Rh) * sinh mu * (s * s)); [ring|]. rewrite Q. ring.
Qed.
Lemma at_f ia i : (ia < length ru)%nat -> p_f (pt pts ia) i = cscal (fr (ab_f b) (raw_k b i)) (Yv i ia).
Proof. intros H. rewrite row_pt by exact H. unfold di_raw_point. cbn [p_f]. rewrite ang_plane by exact H. reflexivity. Qed.
Lemma at_g0 ia i : (ia < length ru)%nat -> p_g (pt pts ia) 0 i = cscal (fr (ab_d b) (raw_k b i) / hh ia) (Yv i ia).
Proof. intros H. rewrite row_pt by exact H. unfold di_raw_point. cbn [p_g]. rewrite ang_plane by exact H. reflexivity. Qed.
Lemma at_g1 ia i : (ia < length ru)%nat -> p_g (pt pts ia) 1 i = cscal (fr (ab_f b) (raw_k b i) / hh ia) (dYv i ia).
Proof. intros H. rewrite row_pt by exact H. unfold di_raw_point. cbn [p_g]. rewrite ang_plane by exact H. reflexivity. Qed.
Lemma at_g2 ia cc i : (ia < length ru)%nat -> p_g (pt pts ia) (S (S cc)) i = cscal (fr (ab_f b) (raw_k b i) / hphi ia) (cmul (0, IZR (raw_m b i)) (Yv i ia)).
Proof. intros H. rewrite row_pt by exact H. unfold di_raw_point. cbn [p_g]. rewrite ang_plane by exact H. reflexivity. Qed.
Lemma at_l ia i : (ia < length ru)%nat -> p_l (pt pts ia) i = cscal (radop i / (hh ia * hh ia)) (Yv i ia).
Proof. intros H. rewrite row_pt by exact H. unfold di_raw_point. cbn [p_l]. rewrite ang_plane by exact H. reflexivity. Qed.

Lemma raw_in i : (i < n)%nat -> In (raw_l b i, raw_m b i) sh.
Proof.
  intros H. unfold n, at_nbf in H. unfold raw_l, raw_m, shell. fold nr sh. fold nr sh in H. rewrite <- surjective_pairing. apply nth_In.
  apply Nat.div_lt_upper_bound; [|lia]. intros E. rewrite E in H. lia.
Qed.
Lemma raw_range i : (i < n)%nat -> (- raw_l b i <= raw_m b i <= raw_l b i)%Z.
Proof. intros H. destruct HB as (_ & (S1 & _) & _). apply S1. exact (raw_in i H). Qed.
Lemma harm ia : (ia < length ru)%nat -> harmonics_ok b (c ia).
Proof. intros H. destruct HB as (_ & _ & HH). apply HH. unfold c, nu. apply nth_In. exact H. Qed.
Lemma snd_Y l m ia : (ia < length ru)%nat -> (- l <= m <= l)%Z -> snd (ab_Y b l m (c ia) 0) = 0.
Proof. intros H Hm. apply (harm ia H l m Hm). Qed.
Lemma dtheta_fst l m ia : (ia < length ru)%nat -> (- l <= m <= l)%Z -> fst (dtheta (ab_Y b) l m (c ia) 0) = pm_dY b l m (c ia).
Proof.
  intros H Hm. unfold pm_dY. cbv zeta. rewrite pm_sin_eq by exact H. destruct (Rltb_spec 0 (sth ia)) as [_|Hn]; [|exfalso; apply Hn, sth_pos; exact H].
  unfold dtheta. fold (sth ia). unfold cadd, cscal, cmul, pm_Y. cbn [fst snd]. rewrite cos_0, sin_0.
  destruct (Z.ltb_spec m l).
  - rewrite <- mult_IZR. ring.
  - replace ((l - m) * (l + m + 1))%Z with 0%Z by (replace m with l by lia; ring). rewrite sqrt_0. ring.
Qed.
Lemma dtheta_snd l m ia : (ia < length ru)%nat -> (- l <= m <= l)%Z -> snd (dtheta (ab_Y b) l m (c ia) 0) = 0.
Proof.
  intros H Hm. unfold dtheta, cadd, cscal, cmul. cbn [fst snd]. rewrite snd_Y by auto. rewrite sin_0.
  destruct (Z.ltb_spec m l).
  - rewrite snd_Y by (auto; lia). ring.
  - replace ((l - m) * (l + m + 1))%Z with 0%Z by (replace m with l by lia; ring). rewrite sqrt_0. ring.
Qed.
Lemma real_ok ia i : (ia < length ru)%nat -> (i < n)%nat -> real_at pts (raw_m b) hphi ia i.
Proof.
  intros H Hi. assert (R1 := raw_range i Hi).
  constructor; rewrite ?(at_f ia i H), ?(at_g0 ia i H), ?(at_g1 ia i H), ?(at_g2 ia 0 i H), ?(at_l ia i H); unfold cscal, cmul; cbn [fst snd]; unfold Yv, dYv.
  - rewrite snd_Y by auto. ring.
  - rewrite snd_Y by auto. ring.
  - rewrite dtheta_snd by auto. ring.
  - rewrite snd_Y by auto. f_equal; unfold Rdiv; ring.
  - rewrite snd_Y by auto. ring.
Qed.
Lemma mate_values ia i i' : (ia < length ru)%nat -> (i < n)%nat -> raw_mates b i i' -> same_values pts ia (sign (raw_m b i)) i i'.
Proof.
  intros H Hi (El & Em & Ek). assert (R1 := raw_range i Hi).
  destruct (harm ia H (raw_l b i) (raw_m b i) R1) as (_ & Y1 & Y2).
  unfold same_values. rewrite !(at_f ia _ H), !(at_g0 ia _ H), !(at_g1 ia _ H), !(at_l ia _ H). unfold Yv, dYv, radop. rewrite El, Em, Ek, Y1, Y2.
  replace (- raw_m b i * - raw_m b i)%Z with (raw_m b i * raw_m b i)%Z by ring. unfold cscal. cbn [fst snd]. repeat split; f_equal; ring.
Qed.
Lemma absent_ok ia i : (ia < length ru)%nat -> (i < n)%nat -> ~ In i (el_ind b iel) -> absent pts ia i.
Proof.
  intros H Hi Hn. assert (Z : forall A, fr A (raw_k b i) = 0) by (intros A; apply (radial_out b (plane ru) iel HA Hiel A irad i Hi Hn)).
  unfold absent. rewrite (at_f ia i H), (at_l ia i H). unfold radop. rewrite !Z. split; [|split].
  - unfold cscal. f_equal; ring.
  - intros [|[|cc]]; [rewrite (at_g0 ia i H)|rewrite (at_g1 ia i H)|rewrite (at_g2 ia cc i H)]; rewrite Z; unfold cscal, Rdiv; f_equal; ring.
  - unfold cscal, Rdiv. f_equal; ring.
Qed.

(** The functions of a block *)
Definition sp (m : Z) : list nat := filter (fun iam => (snd (shell sh iam) =? m)%Z) (seq 0 nsh).
Definition bind_m (m : Z) : list nat := flat_map (fun iam => map (fun j => (nr * iam + first + j)%nat) (seq 0 Nr)) (sp m).
Lemma sp_l m : l_list sh m = map (fun iam => fst (shell sh iam)) (sp m).
Proof.
  unfold l_list, sp, nsh, shell. rewrite <- (map_map (fun iam => nth iam sh (0, 0)%Z) fst).
  f_equal. clear. induction sh as [|x l IH]; [reflexivity|]. cbn [length seq filter nth]. rewrite IH.
  destruct (snd x =? m)%Z; cbn [map]; [f_equal|]; rewrite <- seq_shift; clear; induction (seq 0 (length l)) as [|y s IHs]; cbn [map filter nth]; auto;
    destruct (snd (nth y l (0%Z, 0%Z)) =? m)%Z; cbn [map nth]; rewrite IHs; reflexivity.
Qed.
Lemma sp_in m i : In i (sp m) -> (i < nsh)%nat /\ snd (shell sh i) = m.
Proof. unfold sp. rewrite filter_In, in_seq, Z.eqb_eq. lia. Qed.
Lemma bind_m_ok m : bf_list_dummy_m (ab_fe b) sh iel m = Ok (bind_m m) /\ NoDup (bind_m m) /\ (first + Nr <= nr)%nat.
Proof.
  destruct (range_le b (plane ru) iel HA Hiel) as [Hle _].
  destruct HA as (Hv & _). destruct (bf_dummy_m_ok (ab_fe b) sh iel m Hv Hiel) as (l & N & E & EN & Hnd & _).
  assert (El : l = bind_m m).
  { revert E. unfold bf_list_dummy_m, bind_m, sp, nr, at_nr, first, Nr, elem_range. destruct (get_idx (ab_fe b) iel) as [[f la]| | |]; cbn [bind]; try discriminate.
    rewrite EN. cbn [bind fst snd]. destruct (_ || _ || _)%bool; [discriminate|]. intros E. injection E as <-.
    rewrite <- (flat_map_filter (fun iam => (snd (shell sh iam) =? m)%Z)). reflexivity. }
  subst l. split; [exact E|split; [exact Hnd|exact Hle]].
Qed.
Lemma bind_m_len m : length (bind_m m) = (length (sp m) * Nr)%nat.
Proof.
  unfold bind_m. rewrite (flat_map_nth _ (sp m) 0%nat). apply (length_flat_map_seq (fun i j => (nr * nth i (sp m) 0 + first + j)%nat)).
Qed.
Lemma bind_m_nth m k : (k < length (bind_m m))%nat -> nth k (bind_m m) 0%nat = (nr * nth (k / Nr) (sp m) 0 + first + k mod Nr)%nat.
Proof.
  rewrite bind_m_len. intros H. unfold bind_m. rewrite (flat_map_nth _ (sp m) 0%nat).
  apply (nth_flat_map_seq (fun i j => (nr * nth i (sp m) 0 + first + j)%nat)). exact H.
Qed.
Lemma bind_m_facts m k : (k < length (bind_m m))%nat -> let i := nth k (bind_m m) 0%nat in
  (i / nr = nth (k / Nr) (sp m) 0 /\ raw_k b i = first + k mod Nr /\ k mod Nr < Nr /\ k / Nr < length (sp m))%nat /\
  raw_m b i = m /\ raw_l b i = nth (k / Nr)%nat (l_list sh m) 0%Z.
Proof.
  intros H i. assert (H' := H). rewrite bind_m_len in H'. destruct (bind_m_ok m) as (_ & _ & Hle).
  assert (N0 : Nr <> 0%nat) by nia. assert (M := Nat.mod_upper_bound k Nr N0).
  assert (D : (k / Nr < length (sp m))%nat) by (apply Nat.div_lt_upper_bound; lia).
  unfold i. rewrite bind_m_nth by exact H.
  assert (E1 : ((nr * nth (k / Nr) (sp m) 0 + first + k mod Nr) / nr = nth (k / Nr) (sp m) 0)%nat)
    by (symmetry; apply (Nat.div_unique _ nr (nth (k / Nr)%nat (sp m) 0%nat) (first + k mod Nr)%nat); lia).
  assert (E2 : ((nr * nth (k / Nr) (sp m) 0 + first + k mod Nr) mod nr = first + k mod Nr)%nat)
    by (symmetry; apply (Nat.mod_unique _ nr (nth (k / Nr)%nat (sp m) 0%nat) (first + k mod Nr)%nat); lia).
  split; [split; [exact E1|split; [exact E2|split; assumption]]|]. unfold raw_m, raw_l. fold nr sh. rewrite E1. split.
  - apply (sp_in m). apply nth_In. exact D.
  - rewrite sp_l. rewrite (nth_indep _ _ (fst (shell sh 0%nat))) by (rewrite map_length; exact D). rewrite (map_nth (fun iam => fst (shell sh iam))). reflexivity.
Qed.
Lemma bind_m_in m i : In i (bind_m m) <-> In i (el_ind b iel) /\ raw_m b i = m.
Proof.
  destruct (bind_m_ok m) as (_ & _ & Hle). rewrite (ind_in b (plane ru) iel HA Hiel). split.
  - intros H. destruct (In_nth _ _ 0%nat H) as (k & Hk & <-). destruct (bind_m_facts m k Hk) as ((F1 & F2 & F3 & F4) & F5 & _).
    fold nr. unfold raw_k in F2. fold nr in F2. rewrite F1, F2. split; [|exact F5]. split; [|fold first; fold Nr; lia].
    apply (sp_in m). apply nth_In. exact F4.
  - intros [[H1 H2] H3]. unfold bind_m. apply in_flat_map. exists (i / nr)%nat. split.
    + unfold sp. apply filter_In. split; [apply in_seq; fold sh nsh in H1; fold nr in H1; lia|]. apply Z.eqb_eq. exact H3.
    + fold nr in H1, H2. fold first Nr in H2. apply in_map_iff. exists (i mod nr - first)%nat. split; [|apply in_seq; lia].
      assert (N0 : nr <> 0%nat) by lia. assert (D := Nat.div_mod i nr N0). lia.
Qed.
Lemma fr_in m k A : (k < length (bind_m m))%nat -> fr A (raw_k b (nth k (bind_m m) 0%nat)) = dent (A iel) irad (k mod Nr)%nat.
Proof.
  intros H. destruct (bind_m_facts m k H) as ((_ & F2 & F3 & _) & _). rewrite F2. unfold fr. rewrite (radial_eq b iel). fold first Nr.
  destruct (Nat.leb_spec first (first + k mod Nr)); [|lia]. destruct (Nat.ltb_spec (first + k mod Nr) (first + Nr)); [|lia]. cbn [andb]. f_equal. lia.
Qed.

(** The cache *)
Definition cache_ok (c : option (nat * (dmat * dmat * dmat))) : Prop :=
  match c with
  | None => True
  | Some (i, (F, D, L)) => F = ab_f b i /\ (f_grad fl = true -> D = ab_d b i) /\ (f_lapl fl = true -> L = ab_l b i)
  end.
Lemma load_ok c0 : cache_ok c0 -> exists F D L, pm_load b fl iel c0 = (iel, (F, D, L)) /\ F = ab_f b iel /\
  (f_grad fl = true -> D = ab_d b iel) /\ (f_lapl fl = true -> L = ab_l b iel).
Proof.
  intros H.
  assert (G : forall d l, exists F D L, (iel, (ab_f b iel, if (f_grad fl || f_tau fl || f_lapl fl)%bool then ab_d b iel else d,
      if ((f_grad fl || f_tau fl || f_lapl fl) && f_lapl fl)%bool then ab_l b iel else l)) = (iel, (F, D, L)) /\ F = ab_f b iel /\
     (f_grad fl = true -> D = ab_d b iel) /\ (f_lapl fl = true -> L = ab_l b iel)).
  { intros d l. do 3 eexists. split; [reflexivity|]. split; [reflexivity|]. split; [intros ->; reflexivity|]. intros ->. rewrite orb_true_r. reflexivity. }
  unfold pm_load. destruct c0 as [[i [[F D] L]]|]; [|apply G]. destruct (Nat.eqb_spec i iel) as [->|]; [|apply G].
  cbn in H. exists F, D, L. tauto.
Qed.

Definition blk (F D L : dmat) (m : Z) : pmblock := unres (pm_block b ru fl (F, D, L) iel irad mu (fun ia => inv_square (pm_scale Rh mu ru ia)) m) (mkB 0 [] dempty dempty dempty dempty).
Lemma dims : drows (ab_f b iel) = length (ab_r b iel) /\ dcols (ab_f b iel) = Nr /\ drows (ab_d b iel) = length (ab_r b iel) /\ dcols (ab_d b iel) = Nr /\
  drows (ab_l b iel) = length (ab_r b iel) /\ dcols (ab_l b iel) = Nr.
Proof.
  destruct HA as (_ & _ & _ & H4). destruct (H4 iel Hiel) as (_ & _ & H).
  destruct (H (ab_f b iel)); [cbn; auto|]. destruct (H (ab_d b iel)); [cbn; auto|]. destruct (H (ab_l b iel)); [cbn; auto|]. auto 10.
Qed.
Lemma block_ok F D L m : F = ab_f b iel -> (f_grad fl = true -> D = ab_d b iel) -> (f_lapl fl = true -> L = ab_l b iel) ->
  pm_block b ru fl (F, D, L) iel irad mu (fun ia => inv_square (pm_scale Rh mu ru ia)) m = Ok (blk F D L m) /\
  k_m (blk F D L m) = m /\ k_ind (blk F D L m) = bind_m m /\ block_rep fl n pts (raw_m b) (pm_scale Rh mu ru) (blk F D L m).
Proof.
  intros EF ED EL. unfold blk. unfold pm_block. destruct (bind_m_ok m) as (Ei & Hnd & Hle). fold sh. rewrite Ei. cbn [bind].
  assert (Hlt : forall i, In i (bind_m m) -> (i < n)%nat) by (intros i Hi; apply bind_m_in in Hi; apply (ind_lt b (plane ru) iel HA Hiel), Hi).
  assert (Hm : forall i, In i (bind_m m) -> raw_m b i = m) by (intros i Hi; apply bind_m_in in Hi; apply Hi).
  assert (Ho : forall ip i, (ip < length pts)%nat -> (i < n)%nat -> raw_m b i = m -> ~ In i (bind_m m) -> absent pts ip i).
  { intros ip i Hip Hi Mi Hn. rewrite len_row in Hip. apply absent_ok; auto. intros He. apply Hn, bind_m_in. auto. }
  assert (Hlen := bind_m_len m).
  assert (Facts := fun k Hk => bind_m_facts m k Hk). assert (Fr := fun A k Hk => fr_in m k A Hk).
  destruct (bind_m m) as [|i0 ind0] eqn:Eb.
  { cbn [unres k_m k_ind]. split; [reflexivity|split; [reflexivity|split; [reflexivity|]]].
    constructor; cbn [k_ind k_m]; auto; intros X; congruence. }
  rewrite <- Eb in *. clear i0 ind0 Eb.
  destruct dims as (F1 & F2 & D1 & D2 & L1 & L2). subst F. rewrite F2, Hlen.
  assert (Ll : length (l_list sh m) = length (sp m)) by (rewrite sp_l, map_length; reflexivity). rewrite Ll.
  assert (Rng : forall r, (r < length (bind_m m))%nat -> (- nth (r / Nr)%nat (l_list sh m) 0 <= m <= nth (r / Nr)%nat (l_list sh m) 0)%Z).
  { intros r Hr. destruct (Facts r Hr) as (_ & E1 & E2). assert (X := raw_range (nth r (bind_m m) 0%nat) (Hlt _ (nth_In _ _ Hr))). cbv zeta in E1, E2. rewrite E1, E2 in X. exact X. }
  assert (SR : forall Y A a, drows A = length (ab_r b iel) -> dcols A = Nr -> (forall j, a j = dent A irad j) ->
     exists M, fill_rows (length (sp m)) Nr (shell_row ru (l_list sh m) irad Y A) (dzero (length (sp m) * Nr) (length ru)) = Ok M /\
       is_mat M (length (sp m) * Nr) (length ru) (fun r ia => Y (nth (r / Nr)%nat (l_list sh m) 0%Z) (c ia) * a (r mod Nr)%nat)).
  { intros Y A a A1 A2 Aa.
    apply (fill_rows_ok (length (sp m)) Nr _ (fun ish j ia => Y (nth ish (l_list sh m) 0%Z) (c ia) * a j) _ _ _ (dzero_ok _ _)).
    intros ish j Hish Hj. unfold shell_row. rewrite (vget_ok _ ish 0%Z) by (rewrite Ll; exact Hish). cbn [bind].
    rewrite (get_ok A (length (ab_r b iel)) Nr (dent A)) by (try (repeat split; auto; fail); auto). cbn [bind]. rewrite Aa. reflexivity. }
  destruct (SR (fun l => pm_Y b l m) (ab_f b iel) (fun j => dent (ab_f b iel) irad j) F1 F2 ltac:(auto)) as (Mf & Ef & Hf). rewrite Ef. cbn [bind].
  assert (Hinv : forall ia, (ia < length ru)%nat -> inv_square (pm_scale Rh mu ru ia) = 1 / (hh ia * hh ia)).
  { intros ia Hia. rewrite pm_scale_eq by exact Hia. apply inv_square_eq, hh_pos, Hia. }
  assert (Sr : exists Mr, (if (f_grad fl || f_tau fl || f_lapl fl)%bool then fill_rows (length (sp m)) Nr (shell_row ru (l_list sh m) irad (fun l => pm_Y b l m) D) (dzero (length (sp m) * Nr) (length ru)) else Ok dempty) = Ok Mr /\
    (f_grad fl = true -> is_mat Mr (length (sp m) * Nr) (length ru) (fun r ia => pm_Y b (nth (r / Nr)%nat (l_list sh m) 0%Z) m (c ia) * dent (ab_d b iel) irad (r mod Nr)%nat))).
  { destruct (f_grad fl || f_tau fl || f_lapl fl)%bool eqn:E.
    - assert (Hg : f_grad fl = true) by (unfold flags_ok in HF; destruct (f_grad fl), (f_tau fl), (f_lapl fl); try reflexivity; try discriminate; apply HF; auto).
      destruct (SR (fun l => pm_Y b l m) (ab_d b iel) (fun j => dent (ab_d b iel) irad j) D1 D2 ltac:(auto)) as (M & E1 & H1).
      rewrite (ED Hg), E1. exists M. split; [reflexivity|auto].
    - eexists; split; [reflexivity|]. intros Hg. rewrite Hg in E. discriminate. }
  destruct Sr as (Mr & Er & Hr). rewrite Er. cbn [bind].
  assert (St : exists Mt, (if (f_grad fl || f_tau fl || f_lapl fl)%bool then fill_rows (length (sp m)) Nr (shell_row ru (l_list sh m) irad (fun l => pm_dY b l m) (ab_f b iel)) (dzero (length (sp m) * Nr) (length ru)) else Ok dempty) = Ok Mt /\
    (f_grad fl = true -> is_mat Mt (length (sp m) * Nr) (length ru) (fun r ia => pm_dY b (nth (r / Nr)%nat (l_list sh m) 0%Z) m (c ia) * dent (ab_f b iel) irad (r mod Nr)%nat))).
  { destruct (f_grad fl || f_tau fl || f_lapl fl)%bool eqn:E.
    - destruct (SR (fun l => pm_dY b l m) (ab_f b iel) (fun j => dent (ab_f b iel) irad j) F1 F2 ltac:(auto)) as (M & E1 & H1).
      rewrite E1. exists M. split; [reflexivity|auto].
    - eexists; split; [reflexivity|]. intros Hg. rewrite Hg in E. discriminate. }
  destruct St as (Mt & Et & Ht). rewrite Et. cbn [bind].
  assert (Sl : exists Ml, (if f_lapl fl then fill_rows (length (sp m)) Nr (lapl_row ru (l_list sh m) irad m mu (fun ia => inv_square (pm_scale Rh mu ru ia)) (fun l => pm_Y b l m) (ab_f b iel) D L) (dzero (length (sp m) * Nr) (length ru)) else Ok dempty) = Ok Ml /\
    (f_lapl fl = true -> is_mat Ml (length (sp m) * Nr) (length ru) (fun r ia => pm_Y b (nth (r / Nr)%nat (l_list sh m) 0%Z) m (c ia) * inv_square (pm_scale Rh mu ru ia) *
       (dent (ab_l b iel) irad (r mod Nr)%nat + cosh mu / sinh mu * dent (ab_d b iel) irad (r mod Nr)%nat
         - (IZR (nth (r / Nr)%nat (l_list sh m) 0%Z * (nth (r / Nr)%nat (l_list sh m) 0%Z + 1)) + IZR (m * m) * (1 / (sinh mu * sinh mu))) * dent (ab_f b iel) irad (r mod Nr)%nat)))).
  { destruct (f_lapl fl) eqn:E; [|eexists; split; [reflexivity|discriminate]].
    assert (Hg : f_grad fl = true) by (apply HF; auto).
    destruct (fill_rows_ok (length (sp m)) Nr (lapl_row ru (l_list sh m) irad m mu (fun ia => inv_square (pm_scale Rh mu ru ia)) (fun l => pm_Y b l m) (ab_f b iel) D L)
      (fun ish j ia => pm_Y b (nth ish (l_list sh m) 0%Z) m (c ia) * inv_square (pm_scale Rh mu ru ia) *
       (dent (ab_l b iel) irad j + cosh mu / sinh mu * dent (ab_d b iel) irad j
         - (IZR (nth ish (l_list sh m) 0%Z * (nth ish (l_list sh m) 0%Z + 1)) + IZR (m * m) * (1 / (sinh mu * sinh mu))) * dent (ab_f b iel) irad j)) _ (length ru) _ (dzero_ok _ _)) as (M & E1 & H1).
    { intros ish j Hish Hj. unfold lapl_row. rewrite (vget_ok _ ish 0%Z) by (rewrite Ll; exact Hish). cbn [bind].
      rewrite (ED Hg), (EL eq_refl).
      rewrite (get_ok (ab_l b iel) (length (ab_r b iel)) Nr (dent (ab_l b iel))) by (try (repeat split; auto; fail); auto). cbn [bind].
      rewrite (get_ok (ab_d b iel) (length (ab_r b iel)) Nr (dent (ab_d b iel))) by (try (repeat split; auto; fail); auto). cbn [bind].
      rewrite (get_ok (ab_f b iel) (length (ab_r b iel)) Nr (dent (ab_f b iel))) by (try (repeat split; auto; fail); auto). cbn [bind].
      destruct (Rltb_spec 0 (sinh mu)) as [_|Hn]; [|exfalso; apply Hn, sinh_mu]. reflexivity. }
    rewrite E1. exists M. split; [reflexivity|auto]. }
  destruct Sl as (Ml & El & Hl). rewrite El. cbn [bind unres k_m k_ind].
  split; [reflexivity|split; [reflexivity|split; [reflexivity|]]].
  constructor; cbn [k_ind k_m k_f k_r k_t k_l]; auto; intros _; rewrite Hlen, len_row; rewrite <- Hlen in *.
  - apply (is_mat_ext _ _ _ _ _ Hf). intros r ia Hr0 Hia. unfold bi. cbn [k_ind]. rewrite at_f by exact Hia. unfold cscal. cbn [fst]. rewrite (Fr (ab_f b) r Hr0).
    destruct (Facts r Hr0) as (_ & E1 & E2). unfold Yv. rewrite E1, E2. unfold pm_Y. ring.
  - intros Hg. apply (is_mat_ext _ _ _ _ _ (Hr Hg)). intros r ia Hr0 Hia. unfold bi. cbn [k_ind]. rewrite at_g0 by exact Hia. unfold cscal. cbn [fst]. rewrite (Fr (ab_d b) r Hr0).
    destruct (Facts r Hr0) as (_ & E1 & E2). unfold Yv. rewrite E1, E2, pm_scale_eq by exact Hia. assert (X := hh_pos ia Hia). unfold pm_Y. field. lra.
  - intros Hg. apply (is_mat_ext _ _ _ _ _ (Ht Hg)). intros r ia Hr0 Hia. unfold bi. cbn [k_ind]. rewrite at_g1 by exact Hia. unfold cscal. cbn [fst]. rewrite (Fr (ab_f b) r Hr0).
    destruct (Facts r Hr0) as (_ & E1 & E2). unfold dYv. rewrite E1, E2, pm_scale_eq by exact Hia. rewrite dtheta_fst by (auto; apply Rng; exact Hr0).
    assert (X := hh_pos ia Hia). field. lra.
  - intros Hg. apply (is_mat_ext _ _ _ _ _ (Hl Hg)). intros r ia Hr0 Hia. unfold bi. cbn [k_ind]. rewrite at_l by exact Hia. unfold cscal. cbn [fst]. unfold radop.
    rewrite (Fr (ab_f b) r Hr0), (Fr (ab_d b) r Hr0), (Fr (ab_l b) r Hr0).
    destruct (Facts r Hr0) as (_ & E1 & E2). unfold Yv. rewrite E1, E2, (Hinv ia Hia). assert (X := hh_pos ia Hia). assert (S := sinh_mu). unfold pm_Y. field. lra.
Qed.

Lemma blk_bi F D L m i : k_ind (blk F D L m) = bind_m m -> bi (blk F D L m) i = nth i (bind_m m) 0%nat.
Proof. intros E. unfold bi. rewrite E. reflexivity. Qed.
Lemma block_mates m m' i : m' = (- m)%Z -> length (bind_m m') = length (bind_m m) -> (i < length (bind_m m))%nat ->
  raw_mates b (nth i (bind_m m) 0%nat) (nth i (bind_m m') 0%nat).
Proof.
  intros -> HL Hi. assert (Hi' : (i < length (bind_m (- m)))%nat) by lia.
  destruct (bind_m_facts m i Hi) as ((_ & K1 & _ & _) & M1 & L1). destruct (bind_m_facts (- m)%Z i Hi') as ((_ & K2 & _ & _) & M2 & L2).
  rewrite !bind_m_len in HL. assert (N0 : Nr <> 0%nat) by (rewrite bind_m_len in Hi; intros Z; rewrite Z in Hi; lia).
  destruct HB as (_ & (_ & S2) & _).
  assert (Ll : forall m, length (l_list sh m) = length (sp m)) by (intros m0; rewrite sp_l, map_length; reflexivity).
  assert (E : l_list sh (- m) = l_list sh m) by (apply (S2 m); change (length (l_list sh (- m)) = length (l_list sh m)); rewrite !Ll; nia).
  unfold raw_mates. rewrite K1, K2, M1, M2, L1, L2, E. auto.
Qed.
Lemma pm_compute_bf_ok w : w_fl (pm_w w) = fl -> cache_ok (pm_cache w) ->
  exists w', pm_compute_bf b Rh ru iel irad w = Ok w' /\ pm_rep fl n pts (raw_m b) hphi w' /\ cache_ok (pm_cache w') /\
    forall k k' i, In k (pm_blocks w') -> In k' (pm_blocks w') -> k_m k' = (- k_m k)%Z -> length (k_ind k') = length (k_ind k) ->
      (i < length (k_ind k))%nat -> raw_mates b (bi k i) (bi k' i).
Proof.
  intros Hw Hc. unfold pm_compute_bf. rewrite Hw.
  rewrite (vget_ok (ab_r b iel) irad 0) by exact Hir. cbn [bind].
  rewrite (vget_ok (ab_wrad b iel) irad 0) by (destruct HA as (_ & _ & _ & H4); destruct (H4 iel Hiel) as (_ & -> & _); exact Hir). cbn [bind].
  fold mu. destruct (load_ok _ Hc) as (F & D & L & E & EF & ED & EL). rewrite E. cbn [snd].
  assert (BO := fun m => block_ok F D L m EF ED EL).
  rewrite (each_ok _ (blk F D L)) by (intros m _; apply BO). cbn [bind].
  destruct (m_list_ok sh) as [MN MI].
  assert (KM : map k_m (map (blk F D L) (m_list sh)) = m_list sh).
  { rewrite map_map. rewrite <- (map_id (m_list sh)) at 2. apply map_ext. intros m. apply BO. }
  assert (Mates : forall k k' i, In k (map (blk F D L) (m_list sh)) -> In k' (map (blk F D L) (m_list sh)) -> k_m k' = (- k_m k)%Z -> length (k_ind k') = length (k_ind k) ->
      (i < length (k_ind k))%nat -> raw_mates b (bi k i) (bi k' i)).
  { intros k k' i Hk Hk' Em El Hi. apply in_map_iff in Hk, Hk'. destruct Hk as (m & <- & _), Hk' as (m' & <- & _).
    destruct (BO m) as (_ & A1 & A2 & _). destruct (BO m') as (_ & B1 & B2 & _). rewrite A2, B2 in El. rewrite A2 in Hi. rewrite A1, B1 in Em.
    rewrite !blk_bi by assumption. apply block_mates; assumption. }
  eexists. split; [reflexivity|]. split; [|split; [cbn [pm_cache cache_ok]; auto|exact Mates]].
  constructor; cbn [pm_w pm_h pm_ir2 pm_ip2 pm_blocks w_fl w_g plain_grid g_n g_w].
  - reflexivity.
  - symmetry. apply len_row.
  - intros ip Hip. rewrite len_row in Hip. symmetry. apply at_w. exact Hip.
  - intros ip Hip. rewrite len_row in Hip. rewrite pm_scale_eq by exact Hip. apply hh_pos. exact Hip.
  - intros ip Hip. rewrite len_row in Hip. apply hphi_pos. exact Hip.
  - intros ip Hip. rewrite len_row in Hip. rewrite pm_scale_eq by exact Hip. apply inv_square_eq, hh_pos. exact Hip.
  - intros ip Hip. rewrite len_row in Hip. rewrite pm_scale_phi_eq by exact Hip. apply inv_square_eq, hphi_pos. exact Hip.
  - intros k Hk. apply in_map_iff in Hk. destruct Hk as (m & <- & _). apply BO.
  - exact (eq_ind_r (@NoDup Z) MN KM).
  - intros i Hi. exists (blk F D L (raw_m b i)). split; [|apply BO]. apply in_map. apply MI. apply in_map_iff.
    exists (raw_l b i, raw_m b i). split; [reflexivity|apply raw_in; exact Hi].
  - intros ip i Hip Hi. rewrite len_row in Hip. apply real_ok; assumption.
  - intros k k' Hk Hk' Em El. exists (sign (k_m k)). split; [unfold sign; destruct (Z.even (k_m k)); ring|]. intros ip i Hip Hi. rewrite len_row in Hip.
    assert (M := Mates k k' i Hk Hk' Em El Hi). apply in_map_iff in Hk. destruct Hk as (m & <- & _). destruct (BO m) as (_ & A1 & A2 & B).
    assert (I : In (bi (blk F D L m) i) (k_ind (blk F D L m))) by (apply nth_In; exact Hi).
    rewrite <- (br_m _ _ _ _ _ _ B _ I). apply mate_values; [exact Hip| |exact M]. apply (br_lt _ _ _ _ _ _ B _ I).
Qed.
End Elem.
