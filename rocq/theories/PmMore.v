(** What follows from the values, failures, and a basis that meets the hypotheses. *)
Require Import Reals ZArith List Bool Arith Lia Lra FunctionalExtensionality.
Require Import Verif.Prelude Verif.FEModel Verif.FESpec Verif.FEProofs Verif.AngModel Verif.AngSpec Verif.AngProofs Verif.JKModel Verif.JKProofs Verif.DftModel Verif.DftSpec Verif.DftProofs Verif.DftXc Verif.DftFock Verif.DftFockR Verif.DftAtom Verif.DftGrad Verif.DftMore Verif.DftGen Verif.DftWit Verif.DdfModel Verif.DdfSpec Verif.DdfProofs Verif.DdfDrv Verif.DdfMore Verif.PmModel Verif.PmSpec Verif.PmDens Verif.PmBf Verif.PmDrv.
Import ListNotations.
Local Open Scope R_scope.

(** The shells of a molecule meet the condition on shells. *)
Lemma lm_shells_ok lmax : shells_ok (lm_to_l_m lmax).
Proof.
  split.
  - intros l m H. destruct (lm_to_l_m_ok lmax) as (_ & _ & X). apply X in H. lia.
  - intros m _. unfold ls. symmetry. apply (lm_to_l_m_mirrored lmax m).
Qed.

Section More.
Variables (b : abasis) (Rh : R) (ru : list (R * R)).
Hypothesis HB : pm_grid_ok b Rh ru.
Let HDi : di_grid_ok b Rh (plane ru) := proj1 HB.

(** * Failures *)
Section Fails.
Hypothesis Hpt : exists iel, (iel < get_nelem (ab_fe b))%nat /\ ab_r b iel <> [].
Lemma pm_step_fails absm pol spins nout Nrad lib fn Ps e : functional_ok lib fn ->
  (forall w, pm_update_density b Nrad absm pol w Ps = Throw e) ->
  forall iel irad w s H, w_fl (pm_w w) = fn_flags lib fn -> cache_ok (fn_flags lib fn) b (pm_cache w) ->
  (iel < get_nelem (ab_fe b))%nat -> (irad < length (ab_r b iel))%nat ->
  pm_point_step absm pol spins nout Nrad lib b Rh ru fn Ps (w, s, H) iel irad = Throw e.
Proof.
  intros HF HU iel irad w s H Hw Hc Hiel Hir. unfold pm_point_step.
  destruct (pm_compute_bf_ok (fn_flags lib fn) b Rh ru iel irad (fn_flags_ok lib fn) HB Hiel Hir w Hw Hc) as (w1 & E1 & _).
  rewrite E1. cbn [bind]. rewrite HU. reflexivity.
Qed.
Lemma pm_driver_fails absm pol spins lib fn Ps e : functional_ok lib fn ->
  (forall w, pm_update_density b (at_nr b) absm pol w Ps = Throw e) ->
  pm_driver absm pol spins lib b Rh ru fn Ps = Throw e.
Proof.
  intros HF HU. unfold pm_driver. destruct (nr_ok b Rh (plane ru) HDi) as (nb & Enb & Enr). rewrite Enb. cbn [bind].
  rewrite (check_ok lib fn HF). cbn [bind]. rewrite Enr. set (n := di_Ndummy _ _).
  destruct Hpt as (iel & Hi & Hr). unfold pm_loops.
  assert (G : forall l, (forall x, In x l -> (x < get_nelem (ab_fe b))%nat) -> (exists x, In x l /\ ab_r b x <> []) ->
    fold_res (fun st iel => fold_res (fun st irad => pm_point_step absm pol spins n (at_nr b) lib b Rh ru fn Ps st iel irad) (seq 0 (length (ab_r b iel))) st) l
      (new_pmworker (fn_flags lib fn), (0, 0, 0), fun _ => dzero n n) = Throw e).
  { induction l as [|x l IH]; intros Hx (x' & Hin & Hr'); [destruct Hin|]. cbn [fold_res].
    destruct (ab_r b x) as [|r rs] eqn:Er.
    - cbn [length seq fold_res bind]. apply IH; [intros; apply Hx; right; auto|]. destruct Hin as [<-|Hin]; [congruence|eauto].
    - cbn [length seq fold_res]. rewrite (pm_step_fails absm pol spins n (at_nr b) lib fn Ps e HF HU); [reflexivity|reflexivity|exact I|apply Hx; left; auto|rewrite Er; cbn; lia]. }
  rewrite G; [reflexivity|intros x Hx; apply in_seq in Hx; lia|]. exists iel. split; [apply in_seq; lia|exact Hr].
Qed.
Lemma no_entries_eq P : no_entries P <-> Nat.eqb (drows P * dcols P) 0 = true.
Proof. unfold no_entries. rewrite Nat.eqb_eq. split; [intros [->| ->]; lia|nia]. Qed.
Lemma pm_empty lib fn absm : functional_ok lib fn ->
  (forall P, no_entries P -> pm_eval_Fxc absm lib b Rh ru fn P = Throw RuntimeError) /\
  (forall Pa Pb beta, no_entries Pa \/ no_entries Pb -> pm_eval_Fxc_pol absm lib b Rh ru fn Pa Pb beta = Throw RuntimeError).
Proof.
  intros HF. split.
  - intros P H. apply no_entries_eq in H. unfold pm_eval_Fxc. rewrite (pm_driver_fails absm false [0%nat] lib fn [P] RuntimeError HF); [reflexivity|].
    intros w. unfold pm_update_density. cbn [existsb]. rewrite H. reflexivity.
  - intros Pa Pb beta H. rewrite !no_entries_eq in H. unfold pm_eval_Fxc_pol. rewrite (pm_driver_fails absm true _ lib fn [Pa; Pb] RuntimeError HF); [reflexivity|].
    intros w. unfold pm_update_density. cbn [existsb]. destruct H as [H|H]; rewrite H, ?orb_true_r; reflexivity.
Qed.
Lemma pm_size lib fn absm : functional_ok lib fn ->
  (forall P, ~ no_entries P -> wrong_size b P -> pm_eval_Fxc absm lib b Rh ru fn P = Throw LogicError) /\
  (forall Pa Pb beta, ~ no_entries Pa -> ~ no_entries Pb -> wrong_size b Pa \/ wrong_size b Pb -> pm_eval_Fxc_pol absm lib b Rh ru fn Pa Pb beta = Throw LogicError).
Proof.
  intros HF. split.
  - intros P H HS. rewrite no_entries_eq in H. unfold pm_eval_Fxc. rewrite (pm_driver_fails absm false [0%nat] lib fn [P] LogicError HF); [reflexivity|].
    intros w. unfold pm_update_density. cbn [existsb]. rewrite (not_true_is_false _ H). cbn [orb]. unfold each. cbn [fold_res].
    rewrite expand_throws by exact HS. reflexivity.
  - intros Pa Pb beta Ha Hb HS. rewrite no_entries_eq in Ha, Hb. unfold pm_eval_Fxc_pol. rewrite (pm_driver_fails absm true _ lib fn [Pa; Pb] LogicError HF); [reflexivity|].
    intros w. unfold pm_update_density. cbn [existsb]. rewrite (not_true_is_false _ Ha), (not_true_is_false _ Hb). cbn [orb]. unfold each. cbn [fold_res].
    unfold wrong_size in HS.
    destruct (Nat.eq_dec (drows Pa) (di_nbf b)) as [R1|]; [|rewrite expand_throws by (left; auto); reflexivity].
    destruct (Nat.eq_dec (dcols Pa) (di_nbf b)) as [C1|]; [|rewrite expand_throws by (right; auto); reflexivity].
    destruct (expand_ok (ab_sh b) (at_nr b) Pa R1 C1) as (Q & E & _). rewrite E. cbn [bind fold_res].
    rewrite expand_throws; [reflexivity|]. fold (di_functions b). fold (di_nbf b). tauto.
Qed.
End Fails.

(** * Gradient *)
Hypothesis Hn : (0 < di_nbf b)%nat.
Let n := di_nbf b.
Let pts := di_points b Rh (plane ru).
Definition mdiagD (P : dmat) : dmat := mkD (drows P) (dcols P) (mdiag b (dent P)).
Lemma mdiagD_ok P : is_density n P -> is_density n (mdiagD P).
Proof.
  intros (A & B & C). split; [exact A|split; [exact B|]]. intros i j Hi Hj. cbn. unfold mdiag. rewrite (Z.eqb_sym (fn_m b j)), (C i j) by auto. reflexivity.
Qed.
Lemma mdiag_contract P x : contract n P (mdiag b x) = contract n (mdiag b P) x.
Proof. apply sum_ext. intros i _. apply sum_ext. intros j _. unfold mdiag. destruct (fn_m b i =? fn_m b j)%Z; ring. Qed.
Definition pm_value1 lib fn P H s : Prop := exists F, value1 n pts lib fn (mdiagD P) F s /\ is_mat H n n (mdiag b (dent F)).
Definition pm_value2 lib fn Pa Pb beta Ha Hb s : Prop := exists Fa Fb, value2 n pts lib fn (mdiagD Pa) (mdiagD Pb) beta Fa Fb s /\
  is_mat Ha n n (mdiag b (dent Fa)) /\ is_mat Hb n n (mdiag b (dent Fb)).
Lemma pm_value1_ok lib fn absm P H s : functional_ok lib fn -> is_density n P -> (absm = true -> absm_symmetric b (dent P)) ->
  pm_eval_Fxc absm lib b Rh ru fn P = Ok (H, s) -> pm_value1 lib fn P H s.
Proof.
  intros HF HP HS E. destruct (pm_eval_Fxc_ok lib b Rh ru fn HB HF Hn absm P HP HS) as (H' & E' & M). rewrite E in E'. injection E' as <- ->.
  exists (mkD n n (spec_fock1 lib fn n (mdiag b (dent P)) pts)). split; [|exact M]. split; [reflexivity|]. split; [reflexivity|split; [reflexivity|]]. intros; reflexivity.
Qed.
Lemma pm_value2_ok lib fn absm Pa Pb beta Ha Hb s : functional_ok lib fn -> is_density n Pa -> is_density n Pb ->
  pm_eval_Fxc_pol absm lib b Rh ru fn Pa Pb beta = Ok (Ha, Hb, s) -> pm_value2 lib fn Pa Pb beta Ha Hb s.
Proof.
  intros HF HPa HPb E. destruct (pm_eval_Fxc_pol_ok lib b Rh ru fn HB HF Hn absm Pa Pb beta HPa HPb) as (A & B & E' & M1 & M2). rewrite E in E'. injection E' as <- <- ->.
  exists (mkD n n (spec_fock2 lib fn n (mdiag b (dent Pa)) (mdiag b (dent Pb)) 0 pts)),
    (mkD n n (if beta then spec_fock2 lib fn n (mdiag b (dent Pa)) (mdiag b (dent Pb)) 1 pts else fun _ _ => 0)).
  split; [split; [reflexivity|split; (split; [reflexivity|split; [reflexivity|]]; intros; reflexivity)]|]. split; [exact M1|]. apply (is_mat_ext _ _ _ _ _ M2). intros i j _ _.
  destruct beta; cbn [dent]; [reflexivity|]. unfold mdiag. destruct (_ =? _)%Z; reflexivity.
Qed.
Lemma mdiag_shifted P D t : mdiagD (shifted P D t) = shifted (mdiagD P) (mdiagD D) t.
Proof. unfold mdiagD, shifted. cbn [drows dcols dent]. f_equal. extensionality i. extensionality j. unfold mdiag. destruct (_ =? _)%Z; ring. Qed.
Lemma mdiag_half P : mdiagD (half P) = half (mdiagD P).
Proof. unfold mdiagD, half. cbn [drows dcols dent]. f_equal. extensionality i. extensionality j. unfold mdiag. destruct (_ =? _)%Z; [reflexivity|unfold Rdiv; ring]. Qed.
Lemma mdiag_sym F H : is_mat H n n (mdiag b (dent F)) -> sym_mat n (dent F) -> sym_mat n (dent H).
Proof. intros (_ & _ & M) S i j Hi Hj. rewrite !M by auto. unfold mdiag. rewrite (Z.eqb_sym (fn_m b j)), (S i j) by auto. reflexivity. Qed.
Lemma mdiag_work D F H : is_mat H n n (mdiag b (dent F)) -> contract n (dent D) (dent H) = contract n (dent (mdiagD D)) (dent F).
Proof. intros (_ & _ & M). cbn [mdiagD dent]. rewrite <- mdiag_contract. apply sum_ext. intros i Hi. apply sum_ext. intros j Hj. rewrite M by auto. reflexivity. Qed.
Lemma absm_shifted P D t : absm_symmetric b (dent P) -> absm_symmetric b (dent D) -> absm_symmetric b (dent (shifted P D t)).
Proof. intros A B i j i' j' H1 H2 H3 H4 H5 H6 H7. cbn. rewrite (A i j i' j'), (B i j i' j') by auto. reflexivity. Qed.

Lemma pm_energy_gradient1 lib fn absm P D H s E : functional_ok lib fn -> is_density n P -> is_density n D ->
  (absm = true -> absm_symmetric b (dent P) /\ absm_symmetric b (dent D)) ->
  (forall q ip, In q pts -> In ip (parts fn) -> xc_derivatives lib false (fn_thr fn) ip (args1 n (mdiag b (dent P)) q)) ->
  pm_eval_Fxc absm lib b Rh ru fn P = Ok (H, s) ->
  (forall t, exists H N K, pm_eval_Fxc absm lib b Rh ru fn (shifted P D t) = Ok (H, (E t, N, K))) ->
  sym_mat n (dent H) /\ derivable_pt_lim E 0 (contract n (dent D) (dent H)).
Proof.
  intros HF HP HD HS HX Ev Hr. destruct (pm_value1_ok lib fn absm P H s HF HP) as (F & V & M); [intros A; apply HS; exact A|exact Ev|].
  destruct (gen_gradient1 n pts lib fn (mdiagD P) (mdiagD D) F s E HX V) as [A B].
  - intros t. destruct (Hr t) as (H' & N & K & E').
    destruct (pm_value1_ok lib fn absm (shifted P D t) H' (E t, N, K) HF) as (F' & V' & _); [apply gen_shifted; auto|intros X; apply absm_shifted; apply HS; exact X|exact E'|].
    exists F', N, K. rewrite <- mdiag_shifted. exact V'.
  - split; [apply (mdiag_sym F H M A)|]. rewrite (mdiag_work D F H M). exact B.
Qed.
Lemma pm_energy_gradient2 lib fn absm Pa Pb Da Db Ha Hb s E : functional_ok lib fn ->
  is_density n Pa -> is_density n Pb -> is_density n Da -> is_density n Db ->
  (forall q ip, In q pts -> In ip (parts fn) -> xc_derivatives lib true (fn_thr fn) ip (args2 n (mdiag b (dent Pa)) (mdiag b (dent Pb)) q)) ->
  pm_eval_Fxc_pol absm lib b Rh ru fn Pa Pb true = Ok (Ha, Hb, s) ->
  (forall t, exists Ha Hb N K, pm_eval_Fxc_pol absm lib b Rh ru fn (shifted Pa Da t) (shifted Pb Db t) true = Ok (Ha, Hb, (E t, N, K))) ->
  sym_mat n (dent Ha) /\ sym_mat n (dent Hb) /\ derivable_pt_lim E 0 (contract n (dent Da) (dent Ha) + contract n (dent Db) (dent Hb)).
Proof.
  intros HF HPa HPb HDa HDb HX Ev Hr. destruct (pm_value2_ok lib fn absm Pa Pb true Ha Hb s HF HPa HPb Ev) as (Fa & Fb & V & Ma & Mb).
  destruct (gen_gradient2 n pts lib fn (mdiagD Pa) (mdiagD Pb) (mdiagD Da) (mdiagD Db) Fa Fb s E HX V) as (A & B & C).
  - intros t. destruct (Hr t) as (H' & H'' & N & K & E').
    destruct (pm_value2_ok lib fn absm (shifted Pa Da t) (shifted Pb Db t) true H' H'' (E t, N, K) HF) as (F' & F'' & V' & _);
      [apply gen_shifted; auto|apply gen_shifted; auto|exact E'|].
    exists F', F'', N, K. rewrite <- !mdiag_shifted. exact V'.
  - split; [apply (mdiag_sym Fa Ha Ma A)|]. split; [apply (mdiag_sym Fb Hb Mb B)|]. rewrite (mdiag_work Da Fa Ha Ma), (mdiag_work Db Fb Hb Mb). exact C.
Qed.
Lemma pm_closed_shell lib fn absm P H Ha Hb s s' : functional_ok lib fn -> is_density n P -> (absm = true -> absm_symmetric b (dent P)) ->
  (forall ip, In ip (parts fn) -> xc_spin_symmetric lib (fn_thr fn) ip) ->
  pm_eval_Fxc absm lib b Rh ru fn P = Ok (H, s) -> pm_eval_Fxc_pol absm lib b Rh ru fn (half P) (half P) true = Ok (Ha, Hb, s') ->
  s' = s /\ is_mat Ha n n (dent H) /\ is_mat Hb n n (dent H).
Proof.
  intros HF HP HS HX E E'. destruct (pm_value1_ok lib fn absm P H s HF HP HS E) as (F & V & M).
  destruct (pm_value2_ok lib fn absm (half P) (half P) true Ha Hb s' HF (gen_half _ P HP) (gen_half _ P HP) E') as (Fa & Fb & V' & Ma & Mb).
  rewrite mdiag_half in V'. destruct (gen_closed_shell n pts lib fn (mdiagD P) F Fa Fb s s' HX V V') as (A & B & C). split; [exact A|].
  destruct M as (_ & _ & M), B as (_ & _ & B), C as (_ & _ & C).
  split; [apply (is_mat_ext _ _ _ _ _ Ma)|apply (is_mat_ext _ _ _ _ _ Mb)]; intros i j Hi Hj; rewrite M by auto; unfold mdiag; destruct (_ =? _)%Z; auto.
Qed.

(** * Densities of orbitals *)
Lemma sum_list {A} (l : list A) d F : sum (length l) (fun k => F (nth k l d)) = lsum l F.
Proof. rewrite <- lsum_seq0. transitivity (lsum (map (fun k => nth k l d) (seq 0 (length l))) F); [rewrite lsum_map; reflexivity|]. rewrite map_nth_seq. reflexivity. Qed.
Lemma lsum_pick (l : list Z) m x : NoDup l -> In m l -> lsum l (fun u => if (m =? u)%Z then x else 0) = x.
Proof.
  induction l as [|u l IH]; intros Hl Hm; [destruct Hm|]. inversion Hl; subst. cbn [lsum]. destruct (Z.eqb_spec m u) as [->|Ne].
  - rewrite lsum_zero; [ring|]. intros v Hv. destruct (Z.eqb_spec u v); [subst; contradiction|reflexivity].
  - rewrite IH; [ring|assumption|]. destruct Hm; [congruence|assumption].
Qed.
Lemma mdiag_orbitals no o C P : (forall k, (k < no)%nat -> 0 <= o k) -> orbital_density n no o C (dent P) ->
  exists no' o' C', (forall k, (k < no')%nat -> 0 <= o' k) /\ orbital_density n no' o' C' (dent (mdiagD P)).
Proof.
  intros Ho HO. set (ms := distinct (map (fn_m b) (seq 0 n))). destruct (distinct_ok (map (fn_m b) (seq 0 n))) as [Nd In_]. fold ms in Nd, In_.
  set (L := flat_map (fun u => map (fun k => (k, u)) (seq 0 no)) ms).
  exists (length L), (fun k => o (fst (nth k L (0%nat, 0%Z)))), (fun i k => if (fn_m b i =? snd (nth k L (0%nat, 0%Z)))%Z then C i (fst (nth k L (0%nat, 0%Z))) else 0).
  split.
  - intros k Hk. apply Ho. assert (X := nth_In L (0%nat, 0%Z) Hk). apply in_flat_map in X. destruct X as (u & _ & X). apply in_map_iff in X.
    destruct X as (k' & <- & X). cbn [fst]. apply in_seq in X. lia.
  - intros i j Hi Hj. cbn [mdiagD dent].
    rewrite (sum_list L (0%nat, 0%Z) (fun ku => o (fst ku) * (if (fn_m b i =? snd ku)%Z then C i (fst ku) else 0) * (if (fn_m b j =? snd ku)%Z then C j (fst ku) else 0))).
    unfold L. rewrite lsum_flat_map.
    transitivity (lsum ms (fun u => if (fn_m b i =? u)%Z then mdiag b (dent P) i j else 0)).
    + symmetry. apply lsum_pick; [exact Nd|]. apply In_. apply in_map. apply in_seq. lia.
    + apply lsum_ext. intros u _. rewrite lsum_map, lsum_seq0. cbn [fst snd]. destruct (Z.eqb_spec (fn_m b i) u) as [E|E].
      * unfold mdiag. rewrite E, (Z.eqb_sym u). destruct (fn_m b j =? u)%Z; [apply HO; auto|]. symmetry. apply sum_zero'. intros; ring.
      * symmetry. apply sum_zero'. intros; ring.
Qed.
Lemma pm_physical1 lib lib' fn absm no o C P H H' s s' : functional_ok lib fn -> is_density n P -> (absm = true -> absm_symmetric b (dent P)) ->
  (forall k, (k < no)%nat -> 0 <= o k) -> orbital_density n no o C (dent P) -> agree false physical1 lib lib' ->
  pm_eval_Fxc absm lib b Rh ru fn P = Ok (H, s) -> pm_eval_Fxc absm lib' b Rh ru fn P = Ok (H', s') ->
  s = s' /\ is_mat H' n n (dent H).
Proof.
  intros HF HP HS Ho HO HA E E'. assert (HF' := proj2 (proj2 (proj2 (proj2 (DftMore.agree_tests _ _ _ _ HA)))) fn HF).
  destruct (pm_value1_ok lib fn absm P H s HF HP HS E) as (F & V & M). destruct (pm_value1_ok lib' fn absm P H' s' HF' HP HS E') as (F' & V' & M').
  destruct (mdiag_orbitals no o C P Ho HO) as (no' & o' & C' & Ho' & HO').
  destruct (gen_physical1 n pts lib lib' fn no' o' C' (mdiagD P) F F' s s' Ho' HO' HA V V') as (A & B). split; [exact A|].
  apply (is_mat_ext _ _ _ _ _ M'). destruct M as (_ & _ & M), B as (_ & _ & B). intros i j Hi Hj. rewrite M by auto. unfold mdiag. destruct (_ =? _)%Z; auto.
Qed.
Lemma pm_physical2 lib lib' fn absm no o C Pa no' o' C' Pb beta Ha Hb Ha' Hb' s s' : functional_ok lib fn -> is_density n Pa -> is_density n Pb ->
  (forall k, (k < no)%nat -> 0 <= o k) -> orbital_density n no o C (dent Pa) ->
  (forall k, (k < no')%nat -> 0 <= o' k) -> orbital_density n no' o' C' (dent Pb) -> agree true physical2 lib lib' ->
  pm_eval_Fxc_pol absm lib b Rh ru fn Pa Pb beta = Ok (Ha, Hb, s) -> pm_eval_Fxc_pol absm lib' b Rh ru fn Pa Pb beta = Ok (Ha', Hb', s') ->
  s = s' /\ is_mat Ha' n n (dent Ha) /\ is_mat Hb' n n (dent Hb).
Proof.
  intros HF HPa HPb Ho HO Ho' HO' HA E E'. assert (HF' := proj2 (proj2 (proj2 (proj2 (DftMore.agree_tests _ _ _ _ HA)))) fn HF).
  destruct (pm_value2_ok lib fn absm Pa Pb beta Ha Hb s HF HPa HPb E) as (Fa & Fb & V & Ma & Mb).
  destruct (pm_value2_ok lib' fn absm Pa Pb beta Ha' Hb' s' HF' HPa HPb E') as (Fa' & Fb' & V' & Ma' & Mb').
  destruct (mdiag_orbitals no o C Pa Ho HO) as (na & oa & Ca & Hoa & HOa). destruct (mdiag_orbitals no' o' C' Pb Ho' HO') as (nb & ob & Cb & Hob & HOb).
  destruct (gen_physical2 n pts lib lib' fn na oa Ca (mdiagD Pa) nb ob Cb (mdiagD Pb) beta Fa Fb Fa' Fb' s s' Hoa HOa Hob HOb HA V V') as (A & B & D). split; [exact A|].
  destruct Ma as (_ & _ & Ma), B as (_ & _ & B), Mb as (_ & _ & Mb), D as (_ & _ & D).
  split; [apply (is_mat_ext _ _ _ _ _ Ma')|apply (is_mat_ext _ _ _ _ _ Mb')]; intros i j Hi Hj; rewrite ?Ma, ?Mb by auto; unfold mdiag; destruct (_ =? _)%Z; auto.
Qed.
End More.

(** * A basis with sigma and pi shells *)
Lemma wpm_harmonics c : -1 < c < 1 -> harmonics_ok wpm c.
Proof.
  intros Hc l m Hm. assert (Hs : 0 < sqrt (1 - c * c)) by (apply sqrt_lt_R0; nra).
  assert (H2 : sqrt 2 * sqrt 2 = 2) by (apply sqrt_sqrt; lra).
  cbn [wpm ab_Y]. unfold dtheta. rewrite cos_0, sin_0.
  destruct (Z.eqb_spec l 0) as [->|N0].
  - assert (m = 0%Z) as -> by lia. cbn. unfold cscal, cadd, cmul; cbn. split; [reflexivity|]. replace (-0)%Z with 0%Z by reflexivity.
    split; f_equal; ring.
  - destruct (Z.eqb_spec l 1) as [->|N1].
    + assert (Hm' : m = 0%Z \/ m = 1%Z \/ m = (-1)%Z) by lia.
      destruct Hm' as [->|[->| ->]]; unfold wY, cscal, cadd, cmul, sign; cbn; rewrite ?cos_0, ?sin_0, ?sqrt_0.
      * split; [reflexivity|]. split; f_equal; ring.
      * split; [ring|]. split; f_equal; try ring. rewrite Rmult_1_r.
        transitivity (sqrt 2 * sqrt 2 * c - c); [field; lra|]. rewrite H2. field. lra.
      * split; [ring|]. split; f_equal; try ring.
        transitivity (- (sqrt 2 * sqrt 2 * c - c)); [rewrite H2; field; lra|]. field. lra.
    + assert (E : forall k, wY l k c 0 = (0, 0)).
      { intros k. unfold wY. destruct (Z.eqb_spec l 0); [contradiction|]. destruct (Z.eqb_spec l 1); [contradiction|]. reflexivity. }
      rewrite !E. unfold cscal, cadd, cmul; cbn. split; [reflexivity|]. split; f_equal; ring.
Qed.
Lemma wpm_ok : pm_grid_ok wpm 1 wnu.
Proof.
  split; [|split].
  - split; [lra|].
    assert (H : at_grid_ok (wbasis (mkFE LIP 2 [0; 1; 2; 3] false false true false) (ab_sh wpm)) (plane wnu)).
    { apply wbasis_ok.
      - split; [cbn; lia|]. split; [cbn; lia|]. intros i j H1 H2. cbn [fe_bval length] in *.
        destruct i as [|[|[|[|i]]]], j as [|[|[|[|j]]]]; try lia; cbn [nth]; lra.
      - intros l m [H|[H|[H|[H|[]]]]]; injection H as <- <-; lia.
      - intros [|[|ia]] H; cbn in *; [lra|lra|lia]. }
    exact H.
  - exact (lm_shells_ok [1; 1]%Z).
  - intros q [<-|[<-|[]]]; apply wpm_harmonics; cbn; lra.
Qed.
Lemma wpm_n : at_nbf wpm = 12%nat /\ di_nbf wpm = 10%nat /\ map (fn_m wpm) (seq 0 10) = [0; 0; 0; 0; 0; 0; 1; 1; -1; -1]%Z.
Proof. repeat split. Qed.
Lemma wpmP_ok : is_density 10 wpmP.
Proof. split; [reflexivity|split; [reflexivity|]]. intros i j _ _. cbn. ring. Qed.
Lemma wpmP_symmetric : absm_symmetric wpm (dent wpmP).
Proof. intros i j i' j' _ _ _ _ _ (L1 & _ & K1) (L2 & _ & K2). cbn [wpmP dent]. unfold wpmg. rewrite L1, L2, K1, K2. reflexivity. Qed.
Lemma wpmP_orbitals : orbital_density 10 1 (fun _ => 1) (fun i _ => wpmg i) (dent wpmP).
Proof. intros i j _ _. cbn. ring. Qed.
Lemma wpm_point : exists iel, (iel < get_nelem (ab_fe wpm))%nat /\ ab_r wpm iel <> [].
Proof. exists 0%nat. split; [cbn; lia|discriminate]. Qed.
Lemma wpmE1 absm fn P D : functional_ok wlib fn -> is_density 10 P -> is_density 10 D -> (absm = true -> absm_symmetric wpm (dent P) /\ absm_symmetric wpm (dent D)) ->
  exists E, forall t, exists H N K, pm_eval_Fxc absm wlib wpm 1 wnu fn (shifted P D t) = Ok (H, (E t, N, K)).
Proof.
  intros HF HP HD HS. eexists (fun t => spec_exc1 wlib fn (di_nbf wpm) (mdiag wpm (dent (shifted P D t))) (di_points wpm 1 (plane wnu))). intros t.
  destruct (pm_eval_Fxc_ok wlib wpm 1 wnu fn wpm_ok HF ltac:(rewrite (proj1 (proj2 wpm_n)); lia) absm (shifted P D t)) as (H & E & _).
  { rewrite (proj1 (proj2 wpm_n)). apply gen_shifted; auto. } { intros A. apply absm_shifted; apply HS; exact A. } eexists _, _, _. exact E.
Qed.
Lemma wpmE2 absm fn Pa Pb Da Db : functional_ok wlib fn -> is_density 10 Pa -> is_density 10 Pb -> is_density 10 Da -> is_density 10 Db -> exists E, forall t, exists Ha Hb N K,
  pm_eval_Fxc_pol absm wlib wpm 1 wnu fn (shifted Pa Da t) (shifted Pb Db t) true = Ok (Ha, Hb, (E t, N, K)).
Proof.
  intros HF HPa HPb HDa HDb. eexists (fun t => spec_exc2 wlib fn (di_nbf wpm) (mdiag wpm (dent (shifted Pa Da t))) (mdiag wpm (dent (shifted Pb Db t))) (di_points wpm 1 (plane wnu))). intros t.
  destruct (pm_eval_Fxc_pol_ok wlib wpm 1 wnu fn wpm_ok HF ltac:(rewrite (proj1 (proj2 wpm_n)); lia) absm (shifted Pa Da t) (shifted Pb Db t) true) as (Ha & Hb & E & _).
  { rewrite (proj1 (proj2 wpm_n)). apply gen_shifted; auto. } { rewrite (proj1 (proj2 wpm_n)). apply gen_shifted; auto. } eexists _, _, _, _. exact E.
Qed.
