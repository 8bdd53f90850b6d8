(** The exchange-correlation energy and matrices on the grid for orbitals of definite m. *)
Require Import Reals ZArith List Bool Arith Lia Lra.
Require Import Verif.Prelude Verif.FEModel Verif.FESpec Verif.FEProofs Verif.AngModel Verif.AngSpec Verif.AngProofs Verif.JKModel Verif.JKProofs Verif.DftModel Verif.DftSpec Verif.DftProofs Verif.DftXc Verif.DftFock Verif.DftFockR Verif.DftAtom Verif.DftPar Verif.DftGrad Verif.DftMore Verif.DdfModel Verif.DdfSpec Verif.DdfProofs Verif.DdfDrv Verif.PmModel Verif.PmSpec Verif.PmProofs Verif.PmDens Verif.PmXc Verif.PmFock Verif.PmBf.
Import ListNotations.
Local Open Scope R_scope.

Section Run.
Variables (inv : pmworker -> Prop) (sq : list gpoint -> sums) (f : gpoint -> nat -> nat -> nat -> R) (n : nat).
Hypothesis sq_nil : sq [] = (0, 0, 0).
Hypothesis sq_app : forall p q, sq (p ++ q) = sums_add (sq p) (sq q).
(** What visiting the points [p] does to the state *)
Definition pm_adds (p : list gpoint) (st st' : pm_state) : Prop :=
  inv (fst (fst st')) /\ snd (fst st') = sums_add (snd (fst st)) (sq p) /\
  (forall k, drows (snd st' k) = drows (snd st k) /\ dcols (snd st' k) = dcols (snd st k)) /\
  forall k i j, (i < n)%nat -> (j < n)%nat -> dent (snd st' k) i j = dent (snd st k) i j + lsum p (fun q => f q k i j).
Lemma pm_adds_nil st : inv (fst (fst st)) -> pm_adds [] st st.
Proof.
  intros H. split; [exact H|]. rewrite sq_nil, sums_add_0. split; [reflexivity|]. split; [auto|]. intros. unfold lsum; cbn. ring.
Qed.
Lemma pm_adds_trans p q st st1 st2 : pm_adds p st st1 -> pm_adds q st1 st2 -> pm_adds (p ++ q) st st2.
Proof.
  intros (F1 & S1 & D1 & V1) (F2 & S2 & D2 & V2). split; [exact F2|]. split; [rewrite S2, S1, sq_app; apply sums_add_assoc|]. split.
  - intros k. destruct (D2 k) as [-> ->]. apply D1.
  - intros k i j Hi Hj. rewrite V2, V1, lsum_app by auto. ring.
Qed.
Lemma pm_fold_adds (step : pm_state -> nat -> res pm_state) (pts : nat -> list gpoint) l : forall st, inv (fst (fst st)) ->
  (forall x st, In x l -> inv (fst (fst st)) -> exists st', step st x = Ok st' /\ pm_adds (pts x) st st') ->
  exists st', fold_res step l st = Ok st' /\ pm_adds (flat_map pts l) st st'.
Proof.
  induction l as [|x l IH]; intros st Hf Hs; cbn [fold_res flat_map].
  - exists st. split; [reflexivity|apply pm_adds_nil; exact Hf].
  - destruct (Hs x st (or_introl eq_refl) Hf) as (s1 & E1 & A1). rewrite E1. cbn [bind].
    destruct (IH s1 (proj1 A1)) as (s2 & E2 & A2); [intros; apply Hs; [right|]; auto|]. exists s2. split; [exact E2|eapply pm_adds_trans; eauto].
Qed.
End Run.

Section Driver.
Variables (lib : libxc) (b : abasis) (Rh : R) (ru : list (R * R)) (fn : functional).
Hypothesis HB : pm_grid_ok b Rh ru.
Hypothesis HF : functional_ok lib fn.
Let n := at_nbf b.
Let fl := fn_flags lib fn.
Let mg := raw_m b.
Let dpts := di_raw_points b Rh (plane ru).
Hypothesis Hn : (0 < di_nbf b)%nat.
Let HDi : di_grid_ok b Rh (plane ru) := proj1 HB.

(** The condition that the density may be taken from the partner *)
Definition absm_raw (Q : mat) : Prop := forall i j i' j', (i < n)%nat -> (j < n)%nat -> (i' < n)%nat -> (j' < n)%nat ->
  mg i = mg j -> raw_mates b i i' -> raw_mates b j j' -> Q i' j' = Q i j.
Definition pm_inv (w : pmworker) : Prop := w_fl (pm_w w) = fl /\ cache_ok fl b (pm_cache w).

Lemma pm_step_ok absm pol spins Ps Qs : NoDup spins -> (forall s, In s spins -> (s < nspin pol)%nat) ->
  existsb (fun P => Nat.eqb (drows P * dcols P) 0) Ps = false -> each (expand_boundaries (ab_sh b) (at_nr b)) Ps = Ok Qs ->
  length Qs = nspin pol -> (forall Q, In Q Qs -> is_density n Q /\ ((absm && negb pol)%bool = true -> absm_raw (dent Q))) ->
  forall st iel irad, pm_inv (fst (fst st)) -> (iel < get_nelem (ab_fe b))%nat -> (irad < length (ab_r b iel))%nat ->
  exists st', pm_point_step absm pol spins n (at_nr b) lib b Rh ru fn Ps st iel irad = Ok st' /\
    pm_adds pm_inv (sums_of lib b fn pol (map (mpartD mg) Qs))
      (fun q t i j => if (existsb (Nat.eqb t) spins && (mg i =? mg j)%Z)%bool then p_w q * fock_at lib fn n pol (map (mpartD mg) Qs) t q i j else 0) n
      (di_row_points b Rh (plane ru) iel irad) st st'.
Proof.
  intros Hnd Hsp HPs HE HL HQ [[w s] H] iel irad [Hw Hc] Hiel Hir. cbn [fst snd] in Hw, Hc. unfold pm_point_step.
  set (Ms := map (mpartD mg) Qs). set (pts := di_row_points b Rh (plane ru) iel irad).
  destruct (pm_compute_bf_ok fl b Rh ru iel irad (fn_flags_ok lib fn) HB Hiel Hir w Hw Hc) as (w1 & E1 & HW & Hc1 & Mates).
  rewrite E1. cbn [bind]. fold n pts mg in HW.
  assert (HS : forall Q, In Q Qs -> is_density n Q /\ shared_ok w1 (absm && negb pol) (dent Q)).
  { intros Q HQi. destruct (HQ Q HQi) as [D1 D2]. split; [exact D1|]. intros Es k k' i j Hk Hk' Em El Hi Hj.
    destruct (bi_in _ _ _ _ _ w1 HW k i Hk Hi) as (_ & I1 & I2). destruct (bi_in _ _ _ _ _ w1 HW k j Hk Hj) as (_ & J1 & J2).
    destruct (bi_in _ _ _ _ _ w1 HW k' i Hk' ltac:(lia)) as (_ & I1' & _). destruct (bi_in _ _ _ _ _ w1 HW k' j Hk' ltac:(lia)) as (_ & J1' & _).
    apply (D2 Es); auto. congruence. }
  destruct (pm_update_density_ok fl n pts mg _ (fn_flags_ok lib fn) w1 HW b (at_nr b) absm pol Ps Qs HPs HE HL HS) as (d & E2 & HD).
  fold Ms in HD. rewrite E2. cbn [bind with_base pm_w]. unfold fl.
  assert (Hg := pr_n _ _ _ _ _ _ HW). assert (Hwt := pr_w _ _ _ _ _ _ HW).
  destruct (pm_run_xc_ok lib fn n pts pol Ms (w_g (pm_w w1)) d Hg HD (w_x (pm_w w1)) HF) as (x & E3 & HX).
  rewrite (pm_Nel_ok lib fn n pts pol Ms _ d Hg Hwt HD (w_x (pm_w w1))). cbn [bind].
  rewrite (pm_Ekin_ok lib fn n pts pol Ms _ d Hg Hwt HD (w_x (pm_w w1))). cbn [bind].
  rewrite E3. cbn [bind]. rewrite (pm_Exc_ok lib fn n pts pol Ms _ d Hg Hwt HD x HX). cbn [bind].
  assert (HM : forall s, (s < nspin pol)%nat -> forall ip, (ip < length pts)%nat -> grad n (spin Ms s) (pt pts ip) 2 = 0).
  { intros s0 Hs0 ip Hip. unfold Ms. rewrite (spin_m mg pol Qs HL) by exact Hs0. apply (grad2_zero _ _ _ _ _ w1 HW _ ip Hip). }
  destruct (pm_fock_ok lib fn n pts mg _ w1 pol Ms d x HW HD HX HM spins Hnd Hsp) as (us & E4 & Ef). 
  unfold with_base in E4 |- *. cbn [pm_cache pm_h pm_ir2 pm_ip2 pm_blocks].
  rewrite E4. cbn [bind]. eexists. split; [reflexivity|]. destruct (apply_updates_ok us H) as [D V].
  split; [split; [reflexivity|exact Hc1]|]. split; [reflexivity|]. cbn [snd]. split; [exact D|].
  intros k i j Hi Hj. rewrite V, Ef by auto. reflexivity.
Qed.

Lemma pm_driver_ok absm pol spins Ps Qs : NoDup spins -> (forall s, In s spins -> (s < nspin pol)%nat) ->
  existsb (fun P => Nat.eqb (drows P * dcols P) 0) Ps = false -> each (expand_boundaries (ab_sh b) (at_nr b)) Ps = Ok Qs ->
  length Qs = nspin pol -> (forall Q, In Q Qs -> is_density n Q /\ ((absm && negb pol)%bool = true -> absm_raw (dent Q))) ->
  exists H, pm_driver absm pol spins lib b Rh ru fn Ps = Ok (at_nr b, H, sums_of lib b fn pol (map (mpartD mg) Qs) dpts) /\
    forall t, is_mat (H t) n n (fun i j => lsum dpts (fun q => if (existsb (Nat.eqb t) spins && (mg i =? mg j)%Z)%bool then p_w q * fock_at lib fn n pol (map (mpartD mg) Qs) t q i j else 0)).
Proof.
  intros Hnd Hsp HPs HE HL HQ. unfold pm_driver. destruct (nr_ok b Rh (plane ru) HDi) as (nb & Enb & Enr). rewrite Enb. cbn [bind].
  rewrite (check_ok lib fn HF). cbn [bind]. rewrite Enr.
  change (di_Ndummy (ab_sh b) (at_nr b)) with n.
  set (f := fun q t i j => if (existsb (Nat.eqb t) spins && (mg i =? mg j)%Z)%bool then p_w q * fock_at lib fn n pol (map (mpartD mg) Qs) t q i j else 0).
  assert (X : exists st', pm_loops b (pm_point_step absm pol spins n (at_nr b) lib b Rh ru fn Ps) (new_pmworker fl, (0, 0, 0), fun _ => dzero n n) = Ok st' /\
     pm_adds pm_inv (sums_of lib b fn pol (map (mpartD mg) Qs)) f n dpts (new_pmworker fl, (0, 0, 0), fun _ => dzero n n) st').
  { unfold pm_loops, dpts, di_raw_points. apply pm_fold_adds; auto using sums_of_nil, sums_of_app.
    { split; [reflexivity|exact I]. }
    intros iel st1 Hi Hw1. apply in_seq in Hi.
    apply pm_fold_adds; auto using sums_of_nil, sums_of_app. intros ir st2 Hi2 Hw2. apply in_seq in Hi2.
    apply pm_step_ok; auto; lia. }
  destruct X as ([[w s] H] & E & A). fold fl. rewrite E. cbn [bind]. destruct A as (_ & A2 & A3 & A4). cbn [fst snd] in A2, A3, A4. rewrite sums_add_0l in A2. subst s.
  exists H. split; [reflexivity|]. intros k. destruct (A3 k) as [D1 D2]. split; [exact D1|split; [exact D2|]].
  intros i j Hi Hj. rewrite A4 by auto. cbn [dzero dent]. apply Rplus_0_l.
Qed.

(** * Boundary conditions *)
Lemma raw_survives i : In i (di_functions b) <-> (i < n)%nat /\ ((raw_m b i =? 0)%Z || negb (Nat.eqb (raw_k b i) 0))%bool = true.
Proof.
  unfold di_functions, positions. rewrite filter_In, in_seq, all_length. fold (at_nbf b) n.
  assert (G : (i < n)%nat -> survives (fnth (all_functions (ab_sh b) (at_nr b)) i) = ((raw_m b i =? 0)%Z || negb (Nat.eqb (raw_k b i) 0))%bool).
  { intros Hi. unfold n, at_nbf in Hi. assert (N0 : at_nr b <> 0%nat) by (intros Z; rewrite Z in Hi; lia).
    assert (D := Nat.div_mod i (at_nr b) N0). assert (M := Nat.mod_upper_bound i (at_nr b) N0).
    assert (E : fnth (all_functions (ab_sh b) (at_nr b)) i = (nth (i / at_nr b) (ab_sh b) (0, 0)%Z, i mod at_nr b)%nat).
    { rewrite <- (all_functions_at (ab_sh b) (at_nr b) (i / at_nr b) (i mod at_nr b)); [f_equal; lia|apply Nat.div_lt_upper_bound; lia|exact M]. }
    rewrite E. reflexivity. }
  split; [intros [H1 H2]; rewrite G in H2 by lia; split; [lia|exact H2]|intros [H1 H2]; rewrite G by exact H1; split; [lia|exact H2]].
Qed.
Lemma mates_survive i i' : (i < n)%nat -> (i' < n)%nat -> raw_mates b i i' -> (In i (di_functions b) <-> In i' (di_functions b)).
Proof.
  intros Hi Hi' (_ & Em & Ek). rewrite !raw_survives, Em, Ek.
  assert (E : ((- raw_m b i =? 0) = (raw_m b i =? 0))%Z) by (destruct (Z.eqb_spec (raw_m b i) 0), (Z.eqb_spec (- raw_m b i) 0); auto; lia). rewrite E. tauto.
Qed.
Lemma absm_extends Q P : extends b Q P -> absm_symmetric b P -> absm_raw Q.
Proof.
  intros [X1 X2] HS i j i' j' Hi Hj Hi' Hj' Em Mi Mj. assert (Si := mates_survive i i' Hi Hi' Mi). assert (Sj := mates_survive j j' Hj Hj' Mj).
  destruct (in_dec Nat.eq_dec i (di_functions b)) as [Ii|Ii]; [|rewrite (X2 i j), (X2 i' j') by tauto; reflexivity].
  destruct (in_dec Nat.eq_dec j (di_functions b)) as [Ij|Ij]; [|rewrite (X2 i j), (X2 i' j') by tauto; reflexivity].
  assert (Ii' := proj1 Si Ii). assert (Ij' := proj1 Sj Ij).
  destruct (In_nth _ _ 0%nat Ii) as (a & Ha & <-). destruct (In_nth _ _ 0%nat Ij) as (c & Hc & <-).
  destruct (In_nth _ _ 0%nat Ii') as (a' & Ha' & <-). destruct (In_nth _ _ 0%nat Ij') as (c' & Hc' & <-).
  fold (di_fn b a) (di_fn b c) (di_fn b a') (di_fn b c') in *. rewrite !X1 by auto. apply HS; auto.
Qed.
Lemma mpart_extends Q P : extends b Q P -> extends b (mpart mg Q) (mdiag b P).
Proof.
  intros [X1 X2]. split.
  - intros i j Hi Hj. unfold mpart, mdiag. rewrite X1 by auto. reflexivity.
  - intros r c H. unfold mpart. rewrite X2 by exact H. destruct (mg r =? mg c)%Z; reflexivity.
Qed.
Lemma not_empty P : is_density (di_nbf b) P -> Nat.eqb (drows P * dcols P) 0 = false.
Proof. intros (-> & -> & _). apply Nat.eqb_neq. nia. Qed.

Lemma pm_eval_Fxc_ok absm P : is_density (di_nbf b) P -> (absm = true -> absm_symmetric b (dent P)) ->
  exists H, pm_eval_Fxc absm lib b Rh ru fn P
      = Ok (H, (spec_exc1 lib fn (di_nbf b) (mdiag b (dent P)) (di_points b Rh (plane ru)), spec_nel (di_nbf b) (mdiag b (dent P)) (di_points b Rh (plane ru)),
                if uses fn (is_tau lib) then spec_ekin (di_nbf b) (mdiag b (dent P)) (di_points b Rh (plane ru)) else 0)) /\
    is_mat H (di_nbf b) (di_nbf b) (mdiag b (spec_fock1 lib fn (di_nbf b) (mdiag b (dent P)) (di_points b Rh (plane ru)))).
Proof.
  intros HP HS. destruct (expand_density b P HP) as (Q & EQ & HQ & HX0). assert (HX := mpart_extends _ _ HX0).
  destruct (pm_driver_ok absm false [0%nat] [P] [Q]) as (H & E & HM).
  { constructor; [intros []|constructor]. } { intros s [<-|[]]. cbn; lia. }
  { cbn [existsb]. rewrite not_empty by exact HP. reflexivity. }
  { unfold each. cbn [fold_res]. rewrite EQ. reflexivity. } { reflexivity. }
  { intros ? [<-|[]]. split; [exact HQ|]. intros Es. apply (absm_extends _ _ HX0). apply HS. destruct absm; [reflexivity|discriminate]. }
  unfold pm_eval_Fxc. rewrite E. cbn [bind]. destruct (HM 0%nat) as (M1 & M2 & M3).
  destruct (remove_ok (ab_sh b) (at_nr b) (H 0%nat) M1 M2) as (G & EG & G1 & G2 & G3). rewrite EG. cbn [bind].
  exists G. split.
  - f_equal. f_equal. unfold sums_of, spec_exc1, spec_nel, spec_ekin, tot_dens, tot_tau, pargs. unfold spin; cbn [nth map mpartD dent]. rewrite !lsum_pull.
    f_equal; [f_equal|].
    + apply lsum_ext. intros q _. cbn [pull p_w]. rewrite (args1_pull b _ _ q HX), (dens_pull b _ _ q HX). reflexivity.
    + apply lsum_ext. intros q _. rewrite (dens_pull b _ _ q HX). reflexivity.
    + destruct (uses fn (is_tau lib)); [|reflexivity]. apply lsum_ext. intros q _. rewrite (tau_pull b _ _ q HX). reflexivity.
  - split; [exact G1|split; [exact G2|]]. intros i j Hi Hj. rewrite G3.
    fold (di_functions b). fold (di_fn b i) (di_fn b j). rewrite M3 by (apply di_fn_lt; auto). unfold mdiag at 1. fold (fn_m b i) (fn_m b j).
    change (mg (di_fn b i)) with (fn_m b i). change (mg (di_fn b j)) with (fn_m b j). cbn [existsb Nat.eqb orb andb].
    destruct (fn_m b i =? fn_m b j)%Z; [|apply lsum_zero; reflexivity]. unfold spec_fock1. rewrite lsum_pull.
    apply lsum_ext. intros q _. unfold fock_at, spin, n. cbn [nth map mpartD dent]. rewrite (fock1_pull lib b fn _ _ q i j HX). reflexivity.
Qed.

Lemma pm_eval_Fxc_pol_ok absm Pa Pb beta : is_density (di_nbf b) Pa -> is_density (di_nbf b) Pb ->
  exists Ha Hb, pm_eval_Fxc_pol absm lib b Rh ru fn Pa Pb beta
      = Ok (Ha, Hb, (spec_exc2 lib fn (di_nbf b) (mdiag b (dent Pa)) (mdiag b (dent Pb)) (di_points b Rh (plane ru)),
                spec_nel (di_nbf b) (mdiag b (dent Pa)) (di_points b Rh (plane ru)) + spec_nel (di_nbf b) (mdiag b (dent Pb)) (di_points b Rh (plane ru)),
                if uses fn (is_tau lib) then spec_ekin (di_nbf b) (mdiag b (dent Pa)) (di_points b Rh (plane ru)) + spec_ekin (di_nbf b) (mdiag b (dent Pb)) (di_points b Rh (plane ru)) else 0)) /\
    is_mat Ha (di_nbf b) (di_nbf b) (mdiag b (spec_fock2 lib fn (di_nbf b) (mdiag b (dent Pa)) (mdiag b (dent Pb)) 0 (di_points b Rh (plane ru)))) /\
    is_mat Hb (di_nbf b) (di_nbf b) (if beta then mdiag b (spec_fock2 lib fn (di_nbf b) (mdiag b (dent Pa)) (mdiag b (dent Pb)) 1 (di_points b Rh (plane ru))) else fun _ _ => 0).
Proof.
  intros HPa HPb. destruct (expand_density b Pa HPa) as (Qa & EQa & HQa & HXa0). destruct (expand_density b Pb HPb) as (Qb & EQb & HQb & HXb0).
  assert (HXa := mpart_extends _ _ HXa0). assert (HXb := mpart_extends _ _ HXb0).
  destruct (pm_driver_ok absm true (if beta then [0%nat; 1%nat] else [0%nat]) [Pa; Pb] [Qa; Qb]) as (H & E & HM).
  { destruct beta; repeat constructor; cbn; lia. } { intros s Hs. destruct beta; cbn in Hs |- *; lia. }
  { cbn [existsb]. rewrite !not_empty by assumption. reflexivity. }
  { unfold each. cbn [fold_res]. rewrite EQa. cbn [bind fold_res app]. rewrite EQb. reflexivity. } { reflexivity. }
  { intros ? Hi. split; [destruct Hi as [<-|[<-|[]]]; assumption|]. rewrite andb_false_r. discriminate. }
  unfold pm_eval_Fxc_pol. rewrite E. cbn [bind]. destruct (HM 0%nat) as (M1 & M2 & M3). destruct (HM 1%nat) as (N1 & N2 & N3).
  destruct (remove_ok (ab_sh b) (at_nr b) (H 0%nat) M1 M2) as (G & EG & G1 & G2 & G3). rewrite EG. cbn [bind].
  destruct (remove_ok (ab_sh b) (at_nr b) (H 1%nat) N1 N2) as (G' & EG' & G1' & G2' & G3'). rewrite EG'. cbn [bind].
  exists G, G'. split; [|split].
  - f_equal. f_equal. unfold sums_of, spec_exc2, spec_nel, spec_ekin, tot_dens, tot_tau, pargs. unfold spin; cbn [nth map mpartD dent]. rewrite !lsum_pull, <- !lsum_plus.
    f_equal; [f_equal|].
    + apply lsum_ext. intros q _. cbn [pull p_w]. rewrite (args2_pull b _ _ _ _ q HXa HXb), (dens_pull b _ _ q HXa), (dens_pull b _ _ q HXb). reflexivity.
    + apply lsum_ext. intros q _. rewrite (dens_pull b _ _ q HXa), (dens_pull b _ _ q HXb). cbn [pull p_w]. ring.
    + destruct (uses fn (is_tau lib)); [|reflexivity]. apply lsum_ext. intros q _. rewrite (tau_pull b _ _ q HXa), (tau_pull b _ _ q HXb). cbn [pull p_w]. ring.
  - split; [exact G1|split; [exact G2|]]. intros i j Hi Hj. rewrite G3.
    fold (di_functions b). fold (di_fn b i) (di_fn b j). rewrite M3 by (apply di_fn_lt; auto). unfold mdiag at 1.
    change (mg (di_fn b i)) with (fn_m b i). change (mg (di_fn b j)) with (fn_m b j).
    replace (existsb (Nat.eqb 0) (if beta then [0%nat; 1%nat] else [0%nat])) with true by (destruct beta; reflexivity). cbn [andb].
    destruct (fn_m b i =? fn_m b j)%Z; [|apply lsum_zero; reflexivity]. unfold spec_fock2. rewrite lsum_pull.
    apply lsum_ext. intros q _. unfold fock_at, spin, n. cbn [nth map mpartD dent]. rewrite (fock2_pull lib b fn _ _ _ _ 0 q i j HXa HXb). reflexivity.
  - split; [exact G1'|split; [exact G2'|]]. intros i j Hi Hj. rewrite G3'.
    fold (di_functions b). fold (di_fn b i) (di_fn b j). rewrite N3 by (apply di_fn_lt; auto).
    change (mg (di_fn b i)) with (fn_m b i). change (mg (di_fn b j)) with (fn_m b j).
    replace (existsb (Nat.eqb 1) (if beta then [0%nat; 1%nat] else [0%nat])) with beta by (destruct beta; reflexivity).
    destruct beta; [|apply lsum_zero; reflexivity]. cbn [andb]. unfold mdiag at 1.
    destruct (fn_m b i =? fn_m b j)%Z; [|apply lsum_zero; reflexivity]. unfold spec_fock2. rewrite lsum_pull.
    apply lsum_ext. intros q _. unfold fock_at, spin, n. cbn [nth map mpartD dent]. rewrite (fock2_pull lib b fn _ _ _ _ 1 q i j HXa HXb). reflexivity.
Qed.
End Driver.
