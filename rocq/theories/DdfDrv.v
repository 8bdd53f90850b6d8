(** The exchange-correlation energy and matrices of a diatomic molecule. *)
Require Import Reals ZArith List Bool Arith Lia Lra.
Require Import Verif.Prelude Verif.FEModel Verif.FESpec Verif.FEProofs Verif.AngModel Verif.AngSpec Verif.AngProofs Verif.JKModel Verif.JKProofs Verif.DftModel Verif.DftSpec Verif.DftProofs Verif.DftXc Verif.DftFock Verif.DftFockR Verif.DftAtom Verif.DftPar Verif.DftGrad Verif.DftMore Verif.DdfModel Verif.DdfSpec Verif.DdfProofs.
Import ListNotations.
Local Open Scope R_scope.

(** * Additions to the matrices *)
Lemma apply_updates_ok us : forall H,
  (forall k, drows (apply_updates H us k) = drows (H k) /\ dcols (apply_updates H us k) = dcols (H k)) /\
  forall k i j, dent (apply_updates H us k) i j = dent (H k) i j + effect us k i j.
Proof.
  induction us as [|[[[k0 i0] j0] x] us IH]; intros H.
  - split; [auto|]. intros k i j. unfold effect, lsum; cbn. ring.
  - unfold apply_updates; cbn [fold_left]. fold (apply_updates (set_entry H k0 i0 j0 (dent (H k0) i0 j0 + x)) us).
    destruct (IH (set_entry H k0 i0 j0 (dent (H k0) i0 j0 + x))) as [D V]. split.
    + intros k. destruct (D k) as [-> ->]. apply set_entry_dim.
    + intros k i j. rewrite V, set_entry_ok. 
      change (effect ((k0, i0, j0, x) :: us) k i j) with ((if targets k i j (k0, i0, j0, x) then x else 0) + effect us k i j).
      unfold targets.
      destruct (Nat.eqb_spec k0 k) as [->|], (Nat.eqb_spec i0 i) as [->|], (Nat.eqb_spec j0 j) as [->|]; cbn [andb]; ring.
Qed.

Section Run.
Variables (fl : flags) (sq : list gpoint -> sums) (f : gpoint -> nat -> nat -> nat -> R) (n : nat).
Hypothesis sq_nil : sq [] = (0, 0, 0).
Hypothesis sq_app : forall p q, sq (p ++ q) = sums_add (sq p) (sq q).
(** What visiting the points [p] does to the state *)
Definition adds (p : list gpoint) (st st' : di_state) : Prop :=
  w_fl (fst (fst st')) = fl /\ snd (fst st') = sums_add (snd (fst st)) (sq p) /\
  (forall k, drows (snd st' k) = drows (snd st k) /\ dcols (snd st' k) = dcols (snd st k)) /\
  forall k i j, (i < n)%nat -> (j < n)%nat -> dent (snd st' k) i j = dent (snd st k) i j + lsum p (fun q => f q k i j).
Lemma adds_nil st : w_fl (fst (fst st)) = fl -> adds [] st st.
Proof.
  intros H. split; [exact H|]. rewrite sq_nil, sums_add_0. split; [reflexivity|]. split; [auto|]. intros. unfold lsum; cbn. ring.
Qed.
Lemma adds_trans p q st st1 st2 : adds p st st1 -> adds q st1 st2 -> adds (p ++ q) st st2.
Proof.
  intros (F1 & S1 & D1 & V1) (F2 & S2 & D2 & V2). split; [exact F2|]. split; [rewrite S2, S1, sq_app; apply sums_add_assoc|]. split.
  - intros k. destruct (D2 k) as [-> ->]. apply D1.
  - intros k i j Hi Hj. rewrite V2, V1, lsum_app by auto. ring.
Qed.
Lemma fold_adds (step : di_state -> nat -> res di_state) (pts : nat -> list gpoint) l : forall st, w_fl (fst (fst st)) = fl ->
  (forall x st, In x l -> w_fl (fst (fst st)) = fl -> exists st', step st x = Ok st' /\ adds (pts x) st st') ->
  exists st', fold_res step l st = Ok st' /\ adds (flat_map pts l) st st'.
Proof.
  induction l as [|x l IH]; intros st Hf Hs; cbn [fold_res flat_map].
  - exists st. split; [reflexivity|apply adds_nil; exact Hf].
  - destruct (Hs x st (or_introl eq_refl) Hf) as (s1 & E1 & A1). rewrite E1. cbn [bind].
    destruct (IH s1 (proj1 A1)) as (s2 & E2 & A2); [intros; apply Hs; [right|]; auto|]. exists s2. split; [exact E2|eapply adds_trans; eauto].
Qed.
End Run.

Section Driver.
Variables (lib : libxc) (b : abasis) (Rh : R) (ru : rule) (fn : functional).
Hypothesis HB : di_grid_ok b Rh ru.
Hypothesis HF : functional_ok lib fn.
Hypothesis HL : uses fn (is_lapl lib) = false.
Let n := at_nbf b.
Hypothesis Hn : (0 < n)%nat.

Definition sums_of pol Ps (pts : list gpoint) : sums :=
  (lsum pts (fun q => p_w q * e_exc lib pol fn (pargs n pol Ps q) * tot_dens n pol Ps q),
   lsum pts (fun q => p_w q * tot_dens n pol Ps q),
   if uses fn (is_tau lib) then lsum pts (fun q => p_w q * tot_tau n pol Ps q) else 0).
Lemma sums_of_nil pol Ps : sums_of pol Ps [] = (0, 0, 0).
Proof. unfold sums_of. destruct (uses fn (is_tau lib)); reflexivity. Qed.
Lemma sums_of_app pol Ps p q : sums_of pol Ps (p ++ q) = sums_add (sums_of pol Ps p) (sums_of pol Ps q).
Proof. unfold sums_of, sums_add. rewrite !lsum_app. destruct (uses fn (is_tau lib)); cbn [fst snd]; [reflexivity|]. f_equal. ring. Qed.

Lemma di_step_ok pol fock Ps (f : gpoint -> nat -> nat -> nat -> R) : length Ps = nspin pol ->
  (forall P, In P Ps -> is_density n P) ->
  (forall g pts d x, grid_rep (fn_flags lib fn) n g pts -> dens_rep (fn_flags lib fn) n pts pol Ps d ->
     xc_rep lib (fn_flags lib fn) n pts pol Ps (fn_thr fn) (parts fn) x ->
     exists us, fock (mkW (fn_flags lib fn) g d x) = Ok us /\
       forall k i j, (i < n)%nat -> (j < n)%nat -> effect us k i j = lsum pts (fun q => f q k i j)) ->
  forall st iel irad, w_fl (fst (fst st)) = fn_flags lib fn -> (iel < get_nelem (ab_fe b))%nat -> (irad < length (ab_r b iel))%nat ->
  exists st', di_point_step pol fock lib b Rh ru fn Ps st iel irad = Ok st' /\
    adds (fn_flags lib fn) (sums_of pol Ps) f n (di_row_points b Rh ru iel irad) st st'.
Proof.
  intros Hlen HP Hfock [[w s] H] iel irad Hw Hiel Hir. cbn [fst snd] in Hw. unfold di_point_step.
  assert (Hl : f_lapl (w_fl w) = false) by (rewrite Hw; exact HL).
  destruct (di_compute_bf_ok b Rh ru iel irad HB Hiel Hir w Hl) as (g & E1 & HG). rewrite E1, Hw in *. cbn [bind]. fold n in HG.
  destruct (update_density_ok (fn_flags lib fn) n g _ HG (fn_flags_ok lib fn) pol Ps Hlen HP Hn (mkW (fn_flags lib fn) g (w_d w) (w_x w)) eq_refl eq_refl) as (d & E2 & HD).
  unfold di_update_density. cbn [w_fl w_x] in E2 |- *. rewrite Hl, E2. cbn [bind].
  destruct (run_xc_ok lib fn n g _ pol Ps d (w_x w) HF (gr_n HG) HD) as (x & E3 & HX).
  rewrite (compute_Nel_ok lib fn n g _ pol Ps HG d x HD HX (w_x w)). cbn [bind].
  rewrite (compute_Ekin_ok lib fn n g _ pol Ps HG d x HD HX (w_x w)). cbn [bind].
  rewrite E3. cbn [bind]. rewrite (eval_Exc_ok lib fn n g _ pol Ps HG d x HD HX). cbn [bind].
  destruct (Hfock g _ d x HG HD HX) as (us & E4 & Ef). rewrite E4. cbn [bind].
  eexists. split; [reflexivity|]. destruct (apply_updates_ok us H) as [D V].
  split; [reflexivity|]. split; [reflexivity|]. cbn [snd]. split; [exact D|].
  intros k i j Hi Hj. rewrite V, Ef by auto. reflexivity.
Qed.

Lemma di_loops_ok pol fock Ps f st : length Ps = nspin pol -> (forall P, In P Ps -> is_density n P) ->
  (forall g pts d x, grid_rep (fn_flags lib fn) n g pts -> dens_rep (fn_flags lib fn) n pts pol Ps d ->
     xc_rep lib (fn_flags lib fn) n pts pol Ps (fn_thr fn) (parts fn) x ->
     exists us, fock (mkW (fn_flags lib fn) g d x) = Ok us /\
       forall k i j, (i < n)%nat -> (j < n)%nat -> effect us k i j = lsum pts (fun q => f q k i j)) ->
  w_fl (fst (fst st)) = fn_flags lib fn ->
  exists st', di_loops b (di_point_step pol fock lib b Rh ru fn Ps) st = Ok st' /\
    adds (fn_flags lib fn) (sums_of pol Ps) f n (di_raw_points b Rh ru) st st'.
Proof.
  intros Hlen HP Hfock Hw. unfold di_loops, di_raw_points.
  apply fold_adds; auto using sums_of_nil, sums_of_app. intros iel st1 Hi Hw1. apply in_seq in Hi.
  apply fold_adds; auto using sums_of_nil, sums_of_app. intros ir st2 Hi2 Hw2. apply in_seq in Hi2.
  apply di_step_ok; auto; lia.
Qed.

(** * Boundary conditions *)
Lemma surv_nodup : NoDup (di_functions b).
Proof. apply positions_nodup. Qed.
Lemma all_length sh Nrad : length (all_functions sh Nrad) = (length sh * Nrad)%nat.
Proof.
  unfold all_functions. induction sh as [|x sh IH]; [reflexivity|]. cbn [flat_map length]. rewrite app_length, map_length, seq_length, IH. reflexivity.
Qed.
Lemma surv_lt i : In i (di_functions b) -> (i < n)%nat.
Proof. intros H. apply positions_lt in H. rewrite all_length in H. exact H. Qed.
Lemma di_fn_lt i : (i < di_nbf b)%nat -> (di_fn b i < n)%nat.
Proof. intros H. apply surv_lt, nth_In, H. Qed.

Definition extends (Q P : mat) : Prop :=
  (forall i j, (i < di_nbf b)%nat -> (j < di_nbf b)%nat -> Q (di_fn b i) (di_fn b j) = P i j) /\
  forall r c, ~ In r (di_functions b) \/ ~ In c (di_functions b) -> Q r c = 0.

Lemma contract_pull Q P x : extends Q P -> contract n Q x = contract (di_nbf b) P (fun i j => x (di_fn b i) (di_fn b j)).
Proof.
  intros [H1 H2]. transitivity (contract n (fun i j => 1) (fun i j => Q i j * x i j)).
  { apply sum_ext; intros i _; apply sum_ext; intros j _; ring. }
  rewrite <- (contract_local n (di_functions b)); [|apply surv_nodup|apply surv_lt|intros i j _ _ Hz; rewrite H2 by exact Hz; ring].
  apply sum_ext. intros i Hi. apply sum_ext. intros j Hj. rewrite <- H1 by auto. unfold di_fn. ring.
Qed.
Lemma dens_pull Q P q : extends Q P -> dens n Q q = dens (di_nbf b) P (pull (di_fn b) q).
Proof. exact (contract_pull Q P _). Qed.
Lemma grad_pull Q P q c : extends Q P -> grad n Q q c = grad (di_nbf b) P (pull (di_fn b) q) c.
Proof. exact (contract_pull Q P _). Qed.
Lemma tau_pull Q P q : extends Q P -> tau n Q q = tau (di_nbf b) P (pull (di_fn b) q).
Proof. exact (contract_pull Q P _). Qed.
Lemma lapl_pull Q P q : extends Q P -> lapl n Q q = lapl (di_nbf b) P (pull (di_fn b) q).
Proof. exact (contract_pull Q P _). Qed.
Lemma dot_pull Q P Q' P' q : extends Q P -> extends Q' P' ->
  dot3 (grad n Q q) (grad n Q' q) = dot3 (grad (di_nbf b) P (pull (di_fn b) q)) (grad (di_nbf b) P' (pull (di_fn b) q)).
Proof. intros H H'. apply sum_ext. intros c _. rewrite (grad_pull Q P), (grad_pull Q' P') by auto. reflexivity. Qed.
Lemma dotg_pull Q P q i j : extends Q P -> dot3 (grad n Q q) (fun c => pair_g q c (di_fn b i) (di_fn b j))
  = dot3 (grad (di_nbf b) P (pull (di_fn b) q)) (fun c => pair_g (pull (di_fn b) q) c i j).
Proof. intros H. apply sum_ext. intros c _. rewrite (grad_pull Q P) by auto. reflexivity. Qed.
Lemma args1_pull Q P q : extends Q P -> args1 n Q q = args1 (di_nbf b) P (pull (di_fn b) q).
Proof. intros H. unfold args1. rewrite (dens_pull Q P), (dot_pull Q P Q P), (lapl_pull Q P), (tau_pull Q P) by auto. reflexivity. Qed.
Lemma args2_pull Q P Q' P' q : extends Q P -> extends Q' P' -> args2 n Q Q' q = args2 (di_nbf b) P P' (pull (di_fn b) q).
Proof.
  intros H H'. unfold args2. rewrite (dens_pull Q P), (dens_pull Q' P'), (dot_pull Q P Q P), (dot_pull Q P Q' P'), (dot_pull Q' P' Q' P'),
    (lapl_pull Q P), (lapl_pull Q' P'), (tau_pull Q P), (tau_pull Q' P') by auto. reflexivity.
Qed.
Lemma fock1_pull Q P q i j : extends Q P -> fock1 lib fn n Q q (di_fn b i) (di_fn b j) = fock1 lib fn (di_nbf b) P (pull (di_fn b) q) i j.
Proof. intros H. unfold fock1. rewrite (args1_pull Q P), (dotg_pull Q P) by auto. reflexivity. Qed.
Lemma fock2_pull Q P Q' P' s q i j : extends Q P -> extends Q' P' ->
  fock2 lib fn n Q Q' s q (di_fn b i) (di_fn b j) = fock2 lib fn (di_nbf b) P P' s (pull (di_fn b) q) i j.
Proof.
  intros H H'. unfold fock2. rewrite (args2_pull Q P Q' P') by auto.
  destruct (Nat.eqb s 0); rewrite (dotg_pull Q P), (dotg_pull Q' P') by auto; reflexivity.
Qed.
Lemma lsum_pull F : lsum (di_points b Rh ru) F = lsum (di_raw_points b Rh ru) (fun q => F (pull (di_fn b) q)).
Proof. unfold di_points. induction (di_raw_points b Rh ru) as [|q l IH]; [reflexivity|]. cbn [map]. unfold lsum in *. cbn. rewrite IH. reflexivity. Qed.

Lemma expand_density P : is_density (di_nbf b) P ->
  exists Q, expand_boundaries (ab_sh b) (at_nr b) P = Ok Q /\ is_density n Q /\ extends (dent Q) (dent P).
Proof.
  intros (R & C & S). destruct (expand_ok (ab_sh b) (at_nr b) P R C) as (Q & E & QR & QC & V & Z). exists Q. split; [exact E|].
  assert (X : extends (dent Q) (dent P)) by (split; [exact V|exact Z]). split; [|exact X].
  split; [exact QR|split; [exact QC|]]. intros i j _ _.
  destruct (in_dec Nat.eq_dec i (di_functions b)) as [Hi|Hi]; [|rewrite !Z by auto; reflexivity].
  destruct (in_dec Nat.eq_dec j (di_functions b)) as [Hj|Hj]; [|rewrite !Z by auto; reflexivity].
  destruct (In_nth _ _ 0%nat Hi) as (a & Ha & <-). destruct (In_nth _ _ 0%nat Hj) as (c & Hc & <-).
  fold (di_fn b a) (di_fn b c). destruct X as [X _]. rewrite !X by auto. apply S; auto.
Qed.

Lemma nr_ok : exists nb, get_nbf (ab_fe b) = Ok nb /\ Z.to_nat nb = at_nr b.
Proof.
  destruct HB as [_ [(H1 & H2 & _) _]]. unfold at_nr. destruct (layout_total (ab_fe b)) as (_ & _ & nb & E); [exact H1|exact H2|]. rewrite E. exists nb. auto.
Qed.

Lemma di_driver_ok pol fock Ps Qs f : fold_res (fun l P => bind (expand_boundaries (ab_sh b) (at_nr b) P) (fun Q => Ok (l ++ [Q]))) Ps [] = Ok Qs ->
  length Qs = nspin pol -> (forall P, In P Qs -> is_density n P) ->
  (forall g pts d x, grid_rep (fn_flags lib fn) n g pts -> dens_rep (fn_flags lib fn) n pts pol Qs d ->
     xc_rep lib (fn_flags lib fn) n pts pol Qs (fn_thr fn) (parts fn) x ->
     exists us, fock n (mkW (fn_flags lib fn) g d x) = Ok us /\
       forall k i j, (i < n)%nat -> (j < n)%nat -> effect us k i j = lsum pts (fun q => f q k i j)) ->
  exists H, di_driver pol fock lib b Rh ru fn Ps = Ok (at_nr b, H, sums_of pol Qs (di_raw_points b Rh ru)) /\
    forall k, is_mat (H k) n n (fun i j => lsum (di_raw_points b Rh ru) (fun q => f q k i j)).
Proof.
  intros EQ Hlen HP Hfock. unfold di_driver. destruct nr_ok as (nb & Enb & Enr). rewrite Enb. cbn [bind].
  rewrite (check_ok lib fn HF). cbn [bind]. rewrite Enr, EQ. cbn [bind].
  change (di_Ndummy (ab_sh b) (at_nr b)) with n.
  destruct (di_loops_ok pol (fock n) Qs f (new_worker (fn_flags lib fn), (0, 0, 0), fun _ => dzero n n) Hlen HP Hfock eq_refl) as ([[w s] H] & E & A).
  rewrite E. cbn [bind]. destruct A as (_ & A2 & A3 & A4). cbn [fst snd] in A2, A3, A4. rewrite sums_add_0l in A2. subst s.
  exists H. split; [reflexivity|]. intros k. destruct (A3 k) as [D1 D2]. split; [exact D1|split; [exact D2|]].
  intros i j Hi Hj. rewrite A4 by auto. cbn [dzero dent]. apply Rplus_0_l.
Qed.

Lemma di_eval_Fxc_ok P : is_density (di_nbf b) P ->
  exists H, di_eval_Fxc lib b Rh ru fn P
      = Ok (H, (spec_exc1 lib fn (di_nbf b) (dent P) (di_points b Rh ru), spec_nel (di_nbf b) (dent P) (di_points b Rh ru),
                if uses fn (is_tau lib) then spec_ekin (di_nbf b) (dent P) (di_points b Rh ru) else 0)) /\
    is_mat H (di_nbf b) (di_nbf b) (spec_fock1 lib fn (di_nbf b) (dent P) (di_points b Rh ru)).
Proof.
  intros HP. destruct (expand_density P HP) as (Q & EQ & HQ & HX).
  destruct (di_driver_ok false (fun Nd w => di_fock_restricted w Nd) [P] [Q]
     (fun q k i j => if Nat.eqb 0 k then p_w q * fock1 lib fn n (dent Q) q i j else 0)) as (H & E & HM).
  { cbn [fold_res]. rewrite EQ. reflexivity. } { reflexivity. } { intros ? [<-|[]]; exact HQ. }
  { intros g pts d x HG HD HXc. destruct (eval_Fxc_restricted_ok lib fn n g pts Q d x HG HD HXc) as (us & E & _ & Ef).
    exists us. split.
    - unfold di_fock_restricted. cbn [w_d w_x]. rewrite (dr_pol _ _ _ _ _ _ HD), (xr_ml _ _ _ _ _ _ _ _ _ HXc).
      change (usesl (parts fn) (is_lapl lib)) with (uses fn (is_lapl lib)). rewrite HL. exact E.
    - intros k i j Hi Hj. rewrite Ef by auto. destruct (Nat.eqb 0 k); [reflexivity|]. symmetry. apply lsum_zero. reflexivity. }
  unfold di_eval_Fxc. rewrite E. cbn [bind]. destruct (HM 0%nat) as (M1 & M2 & M3).
  destruct (remove_ok (ab_sh b) (at_nr b) (H 0%nat) M1 M2) as (G & EG & G1 & G2 & G3). rewrite EG. cbn [bind].
  exists G. split.
  - f_equal. f_equal. unfold sums_of, spec_exc1, spec_nel, spec_ekin, tot_dens, tot_tau, pargs. unfold spin; cbn [nth map]. rewrite !lsum_pull.
    f_equal; [f_equal|].
    + apply lsum_ext. intros q _. cbn [pull p_w]. rewrite (args1_pull _ _ q HX), (dens_pull _ _ q HX). reflexivity.
    + apply lsum_ext. intros q _. rewrite (dens_pull _ _ q HX). reflexivity.
    + destruct (uses fn (is_tau lib)); [|reflexivity]. apply lsum_ext. intros q _. rewrite (tau_pull _ _ q HX). reflexivity.
  - split; [exact G1|split; [exact G2|]]. intros i j Hi Hj. rewrite G3.
    fold (di_functions b). fold (di_fn b i) (di_fn b j). rewrite M3 by (apply di_fn_lt; auto). unfold spec_fock1. rewrite lsum_pull.
    apply lsum_ext. intros q _. cbn [Nat.eqb]. rewrite (fock1_pull _ _ q i j HX). reflexivity.
Qed.

Lemma di_eval_Fxc_pol_ok Pa Pb beta : is_density (di_nbf b) Pa -> is_density (di_nbf b) Pb ->
  exists Ha Hb, di_eval_Fxc_pol lib b Rh ru fn Pa Pb beta
      = Ok (Ha, Hb, (spec_exc2 lib fn (di_nbf b) (dent Pa) (dent Pb) (di_points b Rh ru),
                spec_nel (di_nbf b) (dent Pa) (di_points b Rh ru) + spec_nel (di_nbf b) (dent Pb) (di_points b Rh ru),
                if uses fn (is_tau lib) then spec_ekin (di_nbf b) (dent Pa) (di_points b Rh ru) + spec_ekin (di_nbf b) (dent Pb) (di_points b Rh ru) else 0)) /\
    is_mat Ha (di_nbf b) (di_nbf b) (spec_fock2 lib fn (di_nbf b) (dent Pa) (dent Pb) 0 (di_points b Rh ru)) /\
    is_mat Hb (di_nbf b) (di_nbf b) (if beta then spec_fock2 lib fn (di_nbf b) (dent Pa) (dent Pb) 1 (di_points b Rh ru) else fun _ _ => 0).
Proof.
  intros HPa HPb. destruct (expand_density Pa HPa) as (Qa & EQa & HQa & HXa). destruct (expand_density Pb HPb) as (Qb & EQb & HQb & HXb).
  destruct (di_driver_ok true (fun Nd w => di_fock_polarised w beta Nd) [Pa; Pb] [Qa; Qb]
     (fun q k i j => if (Nat.eqb 0 k || (Nat.eqb 1 k && beta))%bool then p_w q * fock2 lib fn n (dent Qa) (dent Qb) k q i j else 0)) as (H & E & HM).
  { cbn [fold_res]. rewrite EQa. cbn [bind fold_res app]. rewrite EQb. reflexivity. } { reflexivity. } { intros ? [<-|[<-|[]]]; assumption. }
  { intros g pts d x HG HD HXc.
    destruct (eval_Fxc_polarised_ok lib fn n g pts Qa Qb d x increment_lda_split beta lda_split_ok HG HD HXc (or_introl HL)) as (us & E & _ & Ef).
    exists us. split.
    - unfold di_fock_polarised. cbn [w_d w_x]. rewrite (dr_pol _ _ _ _ _ _ HD), (xr_ml _ _ _ _ _ _ _ _ _ HXc).
      change (usesl (parts fn) (is_lapl lib)) with (uses fn (is_lapl lib)). rewrite HL. exact E.
    - intros k i j Hi Hj. rewrite Ef by auto. destruct (_ || _)%bool; [|symmetry; apply lsum_zero; reflexivity].
      apply lsum_ext. intros q _. unfold n. rewrite deficit_zero by (left; exact HL). ring. }
  unfold di_eval_Fxc_pol. rewrite E. cbn [bind]. destruct (HM 0%nat) as (M1 & M2 & M3). destruct (HM 1%nat) as (N1 & N2 & N3).
  destruct (remove_ok (ab_sh b) (at_nr b) (H 0%nat) M1 M2) as (G & EG & G1 & G2 & G3). rewrite EG. cbn [bind].
  destruct (remove_ok (ab_sh b) (at_nr b) (H 1%nat) N1 N2) as (G' & EG' & G1' & G2' & G3'). rewrite EG'. cbn [bind].
  exists G, G'. split; [|split].
  - f_equal. f_equal. unfold sums_of, spec_exc2, spec_nel, spec_ekin, tot_dens, tot_tau, pargs. unfold spin; cbn [nth map]. rewrite !lsum_pull, <- !lsum_plus.
    f_equal; [f_equal|].
    + apply lsum_ext. intros q _. cbn [pull p_w]. rewrite (args2_pull _ _ _ _ q HXa HXb), (dens_pull _ _ q HXa), (dens_pull _ _ q HXb). reflexivity.
    + apply lsum_ext. intros q _. rewrite (dens_pull _ _ q HXa), (dens_pull _ _ q HXb). cbn [pull p_w]. ring.
    + destruct (uses fn (is_tau lib)); [|reflexivity]. apply lsum_ext. intros q _. rewrite (tau_pull _ _ q HXa), (tau_pull _ _ q HXb). cbn [pull p_w]. ring.
  - split; [exact G1|split; [exact G2|]]. intros i j Hi Hj. rewrite G3.
    fold (di_functions b). fold (di_fn b i) (di_fn b j). rewrite M3 by (apply di_fn_lt; auto). unfold spec_fock2. rewrite lsum_pull.
    apply lsum_ext. intros q _. cbn [Nat.eqb orb]. rewrite (fock2_pull _ _ _ _ 0 q i j HXa HXb). reflexivity.
  - split; [exact G1'|split; [exact G2'|]]. intros i j Hi Hj. rewrite G3'.
    fold (di_functions b). fold (di_fn b i) (di_fn b j). rewrite N3 by (apply di_fn_lt; auto). cbn [Nat.eqb orb andb].
    destruct beta; [|apply lsum_zero; reflexivity]. unfold spec_fock2. rewrite lsum_pull.
    apply lsum_ext. intros q _. rewrite (fock2_pull _ _ _ _ 1 q i j HXa HXb). reflexivity.
Qed.
End Driver.
