(** Proofs about the construction of a basis from Slater or Gaussian functions. *)
Require Import Reals ZArith List Bool Arith Lia Lra.
Require Import Verif.Prelude Verif.FEModel Verif.FEProofs Verif.AngModel Verif.JKModel Verif.JKSpec Verif.JKProofs
  Verif.NaoModel Verif.NaoSpec Verif.NaoProofs Verif.NaoExtent.
Import ListNotations.
Local Open Scope R_scope.

Lemma bad_prim_ok n0 p : bad_prim n0 p = false <-> valid_prim n0 p.
Proof.
  unfold bad_prim, valid_prim. rewrite orb_false_iff. destruct (Rleb_spec (p_exp p) 0); rewrite Z.ltb_ge; split; intros []; split; auto; try lra; discriminate.
Qed.
Lemma existsb_false {A} (f : A -> bool) l : existsb f l = false <-> Forall (fun x => f x = false) l.
Proof.
  induction l; cbn [existsb]; [split; auto|]. rewrite orb_false_iff, IHl. split.
  - intros []; now constructor.
  - intros H. now inversion H.
Qed.
Lemma bad_contr_ok n0 c : bad_contr n0 c = false <->
  c_prims c <> [] /\ length (c_coef c) = length (c_prims c) /\ Forall (valid_prim n0) (c_prims c).
Proof.
  unfold bad_contr. rewrite !orb_false_iff, existsb_false, negb_false_iff, Nat.eqb_eq.
  assert (E : (length (c_prims c) =? 0)%nat = false <-> c_prims c <> []).
  { destruct (c_prims c); cbn; split; congruence. }
  rewrite E. assert (F : Forall (fun x => bad_prim n0 x = false) (c_prims c) <-> Forall (valid_prim n0) (c_prims c)).
  { rewrite !Forall_forall. split; intros H x Hx; apply bad_prim_ok; auto. }
  rewrite F. tauto.
Qed.
Lemma validate_ok n0 bas : (validate n0 bas = Ok tt <-> valid_basis n0 bas) /\ (~ valid_basis n0 bas -> validate n0 bas = Throw LogicError).
Proof.
  assert (E : existsb (bad_contr n0) bas = false <-> Forall (fun c => c_prims c <> [] /\ length (c_coef c) = length (c_prims c) /\ Forall (valid_prim n0) (c_prims c)) bas).
  { rewrite existsb_false, !Forall_forall. split; intros H x Hx; apply bad_contr_ok; auto. }
  unfold validate, valid_basis. destruct bas as [|c bas].
  - cbn. split; [split; [discriminate|intros [[] _]; reflexivity]|auto].
  - cbn [length Nat.eqb]. destruct (existsb (bad_contr n0) (c :: bas)) eqn:Eb.
    + split; [split; [discriminate|]|auto]. intros [_ H]. apply E in H. discriminate.
    + split; [split; auto|].
      * intros _. split; [discriminate|]. now apply E.
      * intros H. exfalso. apply H. split; [discriminate|]. now apply E.
Qed.
Lemma valid_prims n0 bas p : valid_basis n0 bas -> In p (primitives bas) -> valid_prim n0 p.
Proof.
  intros [_ H] Hp. apply in_flat_map in Hp. destruct Hp as (c & Hc & Hp). rewrite Forall_forall in H.
  destruct (H c Hc) as (_ & _ & F). rewrite Forall_forall in F. auto.
Qed.
Lemma some_prim n0 bas : valid_basis n0 bas -> exists p, In p (primitives bas).
Proof.
  intros [N H]. destruct bas as [|c bas]; [congruence|]. inversion H as [|? ? (A & _)]; subst.
  destruct (c_prims c) as [|p l] eqn:E; [congruence|]. exists p. unfold primitives. cbn [flat_map]. rewrite E. now left.
Qed.

(** The largest extent. *)
Lemma r_max_flat ext bas : forall m, fold_res (fun m c => fold_res (fun m p => bind (ext p) (fun e => Ok (Rmax m e))) (c_prims c) m) bas m =
  fold_res (fun m p => bind (ext p) (fun e => Ok (Rmax m e))) (primitives bas) m.
Proof.
  assert (app : forall {S X} (f : S -> X -> res S) l1 l2 s, fold_res f (l1 ++ l2) s = bind (fold_res f l1 s) (fold_res f l2)).
  { induction l1; intros l2 s; cbn [fold_res app bind]; auto. destruct (f s a); cbn [bind]; auto. }
  induction bas as [|c bas IH]; intros m; [reflexivity|]. unfold primitives. cbn [fold_res flat_map]. rewrite app.
  destruct (fold_res _ (c_prims c) m); cbn [bind]; auto.
Qed.
Lemma max_list (ext : prim -> res R) (l : list prim) : forall m, 0 <= m -> (forall p, In p l -> exists e, ext p = Ok e /\ 0 < e) ->
  exists M, fold_res (fun m p => bind (ext p) (fun e => Ok (Rmax m e))) l m = Ok M /\ m <= M /\
    (M = m \/ exists p, In p l /\ ext p = Ok M) /\ forall p, In p l -> exists e, ext p = Ok e /\ e <= M.
Proof.
  induction l as [|p l IH]; intros m Hm H.
  - exists m. cbn. repeat split; auto; [lra|]. intros p [].
  - destruct (H p (or_introl eq_refl)) as (e & Ee & He). cbn [fold_res]. rewrite Ee. cbn [bind].
    destruct (IH (Rmax m e)) as (M & EM & H1 & H2 & H3). { pose proof (Rmax_l m e). lra. } { intros q Hq. apply H. now right. }
    exists M. pose proof (Rmax_l m e). pose proof (Rmax_r m e). repeat split; auto; [lra| |].
    + destruct H2 as [E|(q & Hq & E)]; [|right; exists q; split; [now right|auto]].
      unfold Rmax in E. destruct (Rle_dec m e); [right; exists p; split; [now left|congruence]|now left].
    + intros q [<-|Hq]; [exists e; split; auto; lra|auto].
Qed.
Lemma r_max_ok n0 ext bas : valid_basis n0 bas -> (forall p, In p (primitives bas) -> exists e, ext p = Ok e /\ 0 < e) ->
  exists M, r_max ext bas = Ok M /\ 0 < M /\ largest ext bas M.
Proof.
  intros Hv H. unfold r_max. rewrite r_max_flat.
  destruct (max_list ext (primitives bas) 0 ltac:(lra) H) as (M & EM & H1 & H2 & H3).
  destruct (some_prim n0 bas Hv) as (p & Hp). destruct (H p Hp) as (e & Ee & He). destruct (H3 p Hp) as (e' & Ee' & He').
  assert (0 < M) by (rewrite Ee in Ee'; injection Ee' as <-; lra).
  exists M. split; [exact EM|]. split; [auto|]. split; [|exact H3]. destruct H2 as [->|H2]; [lra|exact H2].
Qed.
(** One bound on the fuel for all primitives. *)
Lemma fuel_all {A} (P : nat -> A -> Prop) (l : list A) :
  (forall x, In x l -> exists f0, forall f, (f0 <= f)%nat -> P f x) ->
  exists f0, forall f, (f0 <= f)%nat -> forall x, In x l -> P f x.
Proof.
  induction l as [|x l IH]; intros H. { exists 0%nat. intros f _ x []. }
  destruct (H x (or_introl eq_refl)) as (f1 & H1). destruct IH as (f2 & H2). { intros y Hy. apply H. now right. }
  exists (Nat.max f1 f2). intros f Hf y [<-|Hy]; [apply H1; lia|apply H2; auto; lia].
Qed.

(* ------------------------------------------------------------------ *)
Lemma boundaries_nth rmax n k : (k <= n)%nat -> nth k (boundaries rmax n) 0 = rmax * (exp (2 * INR k / INR n) - 1) / (exp 2 - 1).
Proof.
  intros H. unfold boundaries. set (f := fun k => rmax * (exp (2 * INR k / INR n) - 1) / (exp 2 - 1)).
  rewrite (nth_indep _ 0 (f 0%nat)) by (rewrite map_length, seq_length; lia). rewrite map_nth, seq_nth by lia. reflexivity.
Qed.
Lemma exp2_gt : 0 < exp 2 - 1.
Proof. pose proof (exp_ineq1 2). lra. Qed.
Lemma boundaries_ok rmax nelem nnodes : 0 < rmax -> (1 <= nelem)%Z -> spans (nao_fe rmax nelem nnodes) rmax (Z.to_nat nelem).
Proof.
  intros Hr Hn. unfold spans, nao_fe, get_nelem. cbn [fe_bval]. set (n := Z.to_nat nelem). assert (1 <= n)%nat by (unfold n; lia).
  assert (L : length (boundaries rmax n) = (n + 1)%nat) by (unfold boundaries; now rewrite map_length, seq_length).
  assert (Hn0 : 0 < INR n) by (apply lt_0_INR; lia). pose proof exp2_gt.
  split; [lia|]. split.
  - intros i j Hij Hj. rewrite !boundaries_nth by lia.
    unfold Rdiv. apply Rmult_lt_compat_r; [now apply Rinv_0_lt_compat|]. apply Rmult_lt_compat_l; auto.
    apply Rplus_lt_compat_r, exp_increasing. apply Rmult_lt_compat_r; [now apply Rinv_0_lt_compat|]. apply lt_INR in Hij. lra.
  - rewrite !boundaries_nth by lia. split.
    + cbn [INR]. replace (2 * 0 / INR n) with 0 by (field; lra). rewrite exp_0. field. lra.
    + replace (2 * INR n / INR n) with 2 by (field; lra). field. lra.
Qed.

Lemma vector_ok b nq xq wq bf f : exists V, vector_element b nq xq wq bf f = Ok V /\ forall i, V i = load b nq xq wq bf f i.
Proof.
  unfold vector_element, load.
  set (term := fun i e => let lo := nth e (fe_bval b) 0 in let hi := nth (S e) (fe_bval b) 0 in
    let '(first, n) := elem_range b e in
    if (Nat.leb first i && Nat.ltb i (first + n))%bool
    then sum nq (fun q => wq q * ((hi - lo) / 2) * (bf e (xq q) (i - first)%nat * f ((lo + hi) / 2 + (hi - lo) / 2 * xq q)))
    else 0).
  match goal with |- exists V, fold_res ?F _ _ = _ /\ _ =>
    assert (G : forall l V0, (forall e, In e l -> (e < get_nelem b)%nat) -> exists V, fold_res F l V0 = Ok V /\ forall i, V i = V0 i + lsum l (term i)) end.
  { induction l as [|e l IH]; intros V0 Hl.
    - exists V0. cbn. split; auto. intros; ring.
    - assert (He : (e < get_nelem b)%nat) by (apply Hl; now left). cbn [fold_res].
      unfold element_midpoint at 1. rewrite (begin_ok b e He), (end_ok b e He). cbn [bind].
      unfold scaling_factor at 1, element_length at 1. destruct (Nat.leb_spec (get_nelem b) e); [lia|].
      rewrite !(at_nth _ _ 0) by (unfold get_nelem in He; lia). cbn [bind].
      destruct (elem_range b e) as [first n] eqn:Er. cbn [bind].
      match goal with |- context [fold_res _ l ?V1] => destruct (IH V1) as (V & EV & HV) end. { intros x Hx. apply Hl. now right. }
      exists V. split; [exact EV|]. intros i. rewrite HV. cbn [lsum]. rewrite <- Rplus_assoc. f_equal.
      unfold add_segment, term. rewrite Er. cbv zeta. rewrite Nat.add_1_r. destruct (Nat.leb first i && Nat.ltb i (first + n))%bool; [|ring].
      f_equal. unfold vector_block. apply sum_ext; intros q _.
      set (lo := nth e (fe_bval b) 0). set (hi := nth (S e) (fe_bval b) 0).
      replace (/ 2 * (lo + hi) + (hi - lo) / 2 * xq q) with ((lo + hi) / 2 + (hi - lo) / 2 * xq q) by field. ring. }
  destruct (G (seq 0 (get_nelem b)) (fun _ => 0)) as (V & EV & HV). { intros e He. apply in_seq in He. lia. }
  exists V. split; [exact EV|]. intros i. rewrite HV, lsum_seq0. unfold term. ring.
Qed.

Section Build.
Variables (radial_of : fe -> radial) (bf_of : fe -> nat -> R -> nat -> R).
Variables (nq : nat) (xq wq : vec) (ldlt : dmat -> vec -> vec).

Lemma project_ok b us : square (r_nbf (radial_of b)) (r_overlap (radial_of b)) -> solves (r_overlap (radial_of b)) ldlt ->
  exists C, project radial_of bf_of nq xq wq ldlt b us = Ok C /\ drows C = r_nbf (radial_of b) /\ dcols C = length us /\
    forall k i, (k < length us)%nat -> (i < drows C)%nat ->
      sum (drows C) (fun j => dent (r_overlap (radial_of b)) i j * column C k j) = load b nq xq wq (bf_of b) (nth k us (fun _ => 0)) i.
Proof.
  intros [Hr Hc] Hs. unfold project. set (Sm := r_overlap (radial_of b)) in *.
  assert (G : forall us, exists cols, each_res (fun f => bind (vector_element b nq xq wq (bf_of b) f) (fun be => Ok (ldlt Sm be))) us = Ok cols /\
     length cols = length us /\ forall k i, (k < length us)%nat -> (i < drows Sm)%nat ->
       sum (dcols Sm) (fun j => dent Sm i j * nth k cols (fun _ => 0) j) = load b nq xq wq (bf_of b) (nth k us (fun _ => 0)) i).
  { clear us. induction us as [|f us IH]; cbn [each_res].
    - exists []. repeat split; auto. intros k i Hk. cbn in Hk. lia.
    - destruct (vector_ok b nq xq wq (bf_of b) f) as (V & EV & HV). rewrite EV. cbn [bind].
      destruct IH as (cols & EC & LC & HC). rewrite EC. cbn [bind]. eexists; split; [reflexivity|]. split; [cbn; now rewrite LC|].
      intros [|k] i Hk Hi; cbn [nth].
      + rewrite <- HV. now apply Hs.
      + apply HC; auto. cbn in Hk. lia. }
  destruct (G us) as (cols & EC & LC & HC). rewrite EC. cbn [bind]. eexists; split; [reflexivity|]. cbn [drows dcols].
  split; [exact Hr|]. split; [reflexivity|]. intros k i Hk Hi. unfold column. cbn [dent]. rewrite <- HC by auto. now rewrite Hr, Hc.
Qed.
Lemma build_ok h a rmax us nelem nnodes : (1 <= nelem)%Z -> (2 <= nnodes)%Z -> us <> [] ->
  let b := nao_fe rmax nelem nnodes in
  square (r_nbf (radial_of b)) (r_overlap (radial_of b)) -> solves (r_overlap (radial_of b)) ldlt ->
  projected radial_of bf_of nq xq wq h a b us (build radial_of bf_of nq xq wq ldlt h a rmax us nelem nnodes).
Proof.
  intros Hn Hk Hu b Hsq Hs. unfold build. destruct (Z.ltb_spec nelem 1); [lia|].
  unfold get_basis. destruct (Z.ltb_spec nnodes 2); [lia|]. cbn [bind pb_family pb_nnodes]. fold (nao_fe rmax nelem nnodes). fold b.
  destruct (project_ok b us Hsq Hs) as (C & EC & C1 & C2 & C3). rewrite EC. cbn [bind].
  pose proof (owned_ok h a (radial_of b) C) as Ho. destruct (from_owned h a (radial_of b) C) as [h' n]. destruct Ho as (O1 & O2 & O3 & _).
  rewrite O3. 2:{ split; auto. destruct us; [congruence|]. rewrite C2. cbn. lia. } cbn [bind].
  exists h', C. repeat split; auto.
Qed.

Section Make.
Variables (n0 : Z) (ext : nat -> R -> prim -> res R) (us : list contracted -> list (R -> R)).
Variables (shape : prim -> R -> R) (peak : prim -> R).
Hypothesis Hext : forall p tol, valid_prim n0 p -> exp (- (10 ^ 40)) <= tol -> maximum_at (shape p) (peak p) /\
  exists fuel0, forall fuel, (fuel0 <= fuel)%nat -> exists e, ext fuel tol p = Ok e /\
    tail_radius (shape p) (peak p) tol (1 / 10 ^ 12 * Rmax 1 (peak p)) e.
Hypothesis Hus : forall bas, length (us bas) = length bas.
Let make fuel h a bas tol nelem nnodes :=
  bind (validate n0 bas) (fun _ => bind (r_max (ext fuel tol) bas) (fun rmax => build radial_of bf_of nq xq wq ldlt h a rmax (us bas) nelem nnodes)).
Lemma make_ok h a bas tol nelem nnodes : valid_basis n0 bas -> exp (- (10 ^ 40)) <= tol -> (1 <= nelem)%Z -> (2 <= nnodes)%Z ->
  (forall rmax, 0 < rmax -> let u := radial_of (nao_fe rmax nelem nnodes) in square (r_nbf u) (r_overlap u) /\ solves (r_overlap u) ldlt) ->
  exists fuel0, forall fuel, (fuel0 <= fuel)%nat -> exists rmax,
    largest (ext fuel tol) bas rmax /\
    (forall p, In p (primitives bas) -> maximum_at (shape p) (peak p) /\ negligible_from (shape p) (peak p) tol rmax) /\
    spans (nao_fe rmax nelem nnodes) rmax (Z.to_nat nelem) /\
    projected radial_of bf_of nq xq wq h a (nao_fe rmax nelem nnodes) (us bas) (make fuel h a bas tol nelem nnodes).
Proof.
  intros Hv Ht Hn Hk Hu.
  destruct (fuel_all (fun fuel p => exists e, ext fuel tol p = Ok e /\ tail_radius (shape p) (peak p) tol (1 / 10 ^ 12 * Rmax 1 (peak p)) e) (primitives bas)) as (f0 & Hf).
  { intros p Hp. destruct (Hext p tol (valid_prims _ _ _ Hv Hp) Ht) as [_ H]. exact H. }
  exists f0. intros fuel Hle. specialize (Hf fuel Hle).
  destruct (r_max_ok n0 (ext fuel tol) bas Hv) as (M & EM & HM & HL).
  { intros p Hp. destruct (Hf p Hp) as (e & Ee & He & _). exists e. split; auto.
    destruct (Hext p tol (valid_prims _ _ _ Hv Hp) Ht) as [[Hpk _] _]. lra. }
  exists M. split; [exact HL|]. split; [|split].
  - intros p Hp. destruct (Hext p tol (valid_prims _ _ _ Hv Hp) Ht) as [Hmax _]. split; auto.
    destruct (Hf p Hp) as (e & Ee & _ & Hneg & _). destruct (proj2 HL p Hp) as (e' & Ee' & He').
    rewrite Ee in Ee'. injection Ee' as <-. intros r Hr. apply Hneg. lra.
  - now apply boundaries_ok.
  - unfold make. rewrite (proj2 (proj1 (validate_ok n0 bas)) Hv). cbn [bind]. rewrite EM. cbn [bind].
    destruct (Hu M HM) as [U1 U2]. apply build_ok; auto. intros E. apply (f_equal (@length _)) in E. rewrite Hus in E.
    destruct Hv as [Hne _]. destruct bas; [congruence|discriminate].
Qed.
Lemma make_throws fuel h a bas tol nelem nnodes : ~ valid_basis n0 bas -> make fuel h a bas tol nelem nnodes = Throw LogicError.
Proof. intros H. unfold make. now rewrite (proj2 (validate_ok n0 bas) H). Qed.
Lemma make_nodes fuel h a bas tol nelem nnodes rmax : valid_basis n0 bas -> r_max (ext fuel tol) bas = Ok rmax ->
  (1 <= nelem)%Z -> (nnodes < 2)%Z -> make fuel h a bas tol nelem nnodes = Throw LogicError.
Proof.
  intros H E Hn Hk. unfold make. rewrite (proj2 (proj1 (validate_ok n0 bas)) H), E. cbn [bind]. unfold build, get_basis.
  destruct (Z.ltb_spec nelem 1); [lia|]. now destruct (Z.ltb_spec nnodes 2); [|lia].
Qed.
End Make.
End Build.

(* ------------------------------------------------------------------ *)
(** * Projection *)

Section Best.
Variables (B : (R -> R) -> (R -> R) -> R) (n : nat) (phi : nat -> R -> R) (S : mat) (u : R -> R) (c : vec) (ld : vec).
Hypotheses (HB : inner B) (HS : forall i j, (i < n)%nat -> (j < n)%nat -> S i j = B (phi i) (phi j)).
Hypotheses (HL : forall i, (i < n)%nat -> ld i = B (phi i) u).
Hypothesis Hc : forall i, (i < n)%nat -> sum n (fun j => S i j * c j) = ld i.

Lemma inner_sub f g w : B (fun r => f r - g r) w = B f w - B g w.
Proof.
  destruct HB as ((A1 & _ & S1 & _ & X1 & _) & _).
  rewrite (X1 _ (fun r => f r + -1 * g r)) by (intros; ring). rewrite A1, S1. ring.
Qed.
Lemma best d : B (fun r => u r - combination n c phi r) (fun r => u r - combination n c phi r) <=
  B (fun r => u r - combination n d phi r) (fun r => u r - combination n d phi r).
Proof.
  pose proof HB as ((A1 & A2 & S1 & S2 & X1 & X2) & Sy & Po).
  set (e := fun r => u r - combination n c phi r). set (w := combination n (fun i => c i - d i) phi).
  assert (E : forall r, u r - combination n d phi r = e r + w r).
  { intros r. unfold e, w, combination. rewrite (sum_ext n (fun i => (c i - d i) * phi i r) (fun i => c i * phi i r - d i * phi i r)) by (intros; ring). rewrite sum_minus. ring. }
  assert (O : forall i, (i < n)%nat -> B (phi i) e = 0).
  { intros i Hi. rewrite Sy. unfold e. rewrite inner_sub, !(Sy _ (phi i)), (form_right B (proj1 HB)). rewrite <- HL, <- Hc by auto.
    apply Rminus_diag_eq. apply sum_ext; intros j Hj. rewrite HS by auto. ring. }
  assert (Ow : B w e = 0).
  { unfold w. rewrite (form_left B (proj1 HB)). apply sum_zero'. intros i Hi. rewrite O by auto. ring. }
  set (v := fun r => u r - combination n d phi r). rewrite (X1 v (fun r => e r + w r)) by exact E. rewrite (X2 v (fun r => e r + w r)) by exact E.
  rewrite A1, !A2, Ow, (Sy e w), Ow. pose proof (Po w). lra.
Qed.
Lemma reproduced a : nonsingular n S -> (forall i, (i < n)%nat -> B (phi i) u = B (phi i) (combination n a phi)) ->
  forall i, (i < n)%nat -> c i = a i.
Proof.
  intros Hns Hu i Hi. apply Rminus_diag_uniq. revert i Hi. apply (Hns (fun i => c i - a i)). intros i Hi.
  rewrite (sum_ext n _ (fun j => S i j * c j - S i j * a j)) by (intros; ring). rewrite sum_minus, Hc, HL, Hu by auto.
  rewrite (form_right B (proj1 HB)). apply Rminus_diag_eq. apply sum_ext; intros j Hj. rewrite HS by auto. ring.
Qed.
End Best.

(* ------------------------------------------------------------------ *)
(** * Contracted functions *)

Lemma fold_add {A} (f : A -> R) l : forall s, fold_left (fun s x => s + f x) l s = s + lsum l f.
Proof. induction l; intros s; cbn [fold_left lsum]; [ring|]. rewrite IHl. ring. Qed.
Lemma lsum_abs {A} (l : list A) f g : (forall x, In x l -> Rabs (f x) <= g x) -> Rabs (lsum l f) <= lsum l g.
Proof.
  induction l; intros H; cbn [lsum]; [rewrite Rabs_R0; lra|].
  eapply Rle_trans; [apply Rabs_triang|]. apply Rplus_le_compat; [apply H; now left|apply IHl; intros; apply H; now right].
Qed.
Lemma sto_u_sum c r : sto_u c r = contraction (fun p => sto_norm p * slater_shape p r) c.
Proof.
  unfold sto_u, contraction. rewrite (fold_add (fun pc => snd pc * sto_norm (fst pc) * r ^ Z.to_nat (p_n (fst pc)) * exp (- p_exp (fst pc) * r))), Rplus_0_l.
  apply lsum_ext. intros pc _. unfold slater_shape. replace (- p_exp (fst pc) * r) with (- (p_exp (fst pc) * r)) by ring. ring.
Qed.
Lemma gto_u_sum tg c r : gto_u tg c r = contraction (fun p => gto_norm tg p * gauss_shape p r) c.
Proof.
  unfold gto_u, contraction. rewrite (fold_add (fun pc => snd pc * gto_norm tg (fst pc) * r ^ (Z.to_nat (p_n (fst pc)) + 1) * exp (- p_exp (fst pc) * r * r))), Rplus_0_l.
  apply lsum_ext. intros pc _. unfold gauss_shape. replace (- p_exp (fst pc) * r * r) with (- (p_exp (fst pc) * (r * r))) by ring. rewrite Nat.add_1_r. ring.
Qed.
Lemma contraction_tail (shape : prim -> R -> R) (peak : prim -> R) (N : prim -> R) tol c r : (forall p, 0 <= N p) ->
  (forall p, In p (c_prims c) -> 0 <= shape p r /\ shape p r <= tol * shape p (peak p)) ->
  Rabs (contraction (fun p => N p * shape p r) c) <= tol * abs_contraction (fun p => N p * shape p (peak p)) c.
Proof.
  intros HN H. unfold contraction, abs_contraction. rewrite <- lsum_scal. apply lsum_abs. intros [p q] Hp. cbn [fst snd].
  apply in_combine_l in Hp. destruct (H p Hp) as [H1 H2]. rewrite !Rabs_mult, (Rabs_pos_eq (N p)), (Rabs_pos_eq (shape p r)) by auto.
  replace (tol * (Rabs q * (N p * shape p (peak p)))) with (Rabs q * (N p * (tol * shape p (peak p)))) by ring.
  apply Rmult_le_compat_l; [apply Rabs_pos|]. apply Rmult_le_compat_l; auto.
Qed.
