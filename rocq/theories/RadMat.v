(** Proofs about the one-electron matrices. *)
Require Import Reals List Arith Bool ZArith Lia Lra.
Require Import Verif.Prelude Verif.FEModel Verif.FESpec Verif.FEProofs.
Require Import Verif.ShapeModel Verif.ShapeSpec Verif.ShapePoly Verif.ShapeProofs Verif.QuadModel Verif.QuadSpec Verif.QuadProofs.
Require Import Verif.RadModel Verif.RadSpec Verif.RadProofs Verif.RadFun.
Import ListNotations.
Open Scope R_scope.

(** Whatever the acceptance tests say, the ladder returns the block of one of the
    orders it may visit. *)
Lemma rule_any (Blk : Type) dist scale tol q (eval : nat -> Blk) nmax : forall fuel n prev pd ppd tried,
  (1 <= n)%nat -> (nmax < fuel + n)%nat -> (1 <= fuel)%nat ->
  exists m t, rule_loop Blk dist scale tol q eval nmax fuel n prev pd ppd tried = Ok (m :: t, eval m) /\
    (n <= m)%nat /\ (m <= Nat.max n nmax)%nat.
Proof.
  induction fuel as [|k IH]; intros n prev pd ppd tried Hn Hf H1; [lia|]. cbn [rule_loop].
  set (stop := match prev with None => false | Some p => rule_stop Blk dist scale tol q (eval n) p pd ppd end).
  destruct stop; [eexists; eexists; split; [reflexivity | lia]|].
  destruct (match prev with None => (pd, ppd) | Some p => (dist (eval n) p, pd) end) as [a b].
  destruct (Nat.leb_spec nmax n) as [H|H]; [eexists; eexists; split; [reflexivity | lia]|].
  destruct (IH (Nat.min (2 * n) nmax) (Some (eval n)) a b (n :: tried)) as (m & t & E & A & B); [lia | lia | lia |].
  exists m, t. split; [exact E | lia].
Qed.
Lemma converge_any (Blk : Type) dist scale tol q (eval : nat -> Blk) nmax nstart : (nstart <= Z.of_nat nmax)%Z -> (2 <= nmax)%nat ->
  exists m t, converge_rule Blk dist scale tol q eval nmax nstart = Ok (m :: t, eval m) /\
    (nstart <= Z.of_nat m)%Z /\ (2 <= m <= nmax)%nat.
Proof.
  intros H1 H2. unfold converge_rule.
  destruct (rule_any Blk dist scale tol q eval nmax (S nmax) (Z.to_nat (Z.max nstart 2)) None (Fin (-1)) (Fin (-1)) []) as (m & t & E & A & B); [lia | lia | lia |].
  exists m, t. split; [exact E | lia].
Qed.

Lemma mid_ok b e : (e < get_nelem b)%nat -> element_midpoint b e = Ok ((lo b e + hi b e) / 2).
Proof.
  intros H. unfold element_midpoint, lo, hi.
  rewrite begin_ok, end_ok by exact H. cbn [bind]. f_equal. lra.
Qed.

Lemma lsum_scal_r {A} (l : list A) f c : lsum l (fun a => f a * c) = lsum l f * c.
Proof. induction l; cbn [lsum]; [ring | rewrite IHl; ring]. Qed.

Lemma sum_prod c n m f g : c * sum n f * sum m g = sum n (fun i => sum m (fun j => c * f i * g j)).
Proof.
  transitivity (sum n (fun i => c * f i * sum m g)); [rewrite sum_scal_r, sum_scal; reflexivity|].
  apply sum_ext. intros i _. rewrite <- sum_scal. reflexivity.
Qed.

Section Mat.
Variable rb : rad.
Hypothesis Hok : radial_ok rb.
Notation b := (rb_fe rb).
Notation x0 := (rb_x0 rb).
Lemma Hvm : valid_fe b. Proof. exact (proj1 Hok). Qed.

Lemma kind_total k e x : (e < get_nelem b)%nat -> exists v, kind_eval rb k e x = Ok v /\ length v = count b e.
Proof.
  intros He. destruct (en_props b e (proj1 Hvm)) as (en & E & _ & B & L).
  pose proof (one_le_order (fe_fam b)) as Ho. pose proof (two_le_over (fe_fam b)) as Hov.
  assert (X : x = xi b e (radius b e x)).
  { pose proof (half_pos b e Hvm He). unfold xi, radius. field. lra. }
  assert (F : forall n, (n <= max_order (fe_fam b))%nat -> exists v, fe_dnf b x0 n e x = Ok v /\ length v = count b e).
  { intros n Hn. rewrite (dnf_row b x0 n e x en He Hn E). eexists. split; [reflexivity|]. rewrite map_length. exact L. }
  assert (O : forall n, (n <= 2)%nat -> e = 0%nat -> exists v, fe_over_r b x0 n 0 x = Ok v /\ length v = count b e).
  { intros n Hn ->. rewrite (over_eq rb Hok n x en E). rewrite over_ok.
    - eexists. split; [reflexivity|]. rewrite map_length. exact L.
    - lia.
    - pose proof Hok as (_ & _ & _ & _ & Hne). exact (Hne en E).
    - intros i Hi. apply (first_pos rb Hok en i E Hi). }
  destruct k; cbn [kind_eval]; try (apply F; lia).
  - destruct (Nat.eq_dec e 0) as [->|N]; [unfold get_bf; cbn [Nat.eqb]; apply O; lia|].
    rewrite X. rewrite (later_bf rb Hok e _ en He N E). eexists. split; [reflexivity|]. rewrite map_length. exact L.
  - destruct (Nat.eq_dec e 0) as [->|N]; [unfold get_df; cbn [Nat.eqb]; apply O; lia|].
    rewrite X. rewrite (later_df rb Hok e _ en He N E). eexists. split; [reflexivity|]. rewrite map_length. exact L.
  - destruct (Nat.eq_dec e 0) as [->|N]; [unfold get_lf; cbn [Nat.eqb]; apply O; lia|].
    rewrite X. rewrite (later_lf rb Hok e _ en He N E). eexists. split; [reflexivity|]. rewrite map_length. exact L.
Qed.

Lemma kfield_sum k c e x : (e < get_nelem b)%nat ->
  kfield rb k c e x = sum (count b e) (fun j => c (Z.to_nat (offs b 0 e) + j)%nat * entry (kind_eval rb k e x) j).
Proof.
  intros He. destruct (kind_total k e x He) as (v & E & L). unfold kfield. rewrite E.
  rewrite get_idx_closed by (exact (proj1 Hvm) || exact He). rewrite L. reflexivity.
Qed.

Section Rule.
Variables (lobx lobw : nat -> vec) (dist : mat -> mat -> fp) (scale : mat -> fp) (tol sqrteps : R).
Notation me := (me lobx lobw dist scale tol sqrteps).
Notation me_range := (me_range lobx lobw dist scale tol sqrteps).
Notation me_all := (me_all lobx lobw dist scale tol sqrteps).

(** One element: the entries are quadrature sums over the panels. *)
Definition start (deg : Z) : Z := auto_nstart (Z.of_nat (noverlap (fe_fam b))) (Z.of_nat (fe_n b)) deg.

Lemma me_range_entries e k1 k2 f bps deg xl xr : (e < get_nelem b)%nat -> xl < xr ->
  exists (n : R * R -> nat) B, me_range rb e k1 k2 f bps deg xl xr = Ok B /\
    (forall p, (start deg <= Z.of_nat (n p))%Z /\ (2 <= n p <= 512)%nat) /\
    forall i j, B i j = lsum (panels ((lo b e + hi b e) / 2) (half b e) xl xr bps) (fun p =>
      quad (n p) (lobx (n p)) (lobw (n p)) (fst p) (snd p) (fun x =>
        half b e * wt f (radius b e x) * entry (kind_eval rb k1 e x) i * entry (kind_eval rb k2 e x) j)).
Proof.
  intros He Hx. set (mid := (lo b e + hi b e) / 2). set (sf := half b e).
  set (ev := fun (p : R * R) n => element_block mid sf (fst p) (snd p) n (lobx n) (lobw n) f
      (fun x i => col (kind_eval rb k1 e x) i) (fun x i => col (kind_eval rb k2 e x) i)).
  assert (C : forall p, exists m t, converge_rule mat dist scale tol sqrteps (ev p) order_cap (start deg) = Ok (m :: t, ev p m) /\
     (start deg <= Z.of_nat m)%Z /\ (2 <= m <= order_cap)%nat).
  { intros p. apply converge_any; [|unfold order_cap; lia].
    pose proof (auto_nstart_ok (Z.of_nat (noverlap (fe_fam b))) (Z.of_nat (fe_n b)) deg) as A.
    unfold start. change (Z.of_nat order_cap) with 512%Z. lia. }
  set (n := fun p => match converge_rule mat dist scale tol sqrteps (ev p) order_cap (start deg) with
                     | Ok (m :: _, _) => m | _ => 0%nat end).
  assert (D : forall p, panel lobx lobw dist scale tol sqrteps rb e k1 k2 f mid sf (start deg) (fst p) (snd p) = ev p (n p)
     /\ (start deg <= Z.of_nat (n p))%Z /\ (2 <= n p <= order_cap)%nat).
  { intros p. destruct (C p) as (m & t & E & F). unfold n. rewrite E. split; [|exact F]. unfold panel.
    match goal with |- match converge_rule _ _ _ _ _ ?g _ _ with _ => _ end = _ => change g with (ev p) end. rewrite E. reflexivity. }
  exists n. destruct (kind_total k1 e xl He) as (v1 & E1 & _). destruct (kind_total k2 e xl He) as (v2 & E2 & _).
  unfold me_range. rewrite mid_ok, sf_ok by exact He. cbn [bind]. rewrite E1, E2. cbn [bind].
  eexists. split; [reflexivity|]. split; [intros p; destruct (D p) as (_ & A & B); unfold order_cap in B; split; [exact A | lia]|].
  intros i j. fold mid sf. rewrite auto_sum.
  - apply lsum_ext. intros p _. change (auto_nstart (Z.of_nat (noverlap (fe_fam b))) (Z.of_nat (fe_n b)) deg) with (start deg).
    rewrite (proj1 (D p)). unfold ev. rewrite element_block_value. unfold quad. apply sum_ext. intros q _.
    cbv zeta. replace ((snd p - fst p) / 2 * lobx (n p) q + (snd p + fst p) / 2) with ((snd p + fst p) / 2 + (snd p - fst p) / 2 * lobx (n p) q) by ring.
    set (x := (snd p + fst p) / 2 + (snd p - fst p) / 2 * lobx (n p) q). unfold wt, radius. fold mid sf.
    change entry with col. destruct (f (mid + sf * x)); ring.
  - intros N. pose proof (panels_tile mid sf xl xr bps ltac:(unfold sf; pose proof (half_pos b e Hvm He); lra) ltac:(lra)) as T. rewrite N in T. cbn in T. lra.
Qed.

(** The whole matrix. *)
Lemma each_total {A B} (g : A -> res B) l (h : A -> B) : (forall a, In a l -> g a = Ok (h a)) -> each g l = Ok (map h l).
Proof.
  induction l as [|a l IH]; intros H; cbn [each map]; [reflexivity|].
  rewrite (H a (or_introl eq_refl)). cbn [bind]. rewrite IH by (intros; apply H; right; assumption). reflexivity.
Qed.

Lemma nbf_value N : get_nbf b = Ok (Z.of_nat N) -> forall e, (e < get_nelem b)%nat -> (Z.to_nat (offs b 0 e) + count b e <= N)%nat.
Proof.
  intros HN e He. pose proof Hvm as (H2 & H3 & _). destruct (Nat.eq_dec (count b e) 0) as [Z|Z].
  - rewrite get_nbf_closed in HN by (exact H2 || lia). injection HN as HN.
    assert (offs b 0 e <= offs b 0 (get_nelem b - 1))%Z by (apply offs_mono; exact H2 || lia).
    assert (offs b 0 (get_nelem b) = offs b 0 (get_nelem b - 1) + Z.of_nat (count b (get_nelem b - 1)) - Z.of_nat (noverlap (fe_fam b)))%Z.
    { destruct (get_nelem b) as [|m]; [lia|]. cbn [offs Nat.add]. replace (S m - 1)%nat with m by lia. lia. }
    lia.
  - pose proof (proj2 (layout_cover b (Z.of_nat N) H2 H3 HN (offs b 0 e + Z.of_nat (count b e) - 1))) as G.
    destruct (elem_range_ok b e H2 He) as [_ Hp].
    assert (0 <= offs b 0 e + Z.of_nat (count b e) - 1 < Z.of_nat N)%Z; [|lia].
    apply G. exists e. do 2 eexists. split; [apply get_idx_closed; exact H2 || exact He|]. unfold in_range. cbn [fst snd]. lia.
Qed.

Lemma form_blocks N blk u v : get_nbf b = Ok (Z.of_nat N) ->
  form N (matrix_element b blk) u v = sum (get_nelem b) (fun e => sum (count b e) (fun i => sum (count b e) (fun j =>
    u (Z.to_nat (offs b 0 e) + i)%nat * blk e i j * v (Z.to_nat (offs b 0 e) + j)%nat))).
Proof.
  intros HN. unfold form, matrix_element.
  transitivity (sum N (fun i => sum N (fun j => sum (get_nelem b) (fun e =>
     if both_in (elem_range b e) i j then u i * blk e (i - fst (elem_range b e))%nat (j - fst (elem_range b e))%nat * v j else 0)))).
  { apply sum_ext. intros i _. apply sum_ext. intros j _. rewrite assemble_sum, lsum_seq0.
    rewrite <- sum_scal, <- sum_scal_r. apply sum_ext. intros e _. destruct (both_in _ i j); ring. }
  transitivity (sum N (fun i => sum (get_nelem b) (fun e => sum N (fun j =>
     if both_in (elem_range b e) i j then u i * blk e (i - fst (elem_range b e))%nat (j - fst (elem_range b e))%nat * v j else 0)))).
  { apply sum_ext. intros i _. apply sum_swap. }
  rewrite sum_swap. apply sum_ext. intros e He. destruct (elem_range_ok b e (proj1 Hvm) He) as [R0 _]. rewrite R0. cbn [fst].
  set (f := Z.to_nat (offs b 0 e)) in *. set (n := count b e) in *.
  pose proof (nbf_value N HN e He) as HB. fold f n in HB.
  transitivity (sum N (fun i => if ((f <=? i) && (i <? f + n))%nat%bool then sum n (fun j => u i * blk e (i - f)%nat j * v (f + j)%nat) else 0)).
  - apply sum_ext. intros i _. unfold both_in. cbn [fst snd].
    destruct ((f <=? i)%nat && (i <? f + n)%nat)%bool eqn:Ei.
    + transitivity (sum n (fun j => u i * blk e (i - f)%nat (f + j - f)%nat * v (f + j)%nat)).
      * rewrite <- (sum_window N f n (fun j => u i * blk e (i - f)%nat (j - f)%nat * v j)) by exact HB. reflexivity.
      * apply sum_ext. intros j _. do 2 f_equal. f_equal. lia.
    + apply sum_zero'. intros j _. reflexivity.
  - rewrite (sum_window N f n (fun i => sum n (fun j => u i * blk e (i - f)%nat j * v (f + j)%nat))) by exact HB.
    apply sum_ext. intros i Hi. apply sum_ext. intros j Hj. replace (f + i - f)%nat with i by lia. reflexivity.
Qed.
(** The bilinear form of the matrix is the quadrature of the product of the two
    functions. *)
Lemma me_all_form k1 k2 f bps deg : 
  exists (n : nat -> R * R -> nat) M, me_all rb k1 k2 f bps deg = Ok M /\
    (forall e p, (start deg <= Z.of_nat (n e p))%Z /\ (2 <= n e p <= 512)%nat) /\
    forall N, get_nbf b = Ok (Z.of_nat N) -> forall u v,
      form N M u v = sum (get_nelem b) (fun e => lsum (panels ((lo b e + hi b e) / 2) (half b e) (-1) 1 bps) (fun p =>
        quad (n e p) (lobx (n e p)) (lobw (n e p)) (fst p) (snd p) (fun x =>
          half b e * wt f (radius b e x) * kfield rb k1 u e x * kfield rb k2 v e x))).
Proof.
  assert (G : forall m, (m <= get_nelem b)%nat -> exists (n : nat -> R * R -> nat) (B : nat -> mat), 
    (forall e p, (start deg <= Z.of_nat (n e p))%Z /\ (2 <= n e p <= 512)%nat) /\
    forall e, (e < m)%nat -> me rb e k1 k2 f bps deg = Ok (B e) /\
     forall i j, B e i j = lsum (panels ((lo b e + hi b e) / 2) (half b e) (-1) 1 bps) (fun p =>
      quad (n e p) (lobx (n e p)) (lobw (n e p)) (fst p) (snd p) (fun x =>
        half b e * wt f (radius b e x) * entry (kind_eval rb k1 e x) i * entry (kind_eval rb k2 e x) j))).
  { pose proof (nel_pos rb Hok) as Hn. induction m as [|m IH]; intros Hm.
    - destruct (me_range_entries 0 k1 k2 f bps deg (-1) 1 ltac:(lia) ltac:(lra)) as (n & _ & _ & Hq & _).
      exists (fun _ => n), (fun _ => mzero). split; [intros _; exact Hq|]. lia.
    - destruct (IH ltac:(lia)) as (n & B & Hq & HB).
      destruct (me_range_entries m k1 k2 f bps deg (-1) 1 ltac:(lia) ltac:(lra)) as (n' & B' & E & Hq' & HB').
      exists (fun e => if (e =? m)%nat then n' else n e), (fun e => if (e =? m)%nat then B' else B e). split.
      + intros e p. destruct (e =? m)%nat; [apply Hq' | apply Hq].
      + intros e He. destruct (Nat.eqb_spec e m) as [->|N]; [split; [exact E | exact HB'] | apply HB; lia]. }
  destruct (G (get_nelem b) ltac:(lia)) as (n & B & Hq & HB). exists n.
  unfold RadModel.me_all. rewrite (each_total _ _ B) by (intros e He; apply in_seq in He; apply HB; lia). cbn [par bind].
  eexists. split; [reflexivity|]. split; [exact Hq|]. intros N HN u v. rewrite form_blocks by exact HN.
  apply sum_ext. intros e He.
  assert (Nt : nth e (map B (seq 0 (get_nelem b))) mzero = B e).
  { rewrite nth_indep with (d' := B 0%nat) by (rewrite map_length, seq_length; exact He).
    rewrite (map_nth B (seq 0 (get_nelem b)) 0%nat e), seq_nth by exact He. reflexivity. }
  rewrite Nt. clear Nt. destruct (HB e He) as [_ HE]. set (f0 := Z.to_nat (offs b 0 e)).
  transitivity (sum (count b e) (fun i => sum (count b e) (fun j => lsum (panels ((lo b e + hi b e) / 2) (half b e) (-1) 1 bps) (fun p =>
      quad (n e p) (lobx (n e p)) (lobw (n e p)) (fst p) (snd p) (fun x =>
        half b e * wt f (radius b e x) * (u (f0 + i)%nat * entry (kind_eval rb k1 e x) i) * (v (f0 + j)%nat * entry (kind_eval rb k2 e x) j)))))).
  { apply sum_ext. intros i _. apply sum_ext. intros j _. rewrite HE. rewrite <- lsum_scal, <- lsum_scal_r. apply lsum_ext. intros p _.
    unfold quad. rewrite <- sum_scal, <- sum_scal_r. apply sum_ext. intros q _. ring. }
  transitivity (sum (count b e) (fun i => lsum (panels ((lo b e + hi b e) / 2) (half b e) (-1) 1 bps) (fun p => sum (count b e) (fun j => 
      quad (n e p) (lobx (n e p)) (lobw (n e p)) (fst p) (snd p) (fun x =>
        half b e * wt f (radius b e x) * (u (f0 + i)%nat * entry (kind_eval rb k1 e x) i) * (v (f0 + j)%nat * entry (kind_eval rb k2 e x) j)))))).
  { apply sum_ext. intros i _. symmetry. apply lsum_sum_swap. }
  rewrite <- lsum_sum_swap. apply lsum_ext. intros p _. unfold quad.
  transitivity (sum (count b e) (fun i => sum (n e p) (fun q => sum (count b e) (fun j => lobw (n e p) q * ((snd p - fst p) / 2) *
     (half b e * wt f (radius b e ((snd p + fst p) / 2 + (snd p - fst p) / 2 * lobx (n e p) q)) *
      (u (f0 + i)%nat * entry (kind_eval rb k1 e ((snd p + fst p) / 2 + (snd p - fst p) / 2 * lobx (n e p) q)) i) *
      (v (f0 + j)%nat * entry (kind_eval rb k2 e ((snd p + fst p) / 2 + (snd p - fst p) / 2 * lobx (n e p) q)) j)))))).
  { apply sum_ext. intros i _. apply sum_swap. }
  rewrite sum_swap. apply sum_ext. intros q _. set (x := (snd p + fst p) / 2 + (snd p - fst p) / 2 * lobx (n e p) q).
  rewrite !kfield_sum by exact He. fold f0. rewrite <- !Rmult_assoc.
  set (c := lobw (n e p) q * ((snd p - fst p) / 2) * half b e * wt f (radius b e x)).
  rewrite sum_prod. apply sum_ext. intros i _. apply sum_ext. intros j _. unfold c. ring.
Qed.
End Rule.
End Mat.
