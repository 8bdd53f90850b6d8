(** Proofs: exact integrals and definiteness of the overlap and kinetic matrices. *)
Require Import Reals List Arith Bool ZArith Lia Lra.
Require Import Verif.Prelude Verif.FEModel Verif.FESpec Verif.FEProofs.
Require Import Verif.ShapeModel Verif.ShapeSpec Verif.ShapePoly Verif.ShapeLeg Verif.ShapeOrth Verif.ShapeProofs.
Require Import Verif.QuadModel Verif.QuadSpec Verif.QuadProofs Verif.QuadInt.
Require Import Verif.RadModel Verif.RadSpec Verif.RadProofs Verif.RadFun Verif.RadMat.
Import ListNotations.
Open Scope R_scope.

(** * Polynomials *)
Lemma leg_poly n : isPoly (S n) (leg n).
Proof.
  assert (G : isPoly (S n) (leg n) /\ isPoly (S (S n)) (leg (S n))); [|exact (proj1 G)].
  induction n as [|n [IH1 IH2]].
  - split; [exists [1] | exists [0; 1]]; (split; [cbn; lia|]); intros x; rewrite ?leg0, ?leg1; cbn; ring.
  - split; [exact IH2|].
    apply (isPoly_ext _ (fun x => (2 * INR (S n) + 1) / (INR (S n) + 1) * (x * leg (S n) x) + (- INR (S n) / (INR (S n) + 1)) * leg n x)).
    { intros x. rewrite leg_rec. unfold Rdiv. ring. }
    apply (isPoly_add _ (fun x => (2 * INR (S n) + 1) / (INR (S n) + 1) * (x * leg (S n) x))).
    + apply (isPoly_scal _ _ (fun x => x * leg (S n) x)).
      apply (isPoly_mul 1 (S n) (fun x => x)); [exists [0; 1]; split; [cbn; lia | intros; cbn; ring] | exact IH2].
    + apply (isPoly_scal _ _ (leg n)). apply (isPoly_le (S n)); [lia | exact IH1].
Qed.
Lemma leg_dnf_poly N j : isPoly N (leg_dnf N 0 j).
Proof.
  unfold leg_dnf. apply (isPoly_sum N N (fun l x => leg l x * leg_T (N - 1) l j)). intros l Hl.
  apply (isPoly_ext _ (fun x => leg_T (N - 1) l j * leg l x)); [intros; ring|]. apply isPoly_scal.
  apply (isPoly_le (S l)); [lia | apply leg_poly].
Qed.
Lemma prim_poly_all f N x0 idx len : good f N x0 -> (idx < nprim f N)%nat -> isPoly (nprim f N) (prim_dnf f N x0 0 idx len).
Proof.
  intros Hg Hi. destruct f; try (apply prim_poly; [discriminate | exact Hg | exact Hi]).
  cbn [prim_dnf nprim noverlap]. replace (nprim Legendre N) with N by (unfold nprim; cbn; lia). apply leg_dnf_poly.
Qed.

Lemma isPoly_der n f g : isPoly n f -> (forall x, derivable_pt_lim f x (g x)) -> isPoly n g.
Proof.
  intros (l & Hl & E) D. exists (pder l). split.
  - clear -Hl. revert n Hl. assert (length (pder l) <= length l)%nat; [|lia].
    induction l as [|a l IH]; cbn [pder]; [lia|]. rewrite length_padd. cbn [length] in *. lia.
  - intros x. apply (uniqueness_limite f x); [apply D|].
    apply (derivable_pt_lim_ext (peval l)); [intros; symmetry; apply E | apply peval_der].
Qed.

Lemma pint_exists c : forall k, exists F, forall x, derivable_pt_lim F x (x ^ k * peval c x).
Proof.
  induction c as [|a c IH]; intros k.
  - exists (fun _ => 0). intros x. cbn [peval]. rewrite Rmult_0_r. apply derivable_pt_lim_const.
  - destruct (IH (S k)) as (F & HF). exists (fun x => a / INR (S k) * x ^ S k + F x). intros x.
    replace (x ^ k * peval (a :: c) x) with (a / INR (S k) * (INR (S k) * x ^ pred (S k)) + x ^ S k * peval c x).
    + apply (derivable_pt_lim_plus (fun x => a / INR (S k) * x ^ S k) F); [|apply HF].
      apply (derivable_pt_lim_scal (fun x => x ^ S k)). apply derivable_pt_lim_pow.
    + cbn [peval pred]. rewrite <- tech_pow_Rmult. field. apply not_0_INR. lia.
Qed.
Lemma peval_integral c a b : exists v, integral (peval c) a b v.
Proof.
  destruct (pint_exists c 0) as (F & HF). exists (F b - F a), F. split; [|reflexivity].
  intros x. specialize (HF x). cbn [pow] in HF. rewrite Rmult_1_l in HF. exact HF.
Qed.

(** A Gauss-Lobatto rule of enough points. *)
Lemma rule_poly x w n d n0 m g v : exact_to d n0 x w -> (n0 <= Z.of_nat n)%Z -> (n <= 512)%nat -> isPoly m g -> (m <= S d)%nat ->
  integral g (-1) 1 v -> quad n (x n) (w n) (-1) 1 g = v.
Proof.
  intros Hx Hn Hc (l & Hl & E) Hm Hi.
  rewrite <- (Hx n l v Hn Hc ltac:(lia) ltac:(apply (integral_ext g); assumption)). unfold quad. apply sum_ext. intros q _.
  rewrite E. replace ((1 + -1) / 2 + (1 - -1) / 2 * x n q) with (x n q) by field. field.
Qed.
(** Gauss-Lobatto rules are good enough for every basis below the cap. *)
Lemma lobatto_enough b x w : lobatto_exact x w -> valid_fe b -> (noverlap (fe_fam b) * fe_n b <= 511)%nat -> basis_exact b x w.
Proof.
  intros Hx Hv Hcap n c v Hs Hn Hl Hi. pose proof (auto_nstart_ok (Z.of_nat (noverlap (fe_fam b))) (Z.of_nat (fe_n b)) 0) as (A5 & A).
  assert (Hnp : nprim (fe_fam b) (fe_n b) = (noverlap (fe_fam b) * fe_n b)%nat) by (rewrite nprim_eq; apply Nat.mul_comm).
  assert (Hpos : (1 <= nprim (fe_fam b) (fe_n b))%nat) by (destruct Hv as (B & _); pose proof (noverlap_pos (fe_fam b)); rewrite Hnp; nia).
  rewrite <- Nat2Z.inj_mul, <- Hnp in A. rewrite <- Hnp in Hcap. apply Hx; [lia | | exact Hi]. clear - Hl Hs A Hpos Hcap Hn. lia.
Qed.
Lemma panels_whole mid sf : panels mid sf (-1) 1 [] = [(-1, 1)].
Proof.
  unfold panels, panel_bounds. cbn [map filter app]. unfold sortR. cbn [fold_right insertR].
  destruct (Rleb_spec (-1) 1); [|lra]. cbn [consecutive filter fst snd]. destruct (Rltb_spec (-1) 1); [reflexivity | lra].
Qed.

(** * Integrals of squares *)
Lemma incr_of_square F g : (forall x, derivable_pt_lim F x (g x * g x)) -> forall a b, a <= b -> F a <= F b.
Proof.
  intros H a b Hab. assert (pr : derivable F) by (intros x; exists (g x * g x); apply H).
  apply (nonneg_derivative_1 F pr); [|exact Hab].
  intros x. rewrite (derive_pt_eq_0 F x (g x * g x) (pr x) (H x)). apply Rle_0_sqr.
Qed.
Lemma flat_square F g a b : (forall x, derivable_pt_lim F x (g x * g x)) -> a < b -> F a = F b ->
  forall x, a < x < b -> g x = 0.
Proof.
  intros H Hab E x Hx. apply Rsqr_0_uniq. unfold Rsqr. apply (uniqueness_limite F x _ _ (H x)).
  intros eps He. set (d := Rmin (x - a) (b - x)).
  assert (Hd : 0 < d) by (unfold d; apply Rmin_pos; lra). exists (mkposreal d Hd). intros h Hh Hs. cbn in Hs.
  assert (d <= x - a /\ d <= b - x) by (unfold d; split; [apply Rmin_l | apply Rmin_r]).
  assert (C : forall y, a <= y <= b -> F y = F a).
  { intros y Hy. pose proof (incr_of_square F g H a y ltac:(lra)). pose proof (incr_of_square F g H y b ltac:(lra)). lra. }
  rewrite (C (x + h)), (C x) by (unfold Rabs in Hs; destruct Rcase_abs; lra).
  replace ((F a - F a) / h - 0) with 0 by (field; exact Hh). rewrite Rabs_R0. exact He.
Qed.
Lemma poly_interval n f a b : isPoly n f -> a < b -> (forall x, a < x < b -> f x = 0) -> forall x, f x = 0.
Proof.
  intros (l & Hl & E) Hab H x. rewrite E.
  set (pt := fun i => a + (b - a) * (INR (S i) / INR (S (S n)))).
  assert (HN : 0 < INR (S (S n))) by (apply lt_0_INR; lia).
  assert (Hin : forall i, (i < n)%nat -> a < pt i < b).
  { intros i Hi. unfold pt. assert (0 < INR (S i)) by (apply lt_0_INR; lia). assert (INR (S i) < INR (S (S n))) by (apply lt_INR; lia).
    assert (0 < INR (S i) / INR (S (S n)) < 1).
    { split; [apply Rdiv_lt_0_compat; assumption|]. apply (Rmult_lt_reg_r (INR (S (S n)))); [exact HN|]. unfold Rdiv. rewrite Rmult_assoc, Rinv_l by lra. lra. }
    split; nra. }
  assert (Hinj : forall i j, pt i = pt j -> i = j).
  { intros i j Hij. unfold pt in Hij. assert (INR (S i) = INR (S j)).
    { apply (Rmult_eq_reg_r ((b - a) / INR (S (S n)))); [unfold Rdiv in *; lra|]. apply Rmult_integral_contrapositive. split; [lra|]. apply Rinv_neq_0_compat. lra. }
    apply INR_eq in H0. lia. }
  apply (no_roots (map pt (seq 0 n)) l); [rewrite map_length, seq_length; exact Hl|].
  intros y k Hk.
  assert (Hc : forall m s, (cnt y (map pt (seq s m)) <= 1)%nat /\ ((0 < cnt y (map pt (seq s m)))%nat -> exists i, (s <= i < s + m)%nat /\ y = pt i)).
  { induction m as [|m IH]; intros s; cbn [seq map cnt]; [split; lia|]. destruct (IH (S s)) as [A B].
    destruct (Req_EM_T (pt s) y) as [<-|N].
    - split; [|intros _; exists s; split; [lia | reflexivity]].
      destruct (Nat.eq_dec (cnt (pt s) (map pt (seq (S s) m))) 0) as [->|]; [lia|].
      destruct (B ltac:(lia)) as (i & Hi & Ei). apply Hinj in Ei. lia.
    - split; [exact A|]. intros P. destruct (B P) as (i & Hi & Ei). exists i. split; [lia | exact Ei]. }
  destruct (Hc n 0%nat) as [A B]. assert (k = 0%nat) as -> by lia. cbn [pderk].
  destruct (B ltac:(lia)) as (i & Hi & ->). rewrite <- E. apply H. apply Hin. lia.
Qed.

(** * Independence of the functions of an element *)
Lemma integral_sum n (g : nat -> R -> R) (v : nat -> R) a b : (forall i, (i < n)%nat -> integral (g i) a b (v i)) ->
  integral (fun x => sum n (fun i => g i x)) a b (sum n v).
Proof.
  induction n as [|n IH]; intros H; cbn [sum].
  - exists (fun _ => 0). split; [intros; apply derivable_pt_lim_const | ring].
  - apply (integral_add (fun x => sum n (fun i => g i x)) (g n)); [apply IH; intros; apply H; lia | apply H; lia].
Qed.

Lemma leg_independent N (a : nat -> R) : (2 <= N)%nat -> (forall x, sum N (fun j => a j * leg_dnf N 0 j x) = 0) ->
  forall i, (i < N)%nat -> a i = 0.
Proof.
  intros HN H.
  assert (Ends : forall left : bool, a (if left then 0%nat else (N - 1)%nat) = 0).
  { intros left. set (t := if left then 0%nat else (N - 1)%nat). assert (t < N)%nat by (unfold t; destruct left; lia).
    rewrite <- (H (if left then -1 else 1)). rewrite (sum_single _ t); [|assumption|].
    - rewrite leg_ends by assumption. fold t. rewrite Nat.eqb_refl. ring.
    - intros k Hk Hn. rewrite leg_ends by assumption. fold t. destruct (Nat.eqb_spec k t); [contradiction | ring]. }
  assert (D : forall x, sum N (fun j => a j * leg_dnf N 1 j x) = 0).
  { intros x. apply (uniqueness_limite (fun x => sum N (fun j => a j * leg_dnf N 0 j x)) x).
    - apply sum_der. intros k Hk. apply (derivable_pt_lim_scal (leg_dnf N 0 k)). apply leg_dnf_der. lia.
    - apply (derivable_pt_lim_ext (fun _ => 0)); [intros; symmetry; apply H | apply derivable_pt_lim_const]. }
  intros i Hi. destruct (interior N i) eqn:In.
  - assert (I : integral (fun x => leg_dnf N 1 i x * sum N (fun j => a j * leg_dnf N 1 j x)) (-1) 1 (a i)).
    { apply (integral_ext (fun x => sum N (fun j => a j * (leg_dnf N 1 i x * leg_dnf N 1 j x)))).
      { intros x. rewrite <- sum_scal. apply sum_ext. intros j _. ring. }
      replace (a i) with (sum N (fun j => a j * (if (i =? j)%nat then 1 else 0))).
      - apply integral_sum. intros j Hj. apply integral_scal. pose proof (stiffness N i j HN Hi Hj) as S. rewrite In in S. exact S.
      - rewrite (sum_single _ i); [rewrite Nat.eqb_refl; ring | exact Hi |]. intros k _ Hk. destruct (Nat.eqb_spec i k); [congruence | ring]. }
    apply (integral_unique (fun x => leg_dnf N 1 i x * sum N (fun j => a j * leg_dnf N 1 j x)) (-1) 1); [exact I|].
    exists (fun _ => 0). split; [|ring]. intros x. rewrite D, Rmult_0_r. apply derivable_pt_lim_const.
  - assert (i = 0 \/ i = N - 1)%nat as [->| ->] by (clear -In Hi; unfold interior in In; apply andb_false_iff in In; destruct In as [A|A]; [apply Nat.leb_gt in A | apply Nat.ltb_ge in A]; lia).
    + apply (Ends true).
    + apply (Ends false).
Qed.

Lemma prim_independent f N x0 len (a : nat -> R) : good f N x0 -> len <> 0 ->
  (forall x, sum (nprim f N) (fun i => a i * prim_dnf f N x0 0 i len x) = 0) -> forall i, (i < nprim f N)%nat -> a i = 0.
Proof.
  intros Hg Hl H.
  assert (HL : f = Legendre \/ nodal f) by (destruct f; [left; reflexivity | right; discriminate ..]).
  destruct HL as [->|Hf].
  - cbn [good] in Hg. replace (nprim Legendre N) with N in * by (unfold nprim; cbn; lia). apply leg_independent; assumption.
  - assert (Hd : distinct N x0) by (destruct f; [exfalso; apply Hf; reflexivity | exact Hg ..]).
    assert (D : forall k, (k <= max_order f)%nat -> forall x, sum (nprim f N) (fun i => a i * prim_dnf f N x0 k i len x) = 0).
    { induction k as [|k IH]; intros Hk x; [apply H|].
      apply (uniqueness_limite (fun x => sum (nprim f N) (fun i => a i * prim_dnf f N x0 k i len x)) x).
      - apply sum_der. intros i Hi. apply (derivable_pt_lim_scal (prim_dnf f N x0 k i len)). apply prim_der; [exact Hg | exact Hi | lia].
      - apply (derivable_pt_lim_ext (fun _ => 0)); [intros; symmetry; apply IH; lia | apply derivable_pt_lim_const]. }
    intros i Hi. pose proof (idx_node f N i Hi) as Hn. pose proof (idx_kind f i) as Hk.
    specialize (D (i mod noverlap f)%nat (nov_le_order f _ Hk) (x0 (i / noverlap f)%nat)).
    rewrite (sum_single _ i) in D; [|exact Hi|].
    + rewrite prim_node in D by assumption. rewrite <- Nat.div_mod in D by (pose proof (noverlap_pos f); lia). rewrite Nat.eqb_refl in D.
      apply Rmult_integral in D. destruct D as [D|D]; [exact D|]. exfalso. revert D. apply pow_nonzero. exact Hl.
    + intros k Hk' Hne. rewrite prim_node by assumption. rewrite <- Nat.div_mod by (pose proof (noverlap_pos f); lia).
      destruct (Nat.eqb_spec k i); [contradiction | ring].
Qed.

Section Exact.
Variable rb : rad.
Hypothesis Hok : radial_ok rb.
Notation b := (rb_fe rb).
Notation x0 := (rb_x0 rb).
Lemma HvE : valid_fe b. Proof. exact (proj1 Hok). Qed.
Lemma HxE : nodes_ok (fe_fam b) (fe_n b) x0. Proof. exact (proj1 (proj2 Hok)). Qed.
Lemma HgE : good (fe_fam b) (fe_n b) x0. Proof. apply nodes_good; [exact HvE | exact HxE]. Qed.

Lemma field_expand c n e x en : (e < get_nelem b)%nat -> (n <= max_order (fe_fam b))%nat -> basis_indices b e = Ok en ->
  field b x0 c n e x = sum (length en) (fun k => c (Z.to_nat (offs b 0 e) + k)%nat * pval b x0 n e (nth k en 0%nat) x).
Proof.
  intros He Hn E.
  rewrite (field_row b x0 c n e x _ _ _ (dnf_row b x0 n e x en He Hn E) (get_idx_closed b e (proj1 HvE) He)).
  rewrite map_length. apply sum_ext. intros k Hk. f_equal. rewrite entry_map by exact Hk. reflexivity.
Qed.

Lemma field_zero c e : (e < get_nelem b)%nat -> (forall x, field b x0 c 0 e x = 0) ->
  forall k, (k < count b e)%nat -> c (Z.to_nat (offs b 0 e) + k)%nat = 0.
Proof.
  intros He H k Hk. destruct (en_props b e (proj1 HvE)) as (en & E & Hd & B & L).
  set (g := fun k => c (Z.to_nat (offs b 0 e) + k)%nat). change (g k = 0).
  set (a := fun i => sum (length en) (fun k => if (nth k en 0 =? i)%nat then g k else 0)).
  assert (Ha : a (nth k en 0%nat) = g k).
  { unfold a. rewrite (sum_single _ k); [rewrite Nat.eqb_refl; reflexivity | lia |].
    intros j Hj Hn. destruct (Nat.eqb_spec (nth j en 0%nat) (nth k en 0%nat)) as [Q|]; [|reflexivity].
    exfalso. apply Hn. apply (proj1 (NoDup_nth en 0%nat) Hd); [exact Hj | lia | exact Q]. }
  rewrite <- Ha. pose proof (half_pos b e HvE He) as Hh.
  apply (prim_independent (fe_fam b) (fe_n b) x0 (half b e) a HgE); [lra | | apply B; apply nth_In; lia].
  intros x. rewrite <- (H x). rewrite (field_expand c 0 e x en He ltac:(lia) E).
  transitivity (sum (nprim (fe_fam b) (fe_n b)) (fun i => sum (length en) (fun j => if (nth j en 0 =? i)%nat then g j * prim_dnf (fe_fam b) (fe_n b) x0 0 i (half b e) x else 0))).
  { apply sum_ext. intros i _. unfold a. rewrite <- sum_scal_r. apply sum_ext. intros j _. destruct (_ =? i)%nat; ring. }
  rewrite sum_swap. apply sum_ext. intros j Hj. rewrite (sum_single _ (nth j en 0%nat)); [|apply B; apply nth_In; exact Hj|].
  - rewrite Nat.eqb_refl. unfold pval, g. cbn [pow]. field.
  - intros i _ Hn. destruct (Nat.eqb_spec (nth j en 0%nat) i); [congruence | reflexivity].
Qed.

Lemma field_poly c n e : (e < get_nelem b)%nat -> (n <= 1)%nat -> isPoly (nprim (fe_fam b) (fe_n b)) (field b x0 c n e).
Proof.
  intros He Hn. destruct (en_props b e (proj1 HvE)) as (en & E & Hd & B & L). pose proof (one_le_order (fe_fam b)) as Ho.
  apply (isPoly_ext _ (fun x => sum (length en) (fun k => c (Z.to_nat (offs b 0 e) + k)%nat * pval b x0 n e (nth k en 0%nat) x))).
  { intros x. symmetry. apply field_expand; [exact He | lia | exact E]. }
  apply (isPoly_sum _ (length en) (fun k x => c (Z.to_nat (offs b 0 e) + k)%nat * pval b x0 n e (nth k en 0%nat) x)).
  intros k Hk. apply (isPoly_scal _ _ (pval b x0 n e (nth k en 0%nat))). unfold pval.
  assert (Hi : (nth k en 0 < nprim (fe_fam b) (fe_n b))%nat) by (apply B; apply nth_In; exact Hk).
  apply (isPoly_ext _ (fun x => / half b e ^ n * prim_dnf (fe_fam b) (fe_n b) x0 n (nth k en 0%nat) (half b e) x)); [intros; unfold Rdiv; ring|].
  apply isPoly_scal. pose proof (prim_poly_all (fe_fam b) (fe_n b) x0 _ (half b e) HgE Hi) as P.
  destruct n as [|[|n]]; [exact P | | lia].
  apply (isPoly_der _ _ _ P). intros x. apply prim_der; [exact HgE | exact Hi | lia].
Qed.

Lemma field_kfield k c n e x : k = match n with O => B0 | _ => B1 end -> (n <= 1)%nat -> kfield rb k c e x = field b x0 c n e x.
Proof. intros -> Hn. destruct n as [|[|n]]; [reflexivity | reflexivity | lia]. Qed.

(** Change of variable. *)
Lemma affine_der h c r : derivable_pt_lim (fun r => h * r + c) r h.
Proof.
  assert (D : derivable_pt_lim (fun r => h * r + c) r (h * 1 + 0)).
  { apply (derivable_pt_lim_plus (fun r => h * r) (fun _ => c)); [|apply derivable_pt_lim_const].
    apply (derivable_pt_lim_scal (fun r => r)). apply derivable_pt_lim_id. }
  replace (h * 1 + 0) with h in D by ring. exact D.
Qed.
Lemma integral_radius e g v : (e < get_nelem b)%nat -> integral g (-1) 1 v ->
  integral (fun r => g (xi b e r)) (lo b e) (hi b e) (half b e * v).
Proof.
  intros He (F & HF & E). pose proof (half_pos b e HvE He) as Hh. exists (fun r => half b e * F (xi b e r)). split.
  - intros r. replace (g (xi b e r)) with (half b e * (g (xi b e r) * (1 / half b e))) by (field; lra).
    apply (derivable_pt_lim_scal (fun r => F (xi b e r))). apply (derivable_pt_lim_comp (xi b e) F); [|apply HF].
    apply (derivable_pt_lim_ext (fun r => 1 / half b e * r + (- ((lo b e + hi b e) / 2) / half b e))); [intros y; unfold xi; field; lra|].
    apply affine_der.
  - destruct (xi_ends rb Hok e He) as [-> ->]. rewrite <- E. ring.
Qed.

Section Rule.
Variables (lobx lobw : nat -> vec) (dist : mat -> mat -> fp) (scale : mat -> fp) (tol sqrteps : R).
Hypothesis Hlob : basis_exact b lobx lobw.
Notation me_all := (me_all lobx lobw dist scale tol sqrteps).

(** The matrix of u, v -> integral of u^(n) v^(n). *)
Lemma exact_form n : (n <= 1)%nat ->
  exists M, me_all rb (match n with O => B0 | _ => B1 end) (match n with O => B0 | _ => B1 end) no_weight [] 0 = Ok M /\
  forall N, get_nbf b = Ok (Z.of_nat N) -> forall u v, exists I : nat -> R,
    (forall e, (e < get_nelem b)%nat -> integral (fun r => field b x0 u n e (xi b e r) * field b x0 v n e (xi b e r)) (lo b e) (hi b e) (I e)) /\
    form N M u v = sum (get_nelem b) I.
Proof.
  intros Hn. set (k := match n with O => B0 | _ => B1 end).
  destruct (me_all_form rb Hok lobx lobw dist scale tol sqrteps k k no_weight [] 0) as (ord & M & E & Ho & F).
  exists M. split; [exact E|]. intros N HN u v. rewrite (F N HN u v). clear F E.
  assert (G : forall e, (e < get_nelem b)%nat -> integral (fun r => field b x0 u n e (xi b e r) * field b x0 v n e (xi b e r)) (lo b e) (hi b e)
     (lsum (panels ((lo b e + hi b e) / 2) (half b e) (-1) 1 []) (fun p => quad (ord e p) (lobx (ord e p)) (lobw (ord e p)) (fst p) (snd p)
        (fun x => half b e * wt no_weight (radius b e x) * kfield rb k u e x * kfield rb k v e x)))).
  { intros e He. rewrite panels_whole. cbn [lsum fst snd]. rewrite Rplus_0_r.
    pose proof (field_poly u n e He Hn) as Pu. pose proof (field_poly v n e He Hn) as Pv.
    destruct (Ho e (-1, 1)) as [Hs [H2 H512]]. set (m := ord e (-1, 1)) in *.
    assert (Hpos : (1 <= nprim (fe_fam b) (fe_n b))%nat) by (pose proof HvE as (A & _); pose proof (noverlap_pos (fe_fam b)); rewrite nprim_eq; nia).
    set (np := nprim (fe_fam b) (fe_n b)) in *.
    assert (Pg : isPoly (S ((np - 1) + (np - 1))) (fun x => field b x0 u n e x * field b x0 v n e x)).
    { apply isPoly_mul; (eapply isPoly_le; [|eassumption]); lia. }
    destruct Pg as (l & Hl & El). destruct (peval_integral l (-1) 1) as (w & Hw).
    assert (Hw' : integral (fun x => field b x0 u n e x * field b x0 v n e x) (-1) 1 w) by (apply (integral_ext (peval l)); [intros; symmetry; apply El | exact Hw]).
    rewrite (rule_poly lobx lobw m _ _ (S ((np - 1) + (np - 1))) _ (half b e * w) Hlob Hs H512).
    - apply (integral_radius e (fun x => field b x0 u n e x * field b x0 v n e x) w He Hw').
    - apply (isPoly_ext _ (fun x => half b e * (field b x0 u n e x * field b x0 v n e x))).
      { intros x. rewrite !(field_kfield k _ n e x eq_refl Hn). unfold wt, no_weight. ring. }
      apply isPoly_scal. exists l. split; [exact Hl | exact El].
    - fold np. lia.
    - apply (integral_ext (fun x => half b e * (field b x0 u n e x * field b x0 v n e x))).
      { intros x. rewrite !(field_kfield k _ n e x eq_refl Hn). unfold wt, no_weight. ring. }
      apply integral_scal. exact Hw'. }
  eexists. split; [exact G | reflexivity].
Qed.
Lemma form_scal N c M u v : form N (mscal c M) u v = c * form N M u v.
Proof.
  unfold form. rewrite <- sum_scal. apply sum_ext. intros i _. rewrite <- sum_scal. apply sum_ext. intros j _. unfold mscal. ring.
Qed.

Lemma square_zero g n e I : (e < get_nelem b)%nat -> isPoly n g ->
  integral (fun r => g (xi b e r) * g (xi b e r)) (lo b e) (hi b e) I -> 0 <= I /\ (I = 0 -> forall x, g x = 0).
Proof.
  intros He Hp (F & HF & E). pose proof (half_pos b e HvE He) as Hh.
  assert (Hlh : lo b e < hi b e) by (unfold half in Hh; lra).
  pose proof (incr_of_square F (fun r => g (xi b e r)) HF (lo b e) (hi b e) ltac:(lra)). split; [lra|].
  intros ->. apply (poly_interval n g (-1) 1 Hp ltac:(lra)). intros x Hx.
  pose proof (flat_square F (fun r => g (xi b e r)) (lo b e) (hi b e) HF Hlh ltac:(lra) (radius b e x)) as G. cbv beta in G.
  replace (xi b e (radius b e x)) with x in G by (unfold xi, radius; field; lra). apply G.
  unfold radius, half in *. split; nra.
Qed.

Lemma sum_nonneg_zero n f : (forall i, (i < n)%nat -> 0 <= f i) -> sum n f = 0 -> forall i, (i < n)%nat -> f i = 0.
Proof.
  induction n as [|n IH]; intros H E i Hi; [lia|]. cbn [sum] in E.
  assert (0 <= sum n f) by (apply sum_nonneg; intros; apply H; lia). pose proof (H n ltac:(lia)).
  destruct (Nat.eq_dec i n) as [->|]; [lra|]. apply IH; [intros; apply H; lia | lra | lia].
Qed.

Lemma all_zero N c : get_nbf b = Ok (Z.of_nat N) -> (forall e x, (e < get_nelem b)%nat -> field b x0 c 0 e x = 0) ->
  forall g, (g < N)%nat -> c g = 0.
Proof.
  intros HN H g Hg. pose proof HvE as (H2 & H3 & _).
  destruct (proj1 (layout_cover b (Z.of_nat N) H2 H3 HN (Z.of_nat g)) ltac:(lia)) as (e & f & l & I & R).
  pose proof (get_idx_dom b e f l H2 I) as He. rewrite get_idx_closed in I by assumption. injection I as <- <-.
  unfold in_range in R. cbn [fst snd] in R. destruct (elem_range_ok b e H2 He) as [_ Hp].
  replace g with (Z.to_nat (offs b 0 e) + (g - Z.to_nat (offs b 0 e)))%nat by lia.
  apply (field_zero c e He); [intros x; apply H; exact He | lia].
Qed.

Lemma overlap_exact_pd :
  exists S, overlap lobx lobw dist scale tol sqrteps rb = Ok S /\
  forall N, get_nbf b = Ok (Z.of_nat N) ->
   (forall u v, exists I : nat -> R,
     (forall e, (e < get_nelem b)%nat -> integral (fun r => field b x0 u 0 e (xi b e r) * field b x0 v 0 e (xi b e r)) (lo b e) (hi b e) (I e)) /\
     form N S u v = sum (get_nelem b) I) /\
   (forall u, 0 <= form N S u u) /\
   (forall u, form N S u u = 0 -> forall g, (g < N)%nat -> u g = 0).
Proof.
  destruct (exact_form 0 ltac:(lia)) as (S & E & F). exists S. split; [exact E|]. intros N HN.
  split; [apply F; exact HN|].
  assert (G : forall u, 0 <= form N S u u /\ (form N S u u = 0 -> forall g, (g < N)%nat -> u g = 0)); [|split; intros u; apply G].
  intros u. destruct (F N HN u u) as (I & HI & ->).
  assert (P : forall e, (e < get_nelem b)%nat -> 0 <= I e /\ (I e = 0 -> forall x, field b x0 u 0 e x = 0)).
  { intros e He. apply (square_zero (field b x0 u 0 e) (nprim (fe_fam b) (fe_n b)) e (I e) He); [apply field_poly; [exact He | lia] | apply HI; exact He]. }
  split; [apply sum_nonneg; intros e He; apply P; exact He|].
  intros Z. apply (all_zero N u HN). intros e x He. apply P; [exact He|].
  apply (sum_nonneg_zero (get_nelem b) I); [intros i Hi; apply P; exact Hi | exact Z | exact He].
Qed.

Lemma field_der c e r : (e < get_nelem b)%nat ->
  derivable_pt_lim (fun r => field b x0 c 0 e (xi b e r)) r (field b x0 c 1 e (xi b e r)).
Proof.
  intros He. destruct (en_props b e (proj1 HvE)) as (en & E & Hd & B & L). pose proof (one_le_order (fe_fam b)) as Ho.
  rewrite (field_expand c 1 e _ en) by (exact He || exact E || lia).
  apply (derivable_pt_lim_ext (fun r => sum (length en) (fun k => c (Z.to_nat (offs b 0 e) + k)%nat * pval b x0 0 e (nth k en 0%nat) (xi b e r)))).
  { intros y. symmetry. apply field_expand; [exact He | lia | exact E]. }
  apply sum_der. intros k Hk. apply (derivable_pt_lim_scal (fun r => pval b x0 0 e (nth k en 0%nat) (xi b e r))).
  apply pval_der; [exact HvE | exact HxE | exact He | apply B; apply nth_In; exact Hk | lia].
Qed.

Lemma kinetic_exact_pd :
  exists T, kinetic lobx lobw dist scale tol sqrteps rb = Ok T /\
  forall N, get_nbf b = Ok (Z.of_nat N) ->
   (forall u v, exists I : nat -> R,
     (forall e, (e < get_nelem b)%nat -> integral (fun r => field b x0 u 1 e (xi b e r) * field b x0 v 1 e (xi b e r)) (lo b e) (hi b e) (I e)) /\
     form N T u v = 1 / 2 * sum (get_nelem b) I) /\
   (forall u, 0 <= form N T u u) /\
   (forall u, form N T u u = 0 -> forall g, (g < N)%nat -> u g = 0).
Proof.
  destruct (exact_form 1 ltac:(lia)) as (M & E & F). exists (mscal (1 / 2) M).
  split; [unfold kinetic, scaled; rewrite E; reflexivity|]. intros N HN.
  split. { intros u v. destruct (F N HN u v) as (I & HI & EI). exists I. split; [exact HI|]. rewrite form_scal, EI. reflexivity. }
  assert (G : forall u, 0 <= form N (mscal (1 / 2) M) u u /\ (form N (mscal (1 / 2) M) u u = 0 -> forall g, (g < N)%nat -> u g = 0)); [|split; intros u; apply G].
  intros u. rewrite form_scal. destruct (F N HN u u) as (I & HI & ->).
  assert (P : forall e, (e < get_nelem b)%nat -> 0 <= I e /\ (I e = 0 -> forall x, field b x0 u 1 e x = 0)).
  { intros e He. apply (square_zero (field b x0 u 1 e) (nprim (fe_fam b) (fe_n b)) e (I e) He); [apply field_poly; [exact He | lia] | apply HI; exact He]. }
  assert (P0 : 0 <= sum (get_nelem b) I) by (apply sum_nonneg; intros e He; apply P; exact He).
  split; [lra|]. intros Z. apply (all_zero N u HN).
  assert (D : forall e, (e < get_nelem b)%nat -> forall x y, field b x0 u 0 e x = field b x0 u 0 e y).
  { intros e He x y. pose proof (half_pos b e HvE He) as Hh.
    assert (X : forall z, z = xi b e (radius b e z)) by (intros z; unfold xi, radius; field; lra).
    rewrite (X x), (X y). apply (der_const_zero (fun r => field b x0 u 0 e (xi b e r))). intros r.
    rewrite <- (proj2 (P e He) ltac:(apply (sum_nonneg_zero (get_nelem b) I); [intros i Hi; apply P; exact Hi | lra | exact He]) (xi b e r)).
    apply field_der. exact He. }
  induction e as [|e IH]; intros x He.
  - rewrite (D 0%nat He x (-1)). pose proof Hok as (_ & _ & _ & Hz & _).
    destruct (end_removed b x0 u false 0 HvE HxE) as [_ G]; [apply noverlap_pos | exact Hz | exact G].
  - rewrite (D (S e) He x (-1)). destruct (field_joins b x0 u 0 e HvE HxE He) as (_ & _ & <-); [apply noverlap_pos|].
    apply IH. lia.
Qed.
End Rule.

(** * Sign of a matrix under any rule with nonnegative weights *)
Section Positive.
Variables (lobx lobw : nat -> vec) (dist : mat -> mat -> fp) (scale : mat -> fp) (tol sqrteps : R).
Hypothesis Hpos : positive_rule lobx lobw.

Lemma lo_nonneg e : (e < get_nelem b)%nat -> 0 <= lo b e.
Proof.
  intros He. pose proof Hok as (_ & _ & H0 & _). rewrite <- H0. unfold lo. pose proof HvE as (_ & _ & Hi).
  apply increasing_le; [exact Hi | lia | unfold get_nelem in He; lia].
Qed.

Lemma psd_form k f bps deg : (forall r, 0 <= r -> 0 <= wt f r) ->
  exists M, me_all lobx lobw dist scale tol sqrteps rb k k f bps deg = Ok M /\
  forall N, get_nbf b = Ok (Z.of_nat N) -> (forall u v, form N M u v = form N M v u) /\ (forall u, 0 <= form N M u u).
Proof.
  intros Hf. destruct (me_all_form rb Hok lobx lobw dist scale tol sqrteps k k f bps deg) as (ord & M & E & Ho & F).
  exists M. split; [exact E|]. intros N HN. split.
  - intros u v. rewrite !(F N HN). apply sum_ext. intros e _. apply lsum_ext. intros p _. apply quad_ext. intros x. ring.
  - intros u. rewrite (F N HN). apply sum_nonneg. intros e He. pose proof (half_pos b e HvE He) as Hh.
    assert (L : forall l, (forall p, In p l -> -1 <= fst p /\ fst p < snd p /\ snd p <= 1) ->
      0 <= lsum l (fun p => quad (ord e p) (lobx (ord e p)) (lobw (ord e p)) (fst p) (snd p)
        (fun x => half b e * wt f (radius b e x) * kfield rb k u e x * kfield rb k u e x))).
    { induction l as [|p l IH]; intros Hl; cbn [lsum]; [lra|]. apply Rplus_le_le_0_compat; [|apply IH; intros; apply Hl; right; assumption].
      destruct (Hl p (or_introl eq_refl)) as (A1 & A2 & A3). destruct (Ho e p) as [_ [H2 _]].
      unfold quad. apply sum_nonneg. intros q Hq. destruct (Hpos (ord e p) q H2 Hq) as [W X].
      set (x := (snd p + fst p) / 2 + (snd p - fst p) / 2 * lobx (ord e p) q).
      assert (Hx : -1 <= x) by (unfold x; nra).
      assert (Hr : 0 <= radius b e x) by (pose proof (lo_nonneg e He); unfold radius, half in *; nra).
      apply Rmult_le_pos; [apply Rmult_le_pos; [exact W | lra]|]. rewrite Rmult_assoc. apply Rmult_le_pos; [|apply Rle_0_sqr].
      apply Rmult_le_pos; [lra | apply Hf; exact Hr]. }
    apply L. intros p Hp. eapply panels_ends; [| | exact Hp]; lra.
Qed.
End Positive.
End Exact.
