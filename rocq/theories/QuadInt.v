(** Proofs about the in-element integrals. *)
Require Import Reals List Arith Bool Lia Lra Psatz.
Require Import Verif.Prelude Verif.QuadModel Verif.QuadSpec.
Import ListNotations.
Open Scope R_scope.

Lemma flip_div N c : (c < N * N)%nat -> (flip N c / N)%nat = (c mod N)%nat.
Proof.
  intros H. unfold flip. assert (N <> 0)%nat by (intros ->; lia).
  rewrite Nat.add_comm, Nat.div_add by assumption.
  rewrite Nat.div_small; [reflexivity|]. apply Nat.div_lt_upper_bound; assumption.
Qed.
Lemma flip_mod N c : (c < N * N)%nat -> (flip N c mod N)%nat = (c / N)%nat.
Proof.
  intros H. unfold flip. assert (N <> 0)%nat by (intros ->; lia).
  rewrite Nat.add_comm, Nat.mod_add by assumption.
  apply Nat.mod_small. apply Nat.div_lt_upper_bound; assumption.
Qed.
Lemma flip_pair N i j : (i < N)%nat -> (j < N)%nat -> flip N (i * N + j) = (j * N + i)%nat.
Proof.
  intros Hi Hj. unfold flip.
  replace (i * N + j)%nat with (j + i * N)%nat by lia.
  rewrite Nat.mod_add, Nat.div_add by lia. rewrite Nat.mod_small, Nat.div_small by lia. lia.
Qed.

Lemma quad_ext nq x w lo hi f g : (forall r, f r = g r) -> quad nq x w lo hi f = quad nq x w lo hi g.
Proof. intros H. apply sum_ext. intros i _. rewrite H. reflexivity. Qed.
Lemma quad_empty nq x w a f : quad nq x w a a f = 0.
Proof. apply sum_zero'. intros i _. replace ((a - a) / 2) with 0 by field. ring. Qed.
Lemma quad_scal nq x w lo hi c f : quad nq x w lo hi (fun r => c * f r) = c * quad nq x w lo hi f.
Proof. unfold quad. rewrite <- sum_scal. apply sum_ext. intros i _. ring. Qed.

Lemma density_flip N bf lo hi c r : (c < N * N)%nat -> pair_density N bf lo hi (flip N c) r = pair_density N bf lo hi c r.
Proof. intros H. unfold pair_density. cbv zeta. rewrite flip_div, flip_mod by exact H. ring. Qed.

Section TwoE.
Variables (nq : nat) (x w : vec) (N : nat) (bf : R -> nat -> R).
Variables (lo hi : R).
Let D := pair_density N bf lo hi.
Let r := node x lo hi.

Lemma rpoint_node q : rpoint x lo hi q = r q.
Proof. unfold rpoint, r, node. field. Qed.

Lemma wrk_quad u v fsb c : inner_wrk nq x w N bf u v lo hi fsb c = quad nq x w u v (fun t => fsb t v * D c t).
Proof.
  unfold inner_wrk, quad, D, pair_density. cbv zeta. apply sum_ext. intros q _.
  replace (1 / 2 * (v + u) + 1 / 2 * (v - u) * x q) with ((v + u) / 2 + (v - u) / 2 * x q) by field.
  replace (1 / 2 * (hi + lo)) with ((hi + lo) / 2) by field.
  replace (1 / 2 * (hi - lo)) with ((hi - lo) / 2) by field.
  replace (1 / 2 * (v - u)) with ((v - u) / 2) by field. ring.
Qed.

Section Kernel.
Variables (fsb : R -> R -> R) (fb fs : R -> R).

(** The running integral of fs D_c over the pieces up to point q. *)
Definition running (q c : nat) : R :=
  sum (S q) (fun p => quad nq x w (piece_lo x lo hi p) (r p) (fun t => fs t * D c t)).

Lemma running_S q c : running (S q) c = running q c + quad nq x w (r q) (r (S q)) (fun t => fs t * D c t).
Proof. reflexivity. Qed.

Lemma inner_running q c :
  (forall p, (p <= q)%nat -> (p = 0%nat /\ r 0%nat = lo) \/ (fb (r p) <> 0 /\ forall t, fsb t (r p) = fs t * fb (r p))) ->
  inner_row nq x w N bf lo hi fsb fb q c = fb (r q) * running q c.
Proof.
  induction q as [|q IH]; intros H.
  - cbn [inner_row]. rewrite !rpoint_node. unfold running. cbn [sum piece_lo].
    destruct (Reqb_spec (r 0%nat) lo) as [E|E].
    + rewrite E. rewrite quad_empty. lra.
    + destruct (H 0%nat (le_n _)) as [[_ C]|[H1 H2]]; [contradiction|].
      rewrite wrk_quad. rewrite (quad_ext _ _ _ _ _ _ (fun t => fb (r 0%nat) * (fs t * D c t))).
      2:{ intros t. rewrite H2. ring. }
      rewrite quad_scal. lra.
  - assert (HS := H (S q) (le_n _)). destruct HS as [[C _]|[H1 H2]]; [discriminate|].
    assert (HI : inner_row nq x w N bf lo hi fsb fb q c = fb (r q) * running q c) by (apply IH; intros p Hp; apply H; lia).
    cbn [inner_row]. rewrite !rpoint_node.
    assert (Hseg : inner_wrk nq x w N bf (r q) (r (S q)) lo hi fsb c
                   = fb (r (S q)) * quad nq x w (r q) (r (S q)) (fun t => fs t * D c t)).
    { rewrite wrk_quad, <- quad_scal. apply quad_ext. intros t. rewrite H2. ring. }
    rewrite running_S.
    destruct (Nat.eqb_spec (S q) 1) as [E|E]; cbn [andb].
    + assert (q = 0%nat) by lia. subst q.
      destruct (Reqb_spec (r 0%nat) lo) as [E0|E0].
      * rewrite Hseg. unfold running. cbn [sum piece_lo].
        replace (quad nq x w lo (r 0%nat) (fun t => fs t * D c t)) with 0 by (rewrite E0, quad_empty; reflexivity). ring.
      * rewrite Hseg, HI. destruct (H 0%nat ltac:(lia)) as [[_ C]|[H3 _]]; [contradiction|]. field. exact H3.
    + rewrite Hseg, HI. destruct (H q ltac:(lia)) as [[C _]|[H3 _]]; [lia|]. field. exact H3.
Qed.

Lemma running_exact G c q :
  (forall p, (p <= q)%nat -> quad nq x w (piece_lo x lo hi p) (r p) (fun t => fs t * D c t) = G (r p) - G (piece_lo x lo hi p)) ->
  running q c = G (r q) - G lo.
Proof.
  induction q as [|q IH]; intros H.
  - unfold running. cbn [sum]. rewrite H by lia. cbn [piece_lo]. lra.
  - rewrite running_S, IH by (intros p Hp; apply H; lia).
    pose proof (H (S q) (le_n _)) as E. cbn [piece_lo] in E. fold (r q) in E. rewrite E. fold (r q). lra.
Qed.

Lemma bfprod_density q c : lo <> hi -> bfprod x N bf q c = D c (r q).
Proof.
  intros H. unfold bfprod, D, pair_density, r, node. cbv zeta.
  replace (((hi + lo) / 2 + (hi - lo) / 2 * x q - (hi + lo) / 2) / ((hi - lo) / 2)) with (x q) by (field; lra). reflexivity.
Qed.

Definition kernel_ok : Prop :=
  forall p, (p < nq)%nat -> (p = 0%nat /\ r 0%nat = lo) \/ (fb (r p) <> 0 /\ forall t, fsb t (r p) = fs t * fb (r p)).

Lemma twoe_value a b : lo <> hi -> kernel_ok ->
  twoe_integral nq x w N bf lo hi fsb fb a b =
  sum nq (fun q => w q * ((hi - lo) / 2) * (fb (r q) * (D a (r q) * running q b + D b (r q) * running q a))).
Proof.
  intros Hne Hk. unfold twoe_integral. cbv zeta. rewrite <- sum_plus. apply sum_ext. intros q Hq.
  rewrite !bfprod_density by exact Hne. rewrite !inner_running by (intros p Hp; apply Hk; lia).
  replace (1 / 2 * (hi - lo)) with ((hi - lo) / 2) by field. ring.
Qed.

Lemma twoe_exact Ga Gb Hab Hba a b : lo <> hi -> kernel_ok ->
  (forall p, (p < nq)%nat -> quad nq x w (piece_lo x lo hi p) (r p) (fun t => fs t * D a t) = Ga (r p) - Ga (piece_lo x lo hi p)) ->
  (forall p, (p < nq)%nat -> quad nq x w (piece_lo x lo hi p) (r p) (fun t => fs t * D b t) = Gb (r p) - Gb (piece_lo x lo hi p)) ->
  quad nq x w lo hi (fun t => fb t * D a t * (Gb t - Gb lo)) = Hab hi - Hab lo ->
  quad nq x w lo hi (fun t => fb t * D b t * (Ga t - Ga lo)) = Hba hi - Hba lo ->
  twoe_integral nq x w N bf lo hi fsb fb a b = (Hab hi - Hab lo) + (Hba hi - Hba lo).
Proof.
  intros Hne Hk H1 H2 H3 H4. rewrite twoe_value by assumption.
  rewrite <- H3, <- H4. unfold quad. rewrite <- sum_plus. apply sum_ext. intros q Hq.
  rewrite (running_exact Gb) by (intros p Hp; apply H2; lia).
  rewrite (running_exact Ga) by (intros p Hp; apply H1; lia).
  fold (node x lo hi q). fold (r q). ring.
Qed.

Lemma twoe_sym a b : twoe_integral nq x w N bf lo hi fsb fb a b = twoe_integral nq x w N bf lo hi fsb fb b a.
Proof. unfold twoe_integral. cbv zeta. lra. Qed.

Lemma wrk_flip u v c : (c < N * N)%nat ->
  inner_wrk nq x w N bf u v lo hi fsb (flip N c) = inner_wrk nq x w N bf u v lo hi fsb c.
Proof.
  intros H. rewrite !wrk_quad. apply quad_ext. intros t. unfold D. rewrite density_flip by exact H. reflexivity.
Qed.
Lemma row_flip q c : (c < N * N)%nat ->
  inner_row nq x w N bf lo hi fsb fb q (flip N c) = inner_row nq x w N bf lo hi fsb fb q c.
Proof.
  intros H. induction q as [|q IH]; cbn [inner_row].
  - destruct (Reqb _ _); [reflexivity|]. apply wrk_flip. exact H.
  - destruct (_ && _)%bool; [apply wrk_flip; exact H|]. rewrite IH, wrk_flip by exact H. reflexivity.
Qed.
Lemma bfprod_flip q c : (c < N * N)%nat -> bfprod x N bf q (flip N c) = bfprod x N bf q c.
Proof. intros H. unfold bfprod. rewrite flip_div, flip_mod by exact H. ring. Qed.

Lemma twoe_flip a b : (a < N * N)%nat -> 
  twoe_integral nq x w N bf lo hi fsb fb (flip N a) b = twoe_integral nq x w N bf lo hi fsb fb a b.
Proof.
  intros H. unfold twoe_integral. cbv zeta. f_equal; apply sum_ext; intros q _.
  - rewrite bfprod_flip by exact H. reflexivity.
  - rewrite row_flip by exact H. reflexivity.
Qed.
End Kernel.

Lemma coul_kernel L p : r p <> 0 -> coul_big L (r p) <> 0 /\ forall t, coul_sb L t (r p) = t ^ L * coul_big L (r p).
Proof.
  intros H. unfold coul_big, coul_sb.
  assert (r p ^ (L + 1) <> 0) by (apply pow_nonzero; exact H).
  assert (r p ^ L <> 0) by (apply pow_nonzero; exact H). split.
  - apply Rinv_neq_0_compat. assumption.
  - intros t. unfold Rdiv. rewrite Rpow_mult_distr, pow_add, pow_1, pow_inv. field. split; assumption.
Qed.

Lemma coul_ok L : 0 <= lo -> (forall p, (p < nq)%nat -> lo <= r p) -> 
  (forall p, (p < nq)%nat -> (0 < p)%nat -> lo < r p) -> kernel_ok (coul_sb L) (coul_big L) (fun t => t ^ L).
Proof.
  intros H0 H1 H2 p Hp. destruct (Req_dec (r p) lo) as [E|E].
  - destruct (Nat.eq_dec p 0) as [->|Hn]; [left; auto|]. specialize (H2 p Hp ltac:(lia)). lra.
  - right. apply coul_kernel. specialize (H1 p Hp). lra.
Qed.

(** Spherical potential. *)
Lemma spherical_value ip c : (ip < nq)%nat -> (forall p, (p <= ip)%nat -> r p <> 0) ->
  spherical_potential nq x w N bf lo hi ip c =
  sum (S ip) (fun p => quad nq x w (piece_lo x lo hi p) (r p) (fun t => D c t)) / r ip
  + sum (nq - ip) (fun k => quad nq x w (r (ip + k)%nat) (if (ip + k =? nq - 1)%nat then hi else r (S (ip + k)))
                                (fun t => D c t / t)).
Proof.
  intros Hip Hr. unfold spherical_potential. cbv zeta. rewrite !rpoint_node. f_equal.
  - f_equal. apply sum_ext. intros p Hp. rewrite wrk_quad.
    rewrite (quad_ext _ _ _ _ _ _ (fun t => (/ rpoint x lo hi p) * D c t)) by (intros t; unfold Rdiv; ring).
    rewrite quad_scal.
    assert (E : match p with O => lo | S p0 => rpoint x lo hi p0 end = piece_lo x lo hi p)
      by (destruct p; [reflexivity|apply rpoint_node]).
    rewrite E, rpoint_node. change (fun t => D c t) with (D c). field. apply Hr. lia.
  - apply sum_ext. intros k Hk. rewrite wrk_quad. rewrite !rpoint_node.
    apply quad_ext. intros t. unfold Rdiv. ring.
Qed.

Lemma spherical_exact Z M ip c : (ip < nq)%nat -> (forall p, (p <= ip)%nat -> r p <> 0) ->
  (forall p, (p <= ip)%nat -> quad nq x w (piece_lo x lo hi p) (r p) (fun t => D c t) = Z (r p) - Z (piece_lo x lo hi p)) ->
  (forall p, (p < nq)%nat -> quad nq x w (r p) (if (p =? nq - 1)%nat then hi else r (S p)) (fun t => D c t / t)
                 = M (if (p =? nq - 1)%nat then hi else r (S p)) - M (r p)) ->
  spherical_potential nq x w N bf lo hi ip c = (Z (r ip) - Z lo) / r ip + (M hi - M (r ip)).
Proof.
  intros Hip Hr H1 H2. rewrite spherical_value by assumption. f_equal.
  - f_equal. clear Hip Hr H2. induction ip as [|p IH]; cbn [sum].
    + rewrite H1 by lia. cbn [piece_lo]. lra.
    + cbn [sum] in IH. rewrite IH by (intros q Hq; apply H1; lia). rewrite H1 by lia. cbn [piece_lo]. fold r. lra.
  - rewrite (sum_ext _ _ (fun k => M (if (ip + k =? nq - 1)%nat then hi else r (S (ip + k))) - M (r (ip + k)%nat)))
      by (intros k Hk; apply H2; lia).
    assert (HT : forall m, (m <= nq - ip - 1)%nat ->
       sum m (fun k => M (if (ip + k =? nq - 1)%nat then hi else r (S (ip + k))) - M (r (ip + k)%nat)) = M (r (ip + m)%nat) - M (r ip)).
    { induction m as [|m IH]; intros Hm; cbn [sum].
      - rewrite Nat.add_0_r. lra.
      - rewrite IH by lia. destruct (Nat.eqb_spec (ip + m) (nq - 1)); [lia|].
        replace (ip + S m)%nat with (S (ip + m)) by lia. lra. }
    replace (nq - ip)%nat with (S (nq - ip - 1)) by lia. cbn [sum]. rewrite HT by lia.
    destruct (Nat.eqb_spec (ip + (nq - ip - 1)) (nq - 1)); [lra|lia].
Qed.
End TwoE.

(** Range-separated integrals: exchanging the elements transposes the matrix. *)
Lemma erfc_swap Phi L mu nqi xi wi Ni bfi rmini rmaxi nqk xk wk Nk bfk rmink rmaxk a b :
  (forall u v, Phi L u v = Phi L v u) ->
  erfc_integral Phi L mu nqi xi wi Ni bfi rmini rmaxi nqk xk wk Nk bfk rmink rmaxk a b =
  erfc_integral Phi L mu nqk xk wk Nk bfk rmink rmaxk nqi xi wi Ni bfi rmini rmaxi b a.
Proof.
  intros H. unfold erfc_integral. cbv zeta.
  rewrite (sum_ext nqk _ (fun k => sum nqi (fun i => bfprod xi Ni bfi i a * (wi i * (1 / 2 * (rmaxi - rmini)))
      * Phi L (mu * rpoint xi rmini rmaxi i) (mu * rpoint xk rmink rmaxk k) * (bfprod xk Nk bfk k b * (wk k * (1 / 2 * (rmaxk - rmink))))))).
  2:{ intros k _. rewrite <- sum_scal_r. reflexivity. }
  rewrite sum_swap. apply sum_ext. intros i _.
  rewrite <- sum_scal_r. apply sum_ext. intros k _. rewrite (H (mu * rpoint xi rmini rmaxi i)). ring.
Qed.
Lemma erfc_flip Phi L mu nqi xi wi Ni bfi rmini rmaxi nqk xk wk Nk bfk rmink rmaxk a b : (a < Ni * Ni)%nat ->
  erfc_integral Phi L mu nqi xi wi Ni bfi rmini rmaxi nqk xk wk Nk bfk rmink rmaxk (flip Ni a) b =
  erfc_integral Phi L mu nqi xi wi Ni bfi rmini rmaxi nqk xk wk Nk bfk rmink rmaxk a b.
Proof.
  intros H. unfold erfc_integral. cbv zeta. apply sum_ext. intros k _. f_equal. apply sum_ext. intros i _.
  rewrite bfprod_flip by exact H. reflexivity.
Qed.

(** Diatomic. *)
Section Diatomic.
Variables (nq : nat) (x w : vec) (N : nat) (bf : R -> nat -> R).
Variables (P Q : R -> R) (ch sh : R -> R).
Variables (lo hi : R).
Let D := pair_density N bf lo hi.
Let m := node x lo hi.

Lemma d_mu_node q : d_mu x lo hi q = m q.
Proof. unfold d_mu, m, node. field. Qed.
Lemma pow_if (z : R) l : (if (l =? 0)%nat then 1 else z ^ l) = z ^ l.
Proof. destruct l; reflexivity. Qed.
Lemma d_wrk_quad u v l c : d_inner_wrk nq x w N bf P ch sh u v lo hi l c
   = quad nq x w u v (fun t => sh t * ch t ^ l * P (ch t) * D c t).
Proof.
  unfold d_inner_wrk, quad, D, pair_density. cbv zeta. apply sum_ext. intros q _. rewrite pow_if.
  replace (/ 2 * (v + u) + / 2 * (v - u) * x q) with ((v + u) / 2 + (v - u) / 2 * x q) by field.
  replace (/ 2 * (hi + lo)) with ((hi + lo) / 2) by field.
  replace (/ 2 * (hi - lo)) with ((hi - lo) / 2) by field.
  replace (/ 2 * (v - u)) with ((v - u) / 2) by field. ring.
Qed.
Lemma d_inner_running l q c : d_inner_row nq x w N bf P ch sh lo hi l q c
   = running nq x w N bf lo hi (fun t => sh t * ch t ^ l * P (ch t)) q c.
Proof.
  induction q as [|q IH].
  - cbn [d_inner_row]. rewrite d_wrk_quad. unfold running. cbn [sum piece_lo]. rewrite d_mu_node. unfold D, m. lra.
  - cbn [d_inner_row]. rewrite IH, d_wrk_quad, !d_mu_node. reflexivity.
Qed.
Lemma d_twoe_value k l a b : lo <> hi ->
  d_twoe nq x w N bf P Q ch sh lo hi k l a b =
  sum nq (fun q => w q * ((hi - lo) / 2) * (sh (m q) * Q (ch (m q)) *
     (ch (m q) ^ k * D a (m q) * running nq x w N bf lo hi (fun t => sh t * ch t ^ l * P (ch t)) q b +
      ch (m q) ^ l * D b (m q) * running nq x w N bf lo hi (fun t => sh t * ch t ^ k * P (ch t)) q a))).
Proof.
  intros Hne. unfold d_twoe, d_wrk. cbv zeta. rewrite <- sum_plus.
  apply sum_ext. intros q Hq. rewrite !pow_if, !d_inner_running, !d_mu_node.
  pose proof (bfprod_density x N bf lo hi q a Hne) as Ea. pose proof (bfprod_density x N bf lo hi q b Hne) as Eb.
  unfold bfprod in Ea, Eb. rewrite Ea, Eb. fold D. fold m.
  replace (/ 2 * (hi - lo)) with ((hi - lo) / 2) by field. ring.
Qed.
Lemma d_twoe_transpose k l a b :
  d_twoe nq x w N bf P Q ch sh lo hi k l a b = d_twoe nq x w N bf P Q ch sh lo hi l k b a.
Proof. unfold d_twoe. lra. Qed.
Lemma d_inner_flip l q c : (c < N * N)%nat ->
  d_inner_row nq x w N bf P ch sh lo hi l q (flip N c) = d_inner_row nq x w N bf P ch sh lo hi l q c.
Proof.
  intros H. rewrite !d_inner_running. unfold running. apply sum_ext. intros p _. apply quad_ext. intros t.
  rewrite density_flip by exact H. reflexivity.
Qed.
Lemma d_twoe_flip k l a b : (a < N * N)%nat ->
  d_twoe nq x w N bf P Q ch sh lo hi k l (flip N a) b = d_twoe nq x w N bf P Q ch sh lo hi k l a b.
Proof.
  intros H. unfold d_twoe, d_wrk. cbv zeta. f_equal; apply sum_ext; intros q _.
  - rewrite flip_div, flip_mod by exact H. ring.
  - rewrite d_inner_flip by exact H. reflexivity.
Qed.

Lemma c_acc_row l q c : c_acc nq w N P (d_element x N bf ch sh lo hi) l (S q) c = d_inner_row nq x w N bf P ch sh lo hi l q c.
Proof.
  induction q as [|q IH].
  - cbn [c_acc d_inner_row]. rewrite Rplus_0_l. reflexivity.
  - cbn [c_acc] in *. rewrite IH. cbn [d_inner_row]. f_equal.
    unfold d_inner_wrk. cbv zeta. cbn [d_element el_sub si_mulen si_shmu si_chmu si_bf]. cbn [Nat.eqb].
    replace (S q - 1)%nat with q by lia. reflexivity.
Qed.
Lemma c_twoe_direct k l a b : c_twoe nq w N P Q (d_element x N bf ch sh lo hi) k l a b = d_twoe nq x w N bf P Q ch sh lo hi k l a b.
Proof.
  unfold c_twoe, d_twoe, c_outer, d_wrk. cbv zeta.
  f_equal; apply sum_ext; intros q _; rewrite c_acc_row; reflexivity.
Qed.
End Diatomic.
