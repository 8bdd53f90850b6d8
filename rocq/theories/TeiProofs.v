(** Proofs about the precomputed two-electron integrals of a diatomic basis. *)
Require Import Reals ZArith List Bool Arith Lia Lra Permutation FunctionalExtensionality.
Require Import Verif.Prelude Verif.AngModel Verif.CholModel Verif.JKModel Verif.LegModel Verif.LegSpec Verif.LegProofs
  Verif.QuadModel Verif.QuadSpec Verif.QuadProofs Verif.TwoDModel Verif.TeiModel Verif.TeiSpec.
Import ListNotations.
Local Open Scope R_scope.

(* ------------------------------------------------------------------ *)
(** * Programs *)

Lemma answered_pbind : forall A B ans (p : prog A) (f : A -> prog B),
  answered ans (pbind p f) = answered ans (f (answered ans p)).
Proof. induction p as [a|w L x k IH]; intros f; cbn [pbind answered]; [reflexivity|apply IH]. Qed.

Lemma asks_pbind : forall A B L (p : prog A) (f : A -> prog B),
  asks L p -> (forall a, asks L (f a)) -> asks L (pbind p f).
Proof.
  induction p as [a|w L' x k IH]; intros f H Hf; cbn [pbind asks] in *; [apply Hf|].
  destruct H as (H1 & H2 & H3). split; [exact H1|split; [exact H2|]].
  intro v. apply IH; [apply H3|exact Hf].
Qed.

Lemma answered_vec : forall ans w L n xs i, (i < n)%nat -> answered ans (ask_vec w L n xs) i = ans w L (xs i).
Proof.
  induction n as [|n IH]; intros xs i Hi; [lia|].
  cbn [ask_vec]. rewrite answered_pbind. cbn [answered].
  destruct (Nat.eqb_spec i n) as [->|Hne]; [reflexivity|]. apply IH. lia.
Qed.

Lemma asks_vec : forall w L n xs, (forall i, 1 <= xs i) -> asks L (ask_vec w L n xs).
Proof.
  induction n as [|n IH]; intros xs H; cbn [ask_vec]; [exact I|].
  apply asks_pbind; [apply IH; exact H|]. intro v. cbn [asks].
  split; [reflexivity|]. split; [apply H|]. intros; exact I.
Qed.

Lemma cosh_ge_1 : forall x, 1 <= cosh x.
Proof.
  intro x. unfold cosh.
  pose proof (exp_pos x) as Hp. pose proof (exp_pos (- x)) as Hm.
  assert (E : exp x * exp (- x) = 1) by (rewrite <- exp_plus; replace (x + - x) with 0 by lra; apply exp_0).
  pose proof (Rle_0_sqr (exp x - exp (- x))) as H. unfold Rsqr in H. nra.
Qed.

(* ------------------------------------------------------------------ *)
(** * The cache *)
Section Cache.
Variables (normal : R -> bool) (cf : R -> nat -> nat -> res R) (seed_low : R) (DP DQ : nat -> nat -> R -> R).
Hypothesis LEG : legendre_ok cf seed_low DP DQ.

Lemma keep_flush : forall v, keep_normal normal v = flush normal v.
Proof.
  intro v. unfold keep_normal, flush. destruct (Reqb_spec v 0) as [->|]; cbn [negb andb].
  - destruct (normal 0); reflexivity.
  - destruct (normal v); reflexivity.
Qed.

Definition good_col (M Lmax : Z) (w : bool) (e : R * (Z -> R)) : Prop :=
  forall L, (0 <= L <= Lmax)%Z -> (w = false -> fst e <> 1) -> snd e L = exact_legendre normal DP DQ M w L (fst e).

Definition good (M Lmax : Z) (c : mcache) : Prop :=
  mc_M c = M /\ mc_L c = Lmax /\ Forall (good_col M Lmax true) (mc_P c) /\ Forall (good_col M Lmax false) (mc_Q c).

Lemma good_new : forall M L, good M L (mc_new M L).
Proof. intros. repeat split; constructor. Qed.
Lemma good_reset : forall c M L, good M L (mc_reset c M L).
Proof. intros. repeat split; constructor. Qed.

Lemma key_find_good : forall M Lmax w x t col, Forall (good_col M Lmax w) t -> key_find x t = Some col ->
  forall L, (0 <= L <= Lmax)%Z -> (w = false -> x <> 1) -> col L = exact_legendre normal DP DQ M w L x.
Proof.
  induction t as [|[y c] t IH]; intros col HF H L HL Hx; cbn [key_find] in H; [discriminate|].
  inversion HF as [|? ? H1 H2]; subst. destruct (Reqb_spec y x) as [->|].
  - injection H as <-. apply (H1 L HL). exact Hx.
  - eapply IH; eauto.
Qed.

Lemma table_index : forall L M Lmax : Z, (0 <= L)%Z -> (0 <= M)%Z -> (0 <= Lmax)%Z ->
  Z.to_nat (L + M * (Lmax + 1)) = (Z.to_nat M * (Z.to_nat Lmax + 1) + Z.to_nat L)%nat.
Proof. intros. rewrite Z2Nat.inj_add, Z2Nat.inj_mul, Z2Nat.inj_add by nia. change (Z.to_nat 1) with 1%nat. lia. Qed.

Lemma fetch_ok : forall M Lmax c w x, (0 <= M)%Z -> (0 <= Lmax)%Z -> good M Lmax c -> 1 <= x -> (w = false -> x <> 1) ->
  exists col c', fetch normal cf seed_low c w x = Ok (col, c') /\ good M Lmax c' /\
    forall L, (0 <= L <= Lmax)%Z -> col L = exact_legendre normal DP DQ M w L x.
Proof.
  intros M Lmax c w x HM HL (E1 & E2 & G1 & G2) Hx Hw. unfold fetch.
  destruct LEG as (LP & LQ & LS & LR).
  destruct (key_find x (if w then mc_P c else mc_Q c)) as [col|] eqn:EF.
  - exists col, c. split; [reflexivity|]. split; [repeat split; assumption|].
    intros L HLr. destruct w; eapply key_find_good; eauto.
  - rewrite E1, E2. destruct w.
    + destruct (plm_ok DP Lmax M x LP HL HM) as (a & Ha & Hv). rewrite Ha. cbn [bind].
      set (col := fun L => keep_normal normal (a (Z.to_nat (L + M * (Lmax + 1))))).
      assert (HC : forall L, (0 <= L <= Lmax)%Z -> col L = exact_legendre normal DP DQ M true L x).
      { intros L HLr. unfold col, exact_legendre. rewrite keep_flush, table_index by lia. rewrite Hv by lia. reflexivity. }
      exists col, (mkMC M Lmax ((x, col) :: mc_P c) (mc_Q c)).
      split; [reflexivity|]. split; [|exact HC].
      repeat split; cbn [mc_M mc_L mc_P mc_Q]; try assumption.
      constructor; [|exact G1]. intros L HLr _. cbn [fst snd]. apply HC; exact HLr.
    + assert (Hx1 : 1 < x) by (specialize (Hw eq_refl); lra).
      assert (Habs : Rabs x = x) by (apply Rabs_pos_eq; lra).
      destruct (qlm_ok DQ cf seed_low Lmax M x LQ HL HM) as (a & Ha & Hv).
      { rewrite Habs; lra. } { exact LS. }
      { intros _ HL1 m Hm. apply LR; [lra|lia|exact Hm]. }
      rewrite Ha. cbn [bind].
      set (col := fun L => keep_normal normal (a (Z.to_nat (L + M * (Lmax + 1))))).
      assert (HC : forall L, (0 <= L <= Lmax)%Z -> col L = exact_legendre normal DP DQ M false L x).
      { intros L HLr. unfold col, exact_legendre. destruct (Req_EM_T x 1) as [E|_]; [lra|].
        rewrite keep_flush, table_index by lia. rewrite Hv by lia. reflexivity. }
      exists col, (mkMC M Lmax (mc_P c) ((x, col) :: mc_Q c)).
      split; [reflexivity|]. split; [|exact HC].
      repeat split; cbn [mc_M mc_L mc_P mc_Q]; try assumption.
      constructor; [|exact G2]. intros L HLr _. cbn [fst snd]. apply HC; exact HLr.
Qed.

Lemma ask_ok : forall M Lmax c w L x, (0 <= M)%Z -> good M Lmax c -> (0 <= L <= Lmax)%Z -> 1 <= x ->
  exists c', ask_cache normal cf seed_low c w L x = Ok (exact_legendre normal DP DQ M w L x, c') /\ good M Lmax c'.
Proof.
  intros M Lmax c w L x HM G HL Hx. unfold ask_cache.
  destruct (Reqb_spec x 1) as [E|E].
  - destruct w; cbn [negb andb].
    + destruct (fetch_ok M Lmax c true x HM ltac:(lia) G Hx ltac:(discriminate)) as (col & c' & -> & G' & HC). cbn [bind].
      destruct G as (_ & E2 & _). rewrite E2.
      destruct (Z.leb_spec 0 L); [|lia]. destruct (Z.leb_spec L Lmax); [|lia]. cbn [andb fst snd].
      exists c'. rewrite HC by lia. split; [reflexivity|exact G'].
    + exists c. split; [|exact G]. unfold exact_legendre. destruct (Req_EM_T x 1); [reflexivity|contradiction].
  - rewrite andb_false_r.
    destruct (fetch_ok M Lmax c w x HM ltac:(lia) G Hx (fun _ => E)) as (col & c' & -> & G' & HC). cbn [bind].
    destruct G as (_ & E2 & _). rewrite E2.
    destruct (Z.leb_spec 0 L); [|lia]. destruct (Z.leb_spec L Lmax); [|lia]. cbn [andb fst snd].
    exists c'. rewrite HC by lia. split; [reflexivity|exact G'].
Qed.

Lemma run_ok : forall A (p : prog A) M Lmax L c, (0 <= M)%Z -> (0 <= L <= Lmax)%Z -> good M Lmax c -> asks L p ->
  exists c', run_cached normal cf seed_low p c = Ok (answered (exact_legendre normal DP DQ M) p, c') /\ good M Lmax c'.
Proof.
  induction p as [a|w L' x k IH]; intros M Lmax L c HM HL G H; cbn [run_cached answered asks] in *.
  - exists c. split; [reflexivity|exact G].
  - destruct H as (-> & Hx & Hk).
    destruct (ask_ok M Lmax c w L x HM G HL Hx) as (c' & -> & G'). cbn [bind fst snd].
    exact (IH _ M Lmax L c' HM HL G' (Hk _)).
Qed.
End Cache.

(* ------------------------------------------------------------------ *)
(** * The integrals *)

Lemma dmat_ext : forall r c (f g : mat), (forall i j, f i j = g i j) -> mkD r c f = mkD r c g.
Proof. intros r c f g H. f_equal. extensionality i. extensionality j. apply H. Qed.

Lemma disjoint_eval_ok : forall rb ans w k iel L n, d_lo rb iel < d_hi rb iel ->
  answered ans (disjoint_eval rb w k iel L n) = element_matrix rb iel k (ans w L) n.
Proof.
  intros rb ans w k iel L n Hlt. unfold disjoint_eval, element_matrix.
  destruct (d_rule rb n) as [x wq]. rewrite answered_pbind. cbn [answered fst snd].
  apply dmat_ext. intros i j. unfold quad. apply sum_ext. intros q Hq.
  rewrite answered_vec by exact Hq. cbv zeta.
  set (lo := d_lo rb iel) in *. set (hi := d_hi rb iel) in *.
  replace (((hi + lo) / 2 + (hi - lo) / 2 * x q - (hi + lo) / 2) / ((hi - lo) / 2)) with (x q) by (field; lra).
  replace (/ 2 * (hi + lo) + / 2 * (hi - lo) * x q) with ((hi + lo) / 2 + (hi - lo) / 2 * x q) by field.
  destruct (Nat.eqb_spec k 0) as [->|]; cbn [pow]; field.
Qed.

Lemma disjoint_eval_asks : forall rb w k iel L n, asks L (disjoint_eval rb w k iel L n).
Proof.
  intros. unfold disjoint_eval. destruct (d_rule rb n) as [x wq].
  apply asks_pbind; [apply asks_vec; intro; apply cosh_ge_1|]. intro; exact I.
Qed.

Lemma inner_ok : forall ans nq w N el l L ip r c, (r < ip)%nat ->
  answered ans (inner_prog nq w N el l L ip) r c = c_acc nq w N (ans true L) el l (S r) c.
Proof.
  induction ip as [|p IH]; intros r c Hr; [lia|].
  cbn [inner_prog]. rewrite !answered_pbind. cbn [answered].
  destruct (Nat.eqb_spec r p) as [->|Hne]; [|apply IH; lia].
  change (c_acc nq w N (ans true L) el l (S p) c) with
    (c_acc nq w N (ans true L) el l p c + sum nq (fun q => si_bf (el_sub el p) q (c mod N)%nat *
       (si_mulen (el_sub el p) * w q * si_shmu (el_sub el p) q * (if (l =? 0)%nat then 1 else si_chmu (el_sub el p) q ^ l) * ans true L (si_chmu (el_sub el p) q)) *
       si_bf (el_sub el p) q (c / N)%nat)).
  f_equal.
  - destruct p as [|p']; [reflexivity|]. apply IH. lia.
  - apply sum_ext. intros q Hq. rewrite answered_vec by exact Hq. reflexivity.
Qed.

Lemma twoe_prog_ok : forall ans nq w N el k l L,
  answered ans (twoe_prog nq w N el k l L) = c_twoe nq w N (ans true L) (ans false L) el k l.
Proof.
  intros. extensionality a. extensionality b.
  assert (HO : forall k l a b, answered ans (outer_prog nq w N el k l L) a b = c_outer nq w N (ans true L) (ans false L) el k l a b).
  { intros k' l' a' b'. unfold outer_prog. rewrite !answered_pbind. cbn [answered].
    unfold c_outer. apply sum_ext. intros q Hq. rewrite answered_vec by exact Hq. rewrite inner_ok by exact Hq. reflexivity. }
  unfold twoe_prog. rewrite !answered_pbind. cbn [answered]. rewrite !HO. reflexivity.
Qed.

Lemma inner_asks : forall nq w N el l L ip, (forall p q, 1 <= si_chmu (el_sub el p) q) -> asks L (inner_prog nq w N el l L ip).
Proof.
  induction ip as [|p IH]; intros H; cbn [inner_prog]; [exact I|].
  apply asks_pbind; [apply IH; exact H|]. intro inner.
  apply asks_pbind; [apply asks_vec; apply H|]. intro; exact I.
Qed.

Lemma twoe_asks : forall nq w N el k l L, (forall p q, 1 <= si_chmu (el_sub el p) q) -> (forall q, 1 <= el_chmu el q) ->
  asks L (twoe_prog nq w N el k l L).
Proof.
  intros nq w N el k l L H1 H2.
  assert (HO : forall k l, asks L (outer_prog nq w N el k l L)).
  { intros. unfold outer_prog. apply asks_pbind; [apply inner_asks; exact H1|]. intro.
    apply asks_pbind; [apply asks_vec; exact H2|]. intro; exact I. }
  unfold twoe_prog. apply asks_pbind; [apply HO|]. intro. apply asks_pbind; [apply HO|]. intro; exact I.
Qed.

Lemma kernel_prog_ok : forall rb ans iel n L,
  answered ans (kernel_prog rb iel n L) = kernel_matrix rb iel n (ans true L) (ans false L).
Proof.
  intros. unfold kernel_prog, kernel_matrix, twoe_el. rewrite !answered_pbind. cbn [answered]. rewrite !twoe_prog_ok. reflexivity.
Qed.

Lemma kernel_asks : forall rb iel n L, asks L (kernel_prog rb iel n L).
Proof.
  intros. unfold kernel_prog.
  assert (HT : forall k l, asks L (twoe_prog n (snd (d_rule rb n)) (d_n rb iel) (twoe_el rb iel n) k l L)).
  { intros. apply twoe_asks; intros; unfold twoe_el, d_element; cbn [el_sub el_chmu si_chmu]; apply cosh_ge_1. }
  apply asks_pbind; [apply HT|]. intro. apply asks_pbind; [apply HT|]. intro. apply asks_pbind; [apply HT|]. intro; exact I.
Qed.

(* ------------------------------------------------------------------ *)
(** * Refinement *)

Lemma block_prog_ok : forall rb ans eval fallback n0 fuel n prev seed pd tried,
  answered ans (block_prog rb eval fallback n0 fuel n prev seed pd) =
  bind (block_loop dmat (d_dist rb) (d_scale rb) (d_tol rb) (d_sqrteps rb) (d_floor rb) (fun n => answered ans (eval n))
          order_cap fallback n0 fuel n prev seed pd tried) (fun r => Ok (snd (fst r), snd r)).
Proof.
  induction fuel as [|k IH]; intros n prev seed pd tried; [reflexivity|].
  cbn [block_prog block_loop]. rewrite answered_pbind. cbv zeta.
  set (cur := answered ans (eval n)).
  destruct (match prev with None => false | Some p => _ end) eqn:ES; [reflexivity|].
  destruct (order_cap <=? n)%nat.
  - destruct fallback; reflexivity.
  - apply IH.
Qed.

Lemma block_prog_asks : forall rb eval fallback n0 L fuel n prev seed pd, (forall n, asks L (eval n)) ->
  asks L (block_prog rb eval fallback n0 fuel n prev seed pd).
Proof.
  induction fuel as [|k IH]; intros n prev seed pd H; [exact I|].
  cbn [block_prog]. apply asks_pbind; [apply H|]. intro cur. cbv zeta.
  destruct (match prev with None => false | Some p => _ end); [exact I|].
  destruct (order_cap <=? n)%nat; [destruct fallback; exact I|]. apply IH. exact H.
Qed.

Lemma refined_exists : forall rb eval fallback nstart, numerics_ok rb ->
  exists X n, refined rb eval fallback nstart X n.
Proof.
  intros rb eval fallback nstart (H1 & H2 & H3 & H4).
  destruct (block_result dmat (d_dist rb) (d_scale rb) (d_tol rb) (d_sqrteps rb) (d_floor rb) eval order_cap fallback nstart H1 H2 H3 H4)
    as (k & tried & n & E & _).
  exists (eval n), n, tried. exact E.
Qed.

Lemma converge_prog_ok : forall rb ans eval fallback nstart X n,
  refined rb (fun n => answered ans (eval n)) fallback nstart X n ->
  answered ans (converge_prog rb eval fallback nstart) = Ok (X, n).
Proof.
  intros rb ans eval fallback nstart X n (tried & E). unfold converge_prog. cbv zeta.
  rewrite (block_prog_ok _ _ _ _ _ _ _ _ _ _ []). unfold converge_block in E. cbv zeta in E. rewrite E. reflexivity.
Qed.
Global Opaque order_cap.

(** A chosen refined matrix. *)
Definition the_refined (rb : dradial) (eval : nat -> dmat) (fallback : bool) (nstart : Z) : dmat * nat :=
  match converge_block dmat (d_dist rb) (d_scale rb) (d_tol rb) (d_sqrteps rb) (d_floor rb) eval order_cap fallback nstart with
  | Ok (_, X, n) => (X, n)
  | _ => (dempty, 0%nat)
  end.
Lemma the_refined_ok : forall rb eval fallback nstart, numerics_ok rb ->
  refined rb eval fallback nstart (fst (the_refined rb eval fallback nstart)) (snd (the_refined rb eval fallback nstart)).
Proof.
  intros rb eval fallback nstart H. destruct (refined_exists rb eval fallback nstart H) as (X & n & tried & E).
  unfold the_refined. rewrite E. exists tried. exact E.
Qed.
