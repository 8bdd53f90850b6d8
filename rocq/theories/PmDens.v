(** The density on the points of one radius. *)
Require Import Reals ZArith List Bool Arith Lia Lra.
Require Import Verif.Prelude Verif.FEModel Verif.FESpec Verif.AngModel Verif.AngProofs Verif.JKModel Verif.JKProofs Verif.DftModel Verif.DftSpec Verif.DftProofs Verif.DftXc Verif.DftFock Verif.DftFockR Verif.DdfModel Verif.DdfSpec Verif.DdfProofs Verif.DdfDrv Verif.PmModel Verif.PmSpec Verif.PmProofs.
Import ListNotations.
Local Open Scope R_scope.

(** What the tables of a worker stand for: [mg] is the m of a function and [hp] the scale
    factor of phi. *)
Section Rep.
Variables (fl : flags) (n : nat) (pts : list gpoint) (mg : nat -> Z) (hp : nat -> R).
Hypothesis HF : flags_ok fl.
Definition absent ip i := p_f (pt pts ip) i = (0, 0) /\ (forall c, p_g (pt pts ip) c i = (0, 0)) /\ p_l (pt pts ip) i = (0, 0).
Definition bi (k : pmblock) (i : nat) : nat := nth i (k_ind k) 0%nat.

Record block_rep (h : nat -> R) (k : pmblock) : Prop := {
  br_nodup : NoDup (k_ind k);
  br_lt : forall i, In i (k_ind k) -> (i < n)%nat;
  br_m : forall i, In i (k_ind k) -> mg i = k_m k;
  br_out : forall ip i, (ip < length pts)%nat -> (i < n)%nat -> mg i = k_m k -> ~ In i (k_ind k) -> absent ip i;
  br_f : k_ind k <> [] -> is_mat (k_f k) (length (k_ind k)) (length pts) (fun i ip => fst (p_f (pt pts ip) (bi k i)));
  br_r : k_ind k <> [] -> f_grad fl = true -> is_mat (k_r k) (length (k_ind k)) (length pts) (fun i ip => h ip * fst (p_g (pt pts ip) 0 (bi k i)));
  br_t : k_ind k <> [] -> f_grad fl = true -> is_mat (k_t k) (length (k_ind k)) (length pts) (fun i ip => h ip * fst (p_g (pt pts ip) 1 (bi k i)));
  br_l : k_ind k <> [] -> f_lapl fl = true -> is_mat (k_l k) (length (k_ind k)) (length pts) (fun i ip => fst (p_l (pt pts ip) (bi k i))) }.
Record real_at (ip i : nat) : Prop := {
  ra_f : snd (p_f (pt pts ip) i) = 0;
  ra_0 : snd (p_g (pt pts ip) 0 i) = 0;
  ra_1 : snd (p_g (pt pts ip) 1 i) = 0;
  ra_2 : p_g (pt pts ip) 2 i = (0, IZR (mg i) * fst (p_f (pt pts ip) i) / hp ip);
  ra_l : snd (p_l (pt pts ip) i) = 0 }.
Definition same_values (ip : nat) (s : R) (i i' : nat) : Prop :=
  p_f (pt pts ip) i' = cscal s (p_f (pt pts ip) i) /\ p_g (pt pts ip) 0 i' = cscal s (p_g (pt pts ip) 0 i) /\
  p_g (pt pts ip) 1 i' = cscal s (p_g (pt pts ip) 1 i) /\ p_l (pt pts ip) i' = cscal s (p_l (pt pts ip) i).
Record pm_rep (w : pmworker) : Prop := {
  pr_fl : w_fl (pm_w w) = fl;
  pr_n : g_n (w_g (pm_w w)) = length pts;
  pr_w : forall ip, (ip < length pts)%nat -> g_w (w_g (pm_w w)) ip = p_w (pt pts ip);
  pr_h : forall ip, (ip < length pts)%nat -> 0 < pm_h w ip;
  pr_hp : forall ip, (ip < length pts)%nat -> 0 < hp ip;
  pr_ir2 : forall ip, (ip < length pts)%nat -> pm_ir2 w ip = 1 / (pm_h w ip * pm_h w ip);
  pr_ip2 : forall ip, (ip < length pts)%nat -> pm_ip2 w ip = 1 / (hp ip * hp ip);
  pr_blocks : forall k, In k (pm_blocks w) -> block_rep (pm_h w) k;
  pr_keys : NoDup (map k_m (pm_blocks w));
  pr_all : forall i, (i < n)%nat -> exists k, In k (pm_blocks w) /\ k_m k = mg i;
  pr_real : forall ip i, (ip < length pts)%nat -> (i < n)%nat -> real_at ip i;
  pr_mirror : forall k k', In k (pm_blocks w) -> In k' (pm_blocks w) -> k_m k' = (- k_m k)%Z -> length (k_ind k') = length (k_ind k) ->
    exists s, s * s = 1 /\ forall ip i, (ip < length pts)%nat -> (i < length (k_ind k))%nat -> same_values ip s (bi k i) (bi k' i) }.
Arguments pr_fl {_}. Arguments pr_n {_}. Arguments pr_w {_}. Arguments pr_h {_}. Arguments pr_hp {_}. Arguments pr_ir2 {_}. Arguments pr_ip2 {_}.
Arguments pr_blocks {_}. Arguments pr_keys {_}. Arguments pr_all {_}. Arguments pr_real {_}. Arguments pr_mirror {_}.
Arguments br_nodup {_ _}. Arguments br_lt {_ _}. Arguments br_m {_ _}. Arguments br_out {_ _}. Arguments br_f {_ _}. Arguments br_r {_ _}. Arguments br_t {_ _}. Arguments br_l {_ _}.

(** The part that does not mix m *)
Definition mpart (Q : mat) (i j : nat) : R := if (mg i =? mg j)%Z then Q i j else 0.
Definition mpartD (Q : dmat) : dmat := mkD (drows Q) (dcols Q) (mpart (dent Q)).

Section Worker.
Variable w : pmworker.
Hypothesis HW : pm_rep w.
Let bl := pm_blocks w.
Let N := length pts.

Lemma bi_in k i : In k bl -> (i < length (k_ind k))%nat -> In (bi k i) (k_ind k) /\ (bi k i < n)%nat /\ mg (bi k i) = k_m k.
Proof.
  intros Hk Hi. assert (I : In (bi k i) (k_ind k)) by (apply nth_In; exact Hi). split; [exact I|].
  split; [apply (br_lt (pr_blocks HW k Hk)), I|apply (br_m (pr_blocks HW k Hk)), I].
Qed.

(** The value of a block *)
Definition V (Q X : mat) (k : pmblock) : R :=
  sum (length (k_ind k)) (fun i => sum (length (k_ind k)) (fun j => Q (bi k i) (bi k j) * X (bi k i) (bi k j))).
Lemma V_empty Q X k : In k bl -> k_ind k = [] -> V Q X k = 0.
Proof. intros _ E. unfold V. rewrite E. reflexivity. Qed.
Definition vanishes (X : mat) : Prop := forall k i j, In k bl -> (i < n)%nat -> (j < n)%nat -> mg i = k_m k -> mg j = k_m k ->
  ~ In i (k_ind k) \/ ~ In j (k_ind k) -> X i j = 0.

(** Of a sum over blocks the one with the right m remains. *)
Lemma only_block i (x : R) : (i < n)%nat -> lsum bl (fun k => if (mg i =? k_m k)%Z then x else 0) = x.
Proof.
  intros Hi. rewrite (lsum_find bl (fun k => (mg i =? k_m k)%Z) (mg i) (fun _ => x) (pr_keys HW)) by (intros k _ E; apply Z.eqb_eq in E; congruence).
  destruct (find _ bl) as [k|] eqn:E; [reflexivity|]. exfalso. destruct (pr_all HW i Hi) as (k & Hk & Ek).
  assert (F := find_none _ _ E k Hk). cbn in F. apply Z.eqb_neq in F. congruence.
Qed.
Lemma only_pair i j (x : R) : (i < n)%nat -> lsum bl (fun k => if ((mg i =? k_m k)%Z && (mg j =? k_m k)%Z)%bool then x else 0) = if (mg i =? mg j)%Z then x else 0.
Proof.
  intros Hi. transitivity (lsum bl (fun k => if (mg i =? k_m k)%Z then (if (mg i =? mg j)%Z then x else 0) else 0)).
  - apply lsum_ext. intros k _. destruct (Z.eqb_spec (mg i) (k_m k)) as [<-|]; [|reflexivity]. cbn [andb]. rewrite Z.eqb_sym. reflexivity.
  - apply only_block. exact Hi.
Qed.
Lemma V_contract Q X : vanishes X -> lsum bl (V Q X) = contract n (mpart Q) X.
Proof.
  intros HX. transitivity (lsum bl (fun k => contract n Q (fun i j => if ((mg i =? k_m k)%Z && (mg j =? k_m k)%Z)%bool then X i j else 0))).
  - apply lsum_ext. intros k Hk. assert (B := pr_blocks HW k Hk).
    rewrite <- (contract_local n (k_ind k) Q); [|apply (br_nodup B)|apply (br_lt B)|].
    + unfold V. apply sum_ext. intros i Hi. apply sum_ext. intros j Hj. fold (bi k i) (bi k j).
      destruct (bi_in k i Hk Hi) as (_ & _ & ->). destruct (bi_in k j Hk Hj) as (_ & _ & ->). rewrite Z.eqb_refl. reflexivity.
    + intros i j Hi Hj Ho. destruct (Z.eqb_spec (mg i) (k_m k)); [|reflexivity]. destruct (Z.eqb_spec (mg j) (k_m k)); [|reflexivity].
      cbn [andb]. apply (HX k); auto.
  - unfold contract. rewrite lsum_sum_swap. apply sum_ext. intros i Hi. rewrite lsum_sum_swap. apply sum_ext. intros j Hj.
    transitivity (Q i j * lsum bl (fun k => if ((mg i =? k_m k)%Z && (mg j =? k_m k)%Z)%bool then X i j else 0)).
    + rewrite lsum_scal. reflexivity.
    + rewrite only_pair by exact Hi. unfold mpart. destruct (mg i =? mg j)%Z; ring.
Qed.

Lemma V_ext Q X Y k : In k bl -> (forall i j, (i < n)%nat -> (j < n)%nat -> mg i = k_m k -> mg j = k_m k -> X i j = Y i j) -> V Q X k = V Q Y k.
Proof.
  intros Hk H. unfold V. apply sum_ext. intros i Hi. apply sum_ext. intros j Hj.
  destruct (bi_in k i Hk Hi) as (_ & A & A'). destruct (bi_in k j Hk Hj) as (_ & B & B'). rewrite H by auto. reflexivity.
Qed.
Lemma V_add Q X Y k : V Q (fun i j => X i j + Y i j) k = V Q X k + V Q Y k.
Proof. unfold V. rewrite <- sum_plus. apply sum_ext. intros i _. rewrite <- sum_plus. apply sum_ext. intros j _. ring. Qed.
Lemma V_scal Q c X k : V Q (fun i j => c * X i j) k = c * V Q X k.
Proof. unfold V. rewrite <- sum_scal. apply sum_ext. intros i _. rewrite <- sum_scal. apply sum_ext. intros j _. ring. Qed.

(** Products of two values *)
Definition local (a : nat -> nat -> R) : Prop := forall ip i, (ip < N)%nat -> absent ip i -> a ip i = 0.
Lemma vanish_prod a b ip : local a -> local b -> (ip < N)%nat -> vanishes (fun i j => a ip i * b ip j).
Proof.
  intros Ha Hb Hip k i j Hk Hi Hj Mi Mj [H|H].
  - rewrite (Ha ip i Hip); [ring|]. apply (br_out (pr_blocks HW k Hk)); auto.
  - rewrite (Hb ip j Hip); [ring|]. apply (br_out (pr_blocks HW k Hk)); auto.
Qed.
Definition vf ip i := fst (p_f (pt pts ip) i).
Definition vg c ip i := fst (p_g (pt pts ip) c i).
Definition vl ip i := fst (p_l (pt pts ip) i).
Definition vu ip i := IZR (mg i) * fst (p_f (pt pts ip) i) / hp ip.
Lemma local_f : local vf. Proof. intros ip i _ (H & _). unfold vf. rewrite H. reflexivity. Qed.
Lemma local_g c : local (vg c). Proof. intros ip i _ (_ & H & _). unfold vg. rewrite H. reflexivity. Qed.
Lemma local_l : local vl. Proof. intros ip i _ (_ & _ & H). unfold vl. rewrite H. reflexivity. Qed.
Lemma local_u : local vu. Proof. intros ip i _ (H & _). unfold vu. rewrite H. cbn [fst]. unfold Rdiv. ring. Qed.

(** Partners have the same values up to a common sign. *)
Definition even_values (a : nat -> nat -> R) : Prop := forall ip s i i', (ip < N)%nat -> same_values ip s i i' -> mg i' = (- mg i)%Z -> a ip i' = s * a ip i.
Lemma even_f : even_values vf. Proof. intros ip s i i' _ (H & _) _. unfold vf. rewrite H. reflexivity. Qed.
Lemma even_g c : (c < 2)%nat -> even_values (vg c).
Proof. intros Hc ip s i i' _ (_ & H0 & H1 & _) _. unfold vg. destruct c as [|[|c]]; [rewrite H0|rewrite H1|lia]; reflexivity. Qed.
Lemma even_l : even_values vl. Proof. intros ip s i i' _ (_ & _ & _ & H) _. unfold vl. rewrite H. reflexivity. Qed.

(** Densities that agree on partners, as far as it matters. *)
Definition shared_ok (share : bool) (Q : mat) : Prop := share = true ->
  forall k k' i j, In k bl -> In k' bl -> k_m k' = (- k_m k)%Z -> length (k_ind k') = length (k_ind k) ->
    (i < length (k_ind k))%nat -> (j < length (k_ind k))%nat -> Q (bi k' i) (bi k' j) = Q (bi k i) (bi k j).
Lemma V_mirror share Q a b ip : shared_ok share Q -> even_values a -> even_values b -> (ip < N)%nat ->
  share = true -> forall k k', In k bl -> In k' bl -> k_m k' = (- k_m k)%Z -> length (k_ind k') = length (k_ind k) ->
  V Q (fun i j => a ip i * b ip j) k' = V Q (fun i j => a ip i * b ip j) k.
Proof.
  intros HQ Ha Hb Hip Hs k k' Hk Hk' Em El. destruct (pr_mirror HW k k' Hk Hk' Em El) as (s & Hs1 & Hv).
  unfold V. rewrite El. apply sum_ext. intros i Hi. apply sum_ext. intros j Hj.
  rewrite (HQ Hs k k' i j) by auto.
  assert (G : forall i, (i < length (k_ind k))%nat -> mg (bi k' i) = (- mg (bi k i))%Z).
  { intros x Hx. destruct (bi_in k x Hk Hx) as (_ & _ & ->). destruct (bi_in k' x Hk') as (_ & _ & ->); [rewrite El; exact Hx|]. exact Em. }
  rewrite (Ha ip s (bi k i) (bi k' i)), (Hb ip s (bi k j) (bi k' j)) by auto.
  transitivity (s * s * (Q (bi k i) (bi k j) * (a ip (bi k i) * b ip (bi k j)))); [ring|]. rewrite Hs1. ring.
Qed.

(** * The pieces of update_density *)
Definition tabrep (sel : pmblock -> dmat) (a : nat -> nat -> R) : Prop :=
  forall k, In k bl -> k_ind k <> [] -> is_mat (sel k) (length (k_ind k)) N (fun i ip => a ip (bi k i)).
Lemma tab_f : tabrep k_f vf.
Proof. intros k Hk He. apply (br_f (pr_blocks HW k Hk) He). Qed.
Lemma tab_g c : f_grad fl = true -> (c < 2)%nat -> tabrep (if Nat.eqb c 0 then k_r else k_t) (fun ip i => pm_h w ip * vg c ip i).
Proof.
  intros Hg Hc k Hk He. destruct c as [|[|c]]; cbn [Nat.eqb]; [apply (br_r (pr_blocks HW k Hk) He Hg)|apply (br_t (pr_blocks HW k Hk) He Hg)|lia].
Qed.
Lemma tab_l : f_lapl fl = true -> tabrep k_l vl.
Proof. intros Hl k Hk He. apply (br_l (pr_blocks HW k Hk) He Hl). Qed.

Section Share.
Variable share : bool.
Let act := visited share bl.
Definition Prod (sel : pmblock -> dmat) (Q : dmat) (a : pmblock * option pmblock) : dmat :=
  unres (bind (slice (k_ind (fst a)) Q) (fun P => dprod P (sel (fst a)))) dempty.
Definition prods sel Q := map (Prod sel Q) act.
Lemma each_ok {A B} (f : A -> res B) (g : A -> B) l : (forall x, In x l -> f x = Ok (g x)) -> each f l = Ok (map g l).
Proof. intros H. unfold each. rewrite (fold_res_map f g l [] H). reflexivity. Qed.
Lemma Prod_ok sel a Q x : drows Q = n -> dcols Q = n -> tabrep sel a -> In x act ->
  bind (slice (k_ind (fst x)) Q) (fun P => dprod P (sel (fst x))) = Ok (Prod sel Q x) /\
  is_mat (Prod sel Q x) (length (k_ind (fst x))) N (fun i ip => sum (length (k_ind (fst x))) (fun j => dent Q (bi (fst x) i) (bi (fst x) j) * a ip (bi (fst x) j))).
Proof.
  intros H1 H2 Ht Hx. destruct (visited_in _ _ _ Hx) as (Hk & He & _). unfold Prod.
  assert (S : exists S, slice (k_ind (fst x)) Q = Ok S /\ is_mat S (length (k_ind (fst x))) (length (k_ind (fst x))) (fun i j => dent Q (bi (fst x) i) (bi (fst x) j))).
  { apply tab_ok. intros i j Hi Hj. rewrite (vget_ok _ i 0%nat), (vget_ok _ j 0%nat) by auto. cbn [bind].
    apply (get_ok Q n n (dent Q)); [repeat split; auto| |]; [apply (bi_in (fst x) i Hk Hi)|apply (bi_in (fst x) j Hk Hj)]. }
  destruct S as (S & ES & HS). rewrite ES. cbn [bind].
  destruct (dprod_ok _ _ _ _ _ _ _ HS (Ht (fst x) Hk He)) as (C & EC & HC). rewrite EC. split; [reflexivity|exact HC].
Qed.
Lemma products_ok sel a Q : drows Q = n -> dcols Q = n -> tabrep sel a -> block_products Q sel act = Ok (prods sel Q).
Proof. intros H1 H2 Ht. apply each_ok. intros x Hx. apply (Prod_ok sel a Q x H1 H2 Ht Hx). Qed.
Lemma block_dot_ok sel a sel' b Q i ip : drows Q = n -> dcols Q = n -> tabrep sel a -> tabrep sel' b -> (i < length act)%nat -> (ip < N)%nat ->
  block_dot (prods sel Q) sel' ip i (nth i act dact) = Ok (V (dent Q) (fun x y => b ip x * a ip y) (fst (nth i act dact))).
Proof.
  intros H1 H2 Ht Ht' Hi Hip. unfold block_dot, prods. rewrite (vget_ok _ i (Prod sel Q dact)) by (rewrite map_length; exact Hi).
  cbn [bind]. rewrite (map_nth (Prod sel Q)). assert (Hx : In (nth i act dact) act) by (apply nth_In; exact Hi). set (x := nth i act dact) in *.
  destruct (visited_in _ _ _ Hx) as (Hk & He & _). destruct (Prod_ok sel a Q x H1 H2 Ht Hx) as [_ HP].
  rewrite (coldot_ok _ _ _ _ _ _ ip HP (Ht' _ Hk He) Hip). f_equal. unfold V. apply sum_ext. intros p Hp. rewrite <- sum_scal_r.
  apply sum_ext. intros q Hq. ring.
Qed.

(** The sum of weighted products over the blocks visited *)
Lemma weighted Q a b ip : shared_ok share Q -> even_values a -> even_values b -> local a -> local b -> (ip < N)%nat ->
  lsum act (fun x => pair_weight x * V Q (fun i j => a ip i * b ip j) (fst x)) = contract n (mpart Q) (fun i j => a ip i * b ip j).
Proof.
  intros HQ Ea Eb La Lb Hip. unfold act. rewrite (visited_weight share bl (V Q (fun i j => a ip i * b ip j)) (pr_keys HW)).
  - apply V_contract, vanish_prod; auto.
  - intros k Hk. apply V_empty. exact Hk.
  - intros Hs k k' A B C D. apply (V_mirror share Q a b ip HQ Ea Eb Hip Hs k k'); auto.
Qed.

Variable Q : dmat.
Hypothesis HQ : is_density n Q.
Hypothesis HS : shared_ok share (dent Q).
Let P := mpart (dent Q).
Lemma mpart_sym : sym_mat n P.
Proof. destruct HQ as (_ & _ & S). intros i j Hi Hj. unfold P, mpart. rewrite Z.eqb_sym, (S i j) by auto. reflexivity. Qed.

Lemma pm_rho_ok ip : (ip < N)%nat -> pm_rho act (prods k_f Q) ip = Ok (dens n P (pt pts ip)).
Proof.
  intros Hip. unfold pm_rho. destruct HQ as (Q1 & Q2 & _).
  rewrite (block_sum_ok act _ (fun x => pair_weight x * V (dent Q) (fun i j => vf ip i * vf ip j) (fst x))).
  - rewrite weighted; auto using even_f, local_f. f_equal. unfold dens, contract. apply sum_ext. intros i Hi. apply sum_ext. intros j Hj.
    unfold pair_n, reprod. rewrite (ra_f _ _ (pr_real HW ip i Hip Hi)), Rmult_0_l, Rplus_0_r. reflexivity.
  - intros i Hi. rewrite (block_dot_ok k_f vf k_f vf Q i ip) by auto using tab_f. cbn [bind]. f_equal.
    unfold pair_weight. destruct (snd (nth i act dact)); ring.
Qed.
Lemma grad_sym ip c : (ip < N)%nat -> (c < 2)%nat -> 2 * contract n P (fun i j => vg c ip i * vf ip j) = grad n P (pt pts ip) c.
Proof.
  intros Hip Hc. unfold grad.
  rewrite (contract_ext n P (pair_g (pt pts ip) c) (fun i j => vg c ip i * vf ip j + vg c ip j * vf ip i)).
  2:{ intros i j Hi Hj. unfold pair_g, reprod, vg, vf. assert (A := pr_real HW ip i Hip Hi). assert (B := pr_real HW ip j Hip Hj).
      rewrite (ra_f _ _ A), (ra_f _ _ B). ring. }
  rewrite contract_add. rewrite <- (sum_sym n P (fun i j => vg c ip i * vf ip j) mpart_sym). ring.
Qed.
Lemma pm_grad_ok ip c : f_grad fl = true -> (ip < N)%nat -> (c < 2)%nat -> pm_grad w act (prods k_f Q) c ip = Ok (grad n P (pt pts ip) c).
Proof.
  intros Hg Hip Hc. unfold pm_grad. destruct HQ as (Q1 & Q2 & _). assert (Hh := pr_h HW ip Hip).
  rewrite (block_sum_ok act _ (fun x => 2 * pm_h w ip * (pair_weight x * V (dent Q) (fun i j => vg c ip i * vf ip j) (fst x)))).
  - cbn [bind]. rewrite rdiv_ok by lra. f_equal. rewrite lsum_scal, weighted; auto using even_f, even_g, local_f, local_g.
    rewrite <- grad_sym by auto. fold P. field. lra.
  - intros i Hi. rewrite (block_dot_ok k_f vf _ _ Q i ip Q1 Q2 tab_f (tab_g c Hg Hc) Hi Hip). cbn [bind]. f_equal.
    set (x := nth i act dact).
    assert (E : V (dent Q) (fun y z => pm_h w ip * vg c ip y * vf ip z) (fst x) = pm_h w ip * V (dent Q) (fun y z => vg c ip y * vf ip z) (fst x)).
    { rewrite <- V_scal. unfold V. apply sum_ext. intros p _. apply sum_ext. intros q _. ring. }
    rewrite E. ring.
Qed.
Lemma pair_gg_eq ip i j : (ip < N)%nat -> (i < n)%nat -> (j < n)%nat ->
  pair_gg (pt pts ip) i j = vg 0 ip i * vg 0 ip j + vg 1 ip i * vg 1 ip j + vu ip i * vu ip j.
Proof.
  intros Hip Hi Hj. assert (A := pr_real HW ip i Hip Hi). assert (B := pr_real HW ip j Hip Hj).
  unfold pair_gg. cbn [sum]. unfold reprod. rewrite (ra_0 _ _ A), (ra_1 _ _ A), (ra_2 _ _ A), (ra_2 _ _ B). cbn [fst snd]. unfold vg, vu. ring.
Qed.
Lemma pm_kin_ok ip : f_grad fl = true -> (ip < N)%nat ->
  pm_kin w act (prods k_f Q) (prods k_r Q) (prods k_t Q) ip = Ok (contract n P (pair_gg (pt pts ip))).
Proof.
  intros Hg Hip. unfold pm_kin. destruct HQ as (Q1 & Q2 & _). assert (Hh := pr_h HW ip Hip). assert (Hhp := pr_hp HW ip Hip).
  rewrite (block_sum_ok act _ (fun x => pair_weight x * V (dent Q) (fun i j => vg 0 ip i * vg 0 ip j) (fst x)
      + (pair_weight x * V (dent Q) (fun i j => vg 1 ip i * vg 1 ip j) (fst x) + pair_weight x * V (dent Q) (fun i j => vu ip i * vu ip j) (fst x)))).
  - f_equal. rewrite !lsum_plus, !weighted by auto using even_g, local_g.
    assert (U : lsum act (fun x => pair_weight x * V (dent Q) (fun i j => vu ip i * vu ip j) (fst x)) = contract n P (fun i j => vu ip i * vu ip j)).
    { unfold act. rewrite (visited_weight share bl (V (dent Q) (fun i j => vu ip i * vu ip j)) (pr_keys HW)).
      - apply V_contract, vanish_prod; auto using local_u.
      - intros k Hk. apply V_empty. exact Hk.
      - intros Hs k k' A B C D.
        assert (E : forall k, In k bl -> V (dent Q) (fun i j => vu ip i * vu ip j) k = IZR (k_m k) * IZR (k_m k) / (hp ip * hp ip) * V (dent Q) (fun i j => vf ip i * vf ip j) k).
        { intros k0 Hk0. rewrite <- V_scal. apply V_ext; [exact Hk0|]. intros i j _ _ Mi Mj. unfold vu, vf. rewrite Mi, Mj. field. lra. }
        rewrite !E, C, opp_IZR, (V_mirror share (dent Q) vf vf ip HS even_f even_f Hip Hs k k' A B C D) by auto. unfold Rdiv. ring. }
    rewrite U. fold P. rewrite <- !contract_add. apply contract_ext. intros i j Hi Hj. rewrite pair_gg_eq by auto. ring.
  - intros i Hi. rewrite (block_dot_ok k_r _ k_r _ Q i ip Q1 Q2 (tab_g 0 Hg ltac:(lia)) (tab_g 0 Hg ltac:(lia)) Hi Hip).
    cbn [bind]. rewrite (block_dot_ok k_t _ k_t _ Q i ip Q1 Q2 (tab_g 1 Hg ltac:(lia)) (tab_g 1 Hg ltac:(lia)) Hi Hip).
    cbn [bind]. rewrite (block_dot_ok k_f _ k_f _ Q i ip Q1 Q2 tab_f tab_f Hi Hip). cbn [bind]. f_equal.
    assert (Hx : In (nth i act dact) act) by (apply nth_In; exact Hi). destruct (visited_in _ _ _ Hx) as (Hk & _ & _). set (k := fst (nth i act dact)) in *.
    rewrite (pr_ir2 HW) by auto. rewrite (pr_ip2 HW) by auto.
    assert (R0 : forall c, V (dent Q) (fun x y => pm_h w ip * vg c ip x * (pm_h w ip * vg c ip y)) k = pm_h w ip * pm_h w ip * V (dent Q) (fun i j => vg c ip i * vg c ip j) k).
    { intros c. rewrite <- V_scal. apply V_ext; [exact Hk|]. intros. ring. }
    assert (R2 : V (dent Q) (fun i j => vu ip i * vu ip j) k = IZR (k_m k * k_m k) / (hp ip * hp ip) * V (dent Q) (fun i j => vf ip i * vf ip j) k).
    { rewrite <- V_scal. apply V_ext; [exact Hk|]. intros x y _ _ Mi Mj. unfold vu, vf. rewrite Mi, Mj, mult_IZR. field. lra. }
    rewrite !R0, R2. field. lra.
Qed.
Lemma pm_lapl_ok ip : f_lapl fl = true -> (ip < N)%nat ->
  pm_lapl w act (prods k_f Q) (prods k_r Q) (prods k_t Q) ip = Ok (lapl n P (pt pts ip)).
Proof.
  intros Hl Hip. unfold pm_lapl. destruct HQ as (Q1 & Q2 & _). assert (Hg : f_grad fl = true) by (apply HF; auto).
  rewrite (block_sum_ok act _ (fun x => 2 * (pair_weight x * V (dent Q) (fun i j => vl ip i * vf ip j) (fst x)))).
  - cbn [bind]. rewrite pm_kin_ok by auto. cbn [bind]. f_equal. rewrite lsum_scal, weighted; auto using even_f, even_l, local_f, local_l.
    fold P. unfold lapl.
    rewrite (contract_ext n P (pair_l (pt pts ip)) (fun i j => (vl ip i * vf ip j + vl ip j * vf ip i) + 2 * pair_gg (pt pts ip) i j)).
    2:{ intros i j Hi Hj. unfold pair_l, reprod, vl, vf. assert (A := pr_real HW ip i Hip Hi). assert (B := pr_real HW ip j Hip Hj).
        rewrite (ra_f _ _ A), (ra_f _ _ B). ring. }
    rewrite !contract_add, contract_scal. rewrite <- (sum_sym n P (fun i j => vl ip i * vf ip j) mpart_sym). ring.
  - intros i Hi. rewrite (block_dot_ok k_f vf k_l vl Q i ip Q1 Q2 tab_f (tab_l Hl) Hi Hip). cbn [bind]. f_equal. ring.
Qed.
End Share.
End Worker.
End Rep.
