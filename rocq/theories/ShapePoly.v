(** Polynomials: division, roots with multiplicity, degree bounds. *)
Require Import Reals List Arith Bool Lia Lra.
Require Import Verif.Prelude Verif.FEModel Verif.ShapeModel Verif.ShapeSpec.
Import ListNotations.
Open Scope R_scope.

Lemma peval_padd p : forall q x, peval (padd p q) x = peval p x + peval q x.
Proof.
  induction p as [|a p IH]; intros q x; [cbn; ring|].
  destruct q as [|b q]; cbn [padd peval]; [ring|]. rewrite IH. ring.
Qed.
Lemma length_padd p : forall q, length (padd p q) = Nat.max (length p) (length q).
Proof.
  induction p as [|a p IH]; intros q; [reflexivity|].
  destruct q as [|b q]; [reflexivity|]. cbn [padd length]. rewrite IH. lia.
Qed.
Lemma peval_der c x : derivable_pt_lim (peval c) x (peval (pder c) x).
Proof.
  induction c as [|a c IH]; cbn [pder]; [apply (derivable_pt_lim_const 0)|].
  rewrite peval_padd. cbn [peval].
  apply (derivable_pt_lim_ext (fun y => fct_cte a y + id y * peval c y)); [reflexivity|].
  replace (peval c x + (0 + x * peval (pder c) x))
    with (0 + (1 * peval c x + id x * peval (pder c) x)) by (unfold id; ring).
  apply derivable_pt_lim_plus; [apply derivable_pt_lim_const|].
  apply derivable_pt_lim_mult; [apply derivable_pt_lim_id | exact IH].
Qed.
Lemma pderk_der k c x : derivable_pt_lim (peval (pderk k c)) x (peval (pderk (S k) c) x).
Proof. apply peval_der. Qed.

Fixpoint pdiv (a : R) (c : list R) : list R :=
  match c with
  | [] => []
  | _ :: p => match p with [] => [] | _ => peval p a :: pdiv a p end
  end.
Lemma pdiv_ok a c x : peval c x = peval c a + (x - a) * peval (pdiv a c) x.
Proof.
  induction c as [|b c IH]; [cbn; ring|].
  destruct c as [|d c]; [cbn; ring|].
  change (pdiv a (b :: d :: c)) with (peval (d :: c) a :: pdiv a (d :: c)).
  change (peval (b :: d :: c) x) with (b + x * peval (d :: c) x).
  change (peval (b :: d :: c) a) with (b + a * peval (d :: c) a).
  change (peval (peval (d :: c) a :: pdiv a (d :: c)) x)
    with (peval (d :: c) a + x * peval (pdiv a (d :: c)) x).
  rewrite IH. ring.
Qed.
Lemma length_pdiv a c : length (pdiv a c) = pred (length c).
Proof.
  induction c as [|b c IH]; [reflexivity|]. destruct c as [|d c]; [reflexivity|].
  change (pdiv a (b :: d :: c)) with (peval (d :: c) a :: pdiv a (d :: c)).
  cbn [length] in *. rewrite IH. reflexivity.
Qed.

Lemma der_ext_eq f g x l m : (forall y, f y = g y) -> derivable_pt_lim f x l -> derivable_pt_lim g x m -> l = m.
Proof.
  intros E Hf Hg. apply (uniqueness_limite g x); [|exact Hg].
  apply (derivable_pt_lim_ext f); [exact E | exact Hf].
Qed.

Lemma leibniz a f g : (forall y, peval f y = (y - a) * peval g y) -> forall k y,
  peval (pderk k f) y = (y - a) * peval (pderk k g) y + INR k * peval (pderk (pred k) g) y.
Proof.
  intros H. induction k; intros y.
  - cbn [pderk pred INR]. rewrite H. ring.
  - apply (der_ext_eq _ _ _ _ _ IHk (pderk_der k f y)).
    change (pred (S k)) with k.
    replace ((y - a) * peval (pderk (S k) g) y + INR (S k) * peval (pderk k g) y)
      with (((1 - 0) * peval (pderk k g) y + (y - a) * peval (pderk (S k) g) y)
            + INR k * peval (pderk (S (pred k)) g) y)
      by (rewrite S_INR; destruct k; [cbn [INR]|cbn [pred]]; ring).
    apply (derivable_pt_lim_plus (fun y => (y - a) * peval (pderk k g) y) (fun y => INR k * peval (pderk (pred k) g) y)).
    + apply (derivable_pt_lim_mult (fun y => y - a) (peval (pderk k g))); [|apply pderk_der].
      apply (derivable_pt_lim_minus id (fct_cte a)); [apply derivable_pt_lim_id | apply derivable_pt_lim_const].
    + apply derivable_pt_lim_scal. apply pderk_der.
Qed.

Fixpoint cnt (b : R) (rs : list R) : nat :=
  match rs with [] => O | a :: r => if Req_EM_T a b then S (cnt b r) else cnt b r end.
Lemma no_roots rs : forall c, (length c <= length rs)%nat ->
  (forall b k, (k < cnt b rs)%nat -> peval (pderk k c) b = 0) -> forall x, peval c x = 0.
Proof.
  induction rs as [|a rs IH]; intros c Hl H x.
  - destruct c; [reflexivity | cbn in Hl; lia].
  - assert (Ha : peval c a = 0).
    { apply (H a 0%nat). cbn [cnt]. destruct (Req_EM_T a a); [lia | congruence]. }
    assert (Hg : forall y, peval c y = (y - a) * peval (pdiv a c) y).
    { intros y. rewrite (pdiv_ok a c y), Ha. ring. }
    rewrite Hg. rewrite IH; [ring | rewrite length_pdiv; cbn [length] in Hl; lia |].
    intros b k Hk. destruct (Req_EM_T a b) as [<-|Hab].
    + assert (E := H a (S k)). cbn [cnt] in E. destruct (Req_EM_T a a); [|congruence].
      specialize (E ltac:(lia)). rewrite (leibniz a c _ Hg) in E. cbn [pred] in E.
      assert (INR (S k) <> 0) by (apply not_0_INR; lia).
      apply (Rmult_eq_reg_l (INR (S k))); [|assumption]. rewrite Rmult_0_r. etransitivity; [|exact E]. ring.
    + induction k.
      * assert (E := H b 0%nat). cbn [cnt] in E. destruct (Req_EM_T a b); [congruence|].
        specialize (E Hk). cbn [pderk] in *. rewrite Hg in E.
        apply (Rmult_eq_reg_l (b - a)); [rewrite E; ring | lra].
      * assert (E := H b (S k)). cbn [cnt] in E. destruct (Req_EM_T a b); [congruence|].
        specialize (E Hk). rewrite (leibniz a c _ Hg) in E. cbn [pred] in E.
        rewrite IHk in E by lia.
        apply (Rmult_eq_reg_l (b - a)); [|lra]. rewrite Rmult_0_r in *. rewrite Rplus_0_r in E. exact E.
Qed.

(** * Degree bounds *)
Definition isPoly (n : nat) (f : R -> R) : Prop :=
  exists l, (length l <= n)%nat /\ forall x, f x = peval l x.

Lemma isPoly_ext n f g : (forall x, f x = g x) -> isPoly n f -> isPoly n g.
Proof. intros E [l [H H']]. exists l. split; [exact H | intros; rewrite <- E; apply H']. Qed.
Lemma isPoly_le n m f : (n <= m)%nat -> isPoly n f -> isPoly m f.
Proof. intros E [l [H H']]. exists l. split; [lia | exact H']. Qed.
Lemma isPoly_const n c : isPoly (S n) (fun _ => c).
Proof. exists [c]. split; [cbn; lia | intros; cbn; ring]. Qed.
Lemma isPoly_add n f g : isPoly n f -> isPoly n g -> isPoly n (fun x => f x + g x).
Proof.
  intros [p [Hp Ep]] [q [Hq Eq]]. exists (padd p q). split.
  - rewrite length_padd. lia.
  - intros x. rewrite peval_padd, Ep, Eq. reflexivity.
Qed.
Lemma isPoly_scal n c f : isPoly n f -> isPoly n (fun x => c * f x).
Proof.
  intros [p [Hp Ep]]. exists (map (Rmult c) p). split; [rewrite map_length; lia|].
  intros x. rewrite Ep. clear. induction p; cbn; [ring | rewrite <- IHp; ring].
Qed.
Lemma isPoly_sum n m (f : nat -> R -> R) : (forall i, (i < m)%nat -> isPoly n (f i)) ->
  isPoly n (fun x => sum m (fun i => f i x)).
Proof.
  induction m; intros H; cbn [sum].
  - exists []. split; [cbn; lia | reflexivity].
  - apply (isPoly_add n (fun x => sum m (fun i => f i x)) (f m)); [apply IHm; intros; apply H; lia | apply H; lia].
Qed.
Fixpoint pmul (p q : list R) : list R :=
  match p with [] => [] | a :: r => padd (map (Rmult a) q) (0 :: pmul r q) end.
Lemma peval_map a q x : peval (map (Rmult a) q) x = a * peval q x.
Proof. induction q; cbn; [ring | rewrite IHq; ring]. Qed.
Lemma peval_pmul p q x : peval (pmul p q) x = peval p x * peval q x.
Proof.
  induction p; cbn [pmul]; [cbn; ring|]. rewrite peval_padd, peval_map. cbn [peval]. rewrite IHp. ring.
Qed.
Lemma length_pmul p q : (length (pmul p q) <= pred (length p) + Nat.max 1 (length q))%nat.
Proof.
  induction p as [|a p IH]; cbn [pmul length]; [lia|].
  rewrite length_padd, map_length. cbn [length pred]. destruct p; cbn [length pred pmul] in *; lia.
Qed.
Lemma isPoly_mul n m f g : isPoly (S n) f -> isPoly (S m) g -> isPoly (S (n + m)) (fun x => f x * g x).
Proof.
  intros [p [Hp Ep]] [q [Hq Eq]]. exists (pmul p q). split.
  - pose proof (length_pmul p q). lia.
  - intros x. rewrite peval_pmul, Ep, Eq. reflexivity.
Qed.
Lemma isPoly_lin c d : isPoly 2 (fun x => (x - c) / d).
Proof. exists [- c / d; / d]. split; [cbn; lia|]. intros x. cbn. unfold Rdiv. ring. Qed.
Lemma isPoly_shift xi l n : (length l <= S n)%nat -> isPoly (S n) (fun x => peval l (x - xi)).
Proof.
  revert n; induction l as [|a l IH]; intros n H.
  - exists []. split; [cbn; lia | reflexivity].
  - cbn [peval]. apply (isPoly_add (S n) (fun _ => a) (fun x => (x - xi) * peval l (x - xi))).
    + apply isPoly_const.
    + destruct l as [|b l].
      * exists []. split; [cbn; lia | intros; cbn; ring].
      * destruct n as [|n]; [cbn in H; lia|].
        apply (isPoly_le (S (1 + n))); [lia|].
        apply (isPoly_mul 1 n (fun x => x - xi) (fun x => peval (b :: l) (x - xi))).
        -- apply (isPoly_ext 2 (fun x => (x - xi) / 1)); [intros; field | apply isPoly_lin].
        -- apply IH. cbn in *; lia.
Qed.
Lemma isPoly_pow n f k : isPoly (S n) f -> isPoly (S (k * n)) (fun x => f x ^ k).
Proof.
  intros H. induction k; [exact (isPoly_const (0 * n) 1)|].
  cbn [pow mult]. apply (isPoly_mul n (k * n) f (fun x => f x ^ k) H IHk).
Qed.

(** A chain of functions starting with a polynomial, each the derivative of the
    one before, consists of the derivatives of that polynomial. *)
Lemma chain_pderk (F : nat -> R -> R) l m : (forall x, F O x = peval l x) ->
  (forall k x, (k < m)%nat -> derivable_pt_lim (F k) x (F (S k) x)) ->
  forall k x, (k <= m)%nat -> F k x = peval (pderk k l) x.
Proof.
  intros H0 HD. induction k; intros x Hk; [apply H0|].
  apply (der_ext_eq (F k) (peval (pderk k l)) x); [intros; apply IHk; lia | apply HD; lia | apply pderk_der].
Qed.
Lemma pderk_add k p q x : peval (pderk k (padd p q)) x = peval (pderk k p) x + peval (pderk k q) x.
Proof.
  symmetry. apply (chain_pderk (fun j y => peval (pderk j p) y + peval (pderk j q) y) (padd p q) k); [| |lia].
  - intros y. cbn [pderk]. rewrite peval_padd. reflexivity.
  - intros j y _. apply (derivable_pt_lim_plus (peval (pderk j p)) (peval (pderk j q))); apply pderk_der.
Qed.
