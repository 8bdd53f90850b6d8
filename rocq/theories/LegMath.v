(** Identities between Legendre functions and their derivatives. *)
Require Import Reals List Arith Bool ZArith Lia Lra.
Require Import Verif.Prelude Verif.LegSpec.
Open Scope R_scope.

(** * Derivatives of identities *)
Definition isopen (dom : R -> Prop) : Prop := forall x, dom x -> exists d, 0 < d /\ forall y, Rabs (y - x) < d -> dom y.
Lemma open_any : isopen anywhere.
Proof. intros x _. exists 1. split; [lra | intros; exact I]. Qed.
Lemma open_off : isopen off_unit.
Proof.
  intros x H. exists (Rabs (Rabs x - 1)). split; [apply Rabs_pos_lt; unfold off_unit in H; lra|].
  intros y Hy E. pose proof (Rabs_triang_inv2 y x) as A. rewrite E in A. rewrite (Rabs_minus_sym (Rabs x)) in Hy. lra.
Qed.

Lemma local_lim f g x a : (exists d, 0 < d /\ forall y, Rabs (y - x) < d -> f y = g y) -> derivable_pt_lim f x a -> derivable_pt_lim g x a.
Proof.
  intros (d & Hd & E) H eps He. destruct (H eps He) as (e & P). assert (Hm : 0 < Rmin d e) by (apply Rmin_pos; [exact Hd | apply cond_pos]).
  exists (mkposreal _ Hm). intros h Hh Hs. cbn in Hs. rewrite <- (E (x + h)), <- (E x).
  - apply P; [exact Hh|]. eapply Rlt_le_trans; [exact Hs | apply Rmin_r].
  - rewrite Rminus_diag_eq, Rabs_R0 by reflexivity. exact Hd.
  - replace (x + h - x) with h by ring. eapply Rlt_le_trans; [exact Hs | apply Rmin_l].
Qed.
Lemma der_eq dom f g x a b : isopen dom -> (forall y, dom y -> f y = g y) -> dom x ->
  derivable_pt_lim f x a -> derivable_pt_lim g x b -> a = b.
Proof.
  intros Ho E Hx Hf Hg. apply (uniqueness_limite g x); [|exact Hg]. apply (local_lim f); [|exact Hf].
  destruct (Ho x Hx) as (d & Hd & H). exists d. split; [exact Hd|]. intros y Hy. apply E. apply H. exact Hy.
Qed.

Lemma lim_ext f g x a : (forall y, f y = g y) -> derivable_pt_lim f x a -> derivable_pt_lim g x a.
Proof. intros E. apply local_lim. exists 1. split; [lra | intros; apply E]. Qed.
Lemma lim_eq f x a b : a = b -> derivable_pt_lim f x a -> derivable_pt_lim f x b.
Proof. intros ->. exact (fun H => H). Qed.
Lemma lim_plus f g x a b : derivable_pt_lim f x a -> derivable_pt_lim g x b -> derivable_pt_lim (fun y => f y + g y) x (a + b).
Proof. apply derivable_pt_lim_plus. Qed.
Lemma lim_minus f g x a b : derivable_pt_lim f x a -> derivable_pt_lim g x b -> derivable_pt_lim (fun y => f y - g y) x (a - b).
Proof. apply derivable_pt_lim_minus. Qed.
Lemma lim_scal c f x a : derivable_pt_lim f x a -> derivable_pt_lim (fun y => c * f y) x (c * a).
Proof. apply derivable_pt_lim_scal. Qed.
Lemma lim_mul f g x a b : derivable_pt_lim f x a -> derivable_pt_lim g x b -> derivable_pt_lim (fun y => f y * g y) x (a * g x + f x * b).
Proof. apply derivable_pt_lim_mult. Qed.
Lemma lim_id x : derivable_pt_lim (fun y => y) x 1.
Proof. apply derivable_pt_lim_id. Qed.
Lemma lim_const c x : derivable_pt_lim (fun _ => c) x 0.
Proof. apply derivable_pt_lim_const. Qed.
Lemma lim_x f x a : derivable_pt_lim f x a -> derivable_pt_lim (fun y => y * f y) x (f x + x * a).
Proof. intros H. eapply lim_eq; [|apply (lim_mul (fun y => y) f); [apply lim_id | exact H]]. ring. Qed.
Lemma lim_u f x a : derivable_pt_lim f x a -> derivable_pt_lim (fun y => (y * y - 1) * f y) x (2 * x * f x + (x * x - 1) * a).
Proof.
  intros H. eapply lim_eq; [|apply (lim_mul (fun y => y * y - 1) f)].
  2:{ apply (lim_minus (fun y => y * y) (fun _ => 1)); [apply (lim_x (fun y => y)); apply lim_id | apply lim_const]. }
  2: exact H. cbv beta. ring.
Qed.

Section Family.
Variables (dom : R -> Prop) (D : nat -> nat -> R -> R) (c : R).
Hypothesis Ho : isopen dom.
Hypothesis Hd : derivatives dom D.
Hypothesis Hb : bonnet dom D.
Hypothesis H1 : forall x, dom x -> D 0%nat 1%nat x = x * D 0%nat 0%nat x + c.
Hypothesis H0 : forall x, dom x -> (x * x - 1) * D 1%nat 0%nat x = c.

Lemma bonnet_m m : forall l x, dom x -> (INR l + 2) * D m (S (S l)) x
  = (2 * INR l + 3) * (x * D m (S l) x + INR m * D (m - 1)%nat (S l) x) - (INR l + 1) * D m l x.
Proof.
  induction m as [|m IH]; intros l x Hx.
  - rewrite Hb by exact Hx. cbn [INR]. ring.
  - apply (der_eq dom (fun y => (INR l + 2) * D m (S (S l)) y)
       (fun y => (2 * INR l + 3) * (y * D m (S l) y + INR m * D (m - 1)%nat (S l) y) - (INR l + 1) * D m l y) x); try assumption.
    + intros y Hy. apply IH. exact Hy.
    + apply lim_scal. apply Hd. exact Hx.
    + eapply lim_eq; [|apply lim_minus; [apply lim_scal; apply lim_plus; [apply lim_x; apply Hd; exact Hx | apply lim_scal; apply Hd; exact Hx] | apply lim_scal; apply Hd; exact Hx]].
      rewrite S_INR. replace (S m - 1)%nat with m by lia. destruct m as [|k].
      * cbn [INR]. ring.
      * replace (S (S k - 1)) with (S k) by lia. ring.
Qed.

Lemma first_slope x : dom x -> D 1%nat 1%nat x = D 0%nat 0%nat x + x * D 1%nat 0%nat x.
Proof.
  intros Hx. apply (der_eq dom (D 0%nat 1%nat) (fun y => y * D 0%nat 0%nat y + c) x); try assumption.
  - apply Hd. exact Hx.
  - eapply lim_eq; [|apply lim_plus; [apply lim_x; apply Hd; exact Hx | apply lim_const]]. ring.
Qed.

(** The first order relations. *)
Lemma relations k : forall x, dom x ->
  (x * x - 1) * D 1%nat (S k) x = INR (S k) * (x * D 0%nat (S k) x - D 0%nat k x) /\
  x * D 1%nat (S k) x - D 1%nat k x = INR (S k) * D 0%nat (S k) x /\
  D 1%nat (S k) x - x * D 1%nat k x = INR (S k) * D 0%nat k x.
Proof.
  induction k as [|k IH]; intros x Hx.
  - rewrite first_slope, H1 by exact Hx. pose proof (H0 x Hx) as E. cbn [INR]. split; [|split].
    + replace ((x * x - 1) * (D 0%nat 0%nat x + x * D 1%nat 0%nat x)) with ((x * x - 1) * D 0%nat 0%nat x + x * ((x * x - 1) * D 1%nat 0%nat x)) by ring.
      rewrite E. ring.
    + replace (x * (D 0%nat 0%nat x + x * D 1%nat 0%nat x) - D 1%nat 0%nat x) with (x * D 0%nat 0%nat x + (x * x - 1) * D 1%nat 0%nat x) by ring.
      rewrite E. ring.
    + ring.
  - destruct (IH x Hx) as (A & G & G').
    pose proof (bonnet_m 0 k x Hx) as B0. pose proof (bonnet_m 1 k x Hx) as B1. cbn [Nat.sub INR] in B0, B1. rewrite S_INR in A, G, G'. rewrite !S_INR.
    set (y2 := D 0%nat (S (S k)) x) in *. set (y1 := D 0%nat (S k) x) in *. set (y0 := D 0%nat k x) in *.
    set (z2 := D 1%nat (S (S k)) x) in *. set (z1 := D 1%nat (S k) x) in *. set (z0 := D 1%nat k x) in *.
    set (n := INR k) in *. assert (Hn : n + 2 <> 0) by (pose proof (pos_INR k); unfold n; lra).
    assert (G3' : z2 - x * z1 = (n + 1 + 1) * y1).
    { apply (Rmult_eq_reg_l (n + 2)); [|exact Hn].
      replace ((n + 2) * (z2 - x * z1)) with ((n + 2) * z2 - (n + 2) * x * z1) by ring. rewrite B1.
      replace ((2 * n + 3) * (x * z1 + 1 * y1) - (n + 1) * z0 - (n + 2) * x * z1) with ((2 * n + 3) * y1 + (n + 1) * (x * z1 - z0)) by ring.
      rewrite G. ring. }
    assert (Bk : (x * x - 1) * z1 = (n + 1 + 1) * (y2 - x * y1)) by (rewrite A; lra).
    assert (G3 : x * z2 - z1 = (n + 1 + 1) * y2).
    { replace (x * z2 - z1) with (x * (z2 - x * z1) + (x * x - 1) * z1) by ring. rewrite G3', Bk. ring. }
    split; [|split; assumption].
    replace ((x * x - 1) * z2) with (x * (x * z2 - z1) - (z2 - x * z1)) by ring. rewrite G3, G3'. ring.
Qed.

Lemma slope_down k x : dom x -> (x * x - 1) * D 1%nat k x = INR (S k) * (D 0%nat (S k) x - x * D 0%nat k x).
Proof.
  intros Hx. destruct (relations k x Hx) as (_ & G & G').
  replace ((x * x - 1) * D 1%nat k x) with ((x * D 1%nat (S k) x - D 1%nat k x) - x * (D 1%nat (S k) x - x * D 1%nat k x) + 0) by ring.
  rewrite G, G'. ring.
Qed.

Lemma diff_m m : forall k x, dom x -> D (S m) (S (S k)) x - D (S m) k x = (2 * INR k + 3) * D m (S k) x.
Proof.
  induction m as [|m IH]; intros k x Hx.
  - destruct (relations k x Hx) as (_ & G & _). destruct (relations (S k) x Hx) as (_ & _ & G'). rewrite !S_INR in *.
    replace (D 1%nat (S (S k)) x - D 1%nat k x) with ((D 1%nat (S (S k)) x - x * D 1%nat (S k) x) + (x * D 1%nat (S k) x - D 1%nat k x)) by ring.
    rewrite G, G'. ring.
  - apply (der_eq dom (fun y => D (S m) (S (S k)) y - D (S m) k y) (fun y => (2 * INR k + 3) * D m (S k) y) x); try assumption.
    + intros y Hy. apply IH. exact Hy.
    + apply lim_minus; apply Hd; exact Hx.
    + apply lim_scal. apply Hd. exact Hx.
Qed.

(** (l + 1 - m) y_(l+1) = (2 l + 1) x y_l - (l + m) y_(l-1) for the m-th derivatives. *)
Lemma rec_m m k x : dom x -> (INR k + 2 - INR m) * D m (S (S k)) x
  = (2 * INR k + 3) * x * D m (S k) x - (INR k + 1 + INR m) * D m k x.
Proof.
  intros Hx. pose proof (bonnet_m m k x Hx) as B. destruct m as [|m].
  - cbn [INR] in *. lra.
  - pose proof (diff_m m k x Hx) as E. replace (S m - 1)%nat with m in B by lia. rewrite !S_INR in *.
    set (n := INR k) in *. set (u := INR m) in *. set (y2 := D (S m) (S (S k)) x) in *. set (y1 := D (S m) (S k) x) in *. set (y0 := D (S m) k x) in *.
    set (z := D m (S k) x) in *.
    replace ((n + 2 - (u + 1)) * y2) with ((n + 2) * y2 - (u + 1) * y2) by ring. rewrite B.
    replace ((2 * n + 3) * (x * y1 + (u + 1) * z)) with ((2 * n + 3) * x * y1 + (u + 1) * ((2 * n + 3) * z)) by ring. rewrite <- E. ring.
Qed.

(** Legendre's equation differentiated m times. *)
Lemma ode_m m : forall l x, dom x -> (x * x - 1) * D (S (S m)) l x + 2 * (INR m + 1) * x * D (S m) l x
  + (INR m * (INR m + 1) - INR l * (INR l + 1)) * D m l x = 0.
Proof.
  induction m as [|m IH]; intros l x Hx.
  - destruct l as [|k].
    + assert (E : 2 * x * D 1%nat 0%nat x + (x * x - 1) * D 2%nat 0%nat x = 0).
      { apply (der_eq dom (fun y => (y * y - 1) * D 1%nat 0%nat y) (fun _ => c) x); try assumption.
        - apply lim_u. apply Hd. exact Hx.
        - apply lim_const. }
      cbn [INR]. lra.
    + assert (E : 2 * x * D 1%nat (S k) x + (x * x - 1) * D 2%nat (S k) x = INR (S k) * ((D 0%nat (S k) x + x * D 1%nat (S k) x) - D 1%nat k x)).
      { apply (der_eq dom (fun y => (y * y - 1) * D 1%nat (S k) y) (fun y => INR (S k) * (y * D 0%nat (S k) y - D 0%nat k y)) x); try assumption.
        - intros y Hy. apply (relations k y Hy).
        - apply lim_u. apply Hd. exact Hx.
        - apply lim_scal. apply lim_minus; [apply lim_x|]; apply Hd; exact Hx. }
      destruct (relations k x Hx) as (_ & G & _).
      replace (D 0%nat (S k) x + x * D 1%nat (S k) x - D 1%nat k x) with (D 0%nat (S k) x + (x * D 1%nat (S k) x - D 1%nat k x)) in E by ring.
      rewrite G in E. cbn [INR] in *. lra.
  - assert (E : (2 * x * D (S (S m)) l x + (x * x - 1) * D (S (S (S m))) l x) + (2 * (INR m + 1)) * (D (S m) l x + x * D (S (S m)) l x)
        + (INR m * (INR m + 1) - INR l * (INR l + 1)) * D (S m) l x = 0).
    { apply (der_eq dom (fun y => (y * y - 1) * D (S (S m)) l y + (2 * (INR m + 1)) * (y * D (S m) l y) + (INR m * (INR m + 1) - INR l * (INR l + 1)) * D m l y) (fun _ => 0) x); try assumption.
      - intros y Hy. rewrite <- (IH l y Hy). ring.
      - apply lim_plus; [apply lim_plus; [apply lim_u | apply lim_scal; apply lim_x] | apply lim_scal]; apply Hd; exact Hx.
      - apply lim_const. }
    rewrite !S_INR. rewrite <- E. ring.
Qed.
End Family.

(** * First kind *)
Section First.
Variable D : nat -> nat -> R -> R.
Hypothesis HP : first_kind D.
Lemma P_slope0 m x : D (S m) 0%nat x = 0.
Proof.
  destruct HP as (Hd & _ & H0 & _). revert x. induction m as [|m IH]; intros x.
  - apply (der_eq anywhere (D 0%nat 0%nat) (fun _ => 1) x _ _ open_any); [intros; apply H0 | exact I | apply Hd; exact I | apply lim_const].
  - apply (der_eq anywhere (D (S m) 0%nat) (fun _ => 0) x _ _ open_any); [intros; apply IH | exact I | apply Hd; exact I | apply lim_const].
Qed.
Lemma P_h1 x : anywhere x -> D 0%nat 1%nat x = x * D 0%nat 0%nat x + 0.
Proof. intros _. destruct HP as (_ & _ & H0 & H1). rewrite H0, H1. ring. Qed.
Lemma P_h0 x : anywhere x -> (x * x - 1) * D 1%nat 0%nat x = 0.
Proof. intros _. rewrite P_slope0. ring. Qed.
Lemma P_rec m k x : (INR k + 2 - INR m) * D m (S (S k)) x = (2 * INR k + 3) * x * D m (S k) x - (INR k + 1 + INR m) * D m k x.
Proof. destruct HP as (Hd & Hb & _). exact (rec_m anywhere D 0 open_any Hd Hb P_h1 P_h0 m k x I). Qed.
Lemma P_slope1 m x : D (S (S m)) 1%nat x = 0.
Proof.
  destruct HP as (Hd & _ & H0 & H1). revert x. induction m as [|m IH]; intros x.
  - apply (der_eq anywhere (D 1%nat 1%nat) (fun _ => 1) x _ _ open_any); [|exact I | apply Hd; exact I | apply lim_const].
    intros y _. apply (der_eq anywhere (D 0%nat 1%nat) (fun x => x) y _ _ open_any); [intros; apply H1 | exact I | apply Hd; exact I | apply lim_id].
  - apply (der_eq anywhere (D (S (S m)) 1%nat) (fun _ => 0) x _ _ open_any); [intros; apply IH | exact I | apply Hd; exact I | apply lim_const].
Qed.
Lemma P_above l : forall m x, (l < m)%nat -> D m l x = 0.
Proof.
  assert (G : forall l, (forall m x, (l < m)%nat -> D m l x = 0) /\ (forall m x, (S l < m)%nat -> D m (S l) x = 0)).
  { induction l0 as [|k (I1 & I2)].
    - split; intros m x Hm; [destruct m as [|m]; [lia | apply P_slope0] | destruct m as [|[|m]]; [lia | lia | apply P_slope1]].
    - split; [exact I2|]. intros m x Hm. destruct HP as (Hd & Hb & _).
      pose proof (bonnet_m anywhere D open_any Hd Hb m k x I) as B. rewrite (I2 m), (I2 (m - 1)%nat), (I1 m) in B by lia.
      apply (Rmult_eq_reg_l (INR k + 2)); [lra | pose proof (pos_INR k); lra]. }
  apply G.
Qed.
Lemma P_diag m x : D (S m) (S m) x = (2 * INR m + 1) * D m m x.
Proof.
  destruct m as [|k].
  - destruct HP as (Hd & Hb & H0 & _).
    rewrite (first_slope anywhere D 0 open_any Hd P_h1 x I), P_slope0. cbn [INR]. ring.
  - destruct HP as (Hd & Hb & _). pose proof (diff_m anywhere D 0 open_any Hd Hb P_h1 P_h0 (S k) k x I) as E.
    rewrite (P_above k (S (S k))) in E by lia. rewrite S_INR. lra.
Qed.
Lemma P_sub m x : D m (S m) x = (2 * INR m + 1) * x * D m m x.
Proof.
  destruct m as [|k].
  - destruct HP as (_ & _ & H0 & H1). rewrite H0, H1. cbn [INR]. ring.
  - pose proof (P_rec (S k) k x) as E. rewrite (P_above k (S k)) in E by lia. rewrite S_INR in *. lra.
Qed.
End First.
