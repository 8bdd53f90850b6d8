(** The generated Hermite tables: every table is the derivative of the one
    before it. *)
Require Import Reals List Arith Bool Lia Lra.
Require Import Verif.Prelude Verif.FEModel Verif.ShapeTables Verif.ShapeModel Verif.ShapeSpec.
Import ListNotations.
Open Scope R_scope.

(** Expressions in one variable and a family of functions L 0, L 1, ... with
    (L k)' = L (k+1). *)
Inductive ex : Type :=
  | ECst (c : R) | EX | EL (k : nat) | EAdd (p q : ex) | ESub (p q : ex) | EMul (p q : ex)
  | EOpp (p : ex) | EPow (p : ex) (n : nat).
Fixpoint ev (L : nat -> R -> R) (e : ex) (x : R) : R :=
  match e with
  | ECst c => c | EX => x | EL k => L k x
  | EAdd p q => ev L p x + ev L q x | ESub p q => ev L p x - ev L q x
  | EMul p q => ev L p x * ev L q x | EOpp p => - ev L p x | EPow p n => ev L p x ^ n
  end.
Fixpoint ed (e : ex) : ex :=
  match e with
  | ECst c => ECst 0 | EX => ECst 1 | EL k => EL (S k)
  | EAdd p q => EAdd (ed p) (ed q) | ESub p q => ESub (ed p) (ed q)
  | EMul p q => EAdd (EMul (ed p) q) (EMul p (ed q)) | EOpp p => EOpp (ed p)
  | EPow p n => EMul (EMul (ECst (INR n)) (EPow p (pred n))) (ed p)
  end.
Fixpoint below (m : nat) (e : ex) : bool :=
  match e with
  | ECst _ | EX => true | EL k => (k <? m)%nat
  | EAdd p q | ESub p q | EMul p q => (below m p && below m q)%bool
  | EOpp p | EPow p _ => below m p
  end.
Lemma ed_ok L m x : (forall k, (k < m)%nat -> derivable_pt_lim (L k) x (L (S k) x)) ->
  forall e, below m e = true -> derivable_pt_lim (ev L e) x (ev L (ed e) x).
Proof.
  intros HL. induction e; cbn [ev ed below]; intros Hb; try apply andb_prop in Hb.
  - apply derivable_pt_lim_const.
  - apply derivable_pt_lim_id.
  - apply HL. apply Nat.ltb_lt. assumption.
  - apply derivable_pt_lim_plus; [apply IHe1 | apply IHe2]; tauto.
  - apply derivable_pt_lim_minus; [apply IHe1 | apply IHe2]; tauto.
  - apply derivable_pt_lim_mult; [apply IHe1 | apply IHe2]; tauto.
  - apply derivable_pt_lim_opp; tauto.
  - apply (derivable_pt_lim_comp (ev L e) (fun y => y ^ n)); [tauto|].
    apply derivable_pt_lim_pow.
Qed.
Lemma der_via L m x F l e : (forall k, (k < m)%nat -> derivable_pt_lim (L k) x (L (S k) x)) ->
  (forall y, F y = ev L e y) -> below m e = true -> ev L (ed e) x = l -> derivable_pt_lim F x l.
Proof.
  intros HL HF Hb <-. apply (derivable_pt_lim_ext (ev L e)); [intros; symmetry; apply HF|].
  apply (ed_ok L m); assumption.
Qed.

Ltac reify L y t :=
  lazymatch t with
  | y => constr:(EX)
  | L ?k y => constr:(EL k)
  | ?p + ?q => let a := reify L y p in let b := reify L y q in constr:(EAdd a b)
  | ?p - ?q => let a := reify L y p in let b := reify L y q in constr:(ESub a b)
  | ?p * ?q => let a := reify L y p in let b := reify L y q in constr:(EMul a b)
  | ?p / ?q => let a := reify L y p in constr:(EMul a (ECst (/ q)))
  | - ?p => let a := reify L y p in constr:(EOpp a)
  | ?p ^ ?n => let a := reify L y p in constr:(EPow a n)
  | ?c => constr:(ECst c)
  end.
Ltac tables := cbv beta iota zeta delta
  [hip_dnf hip2_dnf hip3_dnf hip_or_first hip_or_rest hip2_or_first hip2_or_rest hip3_or_first hip3_or_rest
   hip_dnf_0_0 hip_dnf_0_1 hip_dnf_1_0 hip_dnf_1_1 hip_dnf_2_0 hip_dnf_2_1 hip_dnf_3_0 hip_dnf_3_1
   hip_dnf_4_0 hip_dnf_4_1 hip_dnf_5_0 hip_dnf_5_1 hip_dnf_6_0 hip_dnf_6_1 hip_dnf_7_0 hip_dnf_7_1
   hip_dnf_8_0 hip_dnf_8_1 hip_dnf_9_0 hip_dnf_9_1 hip_dnf_10_0 hip_dnf_10_1 hip_dnf_11_0 hip_dnf_11_1
   hip_dnf_12_0 hip_dnf_12_1 hip_dnf_13_0 hip_dnf_13_1 hip_dnf_14_0 hip_dnf_14_1 hip_dnf_15_0 hip_dnf_15_1
   hip_dnf_16_0 hip_dnf_16_1 hip_dnf_17_0 hip_dnf_17_1 hip_dnf_18_0 hip_dnf_18_1 hip_dnf_19_0 hip_dnf_19_1
   hip_dnf_20_0 hip_dnf_20_1
   hip2_dnf_0_0 hip2_dnf_0_1 hip2_dnf_0_2 hip2_dnf_1_0 hip2_dnf_1_1 hip2_dnf_1_2 hip2_dnf_2_0 hip2_dnf_2_1 hip2_dnf_2_2
   hip2_dnf_3_0 hip2_dnf_3_1 hip2_dnf_3_2 hip2_dnf_4_0 hip2_dnf_4_1 hip2_dnf_4_2 hip2_dnf_5_0 hip2_dnf_5_1 hip2_dnf_5_2
   hip3_dnf_0_0 hip3_dnf_0_1 hip3_dnf_0_2 hip3_dnf_0_3 hip3_dnf_1_0 hip3_dnf_1_1 hip3_dnf_1_2 hip3_dnf_1_3
   hip3_dnf_2_0 hip3_dnf_2_1 hip3_dnf_2_2 hip3_dnf_2_3 hip3_dnf_3_0 hip3_dnf_3_1 hip3_dnf_3_2 hip3_dnf_3_3
   hip3_dnf_4_0 hip3_dnf_4_1 hip3_dnf_4_2 hip3_dnf_4_3 hip3_dnf_5_0 hip3_dnf_5_1 hip3_dnf_5_2 hip3_dnf_5_3
   hip_or_z_0_1 hip_or_z_1_1 hip_or_z_2_1 hip_or_p_0_0 hip_or_p_0_1 hip_or_p_1_0 hip_or_p_1_1 hip_or_p_2_0 hip_or_p_2_1
   hip2_or_z_0_1 hip2_or_z_1_1 hip2_or_z_2_1 hip2_or_z_0_2 hip2_or_z_1_2 hip2_or_z_2_2
   hip2_or_p_0_0 hip2_or_p_0_1 hip2_or_p_0_2 hip2_or_p_1_0 hip2_or_p_1_1 hip2_or_p_1_2 hip2_or_p_2_0 hip2_or_p_2_1 hip2_or_p_2_2
   hip3_or_z_0_1 hip3_or_z_1_1 hip3_or_z_2_1 hip3_or_z_0_2 hip3_or_z_1_2 hip3_or_z_2_2 hip3_or_z_0_3 hip3_or_z_1_3 hip3_or_z_2_3
   hip3_or_p_0_0 hip3_or_p_0_1 hip3_or_p_0_2 hip3_or_p_0_3 hip3_or_p_1_0 hip3_or_p_1_1 hip3_or_p_1_2 hip3_or_p_1_3
   hip3_or_p_2_0 hip3_or_p_2_1 hip3_or_p_2_2 hip3_or_p_2_3].
Ltac der L m HL :=
  tables;
  match goal with |- derivable_pt_lim ?F ?x ?l =>
    let f := constr:(fun y : R => ltac:(
       let t := eval cbv beta in (F y) in let e := reify L y t in exact e)) in
    match f with fun _ => ?e =>
      apply (der_via L m x F l e HL); [reflexivity | reflexivity |] end end;
  cbn [ev ed pred]; rewrite ?INR_IZR_INZ; cbn [Z.of_nat Pos.of_succ_nat Pos.succ].


Lemma hip_der L x xi p1 p2 p3 n k :
  (forall k, (k < 20)%nat -> derivable_pt_lim (L k) x (L (S k) x)) -> (n < 20)%nat -> (k < 2)%nat ->
  derivable_pt_lim (fun y => hip_dnf n k (fun j => L j y) y xi p1 p2 p3) x
                   (hip_dnf (S n) k (fun j => L j x) x xi p1 p2 p3).
Proof.
  intros HL Hn Hk.
  do 20 (destruct n as [|n]; [do 2 (destruct k as [|k]; [der L 20%nat HL; ring|]); lia|]). lia.
Qed.

Lemma hip2_der L x xi p1 p2 p3 n k :
  (forall k, (k < 5)%nat -> derivable_pt_lim (L k) x (L (S k) x)) -> (n < 5)%nat -> (k < 3)%nat ->
  derivable_pt_lim (fun y => hip2_dnf n k (fun j => L j y) y xi p1 p2 p3) x
                   (hip2_dnf (S n) k (fun j => L j x) x xi p1 p2 p3).
Proof.
  intros HL Hn Hk.
  do 5 (destruct n as [|n]; [do 3 (destruct k as [|k]; [der L 5%nat HL; field|]); lia|]). lia.
Qed.

Lemma hip3_der L x xi p1 p2 p3 n k :
  (forall k, (k < 5)%nat -> derivable_pt_lim (L k) x (L (S k) x)) -> (n < 5)%nat -> (k < 4)%nat ->
  derivable_pt_lim (fun y => hip3_dnf n k (fun j => L j y) y xi p1 p2 p3) x
                   (hip3_dnf (S n) k (fun j => L j x) x xi p1 p2 p3).
Proof.
  intros HL Hn Hk.
  do 5 (destruct n as [|n]; [do 4 (destruct k as [|k]; [der L 5%nat HL; field|]); lia|]). lia.
Qed.

Section OverR.
Variables (L : nat -> R -> R) (x xi p1 p2 p3 : R).
Hypothesis HL : forall k, (k < 2)%nat -> derivable_pt_lim (L k) x (L (S k) x).
Ltac two n HK := do 2 (destruct n as [|n]; [HK|]); lia.

Lemma hip_or_first_der n k : (n < 2)%nat -> (0 < k < 2)%nat ->
  derivable_pt_lim (fun y => hip_or_first n k (fun j => L j y) y xi p1 p2 p3) x
                   (hip_or_first (S n) k (fun j => L j x) x xi p1 p2 p3).
Proof.
  intros Hn Hk. destruct k as [|k]; [lia|].
  two n ltac:(do 1 (destruct k as [|k]; [der L 2%nat HL; field|]); lia).
Qed.
Lemma hip2_or_first_der n k : (n < 2)%nat -> (0 < k < 3)%nat ->
  derivable_pt_lim (fun y => hip2_or_first n k (fun j => L j y) y xi p1 p2 p3) x
                   (hip2_or_first (S n) k (fun j => L j x) x xi p1 p2 p3).
Proof.
  intros Hn Hk. destruct k as [|k]; [lia|].
  two n ltac:(do 2 (destruct k as [|k]; [der L 2%nat HL; field|]); lia).
Qed.
Lemma hip3_or_first_der n k : (n < 2)%nat -> (0 < k < 4)%nat ->
  derivable_pt_lim (fun y => hip3_or_first n k (fun j => L j y) y xi p1 p2 p3) x
                   (hip3_or_first (S n) k (fun j => L j x) x xi p1 p2 p3).
Proof.
  intros Hn Hk. destruct k as [|k]; [lia|].
  two n ltac:(do 3 (destruct k as [|k]; [der L 2%nat HL; field|]); lia).
Qed.
Hypothesis Hxi : xi + 1 <> 0.
Lemma hip_or_rest_der n k : (n < 2)%nat -> (k < 2)%nat ->
  derivable_pt_lim (fun y => hip_or_rest n k (fun j => L j y) y xi p1 p2 p3) x
                   (hip_or_rest (S n) k (fun j => L j x) x xi p1 p2 p3).
Proof.
  intros Hn Hk.
  two n ltac:(do 2 (destruct k as [|k]; [der L 2%nat HL; field; exact Hxi|]); lia).
Qed.
Lemma hip2_or_rest_der n k : (n < 2)%nat -> (k < 3)%nat ->
  derivable_pt_lim (fun y => hip2_or_rest n k (fun j => L j y) y xi p1 p2 p3) x
                   (hip2_or_rest (S n) k (fun j => L j x) x xi p1 p2 p3).
Proof.
  intros Hn Hk.
  two n ltac:(do 3 (destruct k as [|k]; [der L 2%nat HL; field; exact Hxi|]); lia).
Qed.
Lemma hip3_or_rest_der n k : (n < 2)%nat -> (k < 4)%nat ->
  derivable_pt_lim (fun y => hip3_or_rest n k (fun j => L j y) y xi p1 p2 p3) x
                   (hip3_or_rest (S n) k (fun j => L j x) x xi p1 p2 p3).
Proof.
  intros Hn Hk.
  two n ltac:(do 4 (destruct k as [|k]; [der L 2%nat HL; field; exact Hxi|]); lia).
Qed.
End OverR.

(** Deflation: the B/r tables times (x + 1) are the value tables. *)
Section Value.
Variables (L : nat -> R) (x xi p1 p2 p3 : R).
Lemma hip_or_first_val k : xi = -1 -> (0 < k < 2)%nat ->
  (x + 1) * hip_or_first 0 k L x xi p1 p2 p3 = hip_dnf 0 k L x xi p1 p2 p3.
Proof. intros -> Hk. do 2 (destruct k as [|k]; [try lia; tables; field|]). lia. Qed.
Lemma hip2_or_first_val k : xi = -1 -> (0 < k < 3)%nat ->
  (x + 1) * hip2_or_first 0 k L x xi p1 p2 p3 = hip2_dnf 0 k L x xi p1 p2 p3.
Proof. intros -> Hk. do 3 (destruct k as [|k]; [try lia; tables; field|]). lia. Qed.
Lemma hip3_or_first_val k : xi = -1 -> (0 < k < 4)%nat ->
  (x + 1) * hip3_or_first 0 k L x xi p1 p2 p3 = hip3_dnf 0 k L x xi p1 p2 p3.
Proof. intros -> Hk. do 4 (destruct k as [|k]; [try lia; tables; field|]). lia. Qed.
Variable M : nat -> R.
Hypothesis Hxi : xi + 1 <> 0.
Hypothesis HM : M 0%nat = (x + 1) / (xi + 1) * L 0%nat.
Lemma hip_or_rest_val k : (k < 2)%nat ->
  (x + 1) * hip_or_rest 0 k L x xi p1 p2 p3 = hip_dnf 0 k M x xi p1 p2 p3.
Proof. intros Hk. do 2 (destruct k as [|k]; [tables; rewrite HM; field; exact Hxi|]). lia. Qed.
Lemma hip2_or_rest_val k : (k < 3)%nat ->
  (x + 1) * hip2_or_rest 0 k L x xi p1 p2 p3 = hip2_dnf 0 k M x xi p1 p2 p3.
Proof. intros Hk. do 3 (destruct k as [|k]; [tables; rewrite HM; field; exact Hxi|]). lia. Qed.
Lemma hip3_or_rest_val k : (k < 4)%nat ->
  (x + 1) * hip3_or_rest 0 k L x xi p1 p2 p3 = hip3_dnf 0 k M x xi p1 p2 p3.
Proof. intros Hk. do 4 (destruct k as [|k]; [tables; rewrite HM; field; exact Hxi|]). lia. Qed.
End Value.

(** Values at the nodes: at its own node, L = 1, L' = p1, L'' = p2, L''' = p3;
    at the others L = 0. *)
Section Nodes.
Variables (L : nat -> R) (x xi p1 p2 p3 : R).
Lemma hip_other n k : (n < 2)%nat -> (k < 2)%nat -> L 0%nat = 0 -> hip_dnf n k L x xi p1 p2 p3 = 0.
Proof. intros Hn Hk HL. do 2 (destruct n as [|n]; [do 2 (destruct k as [|k]; [tables; rewrite HL; field|]); lia|]). lia. Qed.
Lemma hip2_other n k : (n < 3)%nat -> (k < 3)%nat -> L 0%nat = 0 -> hip2_dnf n k L x xi p1 p2 p3 = 0.
Proof. intros Hn Hk HL. do 3 (destruct n as [|n]; [do 3 (destruct k as [|k]; [tables; rewrite HL; field|]); lia|]). lia. Qed.
Lemma hip3_other n k : (n < 4)%nat -> (k < 4)%nat -> L 0%nat = 0 -> hip3_dnf n k L x xi p1 p2 p3 = 0.
Proof. intros Hn Hk HL. do 4 (destruct n as [|n]; [do 4 (destruct k as [|k]; [tables; rewrite HL; field|]); lia|]). lia. Qed.
Hypothesis (H0 : L 0%nat = 1) (H1 : L 1%nat = p1) (H2 : L 2%nat = p2) (H3 : L 3%nat = p3).
Lemma hip_own n k : (n < 2)%nat -> (k < 2)%nat ->
  hip_dnf n k L xi xi p1 p2 p3 = if (k =? n)%nat then 1 else 0.
Proof. intros Hn Hk. do 2 (destruct n as [|n]; [do 2 (destruct k as [|k]; [tables; cbn [Nat.eqb]; rewrite ?H0, ?H1, ?H2, ?H3; field|]); lia|]). lia. Qed.
Lemma hip2_own n k : (n < 3)%nat -> (k < 3)%nat ->
  hip2_dnf n k L xi xi p1 p2 p3 = if (k =? n)%nat then 1 else 0.
Proof. intros Hn Hk. do 3 (destruct n as [|n]; [do 3 (destruct k as [|k]; [tables; cbn [Nat.eqb]; rewrite ?H0, ?H1, ?H2, ?H3; field|]); lia|]). lia. Qed.
Lemma hip3_own n k : (n < 4)%nat -> (k < 4)%nat ->
  hip3_dnf n k L xi xi p1 p2 p3 = if (k =? n)%nat then 1 else 0.
Proof. intros Hn Hk. do 4 (destruct n as [|n]; [do 4 (destruct k as [|k]; [tables; cbn [Nat.eqb]; rewrite ?H0, ?H1, ?H2, ?H3; field|]); lia|]). lia. Qed.
End Nodes.
