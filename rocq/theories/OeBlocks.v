(** Loops over blocks of a matrix, each changing one block. *)
Require Import Reals ZArith List Bool Arith Lia Lra Permutation.
Require Import Verif.Prelude Verif.AngModel Verif.JKModel Verif.JKSpec Verif.JKProofs Verif.TwoDSpec Verif.DiaModel Verif.OeModel Verif.OeSpec.
Import ListNotations.
Local Open Scope R_scope.

Section Blocks.
Variables nI Ni nJ Nj : nat.

Definition dims (M : dmat) : Prop := drows M = (nI * Ni)%nat /\ dcols M = (nJ * Nj)%nat.

(** op changes block (i,j) only, entry by entry. *)
Definition op_at (i j : nat) (op : dmat -> res dmat) (tr : nat -> nat -> R -> R) : Prop :=
  forall M, dims M -> exists M', op M = Ok M' /\ dims M' /\
  (forall a c, (a < Ni)%nat -> (c < Nj)%nat -> dent M' (fn Ni i a) (fn Nj j c) = tr a c (dent M (fn Ni i a) (fn Nj j c))) /\
  (forall i' a j' c, (i' < nI)%nat -> (a < Ni)%nat -> (j' < nJ)%nat -> (c < Nj)%nat -> (i', j') <> (i, j) ->
     dent M' (fn Ni i' a) (fn Nj j' c) = dent M (fn Ni i' a) (fn Nj j' c)).

Lemma in_block i j i' a j' c : (a < Ni)%nat -> (c < Nj)%nat ->
  (Nat.leb (i * Ni) (fn Ni i' a) && Nat.ltb (fn Ni i' a) (i * Ni + Ni) &&
   (Nat.leb (j * Nj) (fn Nj j' c) && Nat.ltb (fn Nj j' c) (j * Nj + Nj)))%bool = (Nat.eqb i' i && Nat.eqb j' j)%bool.
Proof.
  intros Ha Hc. unfold fn.
  assert (G : forall N x y z, (z < N)%nat -> (Nat.leb (x * N) (y * N + z) && Nat.ltb (y * N + z) (x * N + N))%bool = Nat.eqb y x).
  { intros N x y z Hz. destruct (Nat.eqb_spec y x) as [->|Hn].
    - destruct (Nat.leb_spec (x * N) (x * N + z)); [|lia]. destruct (Nat.ltb_spec (x * N + z) (x * N + N)); [reflexivity|lia].
    - destruct (Nat.leb_spec (x * N) (y * N + z)); [|reflexivity]. destruct (Nat.ltb_spec (y * N + z) (x * N + N)); [|reflexivity].
      exfalso. apply Hn. nia. }
  now rewrite !G.
Qed.

Lemma op_set i j B : (i < nI)%nat -> (j < nJ)%nat -> drows B = Ni -> dcols B = Nj ->
  op_at i j (fun M => block_set M (i * Ni) (j * Nj) Ni Nj B) (fun a c _ => dent B a c).
Proof.
  intros Hi Hj RB CB M [RM CM]. unfold block_set. rewrite RM, CM, RB, CB, !Nat.eqb_refl.
  destruct (Nat.leb_spec (i * Ni + Ni) (nI * Ni)); [|nia]. destruct (Nat.leb_spec (j * Nj + Nj) (nJ * Nj)); [|nia]. cbn [andb].
  eexists. split; [reflexivity|]. cbn [dent]. split; [split; reflexivity|]. split.
  - intros a c Ha Hc. rewrite in_block by auto. rewrite !Nat.eqb_refl. cbn [andb]. unfold fn. f_equal; lia.
  - intros i' a j' c Hi' Ha Hj' Hc Hne. rewrite in_block by auto.
    destruct (Nat.eqb_spec i' i) as [->|]; [|reflexivity]. destruct (Nat.eqb_spec j' j) as [->|]; [|reflexivity]. now elim Hne.
Qed.

Lemma op_add i j B : (i < nI)%nat -> (j < nJ)%nat -> drows B = Ni -> dcols B = Nj ->
  op_at i j (fun M => block_add M (i * Ni) (j * Nj) Ni Nj B) (fun a c v => v + dent B a c).
Proof.
  intros Hi Hj RB CB M [RM CM]. unfold block_add. rewrite RM, CM, RB, CB, !Nat.eqb_refl.
  destruct (Nat.leb_spec (i * Ni + Ni) (nI * Ni)); [|nia]. destruct (Nat.leb_spec (j * Nj + Nj) (nJ * Nj)); [|nia]. cbn [andb].
  eexists. split; [reflexivity|]. cbn [dent]. split; [split; reflexivity|]. split.
  - intros a c Ha Hc. rewrite in_block by auto. rewrite !Nat.eqb_refl. cbn [andb]. unfold fn. f_equal. f_equal; lia.
  - intros i' a j' c Hi' Ha Hj' Hc Hne. rewrite in_block by auto.
    destruct (Nat.eqb_spec i' i) as [->|]; [|reflexivity]. destruct (Nat.eqb_spec j' j) as [->|]; [|reflexivity]. now elim Hne.
Qed.

Lemma op_id i j : op_at i j (fun M => Ok M) (fun _ _ v => v).
Proof. intros M HM. exists M. auto. Qed.

Lemma op_ext i j op tr tr' : op_at i j op tr ->
  (forall a c v, (a < Ni)%nat -> (c < Nj)%nat -> tr a c v = tr' a c v) -> op_at i j op tr'.
Proof.
  intros H E M HM. destruct (H M HM) as (M' & E1 & D & V & U). exists M'. split; [exact E1|]. split; [exact D|]. split; [|exact U].
  intros a c Ha Hc. rewrite V by auto. now apply E.
Qed.

Lemma op_eq i j op op' tr : (forall M, op M = op' M) -> op_at i j op' tr -> op_at i j op tr.
Proof. intros E H M HM. rewrite E. now apply H. Qed.

Lemma op_bind i j op1 op2 tr1 tr2 : op_at i j op1 tr1 -> op_at i j op2 tr2 ->
  op_at i j (fun M => bind (op1 M) op2) (fun a c v => tr2 a c (tr1 a c v)).
Proof.
  intros H1 H2 M HM. destruct (H1 M HM) as (M1 & E1 & D1 & V1 & U1). destruct (H2 M1 D1) as (M2 & E2 & D2 & V2 & U2).
  exists M2. rewrite E1. split; [exact E2|]. split; [exact D2|]. split.
  - intros. rewrite V2, V1; auto.
  - intros. rewrite U2, U1; auto.
Qed.

Lemma op_seq i j op1 op2 tr1 tr2 tr : op_at i j op1 tr1 -> op_at i j op2 tr2 ->
  (forall a c v, (a < Ni)%nat -> (c < Nj)%nat -> tr2 a c (tr1 a c v) = tr a c v) ->
  op_at i j (fun M => bind (op1 M) op2) tr.
Proof. intros H1 H2 H3. exact (op_ext i j _ _ tr (op_bind i j op1 op2 tr1 tr2 H1 H2) H3). Qed.

Lemma op_if i j (q : bool) op1 op2 tr1 tr2 : op_at i j op1 tr1 -> op_at i j op2 tr2 ->
  op_at i j (fun M => if q then op1 M else op2 M) (fun a c v => if q then tr1 a c v else tr2 a c v).
Proof. intros. destruct q; auto. Qed.

Lemma op_when i j cpl op (X : mat) : op_at i j op (fun a c v => v + cpl * X a c) ->
  op_at i j (fun M => when_nonzero cpl M op) (fun a c v => v + cpl * X a c).
Proof.
  intros H. unfold when_nonzero. destruct (Reqb_spec cpl 0) as [->|_]; [|exact H].
  apply (op_ext i j _ (fun _ _ v => v)); [apply op_id|]. intros. ring.
Qed.

Lemma op_fold {X} i j (f : dmat -> X -> res dmat) (Y : X -> mat) l :
  (forall x, In x l -> op_at i j (fun M => f M x) (fun a c v => v + Y x a c)) ->
  op_at i j (fold_res f l) (fun a c v => v + lsum l (fun x => Y x a c)).
Proof.
  induction l as [|x l IH]; intros H.
  - cbn [fold_res]. apply (op_ext i j _ (fun _ _ v => v)); [apply op_id|]. intros. simpl. ring.
  - cbn [fold_res]. apply (op_ext i j _ (fun a c v => (v + Y x a c) + lsum l (fun x => Y x a c))).
    + apply (op_bind i j (fun M => f M x) (fold_res f l) (fun a c v => v + Y x a c) (fun a c v => v + lsum l (fun x => Y x a c))); [apply H; now left|]. apply IH. intros. apply H. now right.
    + intros. simpl. ring.
Qed.

(** A loop that visits every position at most once. *)
Lemma blocks_fold {X} (pos : X -> nat * nat) (f : dmat -> X -> res dmat) (tr : X -> nat -> nat -> R -> R) l :
  NoDup (map pos l) ->
  (forall x, In x l -> op_at (fst (pos x)) (snd (pos x)) (fun M => f M x) (tr x) /\ (fst (pos x) < nI)%nat /\ (snd (pos x) < nJ)%nat) ->
  forall M, dims M -> exists M', fold_res f l M = Ok M' /\ dims M' /\
  (forall x, In x l -> forall a c, (a < Ni)%nat -> (c < Nj)%nat ->
     dent M' (fn Ni (fst (pos x)) a) (fn Nj (snd (pos x)) c) = tr x a c (dent M (fn Ni (fst (pos x)) a) (fn Nj (snd (pos x)) c))) /\
  (forall i a j c, (i < nI)%nat -> (a < Ni)%nat -> (j < nJ)%nat -> (c < Nj)%nat -> ~ In (i, j) (map pos l) ->
     dent M' (fn Ni i a) (fn Nj j c) = dent M (fn Ni i a) (fn Nj j c)).
Proof.
  induction l as [|x l IH]; intros ND H M HM.
  - exists M. split; [reflexivity|]. split; [exact HM|]. split; [intros x []|auto].
  - cbn [map] in ND. inversion ND as [|? ? Hx ND']; subst.
    destruct (H x (or_introl eq_refl)) as (Hop & B1 & B2). destruct (Hop M HM) as (M1 & E1 & D1 & V1 & U1).
    destruct (IH ND' ltac:(intros; apply H; now right) M1 D1) as (M2 & E2 & D2 & V2 & U2).
    exists M2. cbn [fold_res]. rewrite E1. cbn [bind]. split; [exact E2|]. split; [exact D2|]. split.
    + intros y [->|Hy] a c Ha Hc.
      * rewrite U2; auto. now rewrite <- surjective_pairing.
      * rewrite V2 by auto. destruct (H y (or_intror Hy)) as (_ & C1 & C2). rewrite U1; auto.
        rewrite <- surjective_pairing. intros Heq. rewrite <- surjective_pairing in Heq. apply Hx. rewrite <- Heq. now apply in_map.
    + intros i a j c Hi Ha Hj Hc Hn. cbn [map In] in Hn. rewrite U2 by (auto; intros ?; apply Hn; now right).
      apply U1; auto. rewrite <- surjective_pairing. intros Heq. apply Hn. left. now rewrite Heq.
Qed.

Lemma dims_zero : dims (dzero (nI * Ni) (nJ * Nj)).
Proof. split; reflexivity. Qed.

Lemma pairs_nodup : NoDup (shell_pairs nI nJ).
Proof.
  unfold shell_pairs. generalize (seq_NoDup nJ 0) (seq_NoDup nI 0). generalize (seq 0 nI) (seq 0 nJ).
  intros l l' N' N. induction l as [|x l IH]; [constructor|]. inversion N; subst. cbn [list_prod].
  assert (A : forall (u v : list (nat * nat)), NoDup u -> NoDup v -> (forall p, In p u -> ~ In p v) -> NoDup (u ++ v)).
  { induction u as [|p u IHu]; intros v Nu Nv D; [exact Nv|]. inversion Nu; subst. cbn [app]. constructor.
    - rewrite in_app_iff. intros [?|?]; [auto|]. apply (D p); [now left|auto].
    - apply IHu; auto. intros; apply D; now right. }
  apply A.
  - apply FinFun.Injective_map_NoDup; [|exact N']. intros a c E. now inversion E.
  - apply IH; auto.
  - intros [p q] H. apply in_map_iff in H as (y & E & _). inversion E; subst. rewrite in_prod_iff. tauto.
Qed.

Lemma pairs_in i j : In (i, j) (shell_pairs nI nJ) <-> (i < nI)%nat /\ (j < nJ)%nat.
Proof. unfold shell_pairs. rewrite in_prod_iff, !in_seq. lia. Qed.

(** A loop over all pairs of shells, in any order. *)
Lemma pairs_fold (f : dmat -> nat * nat -> res dmat) (tr : nat -> nat -> nat -> nat -> R -> R) l :
  Permutation l (shell_pairs nI nJ) ->
  (forall i j, (i < nI)%nat -> (j < nJ)%nat -> op_at i j (fun M => f M (i, j)) (tr i j)) ->
  forall M, dims M -> exists M', fold_res f l M = Ok M' /\ dims M' /\
  forall i a j c, (i < nI)%nat -> (a < Ni)%nat -> (j < nJ)%nat -> (c < Nj)%nat ->
     dent M' (fn Ni i a) (fn Nj j c) = tr i j a c (dent M (fn Ni i a) (fn Nj j c)).
Proof.
  intros HP H M HM.
  destruct (blocks_fold (fun p => p) f (fun p => tr (fst p) (snd p)) l) with (M := M) as (M' & E & D & V & _); auto.
  - rewrite map_id. apply (Permutation_NoDup (Permutation_sym HP)). apply pairs_nodup.
  - intros [i j] Hin. apply (Permutation_in _ HP) in Hin. apply pairs_in in Hin as [Hi Hj]. cbn [fst snd]. split; [|auto]. now apply H.
  - exists M'. split; [exact E|]. split; [exact D|]. intros i a j c Hi Ha Hj Hc.
    apply (V (i, j)); auto. apply (Permutation_in _ (Permutation_sym HP)). now apply pairs_in.
Qed.
End Blocks.

(** A loop over the diagonal blocks. *)
Lemma diag_fold n N (f : dmat -> nat -> res dmat) (tr : nat -> nat -> nat -> R -> R) :
  (forall i, (i < n)%nat -> op_at n N n N i i (fun M => f M i) (tr i)) ->
  forall M, dims n N n N M -> exists M', fold_res f (seq 0 n) M = Ok M' /\ dims n N n N M' /\
  forall i a j c, (i < n)%nat -> (a < N)%nat -> (j < n)%nat -> (c < N)%nat ->
     dent M' (fn N i a) (fn N j c) = if Nat.eqb i j then tr i a c (dent M (fn N i a) (fn N j c)) else dent M (fn N i a) (fn N j c).
Proof.
  intros H M HM.
  destruct (blocks_fold n N n N (fun i => (i, i)) f tr (seq 0 n)) with (M := M) as (M' & E & D & V & U); auto.
  - apply FinFun.Injective_map_NoDup; [|apply seq_NoDup]. intros a c Ec. now inversion Ec.
  - intros i Hi. apply in_seq in Hi. cbn [fst snd]. split; [apply H; lia|lia].
  - exists M'. split; [exact E|]. split; [exact D|]. intros i a j c Hi Ha Hj Hc. destruct (Nat.eqb_spec i j) as [<-|Hne].
    + apply (V i); auto. apply in_seq. lia.
    + apply U; auto. intros Hin. apply in_map_iff in Hin as (k & Ek & _). inversion Ek. congruence.
Qed.

(* ---------- assembly over elements ---------- *)

Lemma assemble_radial_ok lay acc f : fits lay -> adds_up lay acc f ->
  is_dmat (assemble_radial_diagonal lay acc) (lnbf lay) (lnbf lay) f.
Proof.
  intros Hfit (blk & Hs & Hf).
  destruct (fold_adds (lnbf lay) (lnbf lay)
    (fun M iel => let '(ifirst, n) := lidx lay iel in bind (acc iel) (fun B => block_add M ifirst ifirst n n B))
    (fun e a c => if (inside lay e a && inside lay e c)%bool then blk e (local lay e a) (local lay e c) else 0)
    (seq 0 (lnel lay))) with (M := dzero (lnbf lay) (lnbf lay)) as (M' & E & R1 & C1 & V1); auto.
  - intros e He. apply in_seq in He. destruct (Hs e ltac:(lia)) as (A & EA & RA & CA & VA).
    intros M RM CM. destruct (lidx lay e) as [fi n] eqn:El. rewrite EA. cbn [bind].
    assert (F : first_of lay e = fi) by (unfold first_of; now rewrite El).
    assert (C : count_of lay e = n) by (unfold count_of; now rewrite El).
    specialize (Hfit e ltac:(lia)). rewrite F, C in Hfit. rewrite C in *.
    destruct (block_add_ok M fi fi n n A (lnbf lay) (lnbf lay) RM CM Hfit Hfit RA CA) as (M1 & E1 & R1 & C1 & V1).
    exists M1. split; [exact E1|]. split; [exact R1|]. split; [exact C1|]. intros a c _ _. rewrite V1. f_equal.
    unfold win, inside, local. rewrite F, C.
    destruct (Nat.leb_spec fi a), (Nat.ltb_spec a (fi + n)), (Nat.leb_spec fi c), (Nat.ltb_spec c (fi + n)); cbn [andb]; auto.
    apply VA; lia.
  - exists M'. split; [exact E|]. split; [exact R1|]. split; [exact C1|]. intros a c Ha Hc. rewrite V1 by auto.
    rewrite <- Hf by auto. unfold radial_sum. cbn [dent dzero]. unfold mzero. rewrite lsum_seq0. ring.
Qed.
