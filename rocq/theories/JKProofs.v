(** Lemmas on the per-multipole Coulomb and exchange assembly. *)
Require Import Reals ZArith List Bool Arith Lia Lra.
Require Import Verif.Prelude Verif.FEModel Verif.FESpec Verif.FEProofs Verif.AngModel
  Verif.CholModel Verif.CholSpec Verif.CholProofs Verif.JKModel Verif.JKSpec.
Import ListNotations.
Local Open Scope R_scope.

(* ---------- loops that add ---------- *)

Definition adds {X} (r c : nat) (f : dmat -> X -> res dmat) (x : X) (g : mat) : Prop :=
  forall M, drows M = r -> dcols M = c -> exists M', f M x = Ok M' /\ drows M' = r /\ dcols M' = c /\
    forall a b, (a < r)%nat -> (b < c)%nat -> dent M' a b = dent M a b + g a b.

Lemma fold_adds {X} r c f (g : X -> mat) l :
  (forall x, In x l -> adds r c f x (g x)) ->
  forall M, drows M = r -> dcols M = c -> exists M', fold_res f l M = Ok M' /\ drows M' = r /\ dcols M' = c /\
    forall a b, (a < r)%nat -> (b < c)%nat -> dent M' a b = dent M a b + lsum l (fun x => g x a b).
Proof.
  induction l as [|x l IH]; intros H M Hr Hc.
  - exists M. repeat split; auto. intros. simpl. ring.
  - destruct (H x ltac:(left; auto) M Hr Hc) as (M1 & E1 & R1 & C1 & V1).
    destruct (IH ltac:(intros; apply H; right; auto) M1 R1 C1) as (M2 & E2 & R2 & C2 & V2).
    exists M2. cbn [fold_res]. rewrite E1. cbn [bind]. repeat split; auto.
    intros a b Ha Hb. rewrite V2, V1 by auto. simpl. ring.
Qed.

Definition win (f n g m : nat) (B : mat) : mat := fun i j =>
  if (Nat.leb f i && Nat.ltb i (f + n) && (Nat.leb g j && Nat.ltb j (g + m)))%bool
  then B (i - f)%nat (j - g)%nat else 0.

Lemma block_add_ok M f g n m B r c : drows M = r -> dcols M = c ->
  (f + n <= r)%nat -> (g + m <= c)%nat -> drows B = n -> dcols B = m ->
  exists M', block_add M f g n m B = Ok M' /\ drows M' = r /\ dcols M' = c /\
    forall a b, dent M' a b = dent M a b + win f n g m (dent B) a b.
Proof.
  intros Hr Hc Hf Hg HB1 HB2. unfold block_add. rewrite Hr, Hc, HB1, HB2, !Nat.eqb_refl.
  destruct (Nat.leb_spec (f + n) r); [|lia]. destruct (Nat.leb_spec (g + m) c); [|lia]. cbn [andb].
  eexists. split; [reflexivity|]. cbn [drows dcols dent]. repeat split; auto. intros a b. unfold win.
  destruct (_ && _)%bool; ring.
Qed.

Lemma win_ext f n g m B B' i j :
  (forall a b, (a < n)%nat -> (b < m)%nat -> B a b = B' a b) -> win f n g m B i j = win f n g m B' i j.
Proof.
  intros H. unfold win. destruct (Nat.leb_spec f i); cbn [andb]; auto.
  destruct (Nat.ltb_spec i (f + n)); cbn [andb]; auto.
  destruct (Nat.leb_spec g j); cbn [andb]; auto.
  destruct (Nat.ltb_spec j (g + m)); cbn [andb]; auto. apply H; lia.
Qed.

Lemma get_block_ok P f g n m : (f + n <= drows P)%nat -> (g + m <= dcols P)%nat ->
  get_block P f g n m = Ok (mkD n m (fun i j => dent P (f + i)%nat (g + j)%nat)).
Proof.
  intros H1 H2. unfold get_block.
  destruct (Nat.leb_spec (f + n) (drows P)); [|lia]. destruct (Nat.leb_spec (g + m) (dcols P)); [|lia].
  reflexivity.
Qed.

Lemma dprod_ok A B : dcols A = drows B ->
  dprod A B = Ok (mkD (drows A) (dcols B) (mmul (dcols A) (dent A) (dent B))).
Proof. intros H. unfold dprod. now rewrite H, Nat.eqb_refl. Qed.

Lemma reshape_ok v n m : drows v = (n * m)%nat ->
  reshape v n m = Ok (mkD n m (fun a b => dent v (pair_ix n a b) 0%nat)).
Proof. intros H. unfold reshape. now rewrite H, Nat.eqb_refl. Qed.

Lemma pair_ix_mod n a b : (a < n)%nat -> (pair_ix n a b mod n = a)%nat.
Proof. intros. unfold pair_ix. rewrite Nat.add_comm, Nat.mod_add by lia. now apply Nat.mod_small. Qed.
Lemma pair_ix_div n a b : (a < n)%nat -> (pair_ix n a b / n = b)%nat.
Proof. intros. unfold pair_ix. rewrite Nat.add_comm, Nat.div_add by lia. now rewrite Nat.div_small. Qed.
Lemma pair_ix_lt n m a b : (a < n)%nat -> (b < m)%nat -> (pair_ix n a b < n * m)%nat.
Proof. unfold pair_ix. intros. nia. Qed.

(** Sum over a pair index against a column-major vector. *)
Lemma sum_vec n m (h : nat -> R) (P : mat) :
  sum (n * m) (fun k => h k * P (k mod n)%nat (k / n)%nat) =
  sum n (fun c => sum m (fun d => h (pair_ix n c d) * P c d)).
Proof.
  rewrite sum_pair, sum_swap. apply sum_ext. intros c Hc. apply sum_ext. intros d Hd.
  now rewrite pair_ix_mod, pair_ix_div.
Qed.

(* ---------- windows ---------- *)

Section Windows.
Variable lay : layout.
Hypothesis Hfit : fits lay.

Lemma sum_inside e (f : nat -> R) : (e < lnel lay)%nat ->
  sum (lnbf lay) (fun c => if inside lay e c then f c else 0) =
  sum (count_of lay e) (fun c => f (first_of lay e + c)%nat).
Proof. intros He. unfold inside. apply sum_window. now apply Hfit. Qed.

Lemma local_first e c : local lay e (first_of lay e + c) = c.
Proof. unfold local. lia. Qed.

Lemma coulomb_local blk (P : mat) a b :
  coulomb_of (lnbf lay) (tensor lay blk) P a b =
  sum (lnel lay) (fun j => sum (lnel lay) (fun i =>
    if (inside lay i a && inside lay i b)%bool then
      sum (count_of lay j) (fun c => sum (count_of lay j) (fun d =>
        blk i j (local lay i a) (local lay i b) c d * P (first_of lay j + c)%nat (first_of lay j + d)%nat))
    else 0)).
Proof.
  unfold coulomb_of, tensor.
  rewrite (sum_ext (lnbf lay) _ (fun c => sum (lnel lay) (fun j => sum (lnel lay) (fun i =>
     sum (lnbf lay) (fun d =>
       (if (inside lay i a && inside lay i b && (inside lay j c && inside lay j d))%bool
        then blk i j (local lay i a) (local lay i b) (local lay j c) (local lay j d) else 0) * P c d))))).
  2:{ intros c Hc.
      rewrite (sum_ext (lnbf lay) _ (fun d => sum (lnel lay) (fun j => sum (lnel lay) (fun i =>
        (if (inside lay i a && inside lay i b && (inside lay j c && inside lay j d))%bool
        then blk i j (local lay i a) (local lay i b) (local lay j c) (local lay j d) else 0) * P c d)))).
      2:{ intros d Hd. rewrite (sum_swap (lnel lay) (lnel lay)). rewrite <- sum_scal_r. apply sum_ext. intros i Hi.
          rewrite <- sum_scal_r. reflexivity. }
      rewrite sum_swap. apply sum_ext. intros j Hj. rewrite sum_swap. reflexivity. }
  rewrite sum_swap. apply sum_ext. intros j Hj. rewrite sum_swap. apply sum_ext. intros i Hi.
  destruct (inside lay i a && inside lay i b)%bool; cbn [andb].
  2:{ apply sum_zero'. intros. apply sum_zero'. intros. ring. }
  rewrite (sum_ext (lnbf lay) _ (fun c => if inside lay j c then sum (count_of lay j) (fun d =>
    blk i j (local lay i a) (local lay i b) (local lay j c) d * P c (first_of lay j + d)%nat) else 0)).
  - rewrite (sum_inside j _ Hj). apply sum_ext. intros c Hc. apply sum_ext. intros d Hd.
    now rewrite local_first.
  - intros c Hc. destruct (inside lay j c); cbn [andb].
    2:{ apply sum_zero'. intros. ring. }
    rewrite (sum_ext (lnbf lay) _ (fun d => if inside lay j d then
      blk i j (local lay i a) (local lay i b) (local lay j c) (local lay j d) * P c d else 0)).
    2:{ intros d Hd. destruct (inside lay j d); ring. }
    rewrite (sum_inside j _ Hj). apply sum_ext. intros d Hd. now rewrite local_first.
Qed.

Lemma exchange_local blk (P : mat) a b :
  exchange_of (lnbf lay) (tensor lay blk) P a b =
  sum (lnel lay) (fun i => sum (lnel lay) (fun j =>
    if (inside lay i a && inside lay j b)%bool then
      sum (count_of lay i) (fun c => sum (count_of lay j) (fun d =>
        blk i j (local lay i a) c (local lay j b) d * P (first_of lay i + c)%nat (first_of lay j + d)%nat))
    else 0)).
Proof.
  unfold exchange_of, tensor.
  rewrite (sum_ext (lnbf lay) _ (fun c => sum (lnel lay) (fun i => sum (lnel lay) (fun j =>
     sum (lnbf lay) (fun d =>
       (if (inside lay i a && inside lay i c && (inside lay j b && inside lay j d))%bool
        then blk i j (local lay i a) (local lay i c) (local lay j b) (local lay j d) else 0) * P c d))))).
  2:{ intros c Hc.
      rewrite (sum_ext (lnbf lay) _ (fun d => sum (lnel lay) (fun i => sum (lnel lay) (fun j =>
        (if (inside lay i a && inside lay i c && (inside lay j b && inside lay j d))%bool
        then blk i j (local lay i a) (local lay i c) (local lay j b) (local lay j d) else 0) * P c d)))).
      2:{ intros d Hd. rewrite <- sum_scal_r. apply sum_ext. intros i Hi.
          rewrite <- sum_scal_r. reflexivity. }
      rewrite sum_swap. apply sum_ext. intros j Hj. rewrite sum_swap. reflexivity. }
  rewrite sum_swap. apply sum_ext. intros i Hi. rewrite sum_swap. apply sum_ext. intros j Hj.
  destruct (inside lay i a); cbn [andb].
  2:{ apply sum_zero'. intros. apply sum_zero'. intros. ring. }
  destruct (inside lay j b); cbn [andb].
  2:{ apply sum_zero'. intros. apply sum_zero'. intros. rewrite andb_false_r. ring. }
  rewrite (sum_ext (lnbf lay) _ (fun c => if inside lay i c then sum (count_of lay j) (fun d =>
    blk i j (local lay i a) (local lay i c) (local lay j b) d * P c (first_of lay j + d)%nat) else 0)).
  - rewrite (sum_inside i _ Hi). apply sum_ext. intros c Hc. apply sum_ext. intros d Hd.
    now rewrite local_first.
  - intros c Hc. destruct (inside lay i c); cbn [andb].
    2:{ apply sum_zero'. intros. ring. }
    rewrite (sum_ext (lnbf lay) _ (fun d => if inside lay j d then
      blk i j (local lay i a) (local lay i c) (local lay j b) (local lay j d) * P c d else 0)).
    2:{ intros d Hd. destruct (inside lay j d); ring. }
    rewrite (sum_inside j _ Hj). apply sum_ext. intros d Hd. now rewrite local_first.
Qed.

(* ---------- Coulomb ---------- *)

Lemma win_square e (B : mat) a b :
  win (first_of lay e) (count_of lay e) (first_of lay e) (count_of lay e) B a b =
  if (inside lay e a && inside lay e b)%bool then B (local lay e a) (local lay e b) else 0.
Proof. reflexivity. Qed.

Lemma win_pair i j (B : mat) a b :
  win (first_of lay i) (count_of lay i) (first_of lay j) (count_of lay j) B a b =
  if (inside lay i a && inside lay j b)%bool then B (local lay i a) (local lay j b) else 0.
Proof. reflexivity. Qed.

Lemma inside_lt e a : inside lay e a = true -> (local lay e a < count_of lay e)%nat.
Proof.
  unfold inside, local. intros H. apply andb_prop in H. destruct H as [H1 H2].
  apply Nat.leb_le in H1. apply Nat.ltb_lt in H2. lia.
Qed.

Lemma add_disjoint_ok acc c els (M : nat -> mat) J :
  (forall e, In e els -> (e < lnel lay)%nat /\ supplies acc e (count_of lay e) (count_of lay e) (M e)) ->
  drows J = lnbf lay -> dcols J = lnbf lay ->
  exists J', add_disjoint lay acc c els J = Ok J' /\ drows J' = lnbf lay /\ dcols J' = lnbf lay /\
    forall a b, (a < lnbf lay)%nat -> (b < lnbf lay)%nat -> dent J' a b = dent J a b +
      lsum els (fun e => if (inside lay e a && inside lay e b)%bool
                         then c * M e (local lay e a) (local lay e b) else 0).
Proof.
  intros H Hr Hc. unfold add_disjoint.
  apply (fold_adds (lnbf lay) (lnbf lay) _ (fun e a b => if (inside lay e a && inside lay e b)%bool
                         then c * M e (local lay e a) (local lay e b) else 0)); auto.
  intros e He X HX1 HX2. destruct (H e He) as [Hlt (A & EA & RA & CA & VA)].
  rewrite (surjective_pairing (lidx lay e)). rewrite EA. cbn [bind].
  fold (first_of lay e) (count_of lay e).
  destruct (block_add_ok X (first_of lay e) (first_of lay e) (count_of lay e) (count_of lay e) (dscale c A)
    (lnbf lay) (lnbf lay) HX1 HX2 (Hfit e Hlt) (Hfit e Hlt) RA CA) as (X' & E1 & E2 & E3 & E4).
  exists X'. repeat split; auto. intros a b Ha Hb. rewrite E4, win_square. cbn [dscale dent].
  destruct (inside lay e a) eqn:I1; destruct (inside lay e b) eqn:I2; cbn [andb]; auto.
  unfold mscal. rewrite VA; auto; now apply inside_lt.
Qed.

(** sum over the elements below, at and above j. *)
Lemma sum_around n j f : (j < n)%nat ->
  sum n f = lsum (seq 0 j) f + lsum (seq (j + 1) (n - (j + 1))) f + f j.
Proof.
  intros H. rewrite lsum_seq0, lsum_seq.
  replace n with (j + (1 + (n - (j + 1))))%nat at 1 by lia.
  rewrite !sum_split. simpl. rewrite Nat.add_0_r.
  rewrite (sum_ext _ (fun i => f (j + S i)%nat) (fun i => f (j + 1 + i)%nat)).
  - ring.
  - intros i Hi. f_equal. lia.
Qed.

Section JK.
Variables (rs rb : nat -> res dmat) (small big tei : nat -> mat).
Hypothesis Hdis : supplies_disjoint lay rs rb small big.
Variable P : dmat.
Hypothesis HP : density (lnbf lay) P.

Notation Pl := (fun e c d => dent P (first_of lay e + c)%nat (first_of lay e + d)%nat).

Lemma trace_ok (acc : nat -> res dmat) (M : mat) e A : (e < lnel lay)%nat ->
  acc e = Ok A -> drows A = count_of lay e -> dcols A = count_of lay e ->
  (forall i j, (i < count_of lay e)%nat -> (j < count_of lay e)%nat -> dent A i j = M i j) ->
  symmetric (count_of lay e) M ->
  exists AP, dprod A (mkD (count_of lay e) (count_of lay e) (Pl e)) = Ok AP /\
    dtrace AP = sum (count_of lay e) (fun c => sum (count_of lay e) (fun d => M c d * Pl e c d)).
Proof.
  intros He EA RA CA VA Hs. rewrite dprod_ok by (cbn [drows]; auto). eexists. split; [reflexivity|].
  unfold dtrace. cbn [drows dcols dent]. rewrite RA, CA, Nat.min_id.
  unfold mmul. rewrite sum_swap. apply sum_ext. intros c Hc. apply sum_ext. intros d Hd.
  rewrite VA, (Hs d c) by auto. reflexivity.
Qed.

Definition contracts (inel : nat -> dmat -> res dmat) : Prop :=
  forall e v, (e < lnel lay)%nat -> drows v = (count_of lay e * count_of lay e)%nat -> dcols v = 1%nat ->
  exists w, inel e v = Ok w /\ drows w = (count_of lay e * count_of lay e)%nat /\
    forall r, (r < count_of lay e * count_of lay e)%nat ->
      dent w r 0%nat = sum (count_of lay e * count_of lay e) (fun k => tei e r k * dent v k 0%nat).

Lemma assemble_J_ok inel : contracts inel ->
  is_matrix (assemble_J lay rs rb inel P) (lnbf lay)
    (coulomb_of (lnbf lay) (tensor lay (element_pair lay small big tei)) (dent P)).
Proof.
  intros Hin. destruct Hdis as [Hs Hb]. destruct HP as [HPr HPc]. unfold assemble_J, is_matrix.
  set (blk := element_pair lay small big tei).
  set (g := fun j a b => sum (lnel lay) (fun i =>
    if (inside lay i a && inside lay i b)%bool then
      sum (count_of lay j) (fun c => sum (count_of lay j) (fun d =>
        blk i j (local lay i a) (local lay i b) c d * Pl j c d))
    else 0)).
  match goal with |- exists M, fold_res ?f _ _ = _ /\ _ =>
    destruct (fold_adds (lnbf lay) (lnbf lay) f g (seq 0 (lnel lay))) with (M := dzero (lnbf lay) (lnbf lay))
      as (M & EM & RM & CM & VM); auto end.
  - intros j Hj X HX1 HX2. apply in_seq in Hj. assert (Hjn : (j < lnel lay)%nat) by lia.
    rewrite (surjective_pairing (lidx lay j)). fold (first_of lay j) (count_of lay j).
    pose proof (Hfit j Hjn) as Hfj.
    rewrite get_block_ok by lia. cbn [bind].
    destruct (Hs j Hjn) as [(A & EA & RA & CA & VA) Hsym].
    rewrite EA. cbn [bind].
    destruct (trace_ok rs (small j) j A Hjn EA RA CA VA Hsym) as (AP & EAP & TAP).
    rewrite EAP. cbn [bind].
    set (jbig := if Nat.ltb 0 j then sum (count_of lay j) (fun c => sum (count_of lay j) (fun d => big j c d * Pl j c d)) else 0).
    assert (Ebig : (if Nat.ltb 0 j then bind (rb j) (fun A0 => bind (dprod A0 (mkD (count_of lay j) (count_of lay j) (Pl j)))
       (fun AP0 => Ok (dtrace AP0))) else Ok 0) = Ok jbig).
    { unfold jbig. destruct (Nat.ltb_spec 0 j); auto.
      destruct (Hb j ltac:(lia)) as [(B & EB & RB & CB & VB) Hsb].
      rewrite EB. cbn [bind]. destruct (trace_ok rb (big j) j B Hjn EB RB CB VB Hsb) as (BP & EBP & TBP).
      rewrite EBP. cbn [bind]. now rewrite TBP. }
    rewrite Ebig. cbn [bind].
    destruct (add_disjoint_ok rs jbig (seq 0 j) small X) as (J1 & E1 & R1 & C1 & V1); auto.
    { intros e He. apply in_seq in He. split; [lia|]. apply Hs. lia. }
    rewrite E1. cbn [bind].
    destruct (add_disjoint_ok rb (dtrace AP) (seq (j + 1) (lnel lay - (j + 1))) big J1) as (J2 & E2 & R2 & C2 & V2); auto.
    { intros e He. apply in_seq in He. split; [lia|]. apply Hb. lia. }
    rewrite E2. cbn [bind].
    destruct (Hin j (dvec (mkD (count_of lay j) (count_of lay j) (Pl j))) Hjn eq_refl eq_refl) as (w & Ew & Rw & Vw).
    rewrite Ew. cbn [bind]. rewrite reshape_ok by auto. cbn [bind].
    destruct (block_add_ok J2 (first_of lay j) (first_of lay j) (count_of lay j) (count_of lay j)
      (mkD (count_of lay j) (count_of lay j) (fun a b => dent w (pair_ix (count_of lay j) a b) 0%nat))
      (lnbf lay) (lnbf lay) R2 C2 Hfj Hfj eq_refl eq_refl) as (J3 & E3 & R3 & C3 & V3).
    exists J3. repeat split; auto. intros a b Ha Hbb.
    rewrite V3, V2, V1, win_square by auto. cbn [dent]. unfold g.
    rewrite (sum_around (lnel lay) j) by auto. rewrite !Rplus_assoc. f_equal. f_equal; [|f_equal].
    + apply lsum_ext. intros i Hi. apply in_seq in Hi. destruct (inside lay i a && inside lay i b)%bool; auto.
      unfold jbig. destruct (Nat.ltb_spec 0 j); [|lia].
      rewrite Rmult_comm, <- sum_scal. apply sum_ext. intros c Hc. rewrite <- sum_scal. apply sum_ext. intros d Hd.
      unfold blk, element_pair. destruct (Nat.eqb_spec i j); [lia|]. destruct (Nat.ltb_spec i j); [|lia]. ring.
    + apply lsum_ext. intros i Hi. apply in_seq in Hi. destruct (inside lay i a && inside lay i b)%bool; auto.
      rewrite TAP, Rmult_comm, <- sum_scal. apply sum_ext. intros c Hc. rewrite <- sum_scal. apply sum_ext. intros d Hd.
      unfold blk, element_pair. destruct (Nat.eqb_spec i j); [lia|]. destruct (Nat.ltb_spec i j); [lia|]. ring.
    + destruct (inside lay j a) eqn:I1; destruct (inside lay j b) eqn:I2; cbn [andb]; auto.
      apply inside_lt in I1. apply inside_lt in I2.
      rewrite Vw by (apply pair_ix_lt; auto). cbn [dvec dent drows].
      rewrite (sum_vec (count_of lay j) (count_of lay j) (fun k => tei j (pair_ix (count_of lay j) (local lay j a) (local lay j b)) k) (Pl j)).
      apply sum_ext. intros c Hc. apply sum_ext. intros d Hd.
      unfold blk, element_pair. now rewrite Nat.eqb_refl.
  - exists M. repeat split; auto. intros a b Ha Hbb. rewrite VM by auto. cbn [dzero dent]. unfold mzero.
    rewrite Rplus_0_l, lsum_seq0. unfold g. symmetry. apply coulomb_local.
Qed.

(* ---------- exchange ---------- *)

Definition pair_contracts (blk : nat -> nat -> nat -> nat -> nat -> nat -> R)
    (pair : nat -> nat -> dmat -> res dmat) : Prop :=
  forall i j Q, (i < lnel lay)%nat -> (j < lnel lay)%nat ->
  drows Q = count_of lay i -> dcols Q = count_of lay j ->
  exists K, pair i j Q = Ok K /\ drows K = count_of lay i /\ dcols K = count_of lay j /\
    forall x y, (x < count_of lay i)%nat -> (y < count_of lay j)%nat ->
      dent K x y = sum (count_of lay i) (fun c => sum (count_of lay j) (fun d =>
        blk i j x c y d * dent Q c d)).

Lemma assemble_K_ok blk pair : pair_contracts blk pair ->
  is_matrix (assemble_K lay pair P) (lnbf lay)
    (exchange_of (lnbf lay) (tensor lay blk) (dent P)).
Proof.
  intros Hin. destruct HP as [HPr HPc]. unfold assemble_K, is_matrix.
  set (h := fun i j a b => if (inside lay i a && inside lay j b)%bool then
      sum (count_of lay i) (fun c => sum (count_of lay j) (fun d =>
        blk i j (local lay i a) c (local lay j b) d * dent P (first_of lay i + c)%nat (first_of lay j + d)%nat))
    else 0).
  match goal with |- exists M, fold_res ?f _ _ = _ /\ _ =>
    destruct (fold_adds (lnbf lay) (lnbf lay) f (fun i a b => lsum (seq 0 (lnel lay)) (fun j => h i j a b))
      (seq 0 (lnel lay))) with (M := dzero (lnbf lay) (lnbf lay))
      as (M & EM & RM & CM & VM); auto end.
  - intros i Hi X HX1 HX2. apply in_seq in Hi. assert (Hin' : (i < lnel lay)%nat) by lia.
    rewrite (surjective_pairing (lidx lay i)). fold (first_of lay i) (count_of lay i).
    apply (fold_adds (lnbf lay) (lnbf lay) _ (h i)); auto.
    intros j Hj Y HY1 HY2. apply in_seq in Hj. assert (Hjn : (j < lnel lay)%nat) by lia.
    rewrite (surjective_pairing (lidx lay j)). fold (first_of lay j) (count_of lay j).
    pose proof (Hfit i Hin'). pose proof (Hfit j Hjn).
    rewrite get_block_ok by lia. cbn [bind].
    destruct (Hin i j (mkD (count_of lay i) (count_of lay j) (fun c d => dent P (first_of lay i + c)%nat (first_of lay j + d)%nat))
      Hin' Hjn eq_refl eq_refl) as (K & EK & RK & CK & VK).
    rewrite EK. cbn [bind].
    destruct (block_add_ok Y (first_of lay i) (first_of lay j) (count_of lay i) (count_of lay j) K
      (lnbf lay) (lnbf lay)) as (Y' & E1 & E2 & E3 & E4); auto.
    exists Y'. repeat split; auto. intros a b Ha Hb. rewrite E4, win_pair. f_equal. unfold h.
    destruct (inside lay i a) eqn:I1; destruct (inside lay j b) eqn:I2; cbn [andb]; auto.
    rewrite VK; auto; now apply inside_lt.
  - exists M. repeat split; auto. intros a b Ha Hbb. rewrite VM by auto. cbn [dzero dent]. unfold mzero.
    rewrite Rplus_0_l, lsum_seq0, exchange_local. apply sum_ext. intros i Hi. now rewrite lsum_seq0.
Qed.

Lemma K_disjoint_ok i j Q : (i < lnel lay)%nat -> (j < lnel lay)%nat -> i <> j ->
  drows Q = count_of lay i -> dcols Q = count_of lay j ->
  exists K, K_disjoint rs rb i j Q = Ok K /\ drows K = count_of lay i /\ dcols K = count_of lay j /\
    forall x y, (x < count_of lay i)%nat -> (y < count_of lay j)%nat ->
      dent K x y = sum (count_of lay i) (fun c => sum (count_of lay j) (fun d =>
        element_pair lay small big tei i j x c y d * dent Q c d)).
Proof.
  intros Hi Hj Hne Q1 Q2. destruct Hdis as [Hs Hb].
  set (ii := if Nat.ltb j i then big i else small i).
  set (jj := if Nat.ltb j i then small j else big j).
  assert (HI : supplies (fun e => if Nat.ltb j e then rb e else rs e) i (count_of lay i) (count_of lay i) ii).
  { unfold supplies, ii. destruct (Nat.ltb_spec j i); [apply (Hb i)|apply (Hs i)]; lia. }
  assert (HJ : supplies (fun e => if Nat.ltb e i then rs e else rb e) j (count_of lay j) (count_of lay j) jj).
  { unfold supplies, jj. destruct (Nat.ltb_spec j i); [apply (Hs j)|apply (Hb j)]; lia. }
  destruct HI as (A & EA & RA & CA & VA). destruct HJ as (B & EB & RB & CB & VB).
  unfold K_disjoint. rewrite EA. cbn [bind]. rewrite EB. cbn [bind].
  rewrite dprod_ok by (cbn [dT drows]; lia). cbn [bind]. rewrite dprod_ok by (cbn [drows]; lia).
  eexists. split; [reflexivity|]. cbn [drows dcols dent dT]. repeat split; auto.
  intros x y Hx Hy. unfold mmul. rewrite CA. apply sum_ext. intros c Hc. rewrite Q2, <- sum_scal.
  apply sum_ext. intros d Hd. cbn [dT dent]. unfold mT. rewrite VA, VB by auto.
  unfold element_pair. destruct (Nat.eqb_spec i j); [lia|]. unfold ii, jj.
  destruct (Nat.ltb_spec i j); destruct (Nat.ltb_spec j i); try lia; ring.
Qed.
End JK.
End Windows.

(* ---------- in-element contractions ---------- *)

Lemma dense_contracts lay tw tei :
  (forall e, (e < lnel lay)%nat ->
     supplies tw e (count_of lay e * count_of lay e) (count_of lay e * count_of lay e) (tei e)) ->
  contracts lay tei (fun e v => bind (tw e) (fun T => dprod T v)).
Proof.
  intros H e v He Rv Cv. destruct (H e He) as (A & EA & RA & CA & VA).
  rewrite EA. cbn [bind]. rewrite dprod_ok by lia. eexists. split; [reflexivity|]. cbn [drows dent].
  split; auto. intros r Hr. unfold mmul. rewrite CA. apply sum_ext. intros k Hk. now rewrite VA.
Qed.

Lemma chol_contracts lay (ch : nat -> res dmat) (F : nat -> dmat) :
  (forall e, (e < lnel lay)%nat -> ch e = Ok (F e) /\ drows (F e) = (count_of lay e * count_of lay e)%nat) ->
  contracts lay (fun e => factor_tensor (F e))
    (fun e v => bind (ch e) (fun L => bind (dprod (dT L) v) (fun s => dprod L s))).
Proof.
  intros H e v He Rv Cv. destruct (H e He) as (EL & RL).
  rewrite EL. cbn [bind]. rewrite dprod_ok by (cbn [dT dcols]; lia). cbn [bind].
  rewrite dprod_ok by reflexivity. eexists. split; [reflexivity|]. cbn [drows dent dT dcols].
  split; auto. intros r Hr. unfold mmul, mT, factor_tensor. rewrite RL.
  rewrite (sum_ext (count_of lay e * count_of lay e) _ (fun k => sum (dcols (F e)) (fun p =>
     dent (F e) r p * (dent (F e) k p * dent v k 0%nat)))).
  2:{ intros k Hk. rewrite <- sum_scal_r. apply sum_ext. intros. ring. }
  rewrite sum_swap. apply sum_ext. intros p Hp. now rewrite sum_scal.
Qed.

Lemma K_permuted_ok ktei Ni Nj (T : dmat) Q :
  exchange_tei T Ni Ni Nj Nj = Ok ktei -> drows Q = Ni -> dcols Q = Nj ->
  exists K, K_permuted ktei Q = Ok K /\ drows K = Ni /\ dcols K = Nj /\
    forall x y, (x < Ni)%nat -> (y < Nj)%nat ->
      dent K x y = sum Ni (fun c => sum Nj (fun d =>
        dent T (pair_ix Ni c x) (pair_ix Nj y d) * dent Q c d)).
Proof.
  intros E HQ1 HQ2. pose proof E as E0. unfold exchange_tei in E.
  destruct (Nat.eqb_spec (drows T) (Ni * Ni)) as [HT1|]; [|discriminate].
  destruct (Nat.eqb_spec (dcols T) (Nj * Nj)) as [HT2|]; [|discriminate].
  cbn [negb] in E. injection E as E.
  assert (Rk : drows ktei = (Ni * Nj)%nat) by (rewrite <- E; reflexivity).
  assert (Ck : dcols ktei = (Ni * Nj)%nat) by (rewrite <- E; reflexivity).
  unfold K_permuted. rewrite dprod_ok by (cbn [dvec drows]; lia). cbn [bind].
  rewrite reshape_ok by (cbn [drows]; lia). eexists. split; [reflexivity|]. cbn [drows dcols dent].
  repeat split; auto. intros x y Hx Hy. rewrite HQ1. unfold mmul. rewrite Ck. cbn [dvec dent].
  rewrite HQ1. rewrite (exchange_contraction T Ni Ni Nj Nj ktei (dent Q) E0 x y Hx Hy).
  rewrite sum_swap. reflexivity.
Qed.

Lemma K_factored_ok L Q n : drows L = (n * n)%nat -> drows Q = n -> dcols Q = n ->
  exists K, K_factored L Q = Ok K /\ drows K = n /\ dcols K = n /\
    forall x y, (x < n)%nat -> (y < n)%nat ->
      dent K x y = sum n (fun c => sum n (fun d =>
        factor_tensor L (pair_ix n x c) (pair_ix n y d) * dent Q c d)).
Proof.
  intros HL HQ1 HQ2. unfold K_factored. rewrite HQ1, HQ2.
  set (g := fun p x y => sum n (fun c => sum n (fun d =>
     dent L (pair_ix n x c) p * dent L (pair_ix n y d) p * dent Q c d))).
  match goal with |- exists K0, fold_res ?f _ _ = _ /\ _ =>
    destruct (fold_adds n n f g (seq 0 (dcols L))) with (M := dzero n n)
      as (M & EM & RM & CM & VM); auto end.
  - intros p Hp X HX1 HX2. rewrite reshape_ok by auto. cbn [bind].
    rewrite dprod_ok by (cbn [dT drows]; auto). cbn [bind].
    rewrite dprod_ok by (cbn [drows dcols]; auto). cbn [bind].
    unfold dadd. cbn [drows dcols dT]. rewrite HX1, HX2, !Nat.eqb_refl. cbn [andb].
    eexists. split; [reflexivity|]. cbn [drows dcols dent]. repeat split; auto.
    intros x y Hx Hy. unfold madd. f_equal. unfold mmul, g. cbn [dcol dent dT].
    apply sum_ext. intros c Hc. rewrite HQ2, <- sum_scal. apply sum_ext. intros d Hd. unfold mT. ring.
  - exists M. repeat split; auto. intros x y Hx Hy. rewrite VM by auto. cbn [dzero dent]. unfold mzero.
    rewrite Rplus_0_l, lsum_seq0. unfold g. rewrite sum_swap. apply sum_ext. intros c Hc.
    rewrite sum_swap. apply sum_ext. intros d Hd. unfold factor_tensor. now rewrite <- sum_scal_r.
Qed.

(* ---------- the entry points ---------- *)

Lemma J_dense_ok lay rs rb tw small big tei P :
  fits lay -> supplies_disjoint lay rs rb small big ->
  (forall e, (e < lnel lay)%nat ->
     supplies tw e (count_of lay e * count_of lay e) (count_of lay e * count_of lay e) (tei e)) ->
  density (lnbf lay) P ->
  is_matrix (assemble_J_dense lay rs rb tw P) (lnbf lay)
    (coulomb_of (lnbf lay) (tensor lay (element_pair lay small big tei)) (dent P)).
Proof.
  intros Hf Hd Ht HP. apply assemble_J_ok; auto. now apply dense_contracts.
Qed.

Lemma J_chol_ok lay rs rb ch small big (F : nat -> dmat) P :
  fits lay -> supplies_disjoint lay rs rb small big ->
  (forall e, (e < lnel lay)%nat -> ch e = Ok (F e) /\ drows (F e) = (count_of lay e * count_of lay e)%nat) ->
  density (lnbf lay) P ->
  is_matrix (assemble_J_chol lay rs rb ch P) (lnbf lay)
    (coulomb_of (lnbf lay) (tensor lay (element_pair lay small big (fun e => factor_tensor (F e)))) (dent P)).
Proof.
  intros Hf Hd Ht HP. apply assemble_J_ok; auto. now apply chol_contracts.
Qed.

Lemma K_chol_ok lay rs rb ch small big (F : nat -> dmat) P :
  fits lay -> supplies_disjoint lay rs rb small big ->
  (forall e, (e < lnel lay)%nat -> ch e = Ok (F e) /\ drows (F e) = (count_of lay e * count_of lay e)%nat) ->
  density (lnbf lay) P ->
  is_matrix (assemble_K_chol lay rs rb ch P) (lnbf lay)
    (exchange_of (lnbf lay) (tensor lay (element_pair lay small big (fun e => factor_tensor (F e)))) (dent P)).
Proof.
  intros Hf Hd Ht HP. apply assemble_K_ok; auto. intros i j Q Hi Hj Q1 Q2.
  destruct (Nat.eqb_spec i j) as [->|Hne].
  - destruct (Ht j Hj) as [EL RL]. rewrite EL. cbn [bind].
    destruct (K_factored_ok (F j) Q (count_of lay j) RL Q1 Q2) as (K & EK & RK & CK & VK).
    exists K. repeat split; auto. intros x y Hx Hy. rewrite VK by auto. unfold element_pair.
    now rewrite Nat.eqb_refl.
  - now apply K_disjoint_ok.
Qed.

Lemma K_dense_ok lay rs rb kt small big (T : nat -> dmat) P :
  fits lay -> supplies_disjoint lay rs rb small big ->
  (forall e, (e < lnel lay)%nat ->
     kt e = exchange_tei (T e) (count_of lay e) (count_of lay e) (count_of lay e) (count_of lay e) /\
     drows (T e) = (count_of lay e * count_of lay e)%nat /\
     dcols (T e) = (count_of lay e * count_of lay e)%nat /\
     pair_symmetric (count_of lay e) (dent (T e))) ->
  density (lnbf lay) P ->
  is_matrix (assemble_K_dense lay rs rb kt P) (lnbf lay)
    (exchange_of (lnbf lay) (tensor lay (element_pair lay small big (fun e => dent (T e)))) (dent P)).
Proof.
  intros Hf Hd Ht HP. apply assemble_K_ok; auto. intros i j Q Hi Hj Q1 Q2.
  destruct (Nat.eqb_spec i j) as [->|Hne].
  - destruct (Ht j Hj) as (EK & RT & CT & Hsym).
    destruct (exchange_tei_ok (T j) _ _ _ _ RT CT) as (kk & Ek & _). rewrite EK, Ek. cbn [bind].
    destruct (K_permuted_ok kk _ _ (T j) Q Ek Q1 Q2) as (K & EK' & RK & CK & VK).
    exists K. repeat split; auto. intros x y Hx Hy. rewrite VK by auto. unfold element_pair.
    rewrite Nat.eqb_refl. apply sum_ext. intros c Hc. apply sum_ext. intros d Hd'.
    rewrite (Hsym c x) by (auto; now apply pair_ix_lt). reflexivity.
  - now apply K_disjoint_ok.
Qed.

Lemma K_pairwise_ok lay kt (T : nat -> nat -> dmat) P :
  fits lay ->
  (forall i j, (i < lnel lay)%nat -> (j < lnel lay)%nat ->
     kt i j = exchange_tei (T i j) (count_of lay i) (count_of lay i) (count_of lay j) (count_of lay j) /\
     drows (T i j) = (count_of lay i * count_of lay i)%nat /\
     dcols (T i j) = (count_of lay j * count_of lay j)%nat /\
     forall a b r, (a < count_of lay i)%nat -> (b < count_of lay i)%nat ->
       (r < count_of lay j * count_of lay j)%nat ->
       dent (T i j) (pair_ix (count_of lay i) a b) r = dent (T i j) (pair_ix (count_of lay i) b a) r) ->
  density (lnbf lay) P ->
  is_matrix (assemble_K_pairwise lay kt P) (lnbf lay)
    (exchange_of (lnbf lay) (tensor lay (fun i j a b c d =>
       dent (T i j) (pair_ix (count_of lay i) a b) (pair_ix (count_of lay j) c d))) (dent P)).
Proof.
  intros Hf Ht HP. apply assemble_K_ok; auto. intros i j Q Hi Hj Q1 Q2.
  destruct (Ht i j Hi Hj) as (EK & RT & CT & Hsym).
  destruct (exchange_tei_ok (T i j) _ _ _ _ RT CT) as (kk & Ek & _). rewrite EK, Ek. cbn [bind].
  destruct (K_permuted_ok kk _ _ (T i j) Q Ek Q1 Q2) as (K & EK' & RK & CK & VK).
  exists K. repeat split; auto. intros x y Hx Hy. rewrite VK by auto.
  apply sum_ext. intros c Hc. apply sum_ext. intros d Hd'.
  rewrite (Hsym c x) by (auto; now apply pair_ix_lt). reflexivity.
Qed.

(* ---------- truncation error ---------- *)

Lemma Rabs_sum n f : Rabs (sum n f) <= sum n (fun i => Rabs (f i)).
Proof.
  induction n; simpl; [rewrite Rabs_R0; lra|].
  eapply Rle_trans; [apply Rabs_triang|]. lra.
Qed.

Lemma is_matrix_bound r1 r2 n f1 f2 e M1 M2 : is_matrix r1 n f1 -> is_matrix r2 n f2 ->
  r1 = Ok M1 -> r2 = Ok M2 ->
  (forall a b, (a < n)%nat -> (b < n)%nat -> Rabs (f1 a b - f2 a b) <= e) ->
  forall a b, (a < n)%nat -> (b < n)%nat -> Rabs (dent M1 a b - dent M2 a b) <= e.
Proof.
  intros (A & EA & _ & _ & VA) (B & EB & _ & _ & VB) E1 E2 H a b Ha Hb.
  rewrite EA in E1. injection E1 as <-. rewrite EB in E2. injection E2 as <-.
  rewrite VA, VB by auto. now apply H.
Qed.

Section Error.
Variables (lay : layout) (small big tei1 tei2 : nat -> mat) (P : dmat) (tol : R).
Hypothesis Hfit : fits lay.
Hypothesis Htol : 0 <= tol.
Hypothesis Hclose : forall e r s, (e < lnel lay)%nat -> (r < count_of lay e * count_of lay e)%nat ->
  (s < count_of lay e * count_of lay e)%nat -> Rabs (tei1 e r s - tei2 e r s) <= tol.

Notation B1 := (element_pair lay small big tei1).
Notation B2 := (element_pair lay small big tei2).

Lemma element_pair_diff i j a b c d : i <> j -> B1 i j a b c d = B2 i j a b c d.
Proof. intros H. unfold element_pair. destruct (Nat.eqb_spec i j); tauto. Qed.

Lemma weight_term (h : nat -> R) n : (forall j, (j < n)%nat -> 0 <= h j) -> 0 <= sum n h.
Proof. apply sum_nonneg. Qed.

Lemma J_error a b : (a < lnbf lay)%nat -> (b < lnbf lay)%nat ->
  Rabs (coulomb_of (lnbf lay) (tensor lay B1) (dent P) a b -
        coulomb_of (lnbf lay) (tensor lay B2) (dent P) a b) <= tol * element_weight lay P.
Proof.
  intros Ha Hb. rewrite !coulomb_local by auto. rewrite <- sum_minus.
  eapply Rle_trans; [apply Rabs_sum|]. unfold element_weight. rewrite <- sum_scal.
  apply sum_le. intros j Hj. rewrite <- sum_minus.
  rewrite (sum_single (lnel lay) j); auto.
  2:{ intros i Hi Hne. destruct (inside lay i a && inside lay i b)%bool; [|ring].
      apply Rminus_diag_eq. apply sum_ext. intros c Hc. apply sum_ext. intros d Hd.
      now rewrite element_pair_diff. }
  destruct (inside lay j a) eqn:I1; cbn [andb].
  - destruct (inside lay j b) eqn:I2.
    + apply inside_lt in I1, I2. rewrite <- sum_minus. eapply Rle_trans; [apply Rabs_sum|].
      rewrite <- sum_scal. apply sum_le. intros c Hc. rewrite <- sum_minus.
      eapply Rle_trans; [apply Rabs_sum|]. rewrite <- sum_scal. apply sum_le. intros d Hd.
      rewrite <- Rmult_minus_distr_r, Rabs_mult. apply Rmult_le_compat_r; [apply Rabs_pos|].
      unfold element_pair. rewrite Nat.eqb_refl. apply Hclose; auto; now apply pair_ix_lt.
    + rewrite Rminus_0_r, Rabs_R0. apply Rmult_le_pos; auto.
      apply sum_nonneg. intros. apply sum_nonneg. intros. apply Rabs_pos.
  - rewrite Rminus_0_r, Rabs_R0. apply Rmult_le_pos; auto.
    apply sum_nonneg. intros. apply sum_nonneg. intros. apply Rabs_pos.
Qed.

Lemma K_error a b : (a < lnbf lay)%nat -> (b < lnbf lay)%nat ->
  Rabs (exchange_of (lnbf lay) (tensor lay B1) (dent P) a b -
        exchange_of (lnbf lay) (tensor lay B2) (dent P) a b) <= tol * element_weight lay P.
Proof.
  intros Ha Hb. rewrite !exchange_local by auto. rewrite <- sum_minus.
  eapply Rle_trans; [apply Rabs_sum|]. unfold element_weight. rewrite <- sum_scal.
  apply sum_le. intros i Hi. rewrite <- sum_minus.
  rewrite (sum_single (lnel lay) i); auto.
  2:{ intros j Hj Hne. destruct (inside lay i a && inside lay j b)%bool; [|ring].
      apply Rminus_diag_eq. apply sum_ext. intros c Hc. apply sum_ext. intros d Hd.
      rewrite element_pair_diff; auto. }
  destruct (inside lay i a) eqn:I1; cbn [andb].
  - destruct (inside lay i b) eqn:I2.
    + apply inside_lt in I1, I2. rewrite <- sum_minus. eapply Rle_trans; [apply Rabs_sum|].
      rewrite <- sum_scal. apply sum_le. intros c Hc. rewrite <- sum_minus.
      eapply Rle_trans; [apply Rabs_sum|]. rewrite <- sum_scal. apply sum_le. intros d Hd.
      rewrite <- Rmult_minus_distr_r, Rabs_mult. apply Rmult_le_compat_r; [apply Rabs_pos|].
      unfold element_pair. rewrite Nat.eqb_refl. apply Hclose; auto; now apply pair_ix_lt.
    + rewrite Rminus_0_r, Rabs_R0. apply Rmult_le_pos; auto.
      apply sum_nonneg. intros. apply sum_nonneg. intros. apply Rabs_pos.
  - rewrite Rminus_0_r, Rabs_R0. apply Rmult_le_pos; auto.
    apply sum_nonneg. intros. apply sum_nonneg. intros. apply Rabs_pos.
Qed.
End Error.

(** Dense against factored assembly. *)
Lemma JK_truncation lay rs rb tw kt ch small big (T F : nat -> dmat) P tol :
  fits lay -> supplies_disjoint lay rs rb small big -> 0 <= tol ->
  (forall e, (e < lnel lay)%nat ->
     tw e = Ok (T e) /\
     kt e = exchange_tei (T e) (count_of lay e) (count_of lay e) (count_of lay e) (count_of lay e) /\
     drows (T e) = (count_of lay e * count_of lay e)%nat /\
     dcols (T e) = (count_of lay e * count_of lay e)%nat /\
     pair_symmetric (count_of lay e) (dent (T e)) /\
     ch e = Ok (F e) /\ drows (F e) = (count_of lay e * count_of lay e)%nat /\
     forall r s, (r < count_of lay e * count_of lay e)%nat -> (s < count_of lay e * count_of lay e)%nat ->
       Rabs (dent (T e) r s - factor_tensor (F e) r s) <= tol) ->
  density (lnbf lay) P ->
  exists J J' K K',
    assemble_J_dense lay rs rb tw P = Ok J /\ assemble_J_chol lay rs rb ch P = Ok J' /\
    assemble_K_dense lay rs rb kt P = Ok K /\ assemble_K_chol lay rs rb ch P = Ok K' /\
    forall a b, (a < lnbf lay)%nat -> (b < lnbf lay)%nat ->
      Rabs (dent J a b - dent J' a b) <= tol * element_weight lay P /\
      Rabs (dent K a b - dent K' a b) <= tol * element_weight lay P.
Proof.
  intros Hf Hd Ht HT HP.
  assert (HJ := J_dense_ok lay rs rb tw small big (fun e => dent (T e)) P Hf Hd).
  assert (HJ' := J_chol_ok lay rs rb ch small big F P Hf Hd).
  assert (HK := K_dense_ok lay rs rb kt small big T P Hf Hd).
  assert (HK' := K_chol_ok lay rs rb ch small big F P Hf Hd).
  assert (A1 : is_matrix (assemble_J_dense lay rs rb tw P) (lnbf lay)
    (coulomb_of (lnbf lay) (tensor lay (element_pair lay small big (fun e => dent (T e)))) (dent P))).
  { apply HJ; auto. intros e He. destruct (HT e He) as (E1 & _ & E3 & E4 & _). exists (T e). auto. }
  assert (A2 : is_matrix (assemble_J_chol lay rs rb ch P) (lnbf lay)
    (coulomb_of (lnbf lay) (tensor lay (element_pair lay small big (fun e => factor_tensor (F e)))) (dent P))).
  { apply HJ'; auto. intros e He. destruct (HT e He) as (_ & _ & _ & _ & _ & E6 & E7 & _). auto. }
  assert (A3 : is_matrix (assemble_K_dense lay rs rb kt P) (lnbf lay)
    (exchange_of (lnbf lay) (tensor lay (element_pair lay small big (fun e => dent (T e)))) (dent P))).
  { apply HK; auto. intros e He. destruct (HT e He) as (_ & E2 & E3 & E4 & E5 & _). auto. }
  assert (A4 : is_matrix (assemble_K_chol lay rs rb ch P) (lnbf lay)
    (exchange_of (lnbf lay) (tensor lay (element_pair lay small big (fun e => factor_tensor (F e)))) (dent P))).
  { apply HK'; auto. intros e He. destruct (HT e He) as (_ & _ & _ & _ & _ & E6 & E7 & _). auto. }
  destruct A1 as (J & EJ & _ & _ & VJ). destruct A2 as (J' & EJ' & _ & _ & VJ').
  destruct A3 as (K & EK & _ & _ & VK). destruct A4 as (K' & EK' & _ & _ & VK').
  exists J, J', K, K'. split; [exact EJ|]. split; [exact EJ'|]. split; [exact EK|]. split; [exact EK'|].
  intros a b Ha Hb. rewrite VJ, VJ', VK, VK' by auto. split.
  - apply J_error; auto. intros e r s He. apply (HT e He).
  - apply K_error; auto. intros e r s He. apply (HT e He).
Qed.

(* ---------- layouts of finite element bases ---------- *)

Lemma fe_layout_fits b : valid_fe b -> fits (fe_layout b).
Proof.
  intros (Hn & Hb & _) e He. unfold first_of, count_of, fe_layout in *. cbn [lnel lnbf lidx] in *.
  assert (Hne : (1 <= get_nelem b)%nat) by (unfold get_nelem; lia).
  unfold elem_range. rewrite get_idx_closed by auto. rewrite get_nbf_closed by auto. cbn [fst snd].
  assert (H0 : (0 <= offs b 0 e)%Z) by (change 0%Z with (offs b 0 0); apply offs_mono; auto; lia).
  assert (H1 : (offs b 0 (S e) + Z.of_nat (noverlap (fe_fam b)) <= offs b 0 (get_nelem b) + Z.of_nat (noverlap (fe_fam b)))%Z).
  { destruct (Nat.eq_dec (S e) (get_nelem b)) as [->|]; [lia|].
    assert (offs b 0 (S e) <= offs b 0 (get_nelem b - 1))%Z by (apply offs_mono; auto; lia).
    assert (noverlap (fe_fam b) <= count b (get_nelem b - 1))%nat.
    { replace (get_nelem b - 1)%nat with (S (get_nelem b - 2)) by lia. apply count_ge_right; auto. }
    assert (HS : offs b 0 (get_nelem b) = offs b 0 (S (get_nelem b - 1))) by (f_equal; lia).
    cbn [offs] in HS. rewrite Nat.add_0_l in HS. rewrite HS. lia. }
  cbn [offs] in H1. rewrite Nat.add_0_l in H1. lia.
Qed.

(* ---------- caches ---------- *)

Lemma fold_res_inv {S X} (I : list X -> S -> Prop) (f : S -> X -> res S) l s0 :
  I [] s0 ->
  (forall done x s, (exists rest, l = done ++ x :: rest) -> I done s ->
     exists s', f s x = Ok s' /\ I (done ++ [x]) s') ->
  exists s', fold_res f l s0 = Ok s' /\ I l s'.
Proof.
  intros H0 Hs.
  assert (H : forall rest done s, l = done ++ rest -> I done s ->
    exists s', fold_res f rest s = Ok s' /\ I l s').
  { induction rest as [|x rest IH]; intros done s El Hi.
    - rewrite app_nil_r in El. subst. exists s. split; auto.
    - destruct (Hs done x s) as (s' & E & Hi'); [exists rest; auto|auto|].
      cbn [fold_res]. rewrite E. cbn [bind]. apply (IH (done ++ [x])); auto.
      rewrite <- app_assoc. exact El. }
  apply (H l [] s0); auto.
Qed.

Lemma seq_prefix k n done x : (exists rest, seq k n = done ++ x :: rest) ->
  (k <= x < k + n)%nat /\ done = seq k (x - k).
Proof.
  intros [rest E].
  assert (Hlen : (length done < n)%nat).
  { apply (f_equal (@length nat)) in E. rewrite seq_length, app_length in E. simpl in E. lia. }
  assert (Hx : nth (length done) (seq k n) 0%nat = x).
  { rewrite E, app_nth2, Nat.sub_diag by lia. reflexivity. }
  rewrite seq_nth in Hx by auto. split; [lia|].
  assert (Hd : done = firstn (length done) (seq k n)).
  { rewrite E, firstn_app, Nat.sub_diag, firstn_all. simpl. now rewrite app_nil_r. }
  rewrite Hd at 1. replace (x - k)%nat with (length done) by lia.
  replace n with (length done + (n - length done))%nat by lia. rewrite seq_app, firstn_app.
  rewrite seq_length, Nat.sub_diag. simpl. rewrite app_nil_r, firstn_all2; auto. rewrite seq_length. lia.
Qed.

Lemma flat_lt L iel N Nel : (L < N)%nat -> (iel < Nel)%nat -> (L * Nel + iel < N * Nel)%nat.
Proof. intros. nia. Qed.

Lemma cache_put_ok c i A : (i < csize c)%nat ->
  cache_put c i A = Ok (mkCache (csize c) (setv (centry c) i A)).
Proof. intros H. unfold cache_put. destruct (Nat.ltb_spec i (csize c)); [reflexivity|lia]. Qed.

(** A loop over L < N_L and iel < Nel in the order of the code: the pairs
    visited before (L, iel) are those with a smaller L, or the same L and a
    smaller iel. *)
Lemma for_L_iel_inv {S} N_L Nel (f : S -> nat -> nat -> res S) (I : (nat -> nat -> Prop) -> S -> Prop) s0 :
  (forall Q Q' s, (forall L e, (L < N_L)%nat -> (e < Nel)%nat -> (Q L e <-> Q' L e)) -> I Q s -> I Q' s) ->
  I (fun _ _ => False) s0 ->
  (forall Q s L iel, (L < N_L)%nat -> (iel < Nel)%nat -> ~ Q L iel -> I Q s ->
     exists s', f s L iel = Ok s' /\ I (fun L' e' => Q L' e' \/ (L' = L /\ e' = iel)) s') ->
  exists s', for_L_iel N_L Nel f s0 = Ok s' /\ I (fun L e => (L < N_L)%nat /\ (e < Nel)%nat) s'.
Proof.
  intros Hext H0 Hstep. unfold for_L_iel.
  destruct (fold_res_inv (fun done s => I (fun L e => In L done) s)
    (fun s L => fold_res (fun s iel => f s L iel) (seq 0 Nel) s) (seq 0 N_L) s0) as (s' & E & Hi).
  - eapply Hext; [|exact H0]. intros; simpl; tauto.
  - intros done L s Hp Hi. apply seq_prefix in Hp. destruct Hp as [HL ->].
    destruct (fold_res_inv (fun d s => I (fun L' e => In L' (seq 0 (L - 0)) \/ (L' = L /\ In e d)) s)
      (fun s iel => f s L iel) (seq 0 Nel) s) as (s' & E & Hi').
    + eapply Hext; [|exact Hi]. intros; simpl; tauto.
    + intros d iel s1 Hp Hi1. apply seq_prefix in Hp. destruct Hp as [He ->].
      destruct (Hstep (fun L' e => In L' (seq 0 (L - 0)) \/ (L' = L /\ In e (seq 0 (iel - 0)))) s1 L iel) as (s2 & E2 & Hi2);
        [lia|lia| |exact Hi1|].
      { intros [Hc|[_ Hc]]; apply in_seq in Hc; lia. }
      exists s2. split; auto. eapply Hext; [|exact Hi2]. intros L' e' HL' He'. cbv beta.
      rewrite !in_app_iff, !in_seq. simpl. intuition lia.
    + exists s'. split; auto. eapply Hext; [|exact Hi']. intros L' e' HL' He'. cbv beta.
      rewrite in_app_iff, !in_seq. simpl. intuition lia.
  - exists s'. split; auto. eapply Hext; [|exact Hi]. intros L e HL He. cbv beta. rewrite in_seq. lia.
Qed.

Lemma compute_disjoint_ok k N_L Nel old :
  exists sm bg, compute_disjoint k N_L Nel old = Ok (sm, bg) /\
    csize sm = (N_L * Nel)%nat /\ csize bg = (N_L * Nel)%nat /\
    (forall L iel, (L < N_L)%nat -> (iel < Nel)%nat ->
      holds sm (L * Nel + iel) (k_small k L iel) /\
      ((0 < iel)%nat -> holds bg (L * Nel + iel) (k_big k L iel))) /\
    (forall L, (L < N_L)%nat -> (0 < Nel)%nat ->
      holds bg (L * Nel) (if Nat.ltb (L * Nel) (csize (snd old)) then centry (snd old) (L * Nel)%nat else dempty)).
Proof.
  unfold compute_disjoint.
  set (e0 := fun i => if Nat.ltb i (csize (snd old)) then centry (snd old) i else dempty).
  destruct (for_L_iel_inv N_L Nel (fun c L iel =>
    bind (cache_put (fst c) (L * Nel + iel) (k_small k L iel)) (fun sm =>
    if Nat.eqb iel 0 then Ok (sm, snd c)
    else bind (cache_put (snd c) (L * Nel + iel) (k_big k L iel)) (fun bg => Ok (sm, bg))))
    (fun Q c => csize (fst c) = (N_L * Nel)%nat /\ csize (snd c) = (N_L * Nel)%nat /\
       (forall L iel, (L < N_L)%nat -> (iel < Nel)%nat -> Q L iel ->
          centry (fst c) (L * Nel + iel)%nat = k_small k L iel /\
          ((0 < iel)%nat -> centry (snd c) (L * Nel + iel)%nat = k_big k L iel)) /\
       (forall L, (L < N_L)%nat -> (0 < Nel)%nat -> centry (snd c) (L * Nel)%nat = e0 (L * Nel)%nat))
    (cache_resize (fst old) (N_L * Nel), cache_resize (snd old) (N_L * Nel))) as ([sm bg] & E & S1 & S2 & H & H').
  - intros Q Q' s HQ (A & B & C & D). repeat split; auto; apply C; auto; now apply HQ.
  - repeat split; auto; tauto.
  - intros Q s L iel HL He Hnq (A & B & C & D).
    pose proof (flat_lt L iel N_L Nel HL He).
    rewrite cache_put_ok by lia. cbn [bind].
    destruct (Nat.eqb_spec iel 0).
    + eexists. split; [reflexivity|]. cbn [fst snd csize centry]. split; [auto|]. split; [auto|]. split; [|exact D].
      intros L' e' HL' He' HQ. destruct (Nat.eq_dec (L' * Nel + e') (L * Nel + iel)) as [Eq|Ne].
      * apply pair_inj in Eq; [|auto|auto]. destruct Eq; subst. rewrite setv_eq. split; auto. lia.
      * rewrite setv_neq by auto. destruct HQ as [HQ|[-> ->]]; [|tauto]. now apply C.
    + rewrite cache_put_ok by lia. cbn [bind].
      eexists. split; [reflexivity|]. cbn [fst snd csize centry]. split; [auto|]. split; [auto|]. split.
      * intros L' e' HL' He' HQ. destruct (Nat.eq_dec (L' * Nel + e') (L * Nel + iel)) as [Eq|Ne].
        -- apply pair_inj in Eq; [|auto|auto]. destruct Eq; subst. rewrite !setv_eq. auto.
        -- rewrite !setv_neq by auto. destruct HQ as [HQ|[-> ->]]; [|tauto]. now apply C.
      * intros L' HL' HN. rewrite setv_neq; auto. intros Eq.
        replace (L' * Nel)%nat with (L' * Nel + 0)%nat in Eq by lia. apply pair_inj in Eq; lia.
  - cbn [fst snd] in *. exists sm, bg. split; [exact E|]. split; [auto|]. split; [auto|]. split.
    + intros L iel HL He. pose proof (flat_lt L iel N_L Nel HL He).
      destruct (H L iel HL He (conj HL He)) as [Hs Hb].
      unfold holds, cache_at. rewrite S1, S2. destruct (Nat.ltb_spec (L * Nel + iel) (N_L * Nel)); [|lia].
      rewrite Hs. split; auto. intros Hp. now rewrite Hb.
    + intros L HL HN. pose proof (flat_lt L 0 N_L Nel HL HN).
      unfold holds, cache_at. rewrite S2. destruct (Nat.ltb_spec (L * Nel) (N_L * Nel)); [|lia].
      rewrite H' by auto. reflexivity.
Qed.

Lemma tei_ix_inj L L' i i' j j' Nel : (i < Nel)%nat -> (i' < Nel)%nat -> (j < Nel)%nat -> (j' < Nel)%nat ->
  (Nel * Nel * L + i * Nel + j = Nel * Nel * L' + i' * Nel + j')%nat -> L = L' /\ i = i' /\ j = j'.
Proof.
  intros Hi Hi' Hj Hj' E.
  assert (E2 : ((Nel * L + i) * Nel + j = (Nel * L' + i') * Nel + j')%nat) by nia.
  apply pair_inj in E2; auto. destruct E2 as [-> E2].
  assert (E3 : (L * Nel + i = L' * Nel + i')%nat) by nia.
  apply pair_inj in E3; auto. tauto.
Qed.

Lemma tei_ix_lt L i j N_L Nel : (L < N_L)%nat -> (i < Nel)%nat -> (j < Nel)%nat ->
  (Nel * Nel * L + i * Nel + j < Nel * Nel * N_L)%nat.
Proof.
  intros. assert (i * Nel + j < Nel * Nel)%nat by (apply flat_lt; auto).
  assert (Nel * Nel * L + Nel * Nel <= Nel * Nel * N_L)%nat by nia. lia.
Qed.

Lemma compute_in_element_tei_ok k N_L Nel old :
  exists c, compute_in_element_tei k N_L Nel old = Ok c /\ csize c = (Nel * Nel * N_L)%nat /\
    forall L iel, (L < N_L)%nat -> (iel < Nel)%nat ->
      holds c (Nel * Nel * L + iel * Nel + iel) (k_tei k L iel).
Proof.
  unfold compute_in_element_tei.
  destruct (for_L_iel_inv N_L Nel (fun c L iel => cache_put c (Nel * Nel * L + iel * Nel + iel) (k_tei k L iel))
    (fun Q c => csize c = (Nel * Nel * N_L)%nat /\
       forall L iel, (L < N_L)%nat -> (iel < Nel)%nat -> Q L iel ->
          centry c (Nel * Nel * L + iel * Nel + iel)%nat = k_tei k L iel)
    (cache_resize old (Nel * Nel * N_L))) as (c & E & S1 & H).
  - intros Q Q' s HQ (A & C). split; auto. intros. apply C; auto. now apply HQ.
  - split; auto. tauto.
  - intros Q s L iel HL He Hnq (A & C). pose proof (tei_ix_lt L iel iel N_L Nel HL He He).
    rewrite cache_put_ok by lia. eexists. split; [reflexivity|]. cbn [csize centry]. split; auto.
    intros L' e' HL' He' HQ.
    destruct (Nat.eq_dec (Nel * Nel * L' + e' * Nel + e') (Nel * Nel * L + iel * Nel + iel)) as [Eq|Ne].
    + rewrite Eq, setv_eq. apply tei_ix_inj in Eq; auto. destruct Eq as (-> & -> & _). reflexivity.
    + rewrite setv_neq by auto. destruct HQ as [HQ|[-> ->]]; [|tauto]. now apply C.
  - exists c. split; auto. split; auto. intros L iel HL He. pose proof (tei_ix_lt L iel iel N_L Nel HL He He).
    unfold holds, cache_at. rewrite S1.
    destruct (Nat.ltb_spec (Nel * Nel * L + iel * Nel + iel) (Nel * Nel * N_L)); [|lia]. rewrite H; auto.
Qed.

Lemma compute_in_element_ktei_ok nprim N_L Nel tei old (T : nat -> nat -> dmat) :
  (forall L iel, (L < N_L)%nat -> (iel < Nel)%nat ->
     holds tei (Nel * Nel * L + iel * Nel + iel) (T L iel) /\
     drows (T L iel) = (nprim iel * nprim iel)%nat /\ dcols (T L iel) = (nprim iel * nprim iel)%nat) ->
  exists c, compute_in_element_ktei nprim N_L Nel tei old = Ok c /\
    forall L iel, (L < N_L)%nat -> (iel < Nel)%nat ->
      cache_at c (Nel * Nel * L + iel * Nel + iel) =
      exchange_tei (T L iel) (nprim iel) (nprim iel) (nprim iel) (nprim iel).
Proof.
  intros HT. unfold compute_in_element_ktei.
  destruct (for_L_iel_inv N_L Nel (fun c L iel =>
    bind (cache_at tei (Nel * Nel * L + iel * Nel + iel)) (fun T =>
    bind (exchange_tei T (nprim iel) (nprim iel) (nprim iel) (nprim iel)) (fun K =>
    cache_put c (Nel * Nel * L + iel * Nel + iel) K)))
    (fun Q c => csize c = (Nel * Nel * N_L)%nat /\
       forall L iel, (L < N_L)%nat -> (iel < Nel)%nat -> Q L iel ->
          Ok (centry c (Nel * Nel * L + iel * Nel + iel)%nat) =
          exchange_tei (T L iel) (nprim iel) (nprim iel) (nprim iel) (nprim iel))
    (cache_resize old (Nel * Nel * N_L))) as (c & E & S1 & H).
  - intros Q Q' s HQ (A & C). split; auto. intros. apply C; auto. now apply HQ.
  - split; auto. tauto.
  - intros Q s L iel HL He Hnq (A & C). pose proof (tei_ix_lt L iel iel N_L Nel HL He He).
    destruct (HT L iel HL He) as (H1 & H2 & H3). rewrite H1. cbn [bind].
    destruct (exchange_tei_ok (T L iel) _ _ _ _ H2 H3) as (kk & Ek & _). rewrite Ek. cbn [bind].
    rewrite cache_put_ok by lia. eexists. split; [reflexivity|]. cbn [csize centry]. split; auto.
    intros L' e' HL' He' HQ.
    destruct (Nat.eq_dec (Nel * Nel * L' + e' * Nel + e') (Nel * Nel * L + iel * Nel + iel)) as [Eq|Ne].
    + rewrite Eq, setv_eq. apply tei_ix_inj in Eq; auto. destruct Eq as (-> & -> & _). now rewrite Ek.
    + rewrite setv_neq by auto. destruct HQ as [HQ|[-> ->]]; [|tauto]. now apply C.
  - exists c. split; auto. intros L iel HL He. pose proof (tei_ix_lt L iel iel N_L Nel HL He He).
    unfold cache_at. rewrite S1.
    destruct (Nat.ltb_spec (Nel * Nel * L + iel * Nel + iel) (Nel * Nel * N_L)); [|lia]. rewrite H; auto.
Qed.

Lemma compute_erfc_ktei_ok nprim erfc N_L Nel old :
  (forall L i j, (L < N_L)%nat -> (i < Nel)%nat -> (j < Nel)%nat ->
     drows (erfc L i j) = (nprim i * nprim i)%nat /\ dcols (erfc L i j) = (nprim j * nprim j)%nat) ->
  exists c, compute_erfc_ktei nprim erfc N_L Nel old = Ok c /\ csize c = (Nel * Nel * N_L)%nat /\
    forall L i j, (L < N_L)%nat -> (i < Nel)%nat -> (j < Nel)%nat ->
      cache_at c (Nel * Nel * L + i * Nel + j) =
      exchange_tei (erfc L i j) (nprim i) (nprim i) (nprim j) (nprim j).
Proof.
  intros HT. unfold compute_erfc_ktei.
  set (good := fun c L i j => Ok (centry c (Nel * Nel * L + i * Nel + j)%nat) =
          exchange_tei (erfc L i j) (nprim i) (nprim i) (nprim j) (nprim j)).
  destruct (for_L_iel_inv N_L Nel (fun c L iel =>
    fold_res (fun c jel =>
      bind (exchange_tei (erfc L iel jel) (nprim iel) (nprim iel) (nprim jel) (nprim jel)) (fun K =>
      cache_put c (Nel * Nel * L + iel * Nel + jel) K)) (seq 0 Nel) c)
    (fun Q c => csize c = (Nel * Nel * N_L)%nat /\
       forall L iel j, (L < N_L)%nat -> (iel < Nel)%nat -> (j < Nel)%nat -> Q L iel -> good c L iel j)
    (cache_resize old (Nel * Nel * N_L))) as (c & E & S1 & H).
  - intros Q Q' s HQ (A & C). split; auto. intros. apply C; auto. now apply HQ.
  - split; auto. tauto.
  - intros Q s L iel HL He Hnq (A & C).
    destruct (fold_res_inv (fun done c => csize c = (Nel * Nel * N_L)%nat /\
       forall L' i' j, (L' < N_L)%nat -> (i' < Nel)%nat -> (j < Nel)%nat ->
         (Q L' i' \/ (L' = L /\ i' = iel /\ In j done)) -> good c L' i' j)
      (fun c jel =>
      bind (exchange_tei (erfc L iel jel) (nprim iel) (nprim iel) (nprim jel) (nprim jel)) (fun K =>
      cache_put c (Nel * Nel * L + iel * Nel + jel) K)) (seq 0 Nel) s) as (s' & E & S1 & H).
    + split; auto. intros L' i' j HL' Hi' Hj [HQ|(_ & _ & [])]. now apply C.
    + intros done jel c Hp (S1 & H). apply seq_prefix in Hp. destruct Hp as [Hj _].
      destruct (HT L iel jel HL He ltac:(lia)) as (H2 & H3).
      destruct (exchange_tei_ok (erfc L iel jel) _ _ _ _ H2 H3) as (kk & Ek & _). rewrite Ek. cbn [bind].
      pose proof (tei_ix_lt L iel jel N_L Nel HL He ltac:(lia)).
      rewrite cache_put_ok by lia. eexists. split; [reflexivity|]. cbn [csize]. split; auto.
      intros L' i' j HL' Hi' Hj' HQ. unfold good. cbn [centry].
      destruct (Nat.eq_dec (Nel * Nel * L' + i' * Nel + j) (Nel * Nel * L + iel * Nel + jel)) as [Eq|Ne].
      * rewrite Eq, setv_eq. apply tei_ix_inj in Eq; auto; try lia. destruct Eq as (-> & -> & ->). now rewrite Ek.
      * rewrite setv_neq by auto. apply H; auto. destruct HQ as [HQ|(-> & -> & HQ)]; auto.
        right. repeat split; auto. apply in_app_iff in HQ. destruct HQ as [HQ|[->|[]]]; auto. tauto.
    + exists s'. split; auto. split; auto. intros L' i' j HL' Hi' Hj HQ. apply H; auto.
      destruct HQ as [HQ|[-> ->]]; auto. right. repeat split; auto. apply in_seq. lia.
  - exists c. split; auto. split; auto. intros L i j HL Hi Hj. pose proof (tei_ix_lt L i j N_L Nel HL Hi Hj).
    unfold cache_at. rewrite S1.
    destruct (Nat.ltb_spec (Nel * Nel * L + i * Nel + j) (Nel * Nel * N_L)); [|lia]. apply H; auto.
Qed.

(** The uncached entry points contract the tensor of the kernel's integrals. *)
Lemma uncached_ok lay k L P :
  fits lay -> density (lnbf lay) P -> kernel_ok lay k L ->
  is_matrix (assemble_J_uncached lay k L P) (lnbf lay) (coulomb_of (lnbf lay) (kernel_tensor lay k L) (dent P)) /\
  is_matrix (assemble_K_uncached lay k L P) (lnbf lay) (exchange_of (lnbf lay) (kernel_tensor lay k L) (dent P)).
Proof.
  intros Hf HP (Hs & Hb).
  assert (Hd : supplies_disjoint lay (fun iel => Ok (k_small k L iel)) (fun iel => Ok (k_big k L iel))
    (fun e => dent (k_small k L e)) (fun e => dent (k_big k L e))).
  { split.
    - intros e He. destruct (Hs e He) as (A & B & C & _). split; auto. eexists; repeat split; auto.
    - intros e He. destruct (Hb e He) as (A & B & C). split; auto. eexists; repeat split; auto. }
  split.
  - apply J_dense_ok; auto. intros e He. destruct (Hs e He) as (_ & _ & _ & A & B & _). eexists; repeat split; auto.
  - apply (K_dense_ok lay _ _ _ (fun e => dent (k_small k L e)) (fun e => dent (k_big k L e)) (fun e => k_tei k L e)); auto.
    intros e He. destruct (Hs e He) as (_ & _ & _ & A & B & C). repeat split; auto.
Qed.

(* ---------- the innermost r_big ---------- *)

Lemma fold_res_ext {S X} (f g : S -> X -> res S) l : (forall s x, In x l -> f s x = g s x) ->
  forall s, fold_res f l s = fold_res g l s.
Proof.
  induction l as [|x l IH]; intros H s; simpl; auto. rewrite H by now left.
  destruct (g s x); simpl; auto. apply IH. intros. apply H. now right.
Qed.

Lemma bind_ext {A B} (r : res A) (f g : A -> res B) : (forall x, f x = g x) -> bind r f = bind r g.
Proof. intros H. destruct r; simpl; auto. Qed.

Lemma add_disjoint_ext lay acc acc' c els J : (forall e, In e els -> acc e = acc' e) ->
  add_disjoint lay acc c els J = add_disjoint lay acc' c els J.
Proof.
  intros H. unfold add_disjoint. apply fold_res_ext. intros s e He.
  destruct (lidx lay e). now rewrite H.
Qed.

Lemma innermost_unused lay rs rb rb' inel ktei chol P :
  (forall e, (0 < e)%nat -> rb e = rb' e) ->
  assemble_J lay rs rb inel P = assemble_J lay rs rb' inel P /\
  assemble_K_dense lay rs rb ktei P = assemble_K_dense lay rs rb' ktei P /\
  assemble_K_chol lay rs rb chol P = assemble_K_chol lay rs rb' chol P.
Proof.
  intros H.
  assert (HK : forall i j Q, i <> j -> K_disjoint rs rb i j Q = K_disjoint rs rb' i j Q).
  { intros i j Q Hne. unfold K_disjoint. destruct (Nat.ltb_spec j i).
    - rewrite H by lia. reflexivity.
    - rewrite H by lia. reflexivity. }
  split; [|split].
  - unfold assemble_J. apply fold_res_ext. intros J jel _. destruct (lidx lay jel) as [jf Nj].
    apply bind_ext. intros Psub. apply bind_ext. intros AP.
    replace (if Nat.ltb 0 jel then bind (rb jel) (fun A => bind (dprod A Psub) (fun AP => Ok (dtrace AP))) else Ok 0)
      with (if Nat.ltb 0 jel then bind (rb' jel) (fun A => bind (dprod A Psub) (fun AP => Ok (dtrace AP))) else Ok 0).
    2:{ destruct (Nat.ltb_spec 0 jel); auto. now rewrite H. }
    apply bind_ext. intros jb. apply bind_ext. intros J1.
    rewrite (add_disjoint_ext lay rb rb'); auto. intros e He. apply in_seq in He. apply H. lia.
  - unfold assemble_K_dense, assemble_K. apply fold_res_ext. intros K i _. destruct (lidx lay i).
    apply fold_res_ext. intros K' j _. destruct (lidx lay j). apply bind_ext. intros Q.
    destruct (Nat.eqb_spec i j); auto. now rewrite HK.
  - unfold assemble_K_chol, assemble_K. apply fold_res_ext. intros K i _. destruct (lidx lay i).
    apply fold_res_ext. intros K' j _. destruct (lidx lay j). apply bind_ext. intros Q.
    destruct (Nat.eqb_spec i j); auto. now rewrite HK.
Qed.

(* ---------- through the caches ---------- *)

Lemma cached_ok lay k N_L oldd oldt oldk :
  fits lay -> (forall L, (L < N_L)%nat -> kernel_ok lay k L) ->
  exists sm bg tei ktei,
    compute_disjoint k N_L (lnel lay) oldd = Ok (sm, bg) /\
    compute_in_element_tei k N_L (lnel lay) oldt = Ok tei /\
    compute_in_element_ktei (count_of lay) N_L (lnel lay) tei oldk = Ok ktei /\
    forall L P, (L < N_L)%nat -> density (lnbf lay) P ->
    let disjoint c iel := cache_at c (L * lnel lay + iel) in
    let in_element c iel := cache_at c (lnel lay * lnel lay * L + iel * lnel lay + iel) in
    is_matrix (assemble_J_dense lay (disjoint sm) (disjoint bg) (in_element tei) P) (lnbf lay)
      (coulomb_of (lnbf lay) (kernel_tensor lay k L) (dent P)) /\
    is_matrix (assemble_K_dense lay (disjoint sm) (disjoint bg) (in_element ktei) P) (lnbf lay)
      (exchange_of (lnbf lay) (kernel_tensor lay k L) (dent P)).
Proof.
  intros Hf Hk.
  destruct (compute_disjoint_ok k N_L (lnel lay) oldd) as (sm & bg & E1 & _ & _ & H1 & _).
  destruct (compute_in_element_tei_ok k N_L (lnel lay) oldt) as (tei & E2 & _ & H2).
  destruct (compute_in_element_ktei_ok (count_of lay) N_L (lnel lay) tei oldk (k_tei k)) as (ktei & E3 & H3).
  { intros L iel HL He. split; [now apply H2|]. destruct (Hk L HL) as [A _].
    destruct (A iel He) as (_ & _ & _ & B & C & _). auto. }
  exists sm, bg, tei, ktei. split; [exact E1|]. split; [exact E2|]. split; [exact E3|].
  intros L P HL HP disj inel. destruct (Hk L HL) as [Hs Hb].
  assert (Hd : supplies_disjoint lay (disj sm) (disj bg)
    (fun e => dent (k_small k L e)) (fun e => dent (k_big k L e))).
  { split.
    - intros e He. destruct (Hs e He) as (A & B & C & _). destruct (H1 L e HL He) as [X _].
      split; auto. exists (k_small k L e). repeat split; auto.
    - intros e He. destruct (Hb e He) as (A & B & C). destruct (H1 L e HL ltac:(lia)) as [_ X].
      split; auto. exists (k_big k L e). repeat split; auto. apply X. lia. }
  split.
  - apply J_dense_ok; auto. intros e He. destruct (Hs e He) as (_ & _ & _ & A & B & _).
    exists (k_tei k L e). split; [now apply H2|]. auto.
  - apply (K_dense_ok lay _ _ _ (fun e => dent (k_small k L e)) (fun e => dent (k_big k L e)) (fun e => k_tei k L e)); auto.
    intros e He. destruct (Hs e He) as (_ & _ & _ & A & B & C).
    split; [now apply H3|]. auto.
Qed.

Lemma cached_erfc_ok lay erfc N_L old :
  fits lay ->
  (forall L i j, (L < N_L)%nat -> (i < lnel lay)%nat -> (j < lnel lay)%nat ->
     drows (erfc L i j) = (count_of lay i * count_of lay i)%nat /\
     dcols (erfc L i j) = (count_of lay j * count_of lay j)%nat /\
     forall a b r, (a < count_of lay i)%nat -> (b < count_of lay i)%nat ->
       (r < count_of lay j * count_of lay j)%nat ->
       dent (erfc L i j) (pair_ix (count_of lay i) a b) r = dent (erfc L i j) (pair_ix (count_of lay i) b a) r) ->
  exists ktei, compute_erfc_ktei (count_of lay) erfc N_L (lnel lay) old = Ok ktei /\
    forall L P, (L < N_L)%nat -> density (lnbf lay) P ->
    is_matrix (assemble_K_pairwise lay (fun i j => cache_at ktei (lnel lay * lnel lay * L + i * lnel lay + j)) P) (lnbf lay)
      (exchange_of (lnbf lay) (tensor lay (fun i j a b c d =>
         dent (erfc L i j) (pair_ix (count_of lay i) a b) (pair_ix (count_of lay j) c d))) (dent P)).
Proof.
  intros Hf He. destruct (compute_erfc_ktei_ok (count_of lay) erfc N_L (lnel lay) old) as (kt & E & _ & H).
  { intros L i j HL Hi Hj. destruct (He L i j HL Hi Hj) as (A & B & _). auto. }
  exists kt. split; [exact E|]. intros L P HL HP.
  apply (K_pairwise_ok lay _ (erfc L)); [exact Hf| |exact HP].
  intros i j Hi Hj. destruct (He L i j HL Hi Hj) as (A & B & C). split; [now apply H|]. auto.
Qed.

(* ---------- a concrete case ---------- *)

Definition lay2 : layout := mkLayout 2 3 (fun e => (e, 2%nat)).
Definition ones (n : nat) : dmat := mkD n n (fun _ _ => 1).
Definition kernel2 : kernel := mkKernel (fun _ _ => ones 2) (fun _ _ => ones 2) (fun _ _ => ones 4).

Lemma lay2_fits : fits lay2.
Proof. intros e He. cbn in *. lia. Qed.

Lemma kernel2_ok L : kernel_ok lay2 kernel2 L.
Proof. split; intros e He; repeat split; auto; intros ? ?; reflexivity. Qed.

Lemma lay2_J : coulomb_of 3 (kernel_tensor lay2 kernel2 0) (fun _ _ => 1) 1 1 = 16 /\
  coulomb_of 3 (kernel_tensor lay2 kernel2 0) (fun _ _ => 1) 0 2 = 0 /\
  exchange_of 3 (kernel_tensor lay2 kernel2 0) (fun _ _ => 1) 1 1 = 16 /\
  exchange_of 3 (kernel_tensor lay2 kernel2 0) (fun _ _ => 1) 0 2 = 4.
Proof.
  unfold coulomb_of, exchange_of, kernel_tensor, tensor, element_pair, inside, local, first_of, count_of.
  cbn. repeat split; ring.
Qed.

Lemma ones_factor r s : dent (ones 4) r s = factor_tensor (mkD 4 1 (fun _ _ => 1)) r s.
Proof. unfold factor_tensor. simpl. ring. Qed.
