(** Sums over the blocks of m. *)
Require Import Reals ZArith List Bool Arith Lia Lra.
Require Import Verif.Prelude Verif.FEModel Verif.FESpec Verif.AngModel Verif.JKModel Verif.DftModel Verif.DftSpec Verif.DftProofs Verif.DftXc Verif.DftFock Verif.DftFockR Verif.DdfModel Verif.DdfSpec Verif.DdfProofs Verif.DdfDrv Verif.PmModel Verif.PmSpec.
Import ListNotations.
Local Open Scope R_scope.

(** * Blocks visited *)
Definition opt (V : pmblock -> R) (o : option pmblock) : R := match o with Some k => V k | None => 0 end.

Lemma lsum_find (bl : list pmblock) (p : pmblock -> bool) (z : Z) V : NoDup (map k_m bl) -> (forall k, In k bl -> p k = true -> k_m k = z) ->
  lsum bl (fun k => if p k then V k else 0) = opt V (find p bl).
Proof.
  induction bl as [|k bl IH]; intros Hd Hz; [reflexivity|]. cbn [map] in Hd. inversion Hd as [|? ? Hn Hd']; subst.
  cbn [lsum find]. change (lsum (k :: bl) (fun k0 => if p k0 then V k0 else 0)) with ((if p k then V k else 0) + lsum bl (fun k0 => if p k0 then V k0 else 0)).
  destruct (p k) eqn:E.
  - rewrite lsum_zero; [cbn; ring|]. intros k' Hk'. destruct (p k') eqn:E'; [|reflexivity]. exfalso. apply Hn.
    rewrite (Hz k), <- (Hz k') by (cbn; auto). apply in_map. exact Hk'.
  - rewrite IH; [ring|exact Hd'|]. intros. apply Hz; cbn; auto.
Qed.

Lemma lsum_swap {A B} (l : list A) (r : list B) F : lsum l (fun a => lsum r (fun b => F a b)) = lsum r (fun b => lsum l (fun a => F a b)).
Proof.
  induction l as [|a l IH]; [symmetry; apply lsum_zero; reflexivity|]. cbn [lsum].
  change (lsum r (F a) + lsum l (fun a => lsum r (fun b => F a b)) = lsum r (fun b => F a b + lsum l (fun a => F a b))).
  rewrite IH, lsum_plus. reflexivity.
Qed.

Definition partner (k k' : pmblock) : bool := ((k_m k' =? - k_m k)%Z && Nat.eqb (length (k_ind k')) (length (k_ind k)))%bool.
Lemma partner_spec k k' : partner k k' = true <-> k_m k' = (- k_m k)%Z /\ length (k_ind k') = length (k_ind k).
Proof. unfold partner. rewrite andb_true_iff, Z.eqb_eq, Nat.eqb_eq. tauto. Qed.
Lemma partner_sym k k' : partner k k' = partner k' k.
Proof. apply eq_true_iff_eq. rewrite !partner_spec. lia. Qed.
Definition filled (k : pmblock) : bool := negb (Nat.eqb (length (k_ind k)) 0).
Lemma filled_spec k : filled k = true <-> k_ind k <> [].
Proof. unfold filled. destruct (k_ind k); cbn; split; congruence. Qed.

Lemma visit_eq share bl k : visit share bl k = if filled k then
    match (if share then find (partner k) bl else None) with
    | Some k' => if (k_m k <? 0)%Z then [] else [(k, if (0 <? k_m k)%Z then Some k' else None)]
    | None => [(k, None)] end else [].
Proof. unfold visit, filled, mirror, partner. destruct (k_ind k); reflexivity. Qed.

Lemma visited_sum share bl V : NoDup (map k_m bl) -> (forall k, In k bl -> k_ind k = [] -> V k = 0) ->
  lsum (visited share bl) (fun a => V (fst a) + opt V (snd a)) = lsum bl V.
Proof.
  intros Hd Hz. unfold visited. rewrite lsum_flat_map. destruct share.
  2:{ apply lsum_ext. intros k Hk. rewrite visit_eq. unfold filled. destruct (k_ind k) eqn:E; cbn [length Nat.eqb negb lsum].
      - cbn. rewrite Hz; auto.
      - unfold lsum; cbn. ring. }
  set (pos k := (filled k && (0 <? k_m k)%Z)%bool). set (neg k := (filled k && (k_m k <? 0)%Z)%bool).
  transitivity (lsum bl (fun k => (V k - (if neg k then opt (fun _ => V k) (find (partner k) bl) else 0)) +
     (if pos k then opt V (find (partner k) bl) else 0))).
  { apply lsum_ext. intros k Hk. rewrite visit_eq. unfold pos, neg. destruct (filled k) eqn:E; cbn [andb].
    - destruct (find (partner k) bl) as [k'|]; destruct (Z.ltb_spec (k_m k) 0), (Z.ltb_spec 0 (k_m k)); try lia; unfold lsum; cbn; ring.
    - unfold filled in E. apply negb_false_iff, Nat.eqb_eq, length_zero_iff_nil in E. rewrite Hz by auto. unfold lsum; cbn. ring. }
  rewrite lsum_plus.
  assert (M : lsum bl (fun k => if pos k then opt V (find (partner k) bl) else 0) = lsum bl (fun k => if neg k then opt (fun _ => V k) (find (partner k) bl) else 0)).
  { transitivity (lsum bl (fun k => lsum bl (fun k' => if (pos k && partner k k')%bool then V k' else 0))).
    { apply lsum_ext. intros k Hk. rewrite <- (lsum_find bl (partner k) (- k_m k)%Z V Hd) by (intros k' _ E; apply partner_spec in E; tauto).
      destruct (pos k); [reflexivity|]. symmetry. apply lsum_zero. reflexivity. }
    rewrite lsum_swap. apply lsum_ext. intros k' Hk'.
    rewrite <- (lsum_find bl (partner k') (- k_m k')%Z (fun _ => V k') Hd) by (intros k _ E; apply partner_spec in E; tauto).
    destruct (neg k') eqn:En.
    - apply lsum_ext. intros k Hk. rewrite (partner_sym k k'). destruct (partner k' k) eqn:Ep; [|rewrite andb_false_r; reflexivity].
      apply partner_spec in Ep. destruct Ep as [E1 E2]. unfold neg, pos, filled in *. rewrite E2. apply andb_true_iff in En. destruct En as [-> En].
      apply Z.ltb_lt in En. destruct (Z.ltb_spec 0 (k_m k)); [reflexivity|lia].
    - apply lsum_zero. intros k Hk. destruct (pos k) eqn:Ep; [|reflexivity]. cbn [andb]. destruct (partner k k') eqn:Epp; [|reflexivity].
      exfalso. apply partner_spec in Epp. destruct Epp as [E1 E2]. unfold neg, pos, filled in *. rewrite E2 in En.
      apply andb_true_iff in Ep. destruct Ep as [A B]. rewrite A in En. cbn [andb] in En. apply Z.ltb_lt in B. destruct (Z.ltb_spec (k_m k') 0); [discriminate|lia]. }
  rewrite M. rewrite <- lsum_plus. apply lsum_ext. intros. ring.
Qed.

Lemma visited_in share bl a : In a (visited share bl) -> In (fst a) bl /\ k_ind (fst a) <> [] /\
  forall k', snd a = Some k' -> share = true /\ In k' bl /\ k_m k' = (- k_m (fst a))%Z /\ length (k_ind k') = length (k_ind (fst a)).
Proof.
  unfold visited. rewrite in_flat_map. intros (k & Hk & H). rewrite visit_eq in H.
  destruct (filled k) eqn:Ef; [|destruct H]. apply filled_spec in Ef.
  destruct share.
  - destruct (find (partner k) bl) as [k'|] eqn:Em.
    + destruct (k_m k <? 0)%Z; [destruct H|]. destruct H as [<-|[]]. cbn [fst snd]. split; [exact Hk|]. split; [exact Ef|].
      intros k'' E. destruct (0 <? k_m k)%Z; [|discriminate]. injection E as <-. apply find_some in Em. destruct Em as [Hi Hp].
      apply partner_spec in Hp. tauto.
    + destruct H as [<-|[]]. cbn [fst snd]. split; [exact Hk|]. split; [exact Ef|]. discriminate.
  - destruct H as [<-|[]]. cbn [fst snd]. split; [exact Hk|]. split; [exact Ef|]. discriminate.
Qed.

Lemma visited_weight share bl V : NoDup (map k_m bl) -> (forall k, In k bl -> k_ind k = [] -> V k = 0) ->
  (share = true -> forall k k', In k bl -> In k' bl -> k_m k' = (- k_m k)%Z -> length (k_ind k') = length (k_ind k) -> V k' = V k) ->
  lsum (visited share bl) (fun a => pair_weight a * V (fst a)) = lsum bl V.
Proof.
  intros Hd Hz Hs. rewrite <- (visited_sum share bl V Hd Hz). apply lsum_ext. intros a Ha.
  destruct (visited_in _ _ _ Ha) as (A & _ & B). unfold pair_weight. destruct (snd a) as [k'|] eqn:E; cbn [opt]; [|ring].
  destruct (B k' eq_refl) as (B1 & B2 & B3 & B4). rewrite (Hs B1 _ _ A B2 B3 B4). ring.
Qed.

Lemma sum_nth {A} (l : list A) d F : sum (length l) (fun i => F (nth i l d)) = lsum l F.
Proof.
  rewrite <- lsum_seq0. rewrite <- (lsum_map (fun i => nth i l d)). f_equal.
  induction l as [|a l IH]; [reflexivity|]. cbn [length seq map]. f_equal. rewrite <- seq_shift, map_map. exact IH.
Qed.
Definition dact : pmblock * option pmblock := (mkB 0 [] dempty dempty dempty dempty, None).
Lemma block_sum_ok act f g : (forall i, (i < length act)%nat -> f i (nth i act dact) = Ok (g (nth i act dact))) -> block_sum act f = Ok (lsum act g).
Proof.
  intros H. unfold block_sum. rewrite <- (sum_nth act dact g). apply fold_sum_ok. intros i Hi.
  rewrite (vget_ok act i dact) by exact Hi. cbn [bind]. apply H, Hi.
Qed.
