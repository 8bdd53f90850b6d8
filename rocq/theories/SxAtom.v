(** On spherical densities the matrices of a spherically averaged atom are the
    averages of those of the atomic basis. *)
Require Import Reals ZArith List Bool Arith Lia Lra Permutation.
Require Import Verif.Prelude Verif.AngModel Verif.AngProofs Verif.CholSpec Verif.JKModel Verif.JKSpec Verif.JKProofs Verif.GauntModel Verif.GauntSpec
  Verif.GauntProofs Verif.TwoDModel Verif.TwoDSpec Verif.TwoDProofs Verif.SxModel Verif.SxSpec Verif.SxProofs Verif.SxMore.
Import ListNotations.
Local Open Scope R_scope.

Lemma lsum_flat_map {A B} (f : A -> list B) (l : list A) (h : B -> R) :
  lsum (flat_map f l) h = lsum l (fun a => lsum (f a) h).
Proof. induction l as [|x l IH]; [reflexivity|]. cbn [flat_map lsum]. now rewrite lsum_app, IH. Qed.

Section Shells.
Variables (lmax : nat) (sh : list (Z * Z)).
Hypothesis Hall : all_shells lmax sh.

Lemma all_shells_sum (f : Z * Z -> R) : sum (length sh) (fun i => f (nth i sh (0, 0)%Z)) =
  lsum (zrange 0 (Z.of_nat lmax)) (fun l => lsum (zrange (- l) l) (fun m => f (l, m))).
Proof.
  rewrite <- lsum_nth. rewrite (lsum_perm _ _ f Hall), lsum_flat_map. apply lsum_ext. intros l _. now rewrite lsum_map.
Qed.

Lemma all_shells_in l m : In (l, m) sh <-> (0 <= l <= Z.of_nat lmax /\ Z.abs m <= l)%Z.
Proof.
  split; intros H.
  - apply (Permutation_in _ Hall) in H. apply in_flat_map in H. destruct H as (l' & Hl & Hm). apply zrange_in in Hl.
    apply in_map_iff in Hm. destruct Hm as (m' & E & Hm). apply zrange_in in Hm. injection E as -> ->. lia.
  - apply (Permutation_in _ (Permutation_sym Hall)). apply in_flat_map. exists l. rewrite zrange_in. split; [lia|].
    apply in_map_iff. exists m. split; [reflexivity|]. apply zrange_in. lia.
Qed.

Lemma all_shells_nodup : NoDup sh.
Proof.
  eapply Permutation_NoDup; [symmetry; exact Hall|].
  assert (H : forall ls, NoDup ls -> NoDup (flat_map (fun l => map (fun m => (l, m)) (zrange (- l) l)) ls)).
  { induction ls as [|l ls IH]; intros Hn; [constructor|]. inversion Hn; subst. cbn [flat_map].
    assert (Hd : forall (A : list (Z * Z)) B, NoDup A -> NoDup B -> (forall x, In x A -> ~ In x B) -> NoDup (A ++ B)).
    { induction A as [|a A IHA]; intros B HA HB Hx; [exact HB|]. cbn [app]. inversion HA; subst. constructor.
      - rewrite in_app_iff. intros [HH|HH]; [contradiction|]. apply (Hx a); [now left|exact HH].
      - apply IHA; auto. intros x HH. apply Hx. now right. }
    apply Hd; auto.
    - apply FinFun.Injective_map_NoDup; [intros x y E; congruence|apply zrange_nodup].
    - intros [l' m'] Hi Hj. apply in_map_iff in Hi. destruct Hi as (x & E & _). injection E as -> ->.
      apply in_flat_map in Hj. destruct Hj as (l2 & Hl2 & Hj). apply in_map_iff in Hj. destruct Hj as (y & E & _).
      injection E as -> ->. contradiction. }
  apply H, zrange_nodup.
Qed.

Lemma all_shells_lmax : lmax_of sh = Z.of_nat lmax.
Proof.
  assert (HI : In (Z.of_nat lmax) (map fst sh)).
  { apply in_map_iff. exists (Z.of_nat lmax, 0%Z). split; [reflexivity|]. apply all_shells_in. lia. }
  pose proof (zmax_list_ge _ _ HI) as HG.
  assert (HM := zmax_in (map fst sh) ltac:(intros E; rewrite E in HI; destruct HI)).
  unfold lmax_of. set (z := zmax_list _) in *. clearbody z.
  apply in_map_iff in HM. destruct HM as ([l m] & E & Hk). apply all_shells_in in Hk. cbn [fst] in E. lia.
Qed.

Lemma shell_range i : (i < length sh)%nat -> (0 <= l_of sh i <= Z.of_nat lmax /\ Z.abs (m_of sh i) <= l_of sh i)%Z.
Proof. intros Hi. apply all_shells_in. unfold l_of, m_of. rewrite <- surjective_pairing. now apply nth_In. Qed.

Lemma zrange_sum n (f : Z -> R) : lsum (zrange 0 (Z.of_nat n)) f = sum (n + 1) (fun i => f (Z.of_nat i)).
Proof.
  rewrite sum_as_zrange. replace (Z.of_nat (n + 1) - 1)%Z with (Z.of_nat n) by lia.
  apply lsum_ext. intros L HL. apply zrange_in in HL. f_equal. lia.
Qed.

Variables (N : nat) (eval : generator) (fac : Z -> R) (Rad : nat -> nat -> nat -> nat -> nat -> R)
  (p : nat -> mat) (P : mat).
Hypothesis HP : spherical sh N p P.

(** One pair of (l,m) and (l',m'). *)
Definition pair_term (s s' : Z * Z) (a b : nat) : R :=
  sum (2 * lmax + 1) (fun L => fac (Z.of_nat L) *
    (if (Z.abs (snd s - snd s') <=? Z.of_nat L)%Z
     then gaunt_coefficient eval (fst s) (snd s) (Z.of_nat L) (snd s - snd s') (fst s') (snd s') ^ 2 else 0) *
    exchange_of N (Rad L) (p (Z.to_nat (fst s'))) a b).

Lemma sum_diag n (f : nat -> nat -> R) (g : nat -> R) :
  (forall i j, (i < n)%nat -> (j < n)%nat -> f i j = if Nat.eqb i j then g i else 0) ->
  sum n (fun i => sum n (fun j => f i j)) = sum n g.
Proof.
  intros H. apply sum_ext. intros i Hi. rewrite (sum_single n i); auto.
  - rewrite H, Nat.eqb_refl by auto. reflexivity.
  - intros j Hj Hne. rewrite H by auto. destruct (Nat.eqb_spec i j); [congruence|reflexivity].
Qed.

Lemma diagonal_exchange j a b : (j < length sh)%nat -> (a < N)%nat -> (b < N)%nat ->
  (forall L x y z w, (L < 2 * lmax + 1)%nat -> (x < N)%nat -> (y < N)%nat -> (z < N)%nat -> (w < N)%nat -> Rad L x y z w = Rad L y x z w) ->
  full_exchange (length sh) N (multipole_tensor eval sh (2 * lmax_of sh) fac Rad) P j a j b =
  - lsum sh (fun s' => pair_term (nth j sh (0, 0)%Z) s' a b).
Proof.
  intros Hj Ha Hb HR. unfold full_exchange. f_equal. rewrite (lsum_nth _ _ (0, 0)%Z).
  apply sum_diag. intros i l Hi Hl. destruct (Nat.eqb_spec i l) as [<-|Hne].
  2:{ apply sum_zero'. intros c Hc. apply sum_zero'. intros d Hd. rewrite HP by auto. destruct (Nat.eqb_spec i l); [congruence|]. ring. }
  unfold multipole_tensor. rewrite Z.eqb_refl, all_shells_lmax.
  destruct (shell_range i Hi) as [Li Mi]. destruct (shell_range j Hj) as [Lj Mj].
  assert (EL : forall f : Z -> R, lsum (zrange (Z.abs (m_of sh j - m_of sh i)) (2 * Z.of_nat lmax)) f =
    sum (2 * lmax + 1) (fun L => if (Z.abs (m_of sh j - m_of sh i) <=? Z.of_nat L)%Z then f (Z.of_nat L) else 0)).
  { intros f. replace (2 * Z.of_nat lmax)%Z with (Z.of_nat (2 * lmax)) by lia.
    rewrite <- (zrange_sum (2 * lmax) (fun L => if (Z.abs (m_of sh j - m_of sh i) <=? L)%Z then f L else 0)).
    rewrite <- (lsum_zrange_widen (Z.abs (m_of sh j - m_of sh i)) (Z.of_nat (2 * lmax)) 0 (Z.of_nat (2 * lmax))
      (fun L => if (Z.abs (m_of sh j - m_of sh i) <=? L)%Z then f L else 0)).
    - apply lsum_ext. intros L HL. apply zrange_in in HL. destruct (Z.leb_spec (Z.abs (m_of sh j - m_of sh i)) L); [reflexivity|lia].
    - lia.
    - lia.
    - intros L HL Hn. destruct (Z.leb_spec (Z.abs (m_of sh j - m_of sh i)) L); [lia|reflexivity]. }
  unfold pair_term. fold (l_of sh j) (m_of sh j) (l_of sh i) (m_of sh i).
  transitivity (sum N (fun c => sum N (fun d => sum (2 * lmax + 1) (fun L =>
     fac (Z.of_nat L) * (if (Z.abs (m_of sh j - m_of sh i) <=? Z.of_nat L)%Z
       then gaunt_coefficient eval (l_of sh j) (m_of sh j) (Z.of_nat L) (m_of sh j - m_of sh i) (l_of sh i) (m_of sh i) ^ 2 else 0) *
     (Rad L a c b d * p (Z.to_nat (l_of sh i)) c d))))).
  - apply sum_ext. intros c Hc. apply sum_ext. intros d Hd. rewrite HP, Nat.eqb_refl, EL by auto. rewrite <- sum_scal_r.
    apply sum_ext. intros L HL. destruct (_ <=? _)%Z; [|ring]. rewrite Nat2Z.id, (HR L c a b d) by auto. ring.
  - transitivity (sum N (fun c => sum (2 * lmax + 1) (fun L => fac (Z.of_nat L) * (if (Z.abs (m_of sh j - m_of sh i) <=? Z.of_nat L)%Z
       then gaunt_coefficient eval (l_of sh j) (m_of sh j) (Z.of_nat L) (m_of sh j - m_of sh i) (l_of sh i) (m_of sh i) ^ 2 else 0) *
       sum N (fun d => Rad L a c b d * p (Z.to_nat (l_of sh i)) c d)))).
    + apply sum_ext. intros c _. rewrite sum_swap. apply sum_ext. intros L _. apply sum_scal.
    + rewrite sum_swap. apply sum_ext. intros L _. apply sum_scal.
Qed.

Lemma average_exchange (K : mat) l a b : (l <= lmax)%nat -> (a < N)%nat -> (b < N)%nat ->
  (forall L x y z w, (L < 2 * lmax + 1)%nat -> (x < N)%nat -> (y < N)%nat -> (z < N)%nat -> (w < N)%nat -> Rad L x y z w = Rad L y x z w) ->
  (forall j a b, (j < length sh)%nat -> (a < N)%nat -> (b < N)%nat -> K (fn N j a) (fn N j b) =
     full_exchange (length sh) N (multipole_tensor eval sh (2 * lmax_of sh) fac Rad) P j a j b) ->
  m_average sh N K l a b = averaged_exchange eval lmax N fac Rad p l a b.
Proof.
  intros Hl Ha Hb HR HK. unfold m_average, averaged_exchange.
  transitivity (/ INR (2 * l + 1) * sum (length sh) (fun j =>
    (fun s => if (fst s =? Z.of_nat l)%Z then - lsum sh (fun s' => pair_term s s' a b) else 0) (nth j sh (0, 0)%Z))).
  { f_equal. apply sum_ext. intros j Hj. fold (l_of sh j). destruct (_ =? _)%Z; [|reflexivity].
    rewrite HK by auto. now apply diagonal_exchange. }
  rewrite (all_shells_sum (fun s => if (fst s =? Z.of_nat l)%Z then - lsum sh (fun s' => pair_term s s' a b) else 0)). cbn [fst].
  transitivity (/ INR (2 * l + 1) * lsum (zrange 0 (Z.of_nat lmax)) (fun l0 => if (l0 =? Z.of_nat l)%Z then
    (fun l0 => lsum (zrange (- l0) l0) (fun m => - lsum sh (fun s' => pair_term (l0, m) s' a b))) l0 else 0)).
  { f_equal. apply lsum_ext. intros l0 _. destruct (_ =? _)%Z; [reflexivity|]. now apply lsum_zero. }
  rewrite lsum_zpick. replace ((0 <=? Z.of_nat l) && (Z.of_nat l <=? Z.of_nat lmax))%Z with true
    by (symmetry; apply andb_true_intro; split; apply Z.leb_le; lia).
  set (lz := Z.of_nat l). assert (EI : INR (2 * l + 1) = IZR (2 * lz + 1)) by (unfold lz; rewrite INR_IZR_INZ; f_equal; lia).
  assert (Hi0 : IZR (2 * lz + 1) <> 0) by (apply not_0_IZR; unfold lz; lia).
  rewrite EI.
  (* the shells of lin *)
  assert (E1 : forall m, lsum sh (fun s' => pair_term (lz, m) s' a b) =
    sum (lmax + 1) (fun lin => lsum (zrange (- Z.of_nat lin) (Z.of_nat lin)) (fun m' => pair_term (lz, m) (Z.of_nat lin, m') a b))).
  { intros m. rewrite (lsum_nth _ _ (0, 0)%Z), (all_shells_sum (fun s' => pair_term (lz, m) s' a b)). now rewrite zrange_sum. }
  transitivity (- (/ IZR (2 * lz + 1) * lsum (zrange (- lz) lz) (fun m => sum (lmax + 1) (fun lin =>
     lsum (zrange (- Z.of_nat lin) (Z.of_nat lin)) (fun m' => pair_term (lz, m) (Z.of_nat lin, m') a b))))).
  { rewrite <- Ropp_mult_distr_r_reverse. f_equal. rewrite <- (Rmult_1_l (lsum _ (fun m => sum _ _))), Ropp_mult_distr_l, <- lsum_scal.
    apply lsum_ext. intros m _. rewrite E1. ring. }
  f_equal. rewrite lsum_sum_swap, <- sum_scal. apply sum_ext. intros lin _. unfold pair_term. cbn [fst snd]. rewrite Nat2Z.id.
  transitivity (/ IZR (2 * lz + 1) * sum (2 * lmax + 1) (fun L => fac (Z.of_nat L) * exchange_of N (Rad L) (p lin) a b *
     lsum (zrange (- lz) lz) (fun m => lsum (zrange (- Z.of_nat lin) (Z.of_nat lin)) (fun m' =>
       if (Z.abs (m - m') <=? Z.of_nat L)%Z then gaunt_coefficient eval lz m (Z.of_nat L) (m - m') (Z.of_nat lin) m' ^ 2 else 0)))).
  - f_equal.
    transitivity (lsum (zrange (- lz) lz) (fun m => sum (2 * lmax + 1) (fun L => fac (Z.of_nat L) * exchange_of N (Rad L) (p lin) a b *
       lsum (zrange (- Z.of_nat lin) (Z.of_nat lin)) (fun m' =>
       if (Z.abs (m - m') <=? Z.of_nat L)%Z then gaunt_coefficient eval lz m (Z.of_nat L) (m - m') (Z.of_nat lin) m' ^ 2 else 0)))).
    + apply lsum_ext. intros m _. rewrite lsum_sum_swap. apply sum_ext. intros L _. rewrite <- lsum_scal. apply lsum_ext. intros m' _. ring.
    + rewrite lsum_sum_swap. apply sum_ext. intros L _. apply lsum_scal.
  - rewrite <- sum_scal. apply sum_ext. intros L _. unfold averaged_weight. ring.
Qed.

(** The Coulomb matrix of a spherical density. *)
Lemma spherical_coulomb i j a b : generator_ok eval -> unsold eval lmax -> (i < length sh)%nat -> (j < length sh)%nat ->
  full_coulomb (length sh) N (multipole_tensor eval sh (2 * lmax_of sh) (fun L => 4 * PI / IZR (2 * L + 1)) Rad) P i a j b =
  if Nat.eqb i j then coulomb_of N (Rad 0%nat) (fun c d => sum (lmax + 1) (fun l => INR (2 * l + 1) * p l c d)) a b else 0.
Proof.
  intros Hgen [U1 U2] Hi Hj. unfold full_coulomb.
  set (M := (m_of sh j - m_of sh i)%Z).
  set (w := fun s : Z * Z => fun L => gaunt_coefficient eval (fst s) (snd s) L 0 (fst s) (snd s)).
  transitivity (sum (length sh) (fun k => sum N (fun c => sum N (fun d =>
    multipole_tensor eval sh (2 * lmax_of sh) (fun L => 4 * PI / IZR (2 * L + 1)) Rad i j k k a b c d * p (Z.to_nat (l_of sh k)) c d)))).
  { apply sum_diag. intros k l Hk Hl. destruct (Nat.eqb_spec k l) as [<-|Hne].
    - apply sum_ext. intros c Hc. apply sum_ext. intros d Hd. rewrite HP, Nat.eqb_refl by auto. reflexivity.
    - apply sum_zero'. intros c Hc. apply sum_zero'. intros d Hd. rewrite HP by auto. destruct (Nat.eqb_spec k l); [congruence|]. ring. }
  unfold multipole_tensor. fold M.
  destruct (Z.eqb_spec 0 M) as [EM|NM].
  2:{ rewrite sum_zero'.
      - destruct (Nat.eqb_spec i j) as [->|]; [|reflexivity]. exfalso. apply NM. unfold M. lia.
      - intros k _. apply sum_zero'. intros c _. apply sum_zero'. intros d _. rewrite Z.sub_diag.
        destruct (Z.eqb_spec 0 M); [contradiction|]. ring. }
  rewrite <- EM, all_shells_lmax. change (Z.abs 0) with 0%Z.
  replace (2 * Z.of_nat lmax)%Z with (Z.of_nat (2 * lmax)) by lia.
  set (gij := fun L => gaunt_coefficient eval (l_of sh j) (m_of sh j) L 0 (l_of sh i) (m_of sh i)).
  transitivity (sum (2 * lmax + 1) (fun L => 4 * PI / IZR (2 * Z.of_nat L + 1) * gij (Z.of_nat L) *
    sum N (fun c => sum N (fun d => Rad L a b c d *
      sum (length sh) (fun k => (fun s => w s (Z.of_nat L) * p (Z.to_nat (fst s)) c d) (nth k sh (0, 0)%Z)))))).
  { transitivity (sum (length sh) (fun k => sum N (fun c => sum N (fun d => sum (2 * lmax + 1) (fun L =>
      4 * PI / IZR (2 * Z.of_nat L + 1) * gij (Z.of_nat L) * (Rad L a b c d * (w (nth k sh (0, 0)%Z) (Z.of_nat L) * p (Z.to_nat (l_of sh k)) c d))))))).
    - apply sum_ext. intros k _. apply sum_ext. intros c _. apply sum_ext. intros d _. rewrite Z.sub_diag, Z.eqb_refl, zrange_sum.
      rewrite <- sum_scal_r. apply sum_ext. intros L _. rewrite Nat2Z.id. unfold gij, w.
      fold (l_of sh k) (m_of sh k). ring.
    - transitivity (sum N (fun c => sum N (fun d => sum (2 * lmax + 1) (fun L => sum (length sh) (fun k =>
        4 * PI / IZR (2 * Z.of_nat L + 1) * gij (Z.of_nat L) * (Rad L a b c d * (w (nth k sh (0, 0)%Z) (Z.of_nat L) * p (Z.to_nat (l_of sh k)) c d))))))).
      + rewrite sum_swap. apply sum_ext. intros c _. rewrite sum_swap. apply sum_ext. intros d _. apply sum_swap.
      + transitivity (sum N (fun c => sum (2 * lmax + 1) (fun L => sum N (fun d => 4 * PI / IZR (2 * Z.of_nat L + 1) * gij (Z.of_nat L) *
          (Rad L a b c d * sum (length sh) (fun k => w (nth k sh (0, 0)%Z) (Z.of_nat L) * p (Z.to_nat (l_of sh k)) c d)))))).
        * apply sum_ext. intros c _. rewrite sum_swap. apply sum_ext. intros L _. apply sum_ext. intros d _.
          rewrite <- Rmult_assoc, <- sum_scal. apply sum_ext. intros; ring.
        * rewrite sum_swap. apply sum_ext. intros L _. rewrite <- sum_scal. apply sum_ext. intros c _. rewrite <- sum_scal. reflexivity. }
  assert (ES : forall L c d, (L < 2 * lmax + 1)%nat ->
    sum (length sh) (fun k => (fun s => w s (Z.of_nat L) * p (Z.to_nat (fst s)) c d) (nth k sh (0, 0)%Z)) =
    if Nat.eqb L 0 then / sqrt (4 * PI) * sum (lmax + 1) (fun l => INR (2 * l + 1) * p l c d) else 0).
  { intros L c d HL. rewrite (all_shells_sum (fun s => w s (Z.of_nat L) * p (Z.to_nat (fst s)) c d)), zrange_sum. cbn [fst].
    destruct (Nat.eqb_spec L 0) as [->|HL0].
    - rewrite <- sum_scal. apply sum_ext. intros l Hl. rewrite Nat2Z.id.
      rewrite (lsum_ext _ _ (fun m => / sqrt (4 * PI) * p l c d)).
      + rewrite (lsum_nth _ _ 0%Z), sum_const. unfold zrange. rewrite map_length, seq_length.
        replace (Z.to_nat (Z.of_nat l - - Z.of_nat l + 1)) with (2 * l + 1)%nat by lia. ring.
      + intros m Hm. apply zrange_in in Hm. unfold w. cbn [fst snd]. change (Z.of_nat 0) with 0%Z.
        rewrite U2 by lia. reflexivity.
    - apply sum_zero'. intros l Hl. rewrite Nat2Z.id.
      rewrite (lsum_ext _ _ (fun m => p l c d * w (Z.of_nat l, m) (Z.of_nat L))) by (intros; ring).
      rewrite lsum_scal. unfold w. cbn [fst snd]. rewrite U1 by lia. ring. }
  rewrite (sum_single _ 0%nat).
  - unfold coulomb_of.
    assert (HS : sqrt (4 * PI) * sqrt (4 * PI) = 4 * PI) by (apply sqrt_sqrt; pose proof PI_RGT_0; lra).
    assert (HSp : 0 < sqrt (4 * PI)) by (apply sqrt_lt_R0; pose proof PI_RGT_0; lra).
    assert (Eg : gij 0%Z = if Nat.eqb i j then / sqrt (4 * PI) else 0).
    { unfold gij. destruct (shell_range i Hi) as [Li Mi]. destruct (Nat.eqb_spec i j) as [<-|Hne]; [apply U2; lia|].
      destruct (Z.eq_dec (l_of sh i) (l_of sh j)) as [El|Nl].
      - exfalso. apply Hne. assert (Em : m_of sh i = m_of sh j) by (unfold M in EM; lia).
        apply (proj1 (NoDup_nth sh (0, 0)%Z) all_shells_nodup); auto.
        unfold l_of, m_of in El, Em. destruct (nth i sh (0, 0)%Z), (nth j sh (0, 0)%Z). cbn [fst snd] in *. congruence.
      - destruct Hgen as (_ & _ & _ & Hz). unfold gaunt_coefficient. replace (-2 * m_of sh j)%Z with (2 * - m_of sh j)%Z by lia.
        rewrite Hz; [ring|]. left. unfold triangle. destruct (shell_range j Hj). lia. }
    change (Z.of_nat 0) with 0%Z. rewrite Eg. destruct (Nat.eqb i j); [|ring].
    rewrite <- sum_scal. apply sum_ext. intros c Hc. rewrite <- sum_scal. apply sum_ext. intros d Hd.
    assert (E0 := ES 0%nat c d ltac:(lia)). cbn [Nat.eqb] in E0. change (Z.of_nat 0) with 0%Z in E0. rewrite E0. change (2 * 0 + 1)%Z with 1%Z.
    set (X := sum (lmax + 1) _). set (r := sqrt (4 * PI)) in *. rewrite <- HS. field. lra.
  - lia.
  - intros L HL Hne. rewrite (sum_zero' N); [ring|]. intros c Hc. apply sum_zero'. intros d Hd. rewrite ES by auto.
    destruct (Nat.eqb_spec L 0); [contradiction|]. ring.
Qed.
End Shells.

Lemma atomic_basis_ok b b' lmax calls : sad_basis_ok b lmax calls -> same_radial b b' -> all_shells lmax (b_sh b') ->
  basis_ok b' calls /\ N_L_of (b_sh b') = N_L_of (b_sh b).
Proof.
  intros [Esh (_ & Hgen & Hf & Hnel & Htol & Hbare & Hyuk & Herfc)] (E1 & E2 & E3 & E4 & E5 & E6) Hall.
  assert (EN : N_L_of (b_sh b') = N_L_of (b_sh b)).
  { unfold N_L_of. now rewrite (all_shells_lmax lmax _ Hall), Esh, sad_lmax. }
  split; [|exact EN]. unfold basis_ok, good_kernel. rewrite E1, E2, E3, E4, E5, E6, EN.
  split; [|auto 10]. split.
  - intros E. assert (H := proj2 (all_shells_in lmax _ Hall 0%Z 0%Z)). rewrite E in H. destruct H. lia.
  - intros l m H. apply (all_shells_in lmax _ Hall) in H. lia.
Qed.

Lemma spherical_unscreened sh lmax N thr p P : all_shells lmax sh -> spherical sh N p P -> not_screened lmax N thr p ->
  forall i l, (i < length sh)%nat -> (l < length sh)%nat -> block_norm N P i l < thr ->
     forall c d, (c < N)%nat -> (d < N)%nat -> P (fn N i c) (fn N l d) = 0.
Proof.
  intros Hall HP Hn i l Hi Hl Hb c d Hc Hd. rewrite HP by auto. destruct (Nat.eqb_spec i l) as [<-|]; [|reflexivity].
  destruct (shell_range lmax sh Hall i Hi) as [Li _].
  destruct (Hn (Z.to_nat (l_of sh i)) ltac:(lia)) as [H|H]; [|now apply H]. exfalso.
  assert (E : block_norm N P i i = sqrt (mdot N (p (Z.to_nat (l_of sh i))) (p (Z.to_nat (l_of sh i))))).
  { unfold block_norm, mdot. f_equal. apply sum_ext. intros x Hx. apply sum_ext. intros y Hy.
    rewrite HP, Nat.eqb_refl by auto. reflexivity. }
  lra.
Qed.

Lemma cube_averages b' lmax fac Rad P Pf r rf : let sh := b_sh b' in let N := lnbf (b_lay b') in
  all_shells lmax sh -> spherical sh N (pick P) (dent Pf) -> not_screened lmax N (b_thr b') (pick P) ->
  (forall L x y z w, (L < 2 * lmax + 1)%nat -> (x < N)%nat -> (y < N)%nat -> (z < N)%nat -> (w < N)%nat -> Rad L x y z w = Rad L y x z w) ->
  is_cube r (lmax + 1) N (averaged_exchange (b_eval b') lmax N fac Rad (pick P)) ->
  is_shell_matrix rf (length sh) N (full_exchange (length sh) N (multipole_tensor (b_eval b') sh (2 * lmax_of sh) fac Rad)
     (screened N (b_thr b') (dent Pf))) ->
  averages lmax N sh r rf.
Proof.
  intros sh N Hall HP Hn HR (K & EK & LK & VK) (Kf & EKf & _ & _ & VF). exists K, Kf. split; [exact EK|]. split; [exact EKf|].
  intros l a c Hl Ha Hc. destruct (VK l ltac:(lia)) as (_ & _ & V). rewrite V by auto. symmetry.
  apply (average_exchange lmax sh Hall N (b_eval b') fac Rad (pick P) (dent Pf)); auto.
  intros j x y Hj Hx Hy. rewrite VF by auto. apply unscreened_ok. now apply (spherical_unscreened sh lmax N (b_thr b') (pick P) (dent Pf)).
Qed.

Lemma sad_matches_ok b b' lmax lam yuk lam' yuk' calls :
  sad_basis_ok b lmax calls -> same_radial b b' -> all_shells lmax (b_sh b') ->
  exists s s', history b calls (fresh lam yuk) = Ok s /\ history b' calls (fresh lam' yuk') = Ok s' /\
  let N := lnbf (b_lay b) in let sh := b_sh b' in
  forall order P Pf, visits lmax order -> radial_densities lmax N P -> density (length sh * N) Pf ->
    spherical sh N (pick P) (dent Pf) -> not_screened lmax N (b_thr b') (pick P) ->
  (In CallTei calls -> averages lmax N sh (sad_exchange b s order P) (exchange b' s' Pf)) /\
  (last_screened calls <> None -> averages lmax N sh (sad_rs_exchange b s order P) (rs_exchange b' s' Pf)) /\
  (In CallTei calls -> unsold (b_eval b) lmax -> forall Pt, density N Pt -> total_density lmax N (pick P) (dent Pt) ->
     exists J Jf, sad_coulomb b s Pt = Ok J /\ coulomb b' s' Pf = Ok Jf /\
     forall i j a c, (i < length sh)%nat -> (j < length sh)%nat -> (a < N)%nat -> (c < N)%nat ->
       dent Jf (fn N i a) (fn N j c) = if Nat.eqb i j then dent J a c else 0).
Proof.
  intros Hb Hsame Hall. destruct (atomic_basis_ok b b' lmax calls Hb Hsame Hall) as [Hb' EN].
  destruct (sad_two_electron_ok b lmax lam yuk calls Hb) as (s & Es & SJ & SK & _).
  destruct (two_electron_ok b' lam' yuk' calls Hb') as (s' & Es' & HA).
  exists s, s'. split; [exact Es|]. split; [exact Es'|]. cbv zeta in *. intros order P Pf Ho HP HPf Hsph Hns.
  pose proof Hb as [Esh (_ & Hgen & Hf & Hnel & Htol & Hbare & Hyuk & Herfc)].
  assert (HNL : N_L_of (b_sh b) = (2 * lmax + 1)%nat) by (rewrite Esh; apply sad_N_L).
  destruct Hsame as (E1 & E2 & E3 & E4 & E5 & E6).
  rewrite <- E1 in HP, HPf, Hsph, Hns, SK, SJ. specialize (HA Pf HPf). destruct HA as (HA1 & _ & HA3).
  specialize (SK order P Ho HP). destruct SK as [SK1 SK2]. rewrite <- E1.
  split; [|split].
  - intros Hin. apply (cube_averages b' lmax (fun L => 4 * PI / IZR (2 * L + 1)) (stored_tensor (b_lay b') (b_bare b') (b_tol b')) P Pf); auto.
    + intros. rewrite E1, E2, E5. apply stored_tensor_sym; auto. lia.
    + rewrite E2, E5, E6. apply SK1, Hin.
    + apply (proj2 (HA1 Hin)).
  - intros Hl. destruct (last_screened calls) as [[|l|m]|] eqn:EL; [| | |congruence].
    + apply last_screened_in in EL as Hin. exfalso. clear - EL. revert EL. induction calls as [|c cs IH] using rev_ind; [discriminate|].
      rewrite last_screened_app. destruct c; auto; discriminate.
    + apply last_screened_in in EL as Hin.
      apply (cube_averages b' lmax (fun _ => 4 * PI * l) (stored_tensor (b_lay b') (b_yukawa b' l) (b_tol b')) P Pf); auto.
      * intros. rewrite E1, E3, E5. apply stored_tensor_sym; auto. lia.
      * rewrite E3, E5, E6. apply SK2.
    + apply last_screened_in in EL as Hin.
      apply (cube_averages b' lmax (fun L => 4 * PI * m / IZR (2 * L + 1)) (erfc_tensor (b_lay b') (b_erfc b' m)) P Pf); auto.
      * intros. rewrite E1, E4. apply erfc_tensor_sym. apply Herfc; auto. lia.
      * rewrite E4, E6. apply SK2.
  - intros Hin Hun Pt HPt Htot. destruct (SJ Pt HPt Hin) as (J & EJ & _ & _ & VJ).
    destruct (proj1 (HA1 Hin)) as (Jf & EJf & _ & _ & VF). exists J, Jf. split; [exact EJ|]. split; [exact EJf|].
    intros i j a c Hi Hj Ha Hc. rewrite VF by auto. rewrite <- E6 in Hun.
    rewrite (spherical_coulomb lmax (b_sh b') Hall _ _ _ (pick P) (dent Pf) Hsph); auto; [|now rewrite E6].
    destruct (Nat.eqb i j); [|reflexivity]. rewrite VJ by auto. rewrite E2, E5. unfold coulomb_of.
    rewrite <- sum_scal. apply sum_ext. intros x Hx. rewrite <- sum_scal. apply sum_ext. intros y Hy. rewrite Htot by auto.
    field. apply PI_neq0.
Qed.
