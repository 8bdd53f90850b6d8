(** Symmetry of the Coulomb and exchange matrices of a diatomic basis. *)
Require Import Reals ZArith List Bool Arith Lia Lra Permutation.
Require Import Verif.Prelude Verif.AngModel Verif.AngSpec Verif.AngProofs Verif.CholModel Verif.CholSpec Verif.CholProofs
  Verif.JKModel Verif.JKSpec Verif.JKProofs Verif.GauntModel Verif.GauntSpec Verif.GauntProofs Verif.QuadModel Verif.QuadSpec Verif.QuadInt Verif.QuadWit
  Verif.NaoProofs Verif.TwoDModel Verif.TwoDSpec Verif.TwoDProofs Verif.TeiModel Verif.TeiSpec Verif.DiaModel Verif.DiaSpec Verif.DiaProofs Verif.DiaExch Verif.DiaMirror Verif.DiaLink.
Import ListNotations.
Local Open Scope R_scope.

(* ---------- couplings of exchanged shells ---------- *)

Lemma parity_sq M : parity_sign M * parity_sign M = 1.
Proof. unfold parity_sign. destruct (Z.odd M); ring. Qed.
Lemma parity_add M N : parity_sign (M + N) = parity_sign M * parity_sign N.
Proof. unfold parity_sign. rewrite Z.odd_add. destruct (Z.odd M), (Z.odd N); cbn [xorb]; ring. Qed.
Lemma parity_opp M : parity_sign (- M) = parity_sign M.
Proof. unfold parity_sign. now rewrite Z.odd_opp. Qed.

(** G(l1 m1; l2 m2; l3 m3) and G(l3 m3; l2 -m2; l1 m1) differ by (-1)^(m1-m3). *)
Lemma gaunt_conj eval l1 m1 l2 m2 l3 m3 : generator_ok eval ->
  gaunt_coefficient eval l3 m3 l2 (- m2) l1 m1 = parity_sign (m1 - m3) * gaunt_coefficient eval l1 m1 l2 m2 l3 m3.
Proof.
  intros (H1 & H2 & H3 & _). unfold gaunt_coefficient. replace (m1 - m3)%Z with (m1 + - m3)%Z by lia. rewrite parity_add, parity_opp.
  set (E := eval (2 * l1)%Z (-2 * m1)%Z (2 * l2)%Z (2 * m2)%Z (2 * l3)%Z (2 * m3)%Z).
  transitivity (parity_sign m1 * parity_sign m1 * (parity_sign m3 * E)); [|ring].
  rewrite parity_sq, Rmult_1_l. f_equal. unfold E.
  rewrite H3, H1, H2, H1. f_equal; lia.
Qed.

(** G(l1 m1; l2 m2; l3 m3) and G(l2 m2; l1 m1; l3 -m3) differ by (-1)^(m1-m2). *)
Lemma gaunt_conj2 eval l1 m1 l2 m2 l3 m3 : generator_ok eval ->
  gaunt_coefficient eval l2 m2 l1 m1 l3 (- m3) = parity_sign (m1 - m2) * gaunt_coefficient eval l1 m1 l2 m2 l3 m3.
Proof.
  intros (H1 & H2 & H3 & _). unfold gaunt_coefficient. replace (m1 - m2)%Z with (m1 + - m2)%Z by lia. rewrite parity_add, parity_opp.
  set (E := eval (2 * l1)%Z (-2 * m1)%Z (2 * l2)%Z (2 * m2)%Z (2 * l3)%Z (2 * m3)%Z).
  transitivity (parity_sign m1 * parity_sign m1 * (parity_sign m2 * E)); [|ring].
  rewrite parity_sq, Rmult_1_l. f_equal. unfold E.
  rewrite H3, H1. f_equal; lia.
Qed.

Lemma mod_conj eval lj mj L M li mi : generator_ok eval ->
  modified_gaunt_coefficient eval li mi L (- M) lj mj = parity_sign (mj - mi) * modified_gaunt_coefficient eval lj mj L M li mi.
Proof.
  intros H. unfold modified_gaunt_coefficient. rewrite Z.abs_opp.
  rewrite (fold_plus_ext (fun Lp => gaunt_coefficient eval Lp (- M) 2 0 L (- M) * gaunt_coefficient eval li mi lj mj Lp (- M))).
  rewrite (fold_plus_ext (fun Lp => gaunt_coefficient eval Lp M 2 0 L M * gaunt_coefficient eval lj mj li mi Lp M)).
  rewrite (gaunt_conj2 eval lj mj li mi L M H). rewrite !Rplus_0_l.
  assert (E0 : gaunt_coefficient eval L (- M) 0 0 L (- M) = gaunt_coefficient eval L M 0 0 L M) by exact (gaunt_neg eval L M 0 0 L M H).
  rewrite E0.
  rewrite (lsum_ext _ _ (fun Lp => parity_sign (mj - mi) * (gaunt_coefficient eval Lp M 2 0 L M * gaunt_coefficient eval lj mj li mi Lp M))).
  - rewrite lsum_scal. ring.
  - intros Lp _. rewrite (gaunt_conj2 eval lj mj li mi Lp M H).
    assert (E2 : gaunt_coefficient eval Lp (- M) 2 0 L (- M) = gaunt_coefficient eval Lp M 2 0 L M) by exact (gaunt_neg eval Lp M 2 0 L M H).
    rewrite E2. ring.
Qed.

Lemma Cc_conj b ch i j L : generator_ok (db_eval b) -> Cc b ch j i L = parity_sign (m_of (db_sh b) j - m_of (db_sh b) i) * Cc b ch i j L.
Proof.
  intros H. unfold Cc, channel_coupling. replace (m_of (db_sh b) i - m_of (db_sh b) j)%Z with (- (m_of (db_sh b) j - m_of (db_sh b) i))%Z by lia.
  destruct (Nat.eqb ch 0); [now apply mod_conj|now apply gaunt_conj].
Qed.

(* ---------- the radial tensor ---------- *)

Section Sym.
Variables (b : dbasis) (s : dstate) (I : integrals) (lm lM : list (Z * Z)) (Lcut : Z).
Let sh := db_sh b.
Let lay := db_lay b.
Let nsh := length sh.
Let N := lnbf lay.
Hypothesis Hb : dbasis_ok b.
Hypothesis Htb : tables (db_sh b) lm lM.
Hypothesis Hst : stores b s lm I.
Hypothesis Hpe : pair_even b lm I.

Lemma W_sym L Ma e x y : In (L, Ma) lm -> (e < lnel lay)%nat -> let n := count_of lay e in (x < 2 * (n * n))%nat -> (y < 2 * (n * n))%nat ->
  in_W I L Ma e x y = in_W I L Ma e y x.
Proof.
  intros Hin He n Hx Hy. destruct (In_nth_error _ _ Hin) as (ilm & En). destruct Hst as [_ H].
  destruct (H ilm e L Ma En He) as (_ & _ & _ & _ & HW). rewrite !HW by auto. apply sum_ext. intros p _. ring.
Qed.

Lemma PQ_sym L Ma e ch x y : In (L, Ma) lm -> (e < lnel lay)%nat -> (ch < 2)%nat -> let n := count_of lay e in (x < n)%nat -> (y < n)%nat ->
  in_P I L Ma ch e x y = in_P I L Ma ch e y x /\ in_Q I L Ma ch e x y = in_Q I L Ma ch e y x.
Proof.
  intros Hin He Hch n Hx Hy. destruct (In_nth_error _ _ Hin) as (ilm & En). destruct Hst as [_ H].
  destruct (H ilm e L Ma En He) as (HPQ & _). destruct (HPQ ch Hch) as (_ & S1 & _ & S2). split; [now apply S1|now apply S2].
Qed.

Lemma chan_lt n ch x y : (ch < 2)%nat -> (x < n)%nat -> (y < n)%nat -> (ch * (n * n) + pair_ix n x y < 2 * (n * n))%nat.
Proof. intros Hc Hx Hy. assert (pair_ix n x y < n * n)%nat by (unfold pair_ix; nia). destruct ch as [|[|]]; lia. Qed.

Lemma radial_flip1 L Ma ch ch' x y z w : In (L, Ma) lm -> (ch < 2)%nat -> (ch' < 2)%nat ->
  radial_tensor lay I L Ma ch ch' x y z w = radial_tensor lay I L Ma ch ch' y x z w.
Proof.
  intros Hin Hch Hch'. unfold radial_tensor, tensor. apply sum_ext. intros e He. apply sum_ext. intros f Hf.
  rewrite (andb_comm (inside lay e x)).
  destruct (inside lay e y) eqn:Iy; cbn [andb]; [|reflexivity]. destruct (inside lay e x) eqn:Ix; cbn [andb]; [|reflexivity].
  destruct (inside lay f z) eqn:Iz; cbn [andb]; [|reflexivity]. destruct (inside lay f w) eqn:Iw; cbn [andb]; [|reflexivity].
  apply inside_lt in Ix, Iy, Iz, Iw. unfold two_block. destruct (Nat.eqb_spec e f) as [<-|_].
  - apply Hpe; auto. now apply chan_lt.
  - destruct (PQ_sym L Ma e ch (local lay e x) (local lay e y) Hin He Hch Ix Iy) as [-> ->]. reflexivity.
Qed.

Lemma radial_swap L Ma ch ch' x y z w : In (L, Ma) lm -> (ch < 2)%nat -> (ch' < 2)%nat ->
  radial_tensor lay I L Ma ch ch' x y z w = radial_tensor lay I L Ma ch' ch z w x y.
Proof.
  intros Hin Hch Hch'. unfold radial_tensor, tensor. rewrite sum_swap. apply sum_ext. intros e He. apply sum_ext. intros f Hf.
  rewrite (andb_comm (inside lay f x && inside lay f y)).
  destruct (inside lay e z) eqn:Iz; cbn [andb]; [|reflexivity]. destruct (inside lay e w) eqn:Iw; cbn [andb]; [|reflexivity].
  destruct (inside lay f x) eqn:Ix; cbn [andb]; [|reflexivity]. destruct (inside lay f y) eqn:Iy; cbn [andb]; [|reflexivity].
  apply inside_lt in Ix, Iy, Iz, Iw. unfold two_block. destruct (Nat.eqb_spec f e) as [->|Hne].
  - rewrite Nat.eqb_refl. apply W_sym; auto; now apply chan_lt.
  - destruct (Nat.eqb_spec e f); [congruence|].
    replace (channel_sign ch' ch) with (channel_sign ch ch') by (unfold channel_sign; rewrite Nat.eqb_sym; reflexivity).
    destruct (Nat.ltb_spec f e); destruct (Nat.ltb_spec e f); try lia; ring.
Qed.

Lemma radial_flip2 L Ma ch ch' x y z w : In (L, Ma) lm -> (ch < 2)%nat -> (ch' < 2)%nat ->
  radial_tensor lay I L Ma ch ch' x y z w = radial_tensor lay I L Ma ch ch' x y w z.
Proof. intros. rewrite radial_swap, radial_flip1, radial_swap by auto. reflexivity. Qed.

(** Where a multipole is not in the table the coupling vanishes. *)
Lemma lm_or_zero i j L : (i < nsh)%nat -> (j < nsh)%nat -> (Z.abs (m_of sh j - m_of sh i) <= L)%Z ->
  In (L, Z.abs (m_of sh j - m_of sh i)) lm \/ forall ch, Cc b ch i j L = 0.
Proof.
  intros Hi Hj HL.
  destruct (Z_le_dec (fst (prange sh i j)) L) as [H1|H1].
  2:{ right. intros ch. apply Cc_zero; auto. unfold sh in H1. lia. }
  destruct (Z_le_dec L (snd (prange sh i j))) as [H2|H2].
  2:{ right. intros ch. apply Cc_zero; auto. unfold sh in H1, H2. lia. }
  left. destruct (tb_M _ _ _ Htb i j L Hi Hj (conj H1 H2)) as (n & _ & E). apply nth_error_In in E.
  destruct (tb_lm _ _ _ Htb _ _ E) as (n' & _ & E'). apply nth_error_In in E'. exact E'.
Qed.

Lemma tensor_Cc i j k l x y z w : (m_of sh k - m_of sh l = m_of sh j - m_of sh i)%Z ->
  dia_tensor b I Lcut i j k l x y z w = lsum (zrange (Z.abs (m_of sh j - m_of sh i)) Lcut) (fun L => multipole_factor (db_Rhalf b) L (m_of sh j - m_of sh i) *
    sum 2 (fun ch => sum 2 (fun ch' => Cc b ch i j L * Cc b ch' l k L * radial_tensor lay I L (Z.abs (m_of sh j - m_of sh i)) ch ch' x y z w))).
Proof.
  intros E. unfold dia_tensor. fold sh. rewrite E, Z.eqb_refl. apply lsum_ext. intros L _. f_equal. apply sum_ext. intros ch _. apply sum_ext. intros ch' _.
  unfold Cc. fold sh. rewrite E. reflexivity.
Qed.

(** (ij|kl) = (ji|lk): all functions complex conjugate. *)
Lemma tensor_conj i j k l x y z w : (i < nsh)%nat -> (j < nsh)%nat -> (k < nsh)%nat -> (l < nsh)%nat ->
  dia_tensor b I Lcut i j k l x y z w = dia_tensor b I Lcut j i l k y x w z.
Proof.
  intros Hi Hj Hk Hl. assert (Hg : generator_ok (db_eval b)) by apply Hb.
  destruct (Z.eq_dec (m_of sh k - m_of sh l) (m_of sh j - m_of sh i)) as [E|E].
  - rewrite tensor_Cc by exact E. rewrite tensor_Cc by lia.
    replace (m_of sh i - m_of sh j)%Z with (- (m_of sh j - m_of sh i))%Z by lia. rewrite Z.abs_opp.
    apply lsum_ext. intros L HL. apply zrange_in in HL. rewrite multipole_neg. f_equal. apply sum_ext. intros ch Hch. apply sum_ext. intros ch' Hch'.
    rewrite (Cc_conj b ch i j L Hg), (Cc_conj b ch' l k L Hg). fold sh. rewrite E.
    destruct (lm_or_zero i j L Hi Hj ltac:(lia)) as [Hin|Hz]; [|rewrite Hz; ring].
    rewrite (radial_flip1 _ _ _ _ y x), (radial_flip2 _ _ _ _ x y w z) by auto.
    transitivity (parity_sign (m_of sh j - m_of sh i) * parity_sign (m_of sh j - m_of sh i) * (Cc b ch i j L * Cc b ch' l k L *
       radial_tensor lay I L (Z.abs (m_of sh j - m_of sh i)) ch ch' x y z w)); [rewrite parity_sq; ring|ring].
  - unfold dia_tensor. fold sh. destruct (Z.eqb_spec (m_of sh k - m_of sh l) (m_of sh j - m_of sh i)); [lia|].
    destruct (Z.eqb_spec (m_of sh l - m_of sh k) (m_of sh i - m_of sh j)); [lia|]. reflexivity.
Qed.

(** (ij|kl) = (lk|ji): the electrons exchanged. *)
Lemma tensor_swap i j k l x y z w : (i < nsh)%nat -> (j < nsh)%nat -> (k < nsh)%nat -> (l < nsh)%nat ->
  dia_tensor b I Lcut i j k l x y z w = dia_tensor b I Lcut l k j i w z y x.
Proof.
  intros Hi Hj Hk Hl.
  destruct (Z.eq_dec (m_of sh k - m_of sh l) (m_of sh j - m_of sh i)) as [E|E].
  - rewrite tensor_Cc by exact E. rewrite tensor_Cc by lia. rewrite E.
    apply lsum_ext. intros L HL. apply zrange_in in HL. f_equal. rewrite sum_swap. apply sum_ext. intros ch Hch. apply sum_ext. intros ch' Hch'.
    destruct (lm_or_zero i j L Hi Hj ltac:(lia)) as [Hin|Hz]; [|rewrite Hz; ring].
    rewrite (radial_swap _ _ ch' ch), (radial_flip1 _ _ ch ch' z w), (radial_flip2 _ _ ch ch' w z) by auto. ring.
  - unfold dia_tensor. fold sh. destruct (Z.eqb_spec (m_of sh k - m_of sh l) (m_of sh j - m_of sh i)); [lia|].
    destruct (Z.eqb_spec (m_of sh j - m_of sh i) (m_of sh k - m_of sh l)); [lia|]. reflexivity.
Qed.

Lemma integral_conj r t u v : (r < dia_size b)%nat -> (t < dia_size b)%nat -> (u < dia_size b)%nat -> (v < dia_size b)%nat ->
  dia_integral b I Lcut r t u v = dia_integral b I Lcut t r v u.
Proof.
  intros Hr Ht Hu Hv. assert (HN : (0 < lnbf (db_lay b))%nat) by apply Hb. unfold dia_integral.
  apply tensor_conj; now apply sh_rad.
Qed.
Lemma integral_swap r t u v : (r < dia_size b)%nat -> (t < dia_size b)%nat -> (u < dia_size b)%nat -> (v < dia_size b)%nat ->
  dia_integral b I Lcut r t u v = dia_integral b I Lcut v u t r.
Proof.
  intros Hr Ht Hu Hv. assert (HN : (0 < lnbf (db_lay b))%nat) by apply Hb. unfold dia_integral.
  apply tensor_swap; now apply sh_rad.
Qed.

Lemma J_symmetric P : symmetric (dia_size b) P -> symmetric (dia_size b) (dia_J b I Lcut P).
Proof.
  intros HP r t Hr Ht. unfold dia_J. rewrite sum_swap. apply sum_ext. intros u Hu. apply sum_ext. intros v Hv.
  rewrite (HP v u Hv Hu). f_equal. now apply integral_conj.
Qed.
Lemma K_symmetric P : symmetric (dia_size b) P -> symmetric (dia_size b) (dia_K b I Lcut P).
Proof.
  intros HP r t Hr Ht. unfold dia_K. f_equal. rewrite sum_swap. apply sum_ext. intros u Hu. apply sum_ext. intros v Hv.
  rewrite (HP v u Hv Hu). f_equal. now apply integral_swap.
Qed.
Lemma screened_symmetric P : symmetric (dia_size b) P -> symmetric (dia_size b) (dia_screened b P).
Proof.
  intros HP r t Hr Ht. unfold dia_screened.
  replace (shell_norm b P (sh_ix b t) (sh_ix b r)) with (shell_norm b P (sh_ix b r) (sh_ix b t)).
  - now rewrite (HP r t Hr Ht).
  - unfold shell_norm. f_equal. rewrite sum_swap. apply sum_ext. intros u Hu. apply sum_ext. intros v Hv.
    rewrite andb_comm, (HP v u Hv Hu). reflexivity.
Qed.
Lemma J_pairing P P' : symmetric (dia_size b) P -> symmetric (dia_size b) P' ->
  pairing (dia_size b) P' (dia_J b I Lcut P) = pairing (dia_size b) P (dia_J b I Lcut P').
Proof.
  intros HP HP'. unfold pairing, dia_J. set (n := dia_size b).
  transitivity (sum n (fun r => sum n (fun t => sum n (fun u => sum n (fun v => P' r t * dia_integral b I Lcut r t u v * P u v))))).
  { apply sum_ext. intros r _. apply sum_ext. intros t _. rewrite <- sum_scal. apply sum_ext. intros u _. rewrite <- sum_scal. apply sum_ext. intros v _. ring. }
  transitivity (sum n (fun u => sum n (fun v => sum n (fun r => sum n (fun t => P' r t * dia_integral b I Lcut r t u v * P u v))))).
  { rewrite <- (sum_swap22 n n n n). reflexivity. }
  rewrite sum_swap. apply sum_ext. intros v Hv. apply sum_ext. intros u Hu. rewrite <- sum_scal, sum_swap. apply sum_ext. intros t Ht. rewrite <- sum_scal.
  apply sum_ext. intros r Hr. rewrite (integral_swap r t u v), (HP' r t), (HP u v) by auto. ring.
Qed.
End Sym.

Lemma tables_of sh lm lM : build_tables sh = Ok (lm, lM) -> tables sh lm lM.
Proof.
  intros E. destruct (tables_ok sh) as (lm' & lM' & Htb). pose proof (tb_build _ _ _ Htb) as E'. rewrite E in E'. injection E' as <- <-. exact Htb.
Qed.

Lemma is_matrix_symmetric r n f : is_matrix r n f -> symmetric n f -> returns_symmetric r n.
Proof.
  intros (M & E & R1 & C1 & V) H. exists M. split; [exact E|]. split; [now split|]. intros i j Hi Hj. rewrite !V by auto. now apply H.
Qed.

Lemma matrices_symmetric b s lm lM I P : dbasis_ok b -> build_tables (db_sh b) = Ok (lm, lM) -> stores b s lm I -> pair_even b lm I ->
  density (dia_size b) P -> symmetric (dia_size b) (dent P) ->
  returns_symmetric (di_coulomb b s P) (dia_size b) /\
  forall order, all_pairs b order ->
    db_absm b = false \/ paired_shells (db_sh b) /\ mirror_symmetric b (dent P) /\ m_diagonal b (dent P) ->
    returns_symmetric (di_exchange b s order P) (dia_size b).
Proof.
  intros Hb E Hst Hpe HP Hs. pose proof (tables_of _ _ _ E) as Htb. split.
  - eapply is_matrix_symmetric; [apply (di_coulomb_ok b s lm lM I (Lmax_of b) P Hb E Hst HP); lia|]. now apply (J_symmetric b s I lm lM).
  - intros order Ho Ha. eapply is_matrix_symmetric.
    + destruct (db_absm b) eqn:Eab.
      * destruct Ha as [Ha|(A1 & A2 & A3)]; [discriminate|].
        apply (di_exchange_absm b s lm lM I (Lmax_of b) order P Hb E Hst HP); auto; lia.
      * apply (di_exchange_ok b s lm lM I (Lmax_of b) order P Hb E Hst HP); auto; lia.
    + apply (K_symmetric b s I lm lM); auto. now apply screened_symmetric.
Qed.

(* ---------- computed kernels do not change when functions of a pair are exchanged ---------- *)

Lemma signed_rows W x y N thresh dmax0 : (forall p, (p < N)%nat -> W x p = W y p) -> (0 < N)%nat -> forall k d B,
  (forall sc, In sc B -> snd sc x = snd sc y) -> forall sc, In sc (signed_loop k N W thresh dmax0 d B) -> snd sc x = snd sc y.
Proof.
  intros HW HN. induction k as [|k IH]; intros d B HB sc Hin; cbn [signed_loop] in Hin; [now apply HB|].
  destruct (max_abs_ok N d HN) as (Hp & _). destruct (max_abs N d) as [piv dpiv]. cbn [fst] in Hp.
  destruct (Rleb dmax0 0 || Rleb dpiv (thresh * dmax0))%bool; [now apply HB|].
  revert Hin. apply IH. intros sc' Hin'. apply in_app_or in Hin'. destruct Hin' as [H|[<-|[]]]; [now apply HB|].
  cbn [snd]. unfold signed_column. rewrite HW by exact Hp. f_equal. f_equal. apply lsum_ext. intros sc'' H. cbv beta. pose proof (HB sc'' H) as E''. f_equal. exact E''.
Qed.

Lemma flip_pair n x y : (x < n)%nat -> (y < n)%nat -> flip n (pair_ix n x y) = pair_ix n y x.
Proof.
  intros Hx Hy. unfold flip, pair_ix. replace ((y * n + x) / n)%nat with y.
  - replace ((y * n + x) mod n)%nat with x; [reflexivity|]. rewrite Nat.add_comm, Nat.mod_add by lia. symmetry. now apply Nat.mod_small.
  - rewrite Nat.add_comm, Nat.div_add by lia. rewrite Nat.div_small; lia.
Qed.

Lemma kernel_rows rb iel n P Q ch x y z : (ch < 2)%nat -> let N := d_n rb iel in (x < N)%nat -> (y < N)%nat -> (z < 2 * (N * N))%nat ->
  dent (kernel_matrix rb iel n P Q) (ch * (N * N) + pair_ix N x y)%nat z = dent (kernel_matrix rb iel n P Q) (ch * (N * N) + pair_ix N y x)%nat z.
Proof.
  intros Hch N Hx Hy Hz. cbn [kernel_matrix dent]. fold N.
  set (T := c_twoe n (snd (d_rule rb n)) N P Q (d_element (fst (d_rule rb n)) N (d_bf rb iel) cosh sinh (d_lo rb iel) (d_hi rb iel))).
  assert (H1 : (pair_ix N x y < N * N)%nat) by (unfold pair_ix; nia). assert (H2 : (pair_ix N y x < N * N)%nat) by (unfold pair_ix; nia).
  assert (HT1 : forall k l c, (c < N * N)%nat -> T k l (pair_ix N x y) c = T k l (pair_ix N y x) c).
  { intros k l c Hc. unfold T. rewrite !c_twoe_direct. rewrite <- (flip_pair N x y Hx Hy). symmetry. now apply d_twoe_syms. }
  assert (HT2 : forall k l c, (c < N * N)%nat -> T k l c (pair_ix N x y) = T k l c (pair_ix N y x)).
  { intros k l c Hc. unfold T. rewrite !c_twoe_direct. rewrite <- (flip_pair N x y Hx Hy). symmetry. now apply d_twoe_syms. }
  unfold two_channel. f_equal. assert (Hc : ch = 0%nat \/ ch = 1%nat) by lia.
  destruct Hc as [-> | ->]; cbn [Nat.mul Nat.add].
  - destruct (Nat.ltb_spec (pair_ix N x y) (N * N)); [|lia]. destruct (Nat.ltb_spec (pair_ix N y x) (N * N)); [|lia].
    destruct (Nat.ltb_spec z (N * N)).
    + rewrite HT1, HT2 by auto. reflexivity.
    + rewrite HT1 by lia. reflexivity.
  - destruct (Nat.ltb_spec (N * N + 0 + pair_ix N x y) (N * N)); [lia|]. destruct (Nat.ltb_spec (N * N + 0 + pair_ix N y x) (N * N)); [lia|].
    replace (N * N + 0 + pair_ix N x y - N * N)%nat with (pair_ix N x y) by lia. replace (N * N + 0 + pair_ix N y x - N * N)%nat with (pair_ix N y x) by lia.
    destruct (Nat.ltb_spec z (N * N)).
    + rewrite HT2 by auto. reflexivity.
    + rewrite HT1, HT2 by lia. reflexivity.
Qed.

Lemma computed_even normal DP DQ b rb lm thresh I : radial_of b rb -> computed normal DP DQ rb lm thresh I -> pair_even b lm I.
Proof.
  intros [HNel Hcount] HC L Ma e ch x y z Hin He Hch n Hx Hy Hz. rewrite <- HNel in He.
  destruct (HC L Ma e Hin He) as (_ & nq & _ & EW). cbv zeta in EW. rewrite EW. clear EW.
  unfold n in *. rewrite <- (Hcount e He) in *. set (N := d_n rb e) in *.
  set (W := kernel_matrix _ _ _ _ _). change (drows W) with (2 * (N * N))%nat.
  unfold BsBT. apply lsum_ext. intros sc Hsc.
  rewrite (signed_rows (dent W) (ch * (N * N) + pair_ix N x y)%nat (ch * (N * N) + pair_ix N y x)%nat (2 * (N * N)) thresh
    (snd (max_abs (2 * (N * N)) (fun i => dent W i i)))) with (sc := sc) (k := (2 * (N * N))%nat) (d := fun i => dent W i i) (B := []); [reflexivity| |lia|intros ? []|exact Hsc].
  intros p Hp. now apply kernel_rows.
Qed.

Lemma repulsion b s lm lM I P P' : dbasis_ok b -> build_tables (db_sh b) = Ok (lm, lM) -> stores b s lm I -> pair_even b lm I ->
  density (dia_size b) P -> symmetric (dia_size b) (dent P) -> density (dia_size b) P' -> symmetric (dia_size b) (dent P') ->
  exists J J', di_coulomb b s P = Ok J /\ di_coulomb b s P' = Ok J' /\
    pairing (dia_size b) (dent P') (dent J) = pairing (dia_size b) (dent P) (dent J').
Proof.
  intros Hb E Hst Hpe HP Hs HP' Hs'.
  destruct (di_coulomb_ok b s lm lM I (Lmax_of b) P Hb E Hst HP (Z.le_refl _)) as (J & EJ & _ & _ & VJ).
  destruct (di_coulomb_ok b s lm lM I (Lmax_of b) P' Hb E Hst HP' (Z.le_refl _)) as (J' & EJ' & _ & _ & VJ').
  exists J, J'. split; [exact EJ|]. split; [exact EJ'|].
  transitivity (pairing (dia_size b) (dent P') (dia_J b I (Lmax_of b) (dent P))).
  { apply sum_ext. intros r Hr. apply sum_ext. intros t Ht. now rewrite VJ. }
  rewrite (J_pairing b s I lm lM (Lmax_of b) Hb (tables_of _ _ _ E) Hst Hpe (dent P) (dent P') Hs Hs').
  apply sum_ext. intros r Hr. apply sum_ext. intros t Ht. now rewrite VJ'.
Qed.
