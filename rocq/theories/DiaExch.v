(** Proofs about the exchange matrix of a diatomic basis. *)
Require Import Reals ZArith List Bool Arith Lia Lra Permutation.
Require Import Verif.Prelude Verif.AngModel Verif.AngSpec Verif.AngProofs Verif.CholModel Verif.CholSpec Verif.CholProofs
  Verif.JKModel Verif.JKSpec Verif.JKProofs Verif.GauntModel Verif.GauntSpec Verif.GauntProofs
  Verif.TwoDModel Verif.TwoDSpec Verif.TwoDProofs Verif.TeiModel Verif.DiaModel Verif.DiaSpec Verif.DiaProofs.
Import ListNotations.
Local Open Scope R_scope.

(* ---------- candidates ---------- *)

Section Buckets.
Variables (sh : list (Z * Z)) (N : nat) (thr : R) (mabs : Z) (P : dmat).
Hypothesis RP : drows P = (length sh * N)%nat.
Hypothesis CP : dcols P = (length sh * N)%nat.
Hypothesis Hm : forall i, (i < length sh)%nat -> (Z.abs (m_of sh i) <= mabs)%Z.

Definition bucket_in (bk : Z -> list (nat * nat)) : Prop := forall dm i l, In (i, l) (bk dm) ->
  (i < length sh)%nat /\ (l < length sh)%nat /\ (m_of sh i - m_of sh l)%Z = dm.

Definition kept (i l : nat) : bool := negb (Rltb (block_norm N (dent P) i l) thr).

Lemma buckets_ok : exists bk, buckets sh N thr mabs P = Ok bk /\ bucket_in bk /\
  forall dm (f : nat * nat -> R), lsum (bk dm) f = sum (length sh) (fun i => sum (length sh) (fun l =>
    if (kept i l && (m_of sh i - m_of sh l =? dm)%Z)%bool then f (i, l) else 0)).
Proof.
  unfold buckets.
  set (obs := fun (bk : Z -> list (nat * nat)) (x : Z * (nat * nat -> R)) => lsum (bk (fst x)) (snd x)).
  set (dl := fun i l (x : Z * (nat * nat -> R)) => if (kept i l && (m_of sh i - m_of sh l =? fst x)%Z)%bool then snd x (i, l) else 0).
  match goal with |- exists A, fold_res ?f ?l0 ?s0 = _ /\ _ =>
    destruct (fold_res_obs f bucket_in obs (fun _ => True) (fun i x => sum (length sh) (fun l => dl i l x)) l0) with (s := s0) as (bk & E & HI & HO)
  end.
  - intros bk i Hi Hbk. apply in_seq in Hi.
    match goal with |- exists s', fold_res ?f ?l0 ?s0 = _ /\ _ =>
      destruct (fold_res_obs f bucket_in obs (fun _ => True) (fun l x => dl i l x) l0) with (s := s0) as (bk' & E & HI & HO)
    end; [|exact Hbk|exists bk'; split; [exact E|]; split; [exact HI|]; intros x Hx; rewrite HO, lsum_seq0 by auto; reflexivity].
    intros b0 l Hl Hb0. apply in_seq in Hl.
    rewrite (ang_block_ok sh N P i l RP CP) by lia. cbn [bind].
    change (fnorm (mkD N N (fun c d => dent P (fn N i c) (fn N l d)))) with (block_norm N (dent P) i l).
    destruct (Rltb (block_norm N (dent P) i l) thr) eqn:Escr.
    { exists b0. split; [reflexivity|]. split; [exact Hb0|]. intros x _. unfold dl, kept. rewrite Escr. cbn [negb andb]. ring. }
    fold (m_of sh i) (m_of sh l).
    assert (Hi' : (i < length sh)%nat) by lia. assert (Hl' : (l < length sh)%nat) by lia.
    pose proof (Hm i Hi') as Mi. pose proof (Hm l Hl') as Ml.
    destruct (Z.ltb_spec (2 * mabs) (Z.abs (m_of sh i - m_of sh l))); [lia|].
    unfold bucket_push.
    replace ((0 <=? m_of sh i - m_of sh l + 2 * mabs) && (m_of sh i - m_of sh l + 2 * mabs <? 4 * mabs + 1))%bool%Z with true.
    2:{ symmetry. apply andb_true_intro. split; [apply Z.leb_le|apply Z.ltb_lt]; lia. }
    eexists. split; [reflexivity|]. split.
    + intros dm i' l'. cbv beta. destruct (Z.eqb_spec dm (m_of sh i - m_of sh l)) as [->|]; [|apply Hb0].
      intros Hin. apply in_app_or in Hin. destruct Hin as [Hin|[Hin|[]]]; [now apply Hb0|]. injection Hin as <- <-. auto.
    + intros [dm f] _. unfold obs, dl, kept. cbn [fst snd]. rewrite Escr. cbn [negb andb].
      rewrite Z.eqb_sym. destruct (Z.eqb_spec (m_of sh i - m_of sh l) dm) as [<-|]; [|ring].
      rewrite lsum_app. cbn [lsum]. ring.
  - intros dm i l [].
  - exists bk. split; [exact E|]. split; [exact HI|]. intros dm f. pose proof (HO (dm, f) Logic.I) as H. unfold obs, dl in H. cbn [fst snd] in H.
    rewrite H, lsum_seq0. cbn [lsum]. ring.
Qed.
End Buckets.

(* ---------- the angular sums ---------- *)

Definition h_inv (N : nat) (h : helpers) : Prop := forall a i, (a < 4)%nat -> snd h i = true ->
  drows (fst h a i) = N /\ dcols (fst h a i) = N.
Definition h_val (h : helpers) (a i : nat) : mat := if snd h i then dent (fst h a i) else mzero.

Lemma helper_add_ok n N h ilm cf X : h_inv N h -> (ilm < n)%nat -> drows X = N -> dcols X = N ->
  exists h', helper_add n N h ilm cf X = Ok h' /\ h_inv N h' /\
    forall a i c d, (a < 4)%nat -> h_val h' a i c d = h_val h a i c d + (if Nat.eqb ilm i then cf a * dent X c d else 0).
Proof.
  intros Hh Hi RX CX. unfold helper_add. destruct (Nat.ltb_spec ilm n); [|lia].
  assert (G : forall a, (a < 4)%nat -> dadd (if snd h ilm then fst h a ilm else dzero N N) (dscale (cf a) X) =
     Ok (mkD N N (fun c d => h_val h a ilm c d + cf a * dent X c d))).
  { intros a Ha. unfold dadd, h_val. destruct (snd h ilm) eqn:E.
    - destruct (Hh a ilm Ha E) as [R1 C1]. cbn [dscale drows dcols]. rewrite R1, C1, RX, CX, !Nat.eqb_refl. reflexivity.
    - cbn [dscale dzero drows dcols]. rewrite RX, CX, !Nat.eqb_refl. reflexivity. }
  rewrite !G by lia. cbn [bind].
  match goal with |- exists h', Ok ?h1 = _ /\ _ => set (h' := h1) end.
  assert (V : forall a i, (a < 4)%nat -> fst h' a i = if Nat.eqb i ilm then mkD N N (fun c d => h_val h a ilm c d + cf a * dent X c d) else fst h a i).
  { intros a i Ha. subst h'. unfold mem_put. cbn [fst snd]. destruct (Nat.eqb i ilm); rewrite ?andb_true_r, ?andb_false_r; [|reflexivity].
    destruct a as [|[|[|[|a]]]]; cbn [Nat.eqb]; try reflexivity. lia. }
  exists h'. split; [reflexivity|]. split.
  - intros a i Ha Hc. rewrite V by exact Ha. subst h'. cbn [snd] in Hc. destruct (Nat.eqb i ilm); [split; reflexivity|now apply Hh].
  - intros a i c d Ha. unfold h_val at 1. rewrite V by exact Ha. subst h'. cbn [snd]. rewrite (Nat.eqb_sym ilm i).
    destruct (Nat.eqb_spec i ilm) as [->|]; [reflexivity|]. unfold h_val. destruct (snd h i); [ring|unfold mzero; ring].
Qed.

Definition ca (a : nat) : nat := (a / 2)%nat.
Definition cb (a : nat) : nat := (a mod 2)%nat.
Definition sgn (a : nat) : R := channel_sign (ca a) (cb a).

Section Angular.
Variables (b : dbasis) (g : gtable) (lm lM : list (Z * Z)) (P : dmat).
Hypothesis Hb : dbasis_ok b.
Hypothesis Hco : dcouples b g.
Hypothesis Htb : tables (db_sh b) lm lM.
Let sh := db_sh b.
Let nsh := length sh.
Let N := lnbf (db_lay b).
Hypothesis RP : drows P = (nsh * N)%nat.
Hypothesis CP : dcols P = (nsh * N)%nat.

Lemma lm_nodup : NoDup lm.
Proof.
  destruct (build_tables_ok (db_sh b)) as (lm' & lM' & EB & A1 & _).
  rewrite (tb_build _ _ _ Htb) in EB. injection EB as <- <-.
  clear - A1. induction A1 as [|p l _ IH Hp]; constructor; auto. intros Hin. rewrite Forall_forall in Hp. specialize (Hp p Hin).
  revert Hp. unfold lm_less. rewrite Z.eqb_refl, !Z.ltb_irrefl. cbn [negb]. intros Hq. discriminate Hq.
Qed.

(** The contribution of candidate (i,l) to helper a of multipole (L,Ma). *)
Definition h_term (j k i l a : nat) (L Ma : Z) (c d : nat) : R :=
  if ((Z.abs (m_of sh j - m_of sh i) =? Ma) && (Z.abs (m_of sh j - m_of sh i) <=? L))%bool%Z then
    multipole_factor (db_Rhalf b) L (m_of sh j - m_of sh i) * (sgn a * (Cc b (ca a) i j L * Cc b (cb a) l k L)) *
    dent P (fn N i c) (fn N l d)
  else 0.

Lemma di_angular_ok j k cand : (j < nsh)%nat -> (k < nsh)%nat ->
  (forall i l, In (i, l) cand -> (i < nsh)%nat /\ (l < nsh)%nat /\ (m_of sh i - m_of sh l = m_of sh j - m_of sh k)%Z) ->
  exists h, di_angular sh lm (build_LMfac_abs (db_Rhalf b) lm) N g P j k cand = Ok h /\ h_inv N h /\
    forall a n L Ma c d, (a < 4)%nat -> nth_error lm n = Some (L, Ma) ->
      h_val h a n c d = lsum cand (fun il => h_term j k (fst il) (snd il) a L Ma c d).
Proof.
  intros Hj Hk Hc. unfold di_angular. unfold sh at 1 2. rewrite (nth_shell b j), (nth_shell b k). fold sh.
  set (okI := fun x : nat * nat * Z * Z * nat * nat => let '(a, n, L, Ma, c, d) := x in (a < 4)%nat /\ nth_error lm n = Some (L, Ma)).
  set (obs := fun (h : helpers) (x : nat * nat * Z * Z * nat * nat) => let '(a, n, L, Ma, c, d) := x in h_val h a n c d).
  match goal with |- exists A, fold_res ?f ?l0 ?s0 = _ /\ _ =>
    destruct (fold_res_obs f (h_inv N) obs okI (fun il x => let '(a, n, L, Ma, c, d) := x in h_term j k (fst il) (snd il) a L Ma c d) l0)
      with (s := s0) as (h & E & HI & HO)
  end.
  - intros h0 [i l] Hil Hh0. destruct (Hc i l Hil) as (Hi & Hl & Hdm). unfold sh at 1 2. rewrite (nth_shell b i), (nth_shell b l). fold sh.
    match goal with |- exists s', fold_res ?f ?l0 ?s0 = _ /\ _ =>
      destruct (fold_res_obs f (h_inv N) obs okI (fun L' x => let '(a, n, L, Ma, c, d) := x in
         if (L' =? L)%Z then (if (Z.abs (m_of sh j - m_of sh i) =? Ma)%Z then
           multipole_factor (db_Rhalf b) L' (m_of sh j - m_of sh i) * (sgn a * (Cc b (ca a) i j L' * Cc b (cb a) l k L')) *
           dent P (fn N i c) (fn N l d) else 0) else 0) l0)
         with (s := s0) as (h' & E & HI & HO)
    end; [|exact Hh0|].
    + intros h1 L' HL' Hh1. apply zrange_in in HL'.
      assert (EM : (m_of sh j - m_of sh i = m_of sh k - m_of sh l)%Z) by lia.
      assert (R1 : (fst (prange sh i j) <= L' <= snd (prange sh i j))%Z) by (unfold prange; cbn [fst snd]; clear - HL'; lia).
      assert (R2 : (fst (prange sh l k) <= L' <= snd (prange sh l k))%Z) by (unfold prange; cbn [fst snd]; clear - HL' EM; lia).
      destruct (Hco i j L' Hi Hj R1) as [A1 A2]. destruct (Hco l k L' Hl Hk R2) as [B1 B2]. fold sh in A1, A2, B1, B2. rewrite <- EM in B1, B2.
      rewrite A1. cbn [bind]. rewrite B1. cbn [bind]. rewrite A2. cbn [bind]. rewrite B2. cbn [bind].
      destruct (tb_M _ _ _ Htb i j L' Hi Hj R1) as (n0 & _ & En0). fold sh in En0.
      assert (HIn : In (L', (m_of sh j - m_of sh i)%Z) lM) by (eapply nth_error_In; eauto).
      destruct (tb_lm _ _ _ Htb _ _ HIn) as (ilm & E1 & E2).
      assert (Hilm : (ilm < length lm)%nat) by (apply nth_error_Some; congruence).
      pose proof (tb_le _ _ _ Htb _ _ HIn) as Hle.
      assert (Hpos : forall n L Ma, nth_error lm n = Some (L, Ma) ->
        Nat.eqb ilm n = ((L' =? L) && (Z.abs (m_of sh j - m_of sh i) =? Ma))%bool%Z).
      { intros n L Ma Hn. destruct (Nat.eqb_spec ilm n) as [<-|Hne].
        - rewrite E2 in Hn. injection Hn as <- <-. now rewrite !Z.eqb_refl.
        - destruct (Z.eqb_spec L' L) as [<-|]; cbn [andb]; auto.
          destruct (Z.eqb_spec (Z.abs (m_of sh j - m_of sh i)) Ma) as [<-|]; auto.
          exfalso. apply Hne. eapply (proj1 (NoDup_nth_error lm) lm_nodup); [exact Hilm|congruence]. }
      set (F := multipole_factor (db_Rhalf b) L' (m_of sh j - m_of sh i)).
      assert (Hfour : forall a, (a < 4)%nat ->
        four (F * (Cc b 0 i j L' * Cc b 0 l k L')) (F * (- Cc b 0 i j L' * Cc b 1 l k L'))
             (F * (- Cc b 1 i j L' * Cc b 0 l k L')) (F * (Cc b 1 i j L' * Cc b 1 l k L')) a =
        F * (sgn a * (Cc b (ca a) i j L' * Cc b (cb a) l k L'))).
      { intros a Ha. unfold sgn, ca, cb, channel_sign. destruct a as [|[|[|[|a]]]]; [| | | |lia]; cbn; ring. }
      destruct (Reqb (Cc b 0 i j L' * Cc b 0 l k L') 0 && Reqb (- Cc b 0 i j L' * Cc b 1 l k L') 0 &&
         Reqb (- Cc b 1 i j L' * Cc b 0 l k L') 0 && Reqb (Cc b 1 i j L' * Cc b 1 l k L') 0)%bool eqn:Ez.
      * apply andb_prop in Ez. destruct Ez as [Ez Z4]. apply andb_prop in Ez. destruct Ez as [Ez Z3]. apply andb_prop in Ez. destruct Ez as [Z1 Z2].
        destruct (Reqb_spec (Cc b 0 i j L' * Cc b 0 l k L') 0) as [Y1|]; [|discriminate].
        destruct (Reqb_spec (- Cc b 0 i j L' * Cc b 1 l k L') 0) as [Y2|]; [|discriminate].
        destruct (Reqb_spec (- Cc b 1 i j L' * Cc b 0 l k L') 0) as [Y3|]; [|discriminate].
        destruct (Reqb_spec (Cc b 1 i j L' * Cc b 1 l k L') 0) as [Y4|]; [|discriminate].
        exists h1. split; [reflexivity|]. split; [exact Hh1|]. intros [[[[[a n] L] Ma] c] d] [Ha Hn]. unfold obs.
        destruct (L' =? L)%Z; [|ring]. destruct (_ =? Ma)%Z; [|ring]. fold F. rewrite <- Hfour by exact Ha.
        rewrite Y1, Y2, Y3, Y4. destruct a as [|[|[|a]]]; cbn [four]; ring.
      * rewrite E1. cbn [bind]. rewrite (signed_factor_ok _ lm _ ilm L' E2 Hle). cbn [bind]. fold F.
        rewrite (ang_block_ok sh N P i l RP CP) by auto. cbn [bind].
        match goal with |- exists s', helper_add _ _ _ _ ?cf ?X = _ /\ _ =>
          destruct (helper_add_ok (length lm) N h1 ilm cf X Hh1 Hilm eq_refl eq_refl) as (h2 & EH & IH & VH) end.
        exists h2. split; [exact EH|]. split; [exact IH|]. intros [[[[[a n] L] Ma] c] d] [Ha Hn]. unfold obs.
        rewrite VH by exact Ha. f_equal. rewrite (Hpos n L Ma Hn), Hfour by exact Ha. cbn [dent].
        destruct (L' =? L)%Z; cbn [andb]; auto.
    + exists h'. split; [exact E|]. split; [exact HI|]. intros [[[[[a n] L] Ma] c] d] Hx. rewrite HO by exact Hx. f_equal.
      rewrite lsum_zpick. unfold h_term. cbn [fst snd].
      destruct (Z.eqb_spec (Z.abs (m_of sh j - m_of sh i)) Ma) as [EMa|]; cbn [andb]; [|destruct (_ && _)%bool; reflexivity].
      destruct (_ && _)%bool eqn:Er.
      * apply andb_true_iff in Er. rewrite !Z.leb_le in Er.
        destruct (Z.leb_spec (Z.abs (m_of sh j - m_of sh i)) L); [reflexivity|clear - Er H; lia].
      * destruct (Z.leb_spec (Z.abs (m_of sh j - m_of sh i)) L) as [HM|]; [|reflexivity].
        apply andb_false_iff in Er. rewrite !Z.leb_gt in Er.
        destruct (Z.leb_spec (Z.max (Z.abs (l_of sh j - l_of sh i) - 2) (Z.abs (m_of sh j - m_of sh i))) L) as [Q1|Q1];
        [destruct (Z.leb_spec L (l_of sh j + l_of sh i + 2)) as [Q2|Q2]|].
        -- rewrite (Cc_zero b (cb a) l k L Hb Hl Hk); [ring|fold sh; clear - HM Hdm; lia|].
           unfold prange. cbn [fst snd]. fold sh. clear - Er HM Hdm Q1 Q2. lia.
        -- rewrite (Cc_zero b (ca a) i j L Hb Hi Hj); [ring|exact HM|]. unfold prange. cbn [fst snd]. fold sh. clear - Q2. lia.
        -- rewrite (Cc_zero b (ca a) i j L Hb Hi Hj); [ring|exact HM|]. unfold prange. cbn [fst snd]. fold sh. clear - Q1. lia.
  - intros a i _ Hf. discriminate.
  - exists h. split; [exact E|]. split; [exact HI|]. intros a n L Ma c d Ha Hn.
    pose proof (HO (a, n, L, Ma, c, d) (conj Ha Hn)) as H. unfold obs in H. rewrite H. unfold h_val. cbn [snd]. unfold mzero. ring.
Qed.
End Angular.

(* ---------- one factor ---------- *)

Lemma dprod3_ok A B C n : drows A = n -> dcols A = n -> drows B = n -> dcols B = n -> drows C = n -> dcols C = n ->
  exists M, dprod3 A B C = Ok M /\ drows M = n /\ dcols M = n /\
    forall x y, dent M x y = sum n (fun c => sum n (fun d => dent A x c * dent B c d * dent C d y)).
Proof.
  intros R1 C1 R2 C2 R3 C3. unfold dprod3. rewrite dprod_ok by lia. cbn [bind]. rewrite dprod_ok by (cbn [dcols]; lia).
  eexists. split; [reflexivity|]. cbn [drows dcols dent]. split; [exact R1|]. split; [exact C3|].
  intros x y. unfold mmul. rewrite C1, C2, sum_swap. apply sum_ext. intros d _. now rewrite <- sum_scal_r.
Qed.

Lemma dsub_ok A B n m : drows A = n -> dcols A = m -> drows B = n -> dcols B = m ->
  exists M, dsub A B = Ok M /\ drows M = n /\ dcols M = m /\ forall x y, dent M x y = dent A x y - dent B x y.
Proof.
  intros R1 C1 R2 C2. unfold dsub, dadd. cbn [dscale drows dcols dent]. rewrite R1, C1, R2, C2, !Nat.eqb_refl. cbn [andb].
  eexists. split; [reflexivity|]. cbn [drows dcols dent]. split; [reflexivity|]. split; [reflexivity|]. intros. unfold madd, mscal. ring.
Qed.
Lemma dadd_ok A B n m : drows A = n -> dcols A = m -> drows B = n -> dcols B = m ->
  exists M, dadd A B = Ok M /\ drows M = n /\ dcols M = m /\ forall x y, dent M x y = dent A x y + dent B x y.
Proof.
  intros R1 C1 R2 C2. unfold dadd. rewrite R1, C1, R2, C2, !Nat.eqb_refl. cbn [andb].
  eexists. split; [reflexivity|]. cbn [drows dcols dent]. split; [reflexivity|]. split; [reflexivity|]. reflexivity.
Qed.

Lemma sum4_head f : sum 4 f = f 0%nat + f 1%nat + f 2%nat + f 3%nat.
Proof. cbn [sum]. ring. Qed.

(** What one block of the exchange contracts: sum over the four channel pairs of
    blk(c x; y d) R(c,d), with the signs of the helpers undone. *)
Definition four_sum (n m : nat) (blk : nat -> nat -> nat -> nat -> nat -> R) (Rb : nat -> mat) (x y : nat) : R :=
  sum 4 (fun a => sgn a * sum n (fun c => sum m (fun d => blk a c x y d * Rb a c d))).

Lemma di_factor_K_ok B sg n (W : mat) Rb K :
  drows B = (2 * (n * n))%nat -> drows sg = dcols B -> dcols sg = 1%nat ->
  (forall x y, (x < 2 * (n * n))%nat -> (y < 2 * (n * n))%nat -> W x y = sum (dcols B) (fun p => dent sg p 0%nat * (dent B x p * dent B y p))) ->
  (forall a, (a < 4)%nat -> drows (Rb a) = n /\ dcols (Rb a) = n) -> drows K = n -> dcols K = n ->
  exists K', di_factor_K B sg n Rb K = Ok K' /\ drows K' = n /\ dcols K' = n /\
    forall x y, (x < n)%nat -> (y < n)%nat -> dent K' x y = dent K x y +
      four_sum n n (fun a c x y d => W (ca a * (n * n) + pair_ix n c x)%nat (cb a * (n * n) + pair_ix n y d)%nat) (fun a => dent (Rb a)) x y.
Proof.
  intros RB RS CS HW HR RK CK. unfold di_factor_K.
  set (gp := fun p x y => dent sg p 0%nat * sum 4 (fun a => sgn a * sum n (fun c => sum n (fun d =>
     dent B (ca a * (n * n) + pair_ix n c x)%nat p * dent (Rb a) c d * dent B (cb a * (n * n) + pair_ix n y d)%nat p)))).
  match goal with |- exists Z0, fold_res ?f ?l0 _ = _ /\ _ =>
    destruct (fold_adds n n f gp l0) with (M := K) as (K' & EK & RK' & CK' & VK); auto end.
  - intros p Hp X RX CX. apply in_seq in Hp. unfold column_map. rewrite RB.
    destruct (Nat.ltb_spec p (dcols B)); [|lia].
    destruct (Nat.leb_spec (0 + n * n) (2 * (n * n))); [|lia]. destruct (Nat.leb_spec (n * n + n * n) (2 * (n * n))); [|lia]. cbn [andb bind].
    set (M0 := dT (mkD n n (fun a b => dent B (0 + (b * n + a))%nat p))). set (M2 := dT (mkD n n (fun a b => dent B (n * n + (b * n + a))%nat p))).
    destruct (HR 0%nat ltac:(lia)) as [Q0 Q0']. destruct (HR 1%nat ltac:(lia)) as [Q1 Q1'].
    destruct (HR 2%nat ltac:(lia)) as [Q2 Q2']. destruct (HR 3%nat ltac:(lia)) as [Q3 Q3'].
    destruct (dprod3_ok M0 (Rb 0%nat) M0 n eq_refl eq_refl Q0 Q0' eq_refl eq_refl) as (X0 & E0 & A0 & B0 & V0). rewrite E0. cbn [bind].
    destruct (dprod3_ok M0 (Rb 1%nat) M2 n eq_refl eq_refl Q1 Q1' eq_refl eq_refl) as (X1 & E1 & A1 & B1 & V1). rewrite E1. cbn [bind].
    destruct (dprod3_ok M2 (Rb 2%nat) M0 n eq_refl eq_refl Q2 Q2' eq_refl eq_refl) as (X2 & E2 & A2 & B2 & V2). rewrite E2. cbn [bind].
    destruct (dprod3_ok M2 (Rb 3%nat) M2 n eq_refl eq_refl Q3 Q3' eq_refl eq_refl) as (X3 & E3 & A3 & B3 & V3). rewrite E3. cbn [bind].
    destruct (dsub_ok X0 X1 n n A0 B0 A1 B1) as (Y1 & F1 & G1 & HH1 & U1). rewrite F1. cbn [bind].
    destruct (dsub_ok Y1 X2 n n G1 HH1 A2 B2) as (Y2 & F2 & G2 & HH2 & U2). rewrite F2. cbn [bind].
    destruct (dadd_ok Y2 X3 n n G2 HH2 A3 B3) as (Y3 & F3 & G3 & HH3 & U3). rewrite F3. cbn [bind].
    rewrite RS, CS. destruct (Nat.ltb_spec p (dcols B)); [|lia]. cbn [Nat.ltb Nat.leb andb].
    destruct (dadd_ok X (dscale (dent sg p 0%nat) Y3) n n RX CX G3 HH3) as (Z3 & F4 & G4 & HH4 & U4).
    exists Z3. split; [exact F4|]. split; [exact G4|]. split; [exact HH4|]. intros x y _ _. rewrite U4. f_equal. cbn [dscale dent]. unfold mscal, gp.
    f_equal. rewrite U3, U2, U1, V0, V1, V2, V3, sum4_head. unfold sgn, channel_sign, ca, cb. cbn [Nat.div Nat.modulo Nat.divmod fst snd Nat.sub Nat.eqb].
    unfold M0, M2, pair_ix. cbn [dT dent]. unfold mT. rewrite !Nat.mul_0_l, !Nat.mul_1_l. cbn [Nat.add]. ring.
  - exists K'. split; [exact EK|]. split; [exact RK'|]. split; [exact CK'|]. intros x y Hx Hy. rewrite VK by auto. f_equal.
    rewrite lsum_seq0. unfold gp, four_sum.
    transitivity (sum (dcols B) (fun p => sum 4 (fun a => sum n (fun c => sum n (fun d =>
      sgn a * (dent sg p 0%nat * (dent B (ca a * (n * n) + pair_ix n c x)%nat p * dent B (cb a * (n * n) + pair_ix n y d)%nat p) * dent (Rb a) c d)))))).
    { apply sum_ext. intros p _. rewrite <- sum_scal. apply sum_ext. intros a _. rewrite <- Rmult_assoc, <- sum_scal. apply sum_ext. intros c _.
      rewrite <- sum_scal. apply sum_ext. intros d _. ring. }
    rewrite sum_swap. apply sum_ext. intros a Ha. rewrite sum_swap, <- sum_scal. apply sum_ext. intros c Hc.
    rewrite sum_swap, <- sum_scal. apply sum_ext. intros d Hd. rewrite sum_scal. f_equal. rewrite sum_scal_r. f_equal.
    assert (Hca : (ca a < 2)%nat) by (unfold ca; apply Nat.div_lt_upper_bound; lia).
    assert (Hcb : (cb a < 2)%nat) by (unfold cb; apply Nat.mod_upper_bound; lia).
    pose proof (pair_ix_lt n n c x Hc Hx). pose proof (pair_ix_lt n n y d Hy Hd).
    symmetry. apply HW; nia.
Qed.

(* ---------- the blocks of elements ---------- *)

Section Elements.
Variables (lay : layout) (s : dstate) (I : integrals) (lm : list (Z * Z)) (h : helpers).
Hypothesis Hfit : fits lay.
Hypothesis Hsize : ds_size s = (lnel lay * length lm)%nat.
Hypothesis Hst : forall n L Ma, nth_error lm n = Some (L, Ma) -> stored_at lay s I n L Ma.
Hypothesis Hh : h_inv (lnbf lay) h.

Definition lm_at (n : nat) : Z * Z := nth n lm (0, 0)%Z.
Definition blk_at (n a i j : nat) : nat -> nat -> nat -> nat -> R :=
  two_block lay I (fst (lm_at n)) (snd (lm_at n)) (ca a) (cb a) i j.
Definition el_val (n i j x y : nat) : R :=
  four_sum (count_of lay i) (count_of lay j) (fun a c x y d => blk_at n a i j c x y d)
    (fun a c d => h_val h a n (first_of lay i + c)%nat (first_of lay j + d)%nat) x y.

Lemma lm_at_ok n : (n < length lm)%nat -> nth_error lm n = Some (fst (lm_at n), snd (lm_at n)).
Proof. intros H. unfold lm_at. rewrite <- surjective_pairing. now apply nth_error_nth'. Qed.

Lemma el_val_off n i j x y : snd h n = false -> el_val n i j x y = 0.
Proof.
  intros E. unfold el_val, four_sum. apply sum_zero'. intros a _. rewrite sum_zero'; [ring|]. intros c _. apply sum_zero'. intros d _.
  unfold h_val. rewrite E. unfold mzero. ring.
Qed.

Lemma helper_blocks_ok n i j : snd h n = true -> (i < lnel lay)%nat -> (j < lnel lay)%nat ->
  exists Rb, helper_blocks h n (first_of lay i) (first_of lay j) (count_of lay i) (count_of lay j) = Ok Rb /\
    forall a, (a < 4)%nat -> drows (Rb a) = count_of lay i /\ dcols (Rb a) = count_of lay j /\
      forall c d, dent (Rb a) c d = h_val h a n (first_of lay i + c)%nat (first_of lay j + d)%nat.
Proof.
  intros En Hi Hj. pose proof (Hfit i Hi) as Fi. pose proof (Hfit j Hj) as Fj. unfold helper_blocks.
  assert (D : forall a, (a < 4)%nat -> drows (fst h a n) = lnbf lay /\ dcols (fst h a n) = lnbf lay) by (intros a Ha; now apply Hh).
  rewrite !get_block_ok; cbn [bind].
  - eexists. split; [reflexivity|]. intros a Ha. unfold h_val. rewrite En.
    destruct a as [|[|[|[|a]]]]; try lia; (split; [reflexivity|]; split; reflexivity).
  - destruct (D 3%nat ltac:(lia)) as [D1 D2]; rewrite ?D1, ?D2; auto.
  - destruct (D 3%nat ltac:(lia)) as [D1 D2]; rewrite ?D1, ?D2; auto.
  - destruct (D 2%nat ltac:(lia)) as [D1 D2]; rewrite ?D1, ?D2; auto.
  - destruct (D 2%nat ltac:(lia)) as [D1 D2]; rewrite ?D1, ?D2; auto.
  - destruct (D 1%nat ltac:(lia)) as [D1 D2]; rewrite ?D1, ?D2; auto.
  - destruct (D 1%nat ltac:(lia)) as [D1 D2]; rewrite ?D1, ?D2; auto.
  - destruct (D 0%nat ltac:(lia)) as [D1 D2]; rewrite ?D1, ?D2; auto.
  - destruct (D 0%nat ltac:(lia)) as [D1 D2]; rewrite ?D1, ?D2; auto.
Qed.

Lemma four_sum_ext n m blk blk' Rb Rb' x y :
  (forall a c d, (a < 4)%nat -> (c < n)%nat -> (d < m)%nat -> blk a c x y d * Rb a c d = blk' a c x y d * Rb' a c d) ->
  four_sum n m blk Rb x y = four_sum n m blk' Rb' x y.
Proof.
  intros H. unfold four_sum. apply sum_ext. intros a Ha. f_equal. apply sum_ext. intros c Hc. apply sum_ext. intros d Hd. now apply H.
Qed.

Lemma di_K_same_ok i : (i < lnel lay)%nat ->
  exists X, di_K_same lay s (length lm) h i = Ok X /\ drows X = count_of lay i /\ dcols X = count_of lay i /\
    forall x y, (x < count_of lay i)%nat -> (y < count_of lay i)%nat -> dent X x y = sum (length lm) (fun n => el_val n i i x y).
Proof.
  intros Hi. unfold di_K_same. rewrite (surjective_pairing (lidx lay i)). fold (first_of lay i) (count_of lay i).
  match goal with |- exists Z0, fold_res ?f ?l0 _ = _ /\ _ =>
    destruct (fold_adds (count_of lay i) (count_of lay i) f (fun n => el_val n i i) l0)
      with (M := dzero (count_of lay i) (count_of lay i)) as (X & EX & RX & CX & VX); auto end.
  - intros n Hn K RK CK. apply in_seq in Hn. assert (Hn' : (n < length lm)%nat) by lia.
    destruct (snd h n) eqn:En; cbn [negb].
    2:{ exists K. split; [reflexivity|]. split; [exact RK|]. split; [exact CK|]. intros. rewrite el_val_off by exact En. ring. }
    rewrite !(arr_ok lay s (length lm) n Hn' Hsize) by exact Hi. cbn [bind].
    destruct (helper_blocks_ok n i i En Hi Hi) as (Rb & ER & HR). rewrite ER. cbn [bind].
    destruct (Hst n _ _ (lm_at_ok n Hn') i Hi) as (_ & RB & RS & CS & HW).
    destruct (di_factor_K_ok _ _ (count_of lay i) (in_W I (fst (lm_at n)) (snd (lm_at n)) i) Rb K RB RS CS HW) as (K' & EK & RK' & CK' & VK); auto.
    { intros a Ha. split; apply (HR a Ha). }
    exists K'. split; [exact EK|]. split; [exact RK'|]. split; [exact CK'|]. intros x y Hx Hy. rewrite VK by auto. f_equal.
    apply four_sum_ext. intros a c d Ha Hc Hd. destruct (HR a Ha) as (_ & _ & V). rewrite V. unfold blk_at, two_block. now rewrite Nat.eqb_refl.
  - exists X. split; [exact EX|]. split; [exact RX|]. split; [exact CX|]. intros x y Hx Hy. rewrite VX by auto. rewrite lsum_seq0.
    cbn [dzero dent]. unfold mzero. ring.
Qed.

Lemma di_K_pair_ok i j : (i < lnel lay)%nat -> (j < lnel lay)%nat -> i <> j ->
  exists X, di_K_pair lay s (length lm) h i j = Ok X /\ drows X = count_of lay i /\ dcols X = count_of lay j /\
    forall x y, (x < count_of lay i)%nat -> (y < count_of lay j)%nat -> dent X x y = - sum (length lm) (fun n => el_val n i j x y).
Proof.
  intros Hi Hj Hij. unfold di_K_pair. rewrite (surjective_pairing (lidx lay i)), (surjective_pairing (lidx lay j)).
  fold (first_of lay i) (count_of lay i) (first_of lay j) (count_of lay j).
  match goal with |- exists Z0, fold_res ?f ?l0 _ = _ /\ _ =>
    destruct (fold_adds (count_of lay i) (count_of lay j) f (fun n x y => - el_val n i j x y) l0)
      with (M := dzero (count_of lay i) (count_of lay j)) as (X & EX & RX & CX & VX); auto end.
  - intros n Hn K RK CK. apply in_seq in Hn. assert (Hn' : (n < length lm)%nat) by lia.
    destruct (snd h n) eqn:En; cbn [negb].
    2:{ exists K. split; [reflexivity|]. split; [exact RK|]. split; [exact CK|]. intros. rewrite el_val_off by exact En. ring. }
    set (L := fst (lm_at n)). set (Ma := snd (lm_at n)).
    pose proof (Hst n L Ma (lm_at_ok n Hn')) as Hs.
    set (lt := Nat.ltb j i).
    set (X1 := fun ch => if lt then in_Q I L Ma ch i else in_P I L Ma ch i).
    set (X2 := fun ch => if lt then in_P I L Ma ch j else in_Q I L Ma ch j).
    assert (S1 : forall ch, (ch < 2)%nat -> exists A, arr s (if lt then 2 + ch else ch)%nat (n * lnel lay + i) = Ok A /\
       drows A = count_of lay i /\ dcols A = count_of lay i /\
       forall x c, (x < count_of lay i)%nat -> (c < count_of lay i)%nat -> dent A x c = X1 ch c x).
    { intros ch Hch. destruct (Hs i Hi) as (H & _). destruct (H ch Hch) as ((A & EA & RA & CA & VA) & YA & (A' & EA' & RA' & CA' & VA') & YA').
      unfold X1. destruct lt; [exists A'|exists A]; (split; [assumption|]; split; [assumption|]; split; [assumption|]); intros x c Hx Hc.
      - rewrite VA' by auto. now apply YA'.
      - rewrite VA by auto. now apply YA. }
    assert (S2 : forall ch, (ch < 2)%nat -> exists A, arr s (if lt then ch else 2 + ch)%nat (n * lnel lay + j) = Ok A /\
       drows A = count_of lay j /\ dcols A = count_of lay j /\
       forall x c, (x < count_of lay j)%nat -> (c < count_of lay j)%nat -> dent A x c = X2 ch x c).
    { intros ch Hch. destruct (Hs j Hj) as (H & _). destruct (H ch Hch) as ((A & EA & RA & CA & VA) & YA & (A' & EA' & RA' & CA' & VA') & YA').
      unfold X2. destruct lt; [exists A|exists A']; (split; [assumption|]; split; [assumption|]; split; [assumption|]); intros x c Hx Hc; auto. }
    destruct (S1 0%nat ltac:(lia)) as (I0 & EI0 & RI0 & CI0 & VI0). destruct (S1 1%nat ltac:(lia)) as (I1 & EI1 & RI1 & CI1 & VI1).
    destruct (S2 0%nat ltac:(lia)) as (J0 & EJ0 & RJ0 & CJ0 & VJ0). destruct (S2 1%nat ltac:(lia)) as (J1 & EJ1 & RJ1 & CJ1 & VJ1).
    replace (if lt then (2 + 0)%nat else 0%nat) with (if lt then 2%nat else 0%nat) in EI0 by (destruct lt; reflexivity).
    replace (if lt then (2 + 1)%nat else 1%nat) with (if lt then 3%nat else 1%nat) in EI1 by (destruct lt; reflexivity).
    replace (if lt then 0%nat else (2 + 0)%nat) with (if lt then 0%nat else 2%nat) in EJ0 by (destruct lt; reflexivity).
    replace (if lt then 1%nat else (2 + 1)%nat) with (if lt then 1%nat else 3%nat) in EJ1 by (destruct lt; reflexivity).
    rewrite EI0. cbn [bind]. rewrite EI1. cbn [bind]. rewrite EJ0. cbn [bind]. rewrite EJ1. cbn [bind].
    destruct (helper_blocks_ok n i j En Hi Hj) as (Rb & ER & HR). rewrite ER. cbn [bind].
    destruct (HR 0%nat ltac:(lia)) as (Q0 & Q0' & W0). destruct (HR 1%nat ltac:(lia)) as (Q1 & Q1' & W1).
    destruct (HR 2%nat ltac:(lia)) as (Q2 & Q2' & W2). destruct (HR 3%nat ltac:(lia)) as (Q3 & Q3' & W3).
    rewrite (dprod_ok (Rb 0%nat) (dT J0)) by (cbn [dT drows]; lia). cbn [bind]. rewrite (dprod_ok (Rb 1%nat) (dT J1)) by (cbn [dT drows]; lia). cbn [bind dT dcols dent].
    match goal with |- context [dadd ?A ?B] => destruct (dadd_ok A B (count_of lay i) (count_of lay j)) as (T0 & F0 & G0 & H0 & U0); [exact Q0|exact RJ0|exact Q1|exact RJ1|rewrite F0; cbn [bind]] end.
    rewrite (dprod_ok I0 T0) by lia. cbn [bind].
    match goal with |- context [dsub K ?B] => destruct (dsub_ok K B (count_of lay i) (count_of lay j) RK CK RI0 H0) as (K1 & FK1 & GK1 & HK1 & UK1); rewrite FK1; cbn [bind] end.
    rewrite (dprod_ok (Rb 2%nat)) by (cbn [dT drows]; lia). cbn [bind]. rewrite (dprod_ok (Rb 3%nat)) by (cbn [dT drows]; lia). cbn [bind dT dcols dent].
    match goal with |- context [dadd ?A ?B] => destruct (dadd_ok A B (count_of lay i) (count_of lay j)) as (T1 & F1 & G1 & H1 & U1); [exact Q2|exact RJ0|exact Q3|exact RJ1|rewrite F1; cbn [bind]] end.
    rewrite (dprod_ok I1 T1) by lia. cbn [bind].
    match goal with |- context [dsub K1 ?B] => destruct (dsub_ok K1 B (count_of lay i) (count_of lay j) GK1 HK1 RI1 H1) as (K2 & FK2 & GK2 & HK2 & UK2) end.
    exists K2. split; [exact FK2|]. split; [exact GK2|]. split; [exact HK2|]. intros x y Hx Hy. rewrite UK2, UK1. cbn [dent].
    unfold Rminus. rewrite Rplus_assoc. f_equal. rewrite <- Ropp_plus_distr. f_equal.
    assert (Hblk : forall a c d, (a < 4)%nat -> (c < count_of lay i)%nat -> (d < count_of lay j)%nat ->
      blk_at n a i j c x y d = sgn a * (X1 (ca a) c x * X2 (cb a) y d)).
    { intros a c d Ha Hc Hd. unfold blk_at, two_block, sgn, X1, X2, lt. fold L. fold Ma. destruct (Nat.eqb_spec i j); [contradiction|].
      f_equal. destruct (Nat.ltb_spec i j); destruct (Nat.ltb_spec j i); try lia; ring. }
    unfold mmul, mT. rewrite CI0, CI1.
    transitivity (sum 4 (fun a => sum (count_of lay i) (fun c => sum (count_of lay j) (fun d =>
       X1 (ca a) c x * X2 (cb a) y d * h_val h a n (first_of lay i + c)%nat (first_of lay j + d)%nat)))).
    + rewrite sum4_head. unfold ca, cb. cbn [Nat.div Nat.modulo Nat.divmod fst snd Nat.sub].
      rewrite <- !sum_plus.
      apply sum_ext. intros c Hc. rewrite U0, U1. cbn [dent]. unfold mmul, mT. rewrite Q0', Q1', Q2', Q3', VI0, VI1, !Rmult_plus_distr_l by auto.
      rewrite <- !sum_scal, <- !Rplus_assoc. f_equal; [f_equal; [f_equal|]|]; apply sum_ext; intros d Hd; rewrite ?W0, ?W1, ?W2, ?W3, ?VJ0, ?VJ1 by auto; ring.
    + unfold el_val, four_sum. apply sum_ext. intros a Ha. rewrite <- sum_scal. apply sum_ext. intros c Hc. rewrite <- sum_scal. apply sum_ext. intros d Hd.
      rewrite Hblk by auto. assert (sgn a * sgn a = 1) by (unfold sgn, channel_sign; destruct (Nat.eqb _ _); ring).
      transitivity (sgn a * sgn a * (X1 (ca a) c x * X2 (cb a) y d * h_val h a n (first_of lay i + c)%nat (first_of lay j + d)%nat)); [rewrite H|]; ring.
  - exists X. split; [exact EX|]. split; [exact RX|]. split; [exact CX|]. intros x y Hx Hy. rewrite VX by auto. rewrite lsum_seq0.
    cbn [dzero dent]. unfold mzero. rewrite sum_opp. ring.
Qed.
End Elements.

(* ---------- one block of shells ---------- *)

Lemma win_sub N j k f n g m B i' a j' c : (f + n <= N)%nat -> (g + m <= N)%nat -> (a < N)%nat -> (c < N)%nat ->
  win (j * N + f) n (k * N + g) m B (fn N i' a) (fn N j' c) =
  if (Nat.eqb j i' && Nat.eqb k j')%bool then win f n g m B a c else 0.
Proof.
  intros Hf Hg Ha Hc. unfold win, fn.
  assert (G : forall j f n i' a, (f + n <= N)%nat -> (a < N)%nat ->
    (Nat.leb (j * N + f) (i' * N + a) && Nat.ltb (i' * N + a) (j * N + f + n))%bool =
    (Nat.eqb j i' && (Nat.leb f a && Nat.ltb a (f + n)))%bool).
  { clear. intros j f n i' a Hf Ha. destruct (Nat.eqb_spec j i') as [->|Hne]; cbn [andb].
    - destruct (Nat.leb_spec (i' * N + f) (i' * N + a)); destruct (Nat.leb_spec f a); try lia; cbn [andb]; auto.
      destruct (Nat.ltb_spec (i' * N + a) (i' * N + f + n)); destruct (Nat.ltb_spec a (f + n)); auto; lia.
    - destruct (Nat.leb_spec (j * N + f) (i' * N + a)); cbn [andb]; auto.
      destruct (Nat.ltb_spec (i' * N + a) (j * N + f + n)); auto. exfalso. apply Hne. nia. }
  rewrite !G by auto.
  destruct (Nat.eqb_spec j i') as [->|]; cbn [andb]; auto.
  destruct (Nat.eqb_spec k j') as [->|]; cbn [andb]; [|now rewrite andb_false_r].
  destruct (_ && _)%bool eqn:E; auto.
  replace (i' * N + a - (i' * N + f))%nat with (a - f)%nat by lia.
  replace (j' * N + c - (j' * N + g))%nat with (c - g)%nat by lia. reflexivity.
Qed.

Lemma tensor_flip lay blk a b c d :
  tensor lay (fun i j x1 x2 y1 y2 => blk i j x2 x1 y1 y2) b a c d = tensor lay blk a b c d.
Proof.
  unfold tensor. apply sum_ext. intros i _. apply sum_ext. intros j _.
  rewrite (andb_comm (inside lay i b) (inside lay i a)). reflexivity.
Qed.

Section Block.
Variables (b : dbasis) (s : dstate) (I : integrals) (lm : list (Z * Z)) (h : helpers).
Let lay := db_lay b.
Let N := lnbf lay.
Let nsh := length (db_sh b).
Hypothesis Hfit : fits lay.
Hypothesis Hst : stores b s lm I.
Hypothesis Hh : h_inv N h.

(** sum over multipoles and channels of (c x| y d) R(c,d) *)
Definition blk_val (x y : nat) : R :=
  sum (length lm) (fun n => sum 4 (fun a => sgn a * sum N (fun c => sum N (fun d =>
    radial_tensor lay I (fst (lm_at lm n)) (snd (lm_at lm n)) (ca a) (cb a) c x y d * h_val h a n c d)))).

Lemma di_K_block_ok j k K : (j < nsh)%nat -> (k < nsh)%nat -> drows K = (nsh * N)%nat -> dcols K = (nsh * N)%nat ->
  exists K', di_K_block lay s (length lm) h j k K = Ok K' /\ drows K' = (nsh * N)%nat /\ dcols K' = (nsh * N)%nat /\
    forall i' a j' c, (i' < nsh)%nat -> (a < N)%nat -> (j' < nsh)%nat -> (c < N)%nat ->
      dent K' (fn N i' a) (fn N j' c) = dent K (fn N i' a) (fn N j' c) +
        (if (Nat.eqb j i' && Nat.eqb k j')%bool then - blk_val a c else 0).
Proof.
  intros Hj Hk RK CK. unfold di_K_block. fold N.
  assert (Hsize : ds_size s = (lnel lay * length lm)%nat) by apply Hst.
  assert (Hst' : forall n L Ma, nth_error lm n = Some (L, Ma) -> stored_at lay s I n L Ma) by (intros; now apply (stores_at b s lm I)).
  set (g := fun e f => win (j * N + first_of lay e) (count_of lay e) (k * N + first_of lay f) (count_of lay f)
     (fun x y => - sum (length lm) (fun n => el_val lay I lm h n e f x y))).
  match goal with |- exists Z0, fold_res ?f ?l0 _ = _ /\ _ =>
    destruct (fold_adds (nsh * N) (nsh * N) f (fun e a c => sum (lnel lay) (fun e' => g e e' a c)) l0) with (M := K) as (K' & EK & RK' & CK' & VK); auto end.
  - intros e He X RX CX. apply in_seq in He. assert (He' : (e < lnel lay)%nat) by lia.
    match goal with |- exists Z0, fold_res ?f ?l0 _ = _ /\ _ =>
      destruct (fold_adds (nsh * N) (nsh * N) f (fun e' => g e e') l0) with (M := X) as (X' & EX & RX' & CX' & VX); auto end.
    + intros e' Hf Y RY CY. apply in_seq in Hf. assert (Hf' : (e' < lnel lay)%nat) by lia.
      rewrite (surjective_pairing (lidx lay e)), (surjective_pairing (lidx lay e')).
      fold (first_of lay e) (count_of lay e) (first_of lay e') (count_of lay e').
      pose proof (Hfit e He') as F1. pose proof (Hfit e' Hf') as F2. fold N in F1, F2.
      assert (B1 : (j * N + first_of lay e + count_of lay e <= nsh * N)%nat) by (clear - F1 Hj; nia).
      assert (B2 : (k * N + first_of lay e' + count_of lay e' <= nsh * N)%nat) by (clear - F2 Hk; nia).
      destruct (Nat.eqb_spec e e') as [<-|Hne].
      * destruct (di_K_same_ok lay s I lm h Hfit Hsize Hst' Hh e He') as (X0 & E0 & R0 & C0 & V0). rewrite E0. cbn [bind]. unfold dsub_block.
        destruct (block_add_ok Y (j * N + first_of lay e) (k * N + first_of lay e) (count_of lay e) (count_of lay e) (dscale (-1) X0)
          (nsh * N) (nsh * N) RY CY B1 B2 R0 C0) as (Y' & EY & RY' & CY' & VY).
        exists Y'. split; [exact EY|]. split; [exact RY'|]. split; [exact CY'|]. intros a c _ _. rewrite VY. f_equal. unfold g.
        apply win_ext. intros x y Hx Hy. cbn [dscale dent]. unfold mscal. rewrite V0 by auto. ring.
      * destruct (di_K_pair_ok lay s I lm h Hfit Hsize Hst' Hh e e' He' Hf' Hne) as (X0 & E0 & R0 & C0 & V0). rewrite E0. cbn [bind].
        destruct (block_add_ok Y (j * N + first_of lay e) (k * N + first_of lay e') (count_of lay e) (count_of lay e') X0
          (nsh * N) (nsh * N) RY CY B1 B2 R0 C0) as (Y' & EY & RY' & CY' & VY).
        exists Y'. split; [exact EY|]. split; [exact RY'|]. split; [exact CY'|]. intros a c _ _. rewrite VY. f_equal. unfold g.
        apply win_ext. intros x y Hx Hy. now apply V0.
    + exists X'. split; [exact EX|]. split; [exact RX'|]. split; [exact CX'|]. intros a c Ha Hc. rewrite VX by auto. now rewrite lsum_seq0.
  - exists K'. split; [exact EK|]. split; [exact RK'|]. split; [exact CK'|]. intros i' a j' c Hi' Ha Hj' Hc.
    rewrite VK by (unfold fn; clear - Hi' Ha Hj' Hc; nia). f_equal. rewrite lsum_seq0.
    rewrite (sum_ext (lnel lay) _ (fun e => sum (lnel lay) (fun e' => if (Nat.eqb j i' && Nat.eqb k j')%bool then
      (if (inside lay e a && inside lay e' c)%bool then - sum (length lm) (fun n => el_val lay I lm h n e e' (local lay e a) (local lay e' c)) else 0) else 0))).
    2:{ intros e He. apply sum_ext. intros e' He'. unfold g. rewrite win_sub by (auto; now apply Hfit). rewrite win_pair. reflexivity. }
    destruct (Nat.eqb j i' && Nat.eqb k j')%bool.
    2:{ apply sum_zero'. intros. apply sum_zero'. auto. }
    unfold blk_val.
    transitivity (- sum (lnel lay) (fun e => sum (lnel lay) (fun e' => sum (length lm) (fun n => sum 4 (fun a0 => sgn a0 *
       (if (inside lay e a && inside lay e' c)%bool then sum (count_of lay e) (fun c0 => sum (count_of lay e') (fun d =>
         two_block lay I (fst (lm_at lm n)) (snd (lm_at lm n)) (ca a0) (cb a0) e e' c0 (local lay e a) (local lay e' c) d *
         h_val h a0 n (first_of lay e + c0)%nat (first_of lay e' + d)%nat)) else 0)))))).
    { rewrite <- sum_opp. apply sum_ext. intros e _. rewrite <- sum_opp. apply sum_ext. intros e' _.
      destruct (_ && _)%bool; [|symmetry; apply Ropp_eq_0_compat; apply sum_zero'; intros n _; apply sum_zero'; intros; ring].
      reflexivity. }
    f_equal.
    rewrite (sum_ext (lnel lay) _ (fun e => sum (length lm) (fun n => sum (lnel lay) (fun e' => sum 4 (fun a0 => sgn a0 *
       (if (inside lay e a && inside lay e' c)%bool then sum (count_of lay e) (fun c0 => sum (count_of lay e') (fun d =>
         two_block lay I (fst (lm_at lm n)) (snd (lm_at lm n)) (ca a0) (cb a0) e e' c0 (local lay e a) (local lay e' c) d *
         h_val h a0 n (first_of lay e + c0)%nat (first_of lay e' + d)%nat)) else 0)))))) by (intros; apply sum_swap).
    rewrite sum_swap. apply sum_ext. intros n _.
    rewrite (sum_ext (lnel lay) _ (fun e => sum 4 (fun a0 => sum (lnel lay) (fun e' => sgn a0 *
       (if (inside lay e a && inside lay e' c)%bool then sum (count_of lay e) (fun c0 => sum (count_of lay e') (fun d =>
         two_block lay I (fst (lm_at lm n)) (snd (lm_at lm n)) (ca a0) (cb a0) e e' c0 (local lay e a) (local lay e' c) d *
         h_val h a0 n (first_of lay e + c0)%nat (first_of lay e' + d)%nat)) else 0))))) by (intros; apply sum_swap).
    rewrite sum_swap. apply sum_ext. intros a0 _.
    transitivity (sgn a0 * exchange_of N (tensor lay (fun i j x1 x2 y1 y2 =>
        two_block lay I (fst (lm_at lm n)) (snd (lm_at lm n)) (ca a0) (cb a0) i j x2 x1 y1 y2)) (h_val h a0 n) a c).
    + unfold N. rewrite (exchange_local lay Hfit), <- sum_scal. apply sum_ext. intros e _. rewrite <- sum_scal. reflexivity.
    + f_equal. unfold exchange_of. apply sum_ext. intros c0 _. apply sum_ext. intros d _. f_equal. apply tensor_flip.
Qed.
End Block.

(* ---------- the loop ---------- *)

Lemma fn_shell N i c : (c < N)%nat -> (fn N i c / N = i)%nat.
Proof. intros H. unfold fn. rewrite Nat.add_comm, Nat.div_add by lia. rewrite Nat.div_small; lia. Qed.
Lemma screened_at M thr (P : mat) i l c d : (c < M)%nat -> (d < M)%nat ->
  screened M thr P (fn M i c) (fn M l d) = if Rltb (block_norm M P i l) thr then 0 else P (fn M i c) (fn M l d).
Proof. intros Hc Hd. unfold screened. now rewrite !fn_shell. Qed.

Section Loop.
Variables (b : dbasis) (s : dstate) (I : integrals) (lm lM : list (Z * Z)) (g : gtable) (P : dmat) (Lcut : Z).
Let sh := db_sh b.
Let N := lnbf (db_lay b).
Let nsh := length sh.
Hypothesis Hb : dbasis_ok b.
Hypothesis Hco : dcouples b g.
Hypothesis Htb : tables (db_sh b) lm lM.
Hypothesis Hst : stores b s lm I.
Hypothesis RP : drows P = (nsh * N)%nat.
Hypothesis CP : dcols P = (nsh * N)%nat.
Hypothesis Hcut : (Lmax_of b <= Lcut)%Z.

Definition KV (j a k c : nat) : R :=
  full_exchange nsh N (dia_tensor b I Lcut) (screened N (db_thr b) (dent P)) j a k c.

(** The value of a block from the angular sums. *)
Lemma blk_KV h j k bk : (j < nsh)%nat -> (k < nsh)%nat ->
  (forall f, lsum (bk (m_of sh j - m_of sh k)%Z) f = sum nsh (fun i => sum nsh (fun l =>
    if (kept N (db_thr b) P i l && (m_of sh i - m_of sh l =? m_of sh j - m_of sh k)%Z)%bool then f (i, l) else 0))) ->
  (forall a n L Ma c d, (a < 4)%nat -> nth_error lm n = Some (L, Ma) ->
      h_val h a n c d = lsum (bk (m_of sh j - m_of sh k)%Z) (fun il => h_term b P j k (fst il) (snd il) a L Ma c d)) ->
  forall x y, - blk_val b I lm h x y = KV j x k y.
Proof.
  intros Hj Hk Hbk Hv x y. unfold KV, full_exchange. f_equal. unfold blk_val. fold N.
  (* sum over candidates outermost *)
  set (T := fun n a c d => radial_tensor (db_lay b) I (fst (lm_at lm n)) (snd (lm_at lm n)) (ca a) (cb a) c x y d).
  transitivity (sum (length lm) (fun n => sum 4 (fun a => sum N (fun c => sum N (fun d => sum nsh (fun i => sum nsh (fun l =>
    if (kept N (db_thr b) P i l && (m_of sh i - m_of sh l =? m_of sh j - m_of sh k)%Z)%bool then
      sgn a * T n a c d * h_term b P j k i l a (fst (lm_at lm n)) (snd (lm_at lm n)) c d else 0))))))).
  { apply sum_ext. intros n Hn. apply sum_ext. intros a Ha. rewrite <- sum_scal. apply sum_ext. intros c _. rewrite <- sum_scal. apply sum_ext. intros d _.
    rewrite (Hv a n _ _ c d Ha (lm_at_ok lm n Hn)), Hbk. rewrite <- Rmult_assoc. fold (T n a c d). rewrite <- sum_scal. apply sum_ext. intros i _. rewrite <- sum_scal.
    apply sum_ext. intros l _. cbn [fst snd]. destruct (_ && _)%bool; ring. }
  transitivity (sum nsh (fun i => sum nsh (fun l => sum N (fun c => sum N (fun d => sum (length lm) (fun n => sum 4 (fun a =>
    if (kept N (db_thr b) P i l && (m_of sh i - m_of sh l =? m_of sh j - m_of sh k)%Z)%bool then
      sgn a * T n a c d * h_term b P j k i l a (fst (lm_at lm n)) (snd (lm_at lm n)) c d else 0))))))).
  { transitivity (sum nsh (fun i => sum nsh (fun l => sum (length lm) (fun n => sum 4 (fun a => sum N (fun c => sum N (fun d =>
    if (kept N (db_thr b) P i l && (m_of sh i - m_of sh l =? m_of sh j - m_of sh k)%Z)%bool then
      sgn a * T n a c d * h_term b P j k i l a (fst (lm_at lm n)) (snd (lm_at lm n)) c d else 0))))))).
    - set (G := fun n a c d i l => if (kept N (db_thr b) P i l && (m_of sh i - m_of sh l =? m_of sh j - m_of sh k)%Z)%bool then
        sgn a * T n a c d * h_term b P j k i l a (fst (lm_at lm n)) (snd (lm_at lm n)) c d else 0).
      change (sum (length lm) (fun n => sum 4 (fun a => sum N (fun c => sum N (fun d => sum nsh (fun i => sum nsh (fun l => G n a c d i l)))))) =
              sum nsh (fun i => sum nsh (fun l => sum (length lm) (fun n => sum 4 (fun a => sum N (fun c => sum N (fun d => G n a c d i l))))))).
      clearbody G. clear.
      assert (H2 : forall (p q : nat) (f : nat -> nat -> nat -> nat -> R) , sum p (fun c => sum q (fun d => sum nsh (fun i => sum nsh (fun l => f c d i l)))) =
         sum nsh (fun i => sum nsh (fun l => sum p (fun c => sum q (fun d => f c d i l))))).
      { intros p q f. rewrite (sum_ext p _ (fun c => sum nsh (fun i => sum nsh (fun l => sum q (fun d => f c d i l))))).
        - rewrite sum_swap. apply sum_ext. intros i _. apply sum_swap.
        - intros c _. rewrite sum_swap. apply sum_ext. intros i _. apply sum_swap. }
      rewrite (sum_ext (length lm) _ (fun n => sum 4 (fun a => sum nsh (fun i => sum nsh (fun l => sum N (fun c => sum N (fun d => G n a c d i l))))))).
      + apply H2.
      + intros n _. apply sum_ext. intros a _. apply H2.
    - apply sum_ext. intros i _. apply sum_ext. intros l _.
      rewrite (sum_ext (length lm) _ (fun n => sum N (fun c => sum 4 (fun a => sum N (fun d =>
        if (kept N (db_thr b) P i l && (m_of sh i - m_of sh l =? m_of sh j - m_of sh k)%Z)%bool then
        sgn a * T n a c d * h_term b P j k i l a (fst (lm_at lm n)) (snd (lm_at lm n)) c d else 0))))) by (intros; apply sum_swap).
      rewrite sum_swap. apply sum_ext. intros c _.
      rewrite (sum_ext (length lm) _ (fun n => sum N (fun d => sum 4 (fun a =>
        if (kept N (db_thr b) P i l && (m_of sh i - m_of sh l =? m_of sh j - m_of sh k)%Z)%bool then
        sgn a * T n a c d * h_term b P j k i l a (fst (lm_at lm n)) (snd (lm_at lm n)) c d else 0)))) by (intros; apply sum_swap).
      apply sum_swap. }
  apply sum_ext. intros i Hi. apply sum_ext. intros l Hl. apply sum_ext. intros c Hc. apply sum_ext. intros d Hd.
  rewrite (screened_at N (db_thr b) (dent P) i l c d Hc Hd). unfold kept.
  destruct (Rltb (block_norm N (dent P) i l) (db_thr b)); cbn [negb andb].
  { rewrite Rmult_0_r. apply sum_zero'. intros. apply sum_zero'. auto. }
  unfold dia_tensor. fold sh.
  replace (m_of sh k - m_of sh l =? m_of sh j - m_of sh i)%Z with (m_of sh i - m_of sh l =? m_of sh j - m_of sh k)%Z.
  2:{ destruct (Z.eqb_spec (m_of sh i - m_of sh l) (m_of sh j - m_of sh k)); destruct (Z.eqb_spec (m_of sh k - m_of sh l) (m_of sh j - m_of sh i)); auto; lia. }
  destruct (Z.eqb_spec (m_of sh i - m_of sh l) (m_of sh j - m_of sh k)) as [Edm|_].
  2:{ rewrite Rmult_0_l. apply sum_zero'. intros. apply sum_zero'. auto. }
  set (M := (m_of sh j - m_of sh i)%Z).
  set (V := fun L => multipole_factor (db_Rhalf b) L M * sum 2 (fun ch => sum 2 (fun ch' => Cc b ch i j L * Cc b ch' l k L *
     radial_tensor (db_lay b) I L (Z.abs M) ch ch' c x y d)) * dent P (fn N i c) (fn N l d)).
  transitivity (lsum lm (fun LM => if ((Z.abs M =? snd LM) && (Z.abs M <=? fst LM))%bool%Z then V (fst LM) else 0)).
  { rewrite (lsum_nth lm (0, 0)%Z). apply sum_ext. intros n Hn. fold (lm_at lm n). unfold T, h_term. fold sh. fold M.
    destruct (Z.eqb_spec (Z.abs M) (snd (lm_at lm n))) as [EMa|]; cbn [andb]; [|apply sum_zero'; intros; ring].
    destruct (Z.abs M <=? fst (lm_at lm n))%Z; [|apply sum_zero'; intros; ring]. rewrite <- EMa. unfold V. fold N.
    rewrite sum4_head, !sum2_head. unfold sgn, channel_sign, ca, cb. cbn [Nat.div Nat.modulo Nat.divmod fst snd Nat.sub Nat.eqb]. ring. }
  transitivity (lsum (zrange (Z.abs M) Lcut) V).
  2:{ rewrite Rmult_comm, <- lsum_scal. apply lsum_ext. intros L _. unfold V. rewrite !sum2_head. unfold Cc. fold sh. fold M.
      replace (m_of sh k - m_of sh l)%Z with M by (unfold M; lia). ring. }
  (* the multipoles in the table are those that couple *)
  assert (Hz : forall L, (Z.abs M <= L)%Z -> ~ In (L, Z.abs M) lm -> V L = 0).
  { intros L HL Hn. unfold V. rewrite !sum2_head.
    destruct (Z.leb_spec (fst (prange sh i j)) L) as [Q1|Q1]; [destruct (Z.leb_spec L (snd (prange sh i j))) as [Q2|Q2]|].
    - exfalso. apply Hn. destruct (tb_M _ _ _ Htb i j L Hi Hj (conj Q1 Q2)) as (n0 & _ & En0).
      apply nth_error_In in En0. destruct (tb_lm _ _ _ Htb _ _ En0) as (n1 & _ & En1). now apply nth_error_In in En1.
    - rewrite !(Cc_zero b _ i j L Hb Hi Hj) by (auto; fold sh; clear - Q2; lia). ring.
    - rewrite !(Cc_zero b _ i j L Hb Hi Hj) by (auto; fold sh; clear - Q1; lia). ring. }
  transitivity (lsum (map fst (filter (fun LM => ((Z.abs M =? snd LM) && (Z.abs M <=? fst LM))%bool%Z) lm)) V).
  { rewrite lsum_map. rewrite lsum_filter. reflexivity. }
  set (Ls := map fst (filter (fun LM => ((Z.abs M =? snd LM) && (Z.abs M <=? fst LM))%bool%Z) lm)).
  assert (HLs : forall L, In L Ls <-> In (L, Z.abs M) lm /\ (Z.abs M <= L)%Z).
  { intros L. unfold Ls. rewrite in_map_iff. split.
    - intros ([L' Ma'] & <- & Hin). apply filter_In in Hin. destruct Hin as [Hin Hq]. cbn [fst snd] in *. apply andb_prop in Hq. destruct Hq as [H1 H2].
      apply Z.eqb_eq in H1. apply Z.leb_le in H2. subst Ma'. auto.
    - intros [Hin HL]. exists (L, Z.abs M). split; [reflexivity|]. apply filter_In. split; [exact Hin|]. cbn [fst snd]. rewrite Z.eqb_refl.
      now apply Z.leb_le in HL. }
  assert (NLs : NoDup Ls).
  { unfold Ls. pose proof (lm_nodup b lm lM Htb) as ND. clear - ND. induction lm as [|[L' Ma'] l' IH]; [constructor|]. inversion ND; subst.
    cbn [filter fst snd]. destruct (_ && _)%bool eqn:E; [|now apply IH]. cbn [map fst]. constructor; [|now apply IH].
    rewrite in_map_iff. intros ([L2 Ma2] & E2 & Hin). cbn [fst] in E2. subst L2. apply filter_In in Hin. destruct Hin as [Hin Hq]. cbn [fst snd] in *.
    apply andb_prop in Hq. apply andb_prop in E. destruct Hq as [Hq _]. destruct E as [E _]. apply Z.eqb_eq in Hq. apply Z.eqb_eq in E.
    subst. now apply H1. }
  transitivity (lsum (filter (fun L => if in_dec Z.eq_dec L Ls then true else false) (zrange (Z.abs M) Lcut)) V).
  - apply lsum_perm. apply NoDup_Permutation; [exact NLs|apply NoDup_filter; apply zrange_nodup|].
    intros L. rewrite filter_In, zrange_in. split.
    + intros Hin. destruct (in_dec Z.eq_dec L Ls) as [_|Hn]; [|contradiction]. split; [|reflexivity].
      apply HLs in Hin. destruct Hin as [Hin HL]. split; [exact HL|].
      destruct (build_tables_ok (db_sh b)) as (lm' & lM' & EB & _ & _ & I1 & I2). rewrite (tb_build _ _ _ Htb) in EB. injection EB as <- <-.
      apply I2 in Hin. destruct Hin as (M' & EM' & HM'). destruct (tb_inv _ _ _ Htb _ _ HM') as (i0 & j0 & Hi0 & Hj0 & _ & HL0).
      destruct (prange_max b i0 j0 Hb Hi0 Hj0) as [_ PU]. lia.
    + intros [_ Hq]. destruct (in_dec Z.eq_dec L Ls); [assumption|discriminate].
  - rewrite lsum_filter. apply lsum_ext. intros L HL. apply zrange_in in HL. destruct (in_dec Z.eq_dec L Ls) as [_|Hn]; [reflexivity|].
    symmetry. apply Hz; [lia|]. intros Hin. apply Hn. apply HLs. split; [exact Hin|lia].
Qed.

Definition skipped (j k : nat) : bool := (db_absm b && ((m_of sh j <? 0) || (m_of sh k <? 0)))%bool%Z.

Lemma blk_zero h x y : (forall a n c d, (a < 4)%nat -> (n < length lm)%nat -> h_val h a n c d = 0) -> blk_val b I lm h x y = 0.
Proof.
  intros H. unfold blk_val. apply sum_zero'. intros n Hn. apply sum_zero'. intros a Ha. rewrite sum_zero'; [ring|]. intros c _.
  apply sum_zero'. intros d _. rewrite H by auto. ring.
Qed.

Lemma di_K_iteration_ok mabs bk j k K : (j < nsh)%nat -> (k < nsh)%nat ->
  (forall i, (i < nsh)%nat -> (Z.abs (m_of sh i) <= mabs)%Z) -> bucket_in sh bk ->
  (forall dm (f : nat * nat -> R), lsum (bk dm) f = sum nsh (fun i => sum nsh (fun l =>
    if (kept N (db_thr b) P i l && (m_of sh i - m_of sh l =? dm)%Z)%bool then f (i, l) else 0))) ->
  drows K = (nsh * N)%nat -> dcols K = (nsh * N)%nat ->
  exists K', di_K_iteration b s lm (build_LMfac_abs (db_Rhalf b) lm) g mabs bk P K (j, k) = Ok K' /\
    drows K' = (nsh * N)%nat /\ dcols K' = (nsh * N)%nat /\
    forall i' a j' c, (i' < nsh)%nat -> (a < N)%nat -> (j' < nsh)%nat -> (c < N)%nat ->
      dent K' (fn N i' a) (fn N j' c) = dent K (fn N i' a) (fn N j' c) +
        (if (Nat.eqb j i' && Nat.eqb k j')%bool then (if skipped j k then 0 else KV j a k c) else 0).
Proof.
  intros Hj Hk Hm HI Hbk RK CK. unfold di_K_iteration. fold sh. fold (m_of sh j) (m_of sh k). fold (skipped j k).
  destruct (skipped j k).
  { exists K. split; [reflexivity|]. split; [exact RK|]. split; [exact CK|]. intros. destruct (_ && _)%bool; ring. }
  pose proof (Hm j Hj) as Mj. pose proof (Hm k Hk) as Mk.
  destruct (Z.ltb_spec (2 * mabs) (Z.abs (m_of sh j - m_of sh k))); [lia|].
  unfold bucket_get.
  replace ((0 <=? m_of sh j - m_of sh k + 2 * mabs) && (m_of sh j - m_of sh k + 2 * mabs <? 4 * mabs + 1))%bool%Z with true.
  2:{ symmetry. apply andb_true_intro. split; [apply Z.leb_le|apply Z.ltb_lt]; lia. }
  cbn [bind].
  destruct (di_angular_ok b g lm lM P Hb Hco Htb RP CP j k (bk (m_of sh j - m_of sh k)%Z) Hj Hk) as (h & Eh & Ih & Vh).
  { intros i l Hil. apply HI in Hil. exact Hil. }
  pose proof (blk_KV h j k bk Hj Hk (Hbk _) Vh) as HKV.
  assert (Hzero : (forall n, (n < length lm)%nat -> snd h n = false) -> exists K', Ok K = Ok K' /\
    drows K' = (nsh * N)%nat /\ dcols K' = (nsh * N)%nat /\
    forall i' a j' c, (i' < nsh)%nat -> (a < N)%nat -> (j' < nsh)%nat -> (c < N)%nat ->
      dent K' (fn N i' a) (fn N j' c) = dent K (fn N i' a) (fn N j' c) +
        (if (Nat.eqb j i' && Nat.eqb k j')%bool then KV j a k c else 0)).
  { intros Hz. exists K. split; [reflexivity|]. split; [exact RK|]. split; [exact CK|]. intros i' a j' c _ _ _ _.
    rewrite <- HKV, blk_zero; [destruct (_ && _)%bool; ring|]. intros a0 n c0 d _ Hn. unfold h_val. rewrite Hz by exact Hn. reflexivity. }
  destruct (bk (m_of sh j - m_of sh k)%Z) as [|x0 rest] eqn:Ebk.
  { apply Hzero. intros n Hn. cbn [di_angular] in Eh. unfold di_angular in Eh.
    destruct (nth j (db_sh b) (0, 0)%Z) as [lj mj]. destruct (nth k (db_sh b) (0, 0)%Z) as [lk mk]. cbn [fold_res] in Eh. injection Eh as <-. reflexivity. }
  fold N. fold sh in Eh. fold N in Eh. rewrite Eh. cbn [bind].
  destruct (existsb (snd h) (seq 0 (length lm))) eqn:Ex; cbn [negb].
  - destruct Hb as (_ & _ & Hfit & _ & _).
    destruct (di_K_block_ok b s I lm h Hfit Hst Ih j k K Hj Hk RK CK) as (K' & EK & RK' & CK' & VK).
    exists K'. split; [exact EK|]. split; [exact RK'|]. split; [exact CK'|]. intros i' a j' c Hi' Ha Hj' Hc. fold N in VK. rewrite VK by auto. f_equal.
    destruct (_ && _)%bool; auto.
  - apply Hzero. intros n Hn. destruct (snd h n) eqn:En; auto.
    assert (existsb (snd h) (seq 0 (length lm)) = true) by (apply existsb_exists; exists n; split; [apply in_seq; lia|exact En]). congruence.
Qed.

Lemma di_K_loop_ok mabs bk order :
  (forall i, (i < nsh)%nat -> (Z.abs (m_of sh i) <= mabs)%Z) -> bucket_in sh bk ->
  (forall dm (f : nat * nat -> R), lsum (bk dm) f = sum nsh (fun i => sum nsh (fun l =>
    if (kept N (db_thr b) P i l && (m_of sh i - m_of sh l =? dm)%Z)%bool then f (i, l) else 0))) ->
  all_pairs b order ->
  is_shell_matrix (fold_res (di_K_iteration b s lm (build_LMfac_abs (db_Rhalf b) lm) g mabs bk P) order
      (dzero (di_Ndummy sh N) (di_Ndummy sh N))) nsh N
    (fun j a k c => if skipped j k then 0 else KV j a k c).
Proof.
  intros Hm HI Hbk Hord. unfold is_shell_matrix, di_Ndummy. fold nsh.
  set (Inv := fun K : dmat => drows K = (nsh * N)%nat /\ dcols K = (nsh * N)%nat).
  set (obs := fun (K : dmat) (x : nat * nat * nat * nat) => let '(i', a, j', c) := x in dent K (fn N i' a) (fn N j' c)).
  set (okI := fun x : nat * nat * nat * nat => let '(i', a, j', c) := x in (i' < nsh)%nat /\ (a < N)%nat /\ (j' < nsh)%nat /\ (c < N)%nat).
  set (dl := fun (jk : nat * nat) (x : nat * nat * nat * nat) => let '(i', a, j', c) := x in
    if (Nat.eqb (fst jk) i' && Nat.eqb (snd jk) j')%bool then (if skipped (fst jk) (snd jk) then 0 else KV (fst jk) a (snd jk) c) else 0).
  match goal with |- exists Z0, fold_res ?f ?l0 ?s0 = _ /\ _ =>
    destruct (fold_res_obs f Inv obs okI dl l0) with (s := s0) as (K & E & [RK CK] & HO) end.
  - intros K [j k] Hin [RK CK].
    assert (Hjk : (j < nsh)%nat /\ (k < nsh)%nat).
    { apply (Permutation_in _ Hord) in Hin. apply in_prod_iff in Hin. rewrite !in_seq in Hin. unfold nsh, sh. lia. }
    destruct (di_K_iteration_ok mabs bk j k K (proj1 Hjk) (proj2 Hjk) Hm HI Hbk RK CK) as (K' & EK & RK' & CK' & VK).
    exists K'. split; [exact EK|]. split; [split; assumption|]. intros [[[i' a] j'] c] (H1 & H2 & H3 & H4). unfold obs, dl. cbn [fst snd]. now apply VK.
  - split; reflexivity.
  - exists K. split; [exact E|]. split; [exact RK|]. split; [exact CK|]. intros i' a j' c Hi' Ha Hj' Hc.
    pose proof (HO (i', a, j', c) (conj Hi' (conj Ha (conj Hj' Hc)))) as V. unfold obs in V. rewrite V. cbn [dzero dent]. unfold mzero. rewrite Rplus_0_l.
    rewrite (lsum_perm _ _ _ Hord).
    transitivity (sum nsh (fun x => sum nsh (fun y => if (Nat.eqb x i' && Nat.eqb y j')%bool then (if skipped x y then 0 else KV x a y c) else 0))).
    + clear. assert (G : forall (l1 l2 : list nat) (f : nat * nat -> R), lsum (list_prod l1 l2) f = lsum l1 (fun x => lsum l2 (fun y => f (x, y)))).
      { intros l1 l2 f. induction l1 as [|x l1 IH]; [reflexivity|]. cbn [list_prod]. rewrite lsum_app, lsum_map, IH. reflexivity. }
      rewrite G, lsum_seq0. apply sum_ext. intros x _. rewrite lsum_seq0. reflexivity.
    + rewrite (sum_pick2 nsh nsh i' j' (fun x y => if skipped x y then 0 else KV x a y c)) by auto. reflexivity.
Qed.
End Loop.

(* ---------- copying the blocks of negative m ---------- *)

Lemma mirror_of_some sh a a' : mirror_of sh a = Some a' ->
  (a' < length sh)%nat /\ l_of sh a' = l_of sh a /\ m_of sh a' = (- m_of sh a)%Z.
Proof.
  unfold mirror_of. intros H. apply find_some in H. destruct H as [H1 H2]. apply in_seq in H1. apply andb_prop in H2. destruct H2 as [H2 H3].
  apply Z.eqb_eq in H2. apply Z.eqb_eq in H3. unfold l_of, m_of. lia.
Qed.

Definition mirrored (sh : list (Z * Z)) (j k : nat) : option (nat * nat) :=
  if ((m_of sh j <? 0) && (m_of sh k <? 0))%bool%Z then
    match mirror_of sh j, mirror_of sh k with Some jm, Some km => Some (jm, km) | _, _ => None end
  else None.

Lemma block_set_ok M f g n m B r c : drows M = r -> dcols M = c -> (f + n <= r)%nat -> (g + m <= c)%nat -> drows B = n -> dcols B = m ->
  exists M', block_set M f g n m B = Ok M' /\ drows M' = r /\ dcols M' = c /\
    forall i j, dent M' i j = if (Nat.leb f i && Nat.ltb i (f + n) && (Nat.leb g j && Nat.ltb j (g + m)))%bool
         then dent B (i - f)%nat (j - g)%nat else dent M i j.
Proof.
  intros Hr Hc Hf Hg HB1 HB2. unfold block_set. rewrite Hr, Hc, HB1, HB2, !Nat.eqb_refl.
  destruct (Nat.leb_spec (f + n) r); [|lia]. destruct (Nat.leb_spec (g + m) c); [|lia]. cbn [andb].
  eexists. split; [reflexivity|]. cbn [drows dcols dent]. auto.
Qed.

Lemma in_window N i' a i : (a < N)%nat -> (Nat.leb (i * N) (fn N i' a) && Nat.ltb (fn N i' a) (i * N + N))%bool = Nat.eqb i' i.
Proof.
  intros Ha. unfold fn. destruct (Nat.eqb_spec i' i) as [->|Hne].
  - destruct (Nat.leb_spec (i * N) (i * N + a)); [|lia]. destruct (Nat.ltb_spec (i * N + a) (i * N + N)); [reflexivity|lia].
  - destruct (Nat.leb_spec (i * N) (i' * N + a)); cbn [andb]; auto. destruct (Nat.ltb_spec (i' * N + a) (i * N + N)); auto. exfalso. apply Hne. nia.
Qed.

Lemma di_mirror_ok sh N K0 : drows K0 = (length sh * N)%nat -> dcols K0 = (length sh * N)%nat ->
  is_shell_matrix (di_mirror sh N K0) (length sh) N (fun j a k c =>
    match mirrored sh j k with Some (jm, km) => dent K0 (fn N jm a) (fn N km c) | None => dent K0 (fn N j a) (fn N k c) end).
Proof.
  intros R0 C0. unfold di_mirror, is_shell_matrix. set (n := length sh) in *.
  set (val := fun (don : nat -> nat -> bool) j a k c => match (if don j k then mirrored sh j k else None) with
     Some (jm, km) => dent K0 (fn N jm a) (fn N km c) | None => dent K0 (fn N j a) (fn N k c) end).
  set (Inv := fun (don : nat -> nat -> bool) (K : dmat) => drows K = (n * N)%nat /\ dcols K = (n * N)%nat /\
     forall j a k c, (j < n)%nat -> (a < N)%nat -> (k < n)%nat -> (c < N)%nat -> dent K (fn N j a) (fn N k c) = val don j a k c).
  assert (Hext : forall d1 d2 K, (forall j k, (j < n)%nat -> (k < n)%nat -> mirrored sh j k <> None -> d1 j k = d2 j k) -> Inv d1 K -> Inv d2 K).
  { intros d1 d2 K Hd (A1 & A2 & A3). split; [exact A1|]. split; [exact A2|]. intros j a k c Hj Ha Hk Hc. rewrite A3 by auto. unfold val.
    destruct (mirrored sh j k) as [[jm km]|] eqn:E; [|destruct (d1 j k), (d2 j k); reflexivity]. rewrite (Hd j k Hj Hk); [reflexivity|congruence]. }
  match goal with |- exists Z0, fold_res ?f ?l0 ?s0 = _ /\ _ =>
    destruct (fold_res_inv (fun done K => Inv (fun j k => if in_dec Nat.eq_dec j done then true else false) K) f l0 s0) as (K & E & HK) end.
  - split; [exact R0|]. split; [exact C0|]. intros. unfold val. reflexivity.
  - intros done j K Hd HK. apply seq_prefix in Hd. destruct Hd as [Hj Hdone]. assert (Hj' : (j < n)%nat) by lia.
    fold (m_of sh j).
    destruct (Z.leb_spec 0 (m_of sh j)) as [Hm|Hm].
    { exists K. split; [reflexivity|]. revert HK. apply Hext. intros j' k' _ _ Hmir.
      destruct (in_dec Nat.eq_dec j' done) as [i1|i1]; destruct (in_dec Nat.eq_dec j' (done ++ [j])) as [i2|i2]; auto.
      - destruct i2. apply in_or_app. now left.
      - apply in_app_or in i2. destruct i2 as [|[->|[]]]; [contradiction|]. exfalso. apply Hmir. unfold mirrored.
        destruct (Z.ltb_spec (m_of sh j') 0); [lia|reflexivity]. }
    destruct (mirror_of sh j) as [jm|] eqn:Ejm.
    2:{ exists K. split; [reflexivity|]. revert HK. apply Hext. intros j' k' _ _ Hmir.
      destruct (in_dec Nat.eq_dec j' done) as [i1|i1]; destruct (in_dec Nat.eq_dec j' (done ++ [j])) as [i2|i2]; auto.
      - destruct i2. apply in_or_app. now left.
      - apply in_app_or in i2. destruct i2 as [|[->|[]]]; [contradiction|]. exfalso. apply Hmir. unfold mirrored. rewrite Ejm.
        destruct (_ && _)%bool; reflexivity. }
    destruct (mirror_of_some sh j jm Ejm) as (Hjm & _ & Mjm).
    match goal with |- exists s', fold_res ?f ?l0 ?s0 = _ /\ _ =>
      destruct (fold_res_inv (fun done2 K => Inv (fun j' k' => if in_dec Nat.eq_dec j' done then true else
          (Nat.eqb j' j && if in_dec Nat.eq_dec k' done2 then true else false)%bool) K) f l0 s0) as (K' & E & HK') end.
    + revert HK. apply Hext. intros j' k' _ _ _. destruct (in_dec Nat.eq_dec j' done); [reflexivity|]. cbn [in_dec]. now rewrite andb_false_r.
    + intros done2 k K1 Hd2 HK1. apply seq_prefix in Hd2. destruct Hd2 as [Hk Hdone2]. assert (Hk' : (k < n)%nat) by lia.
      fold (m_of sh k).
      assert (Hskip : mirrored sh j k = None -> Inv (fun j' k' => if in_dec Nat.eq_dec j' done then true else
          (Nat.eqb j' j && if in_dec Nat.eq_dec k' (done2 ++ [k]) then true else false)%bool) K1).
      { intros Hnone. revert HK1. apply Hext. intros j' k' _ _ Hmir. destruct (in_dec Nat.eq_dec j' done); auto.
        destruct (Nat.eqb_spec j' j) as [->|]; auto. cbn [andb].
        destruct (in_dec Nat.eq_dec k' done2) as [i1|i1]; destruct (in_dec Nat.eq_dec k' (done2 ++ [k])) as [i2|i2]; auto.
        - destruct i2. apply in_or_app. now left.
        - apply in_app_or in i2. destruct i2 as [|[->|[]]]; contradiction. }
      destruct (Z.leb_spec 0 (m_of sh k)) as [Hmk|Hmk].
      { exists K1. split; [reflexivity|]. apply Hskip. unfold mirrored. destruct (Z.ltb_spec (m_of sh k) 0); [lia|]. now rewrite andb_false_r. }
      destruct (mirror_of sh k) as [km|] eqn:Ekm.
      2:{ exists K1. split; [reflexivity|]. apply Hskip. unfold mirrored. rewrite Ejm, Ekm. destruct (_ && _)%bool; reflexivity. }
      destruct (mirror_of_some sh k km Ekm) as (Hkm & _ & Mkm). destruct HK1 as (R1 & C1 & V1).
      rewrite get_block_ok by (rewrite ?R1, ?C1; clear - Hjm Hkm; fold n in Hjm, Hkm; nia). cbn [bind].
      match goal with |- exists s', block_set _ _ _ _ _ ?B = _ /\ _ =>
        destruct (block_set_ok K1 (j * N) (k * N) N N B (n * N) (n * N) R1 C1) as (K2 & E2 & R2 & C2 & V2); [clear - Hj'; nia|clear - Hk'; nia|reflexivity|reflexivity|] end.
      exists K2. split; [exact E2|]. split; [exact R2|]. split; [exact C2|]. intros j' a k' c Hj1 Ha Hk1 Hc. rewrite V2.
      rewrite !in_window by auto. cbn [dent].
      assert (Hmir : mirrored sh j k = Some (jm, km)).
      { unfold mirrored. rewrite Ejm, Ekm. destruct (Z.ltb_spec (m_of sh j) 0); [|lia]. destruct (Z.ltb_spec (m_of sh k) 0); [reflexivity|lia]. }
      destruct (Nat.eqb_spec j' j) as [->|Hnj]; cbn [andb].
      * destruct (Nat.eqb_spec k' k) as [->|Hnk].
        -- replace (fn N j a - j * N)%nat with a by (unfold fn; lia). replace (fn N k c - k * N)%nat with c by (unfold fn; lia).
           fold (fn N jm a). fold (fn N km c). rewrite V1 by auto. unfold val.
           replace (mirrored sh jm km) with (@None (nat * nat)).
           2:{ unfold mirrored. destruct (Z.ltb_spec (m_of sh jm) 0); [lia|reflexivity]. }
           rewrite Hmir.
           destruct (in_dec Nat.eq_dec j done) as [i|_]; [rewrite Hdone in i; apply in_seq in i; lia|]. rewrite Nat.eqb_refl. cbn [andb].
           destruct (in_dec Nat.eq_dec k (done2 ++ [k])) as [_|i]; [|destruct i; apply in_or_app; right; now left].
           destruct (if in_dec Nat.eq_dec jm done then true else _); reflexivity.
        -- rewrite V1 by auto. unfold val. rewrite Nat.eqb_refl. cbn [andb].
           destruct (in_dec Nat.eq_dec j done); auto.
           destruct (in_dec Nat.eq_dec k' done2) as [i1|i1]; destruct (in_dec Nat.eq_dec k' (done2 ++ [k])) as [i2|i2]; auto.
           ++ destruct i2. apply in_or_app. now left.
           ++ apply in_app_or in i2. destruct i2 as [|[->|[]]]; contradiction.
      * rewrite V1 by auto. unfold val. destruct (Nat.eqb_spec j' j); [contradiction|]. reflexivity.
    + exists K'. split; [exact E|]. revert HK'. apply Hext. intros j' k' _ Hk1 _. destruct (in_dec Nat.eq_dec k' (seq 0 n)) as [_|i]; [|destruct i; apply in_seq; lia].
      rewrite andb_true_r.
      destruct (in_dec Nat.eq_dec j' done) as [i1|i1]; destruct (in_dec Nat.eq_dec j' (done ++ [j])) as [i2|i2]; auto.
      * destruct i2. apply in_or_app. now left.
      * apply in_app_or in i2. destruct i2 as [|[->|[]]]; [contradiction|]. apply Nat.eqb_refl.
      * destruct (Nat.eqb_spec j' j) as [->|]; auto. destruct i2. apply in_or_app. right. now left.
  - destruct HK as (RK & CK & VK). exists K. split; [exact E|]. split; [exact RK|]. split; [exact CK|]. intros j a k c Hj Ha Hk Hc.
    rewrite VK by auto. unfold val. destruct (in_dec Nat.eq_dec j (seq 0 n)) as [_|i]; [|destruct i; apply in_seq; lia]. reflexivity.
Qed.
