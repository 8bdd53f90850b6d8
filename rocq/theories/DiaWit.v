(** Concrete cases for the Coulomb and exchange matrices of a diatomic basis, and what the
    shortcut for densities that are the same for m and -m does otherwise. *)
Require Import Reals ZArith List Bool Arith Lia Lra Permutation.
Require Import Verif.Prelude Verif.AngModel Verif.AngSpec Verif.AngProofs Verif.CholModel Verif.CholSpec
  Verif.JKModel Verif.JKSpec Verif.GauntModel Verif.GauntSpec Verif.GauntProofs
  Verif.TwoDModel Verif.TwoDSpec Verif.TeiModel Verif.TeiSpec Verif.LegWit Verif.LegPos Verif.TeiWit Verif.DiaModel Verif.DiaSpec Verif.DiaProofs Verif.DiaExch Verif.DiaMirror Verif.DiaLink Verif.DiaSym.
Import ListNotations.
Local Open Scope R_scope.

(** Whatever the density, the shortcut leaves zero between m < 0 and m >= 0. *)
Lemma mixed_zero b s lm lM I order P : dbasis_ok b -> build_tables (db_sh b) = Ok (lm, lM) -> stores b s lm I ->
  density (dia_size b) P -> all_pairs b order -> db_absm b = true ->
  exists K, di_exchange b s order P = Ok K /\ forall r t, (r < dia_size b)%nat -> (t < dia_size b)%nat ->
    (m_of (db_sh b) (sh_ix b r) < 0 <= m_of (db_sh b) (sh_ix b t))%Z -> dent K r t = 0.
Proof.
  intros Hb Etab Hst HP Hord Habs. assert (HN : (0 < lnbf (db_lay b))%nat) by apply Hb.
  destruct (di_exchange_shells b s lm lM I (Lmax_of b) order P Hb Etab Hst HP (Z.le_refl _) Hord) as (Q & r & HE & (K & -> & RK & CK & VK) & E).
  rewrite E, Habs. cbn [bind].
  pose proof (di_mirror_ok (db_sh b) (lnbf (db_lay b)) K RK CK) as HM.
  destruct (remove_shell b _ _ HN HM) as (M & EM & RM & CM & VM). exists M. split; [exact EM|].
  intros x y Hx Hy [H1 H2]. rewrite VM by auto.
  destruct (sh_rad b x HN Hx) as (Hj & Ha & _). destruct (sh_rad b y HN Hy) as (Hk & Hc & _).
  unfold mirrored. destruct (Z.ltb_spec (m_of (db_sh b) (sh_ix b y)) 0); [lia|]. rewrite andb_false_r.
  rewrite VK by auto. unfold skipped. rewrite Habs. destruct (Z.ltb_spec (m_of (db_sh b) (sh_ix b x)) 0); [|lia]. reflexivity.
Qed.

(* ---------- a basis with three shells ---------- *)

Definition wsh : list (Z * Z) := [(0, 0); (1, -1); (1, 1)]%Z.
Definition wlay (nel : nat) : layout := mkLayout nel (nel + 1) (fun e => (e, 2)%nat).
Definition wb (absm : bool) (nel : nat) : dbasis := mkDB wsh (wlay nel) 1 sample_eval 0 absm.
Definition wlm0 : list (Z * Z) := match build_tables wsh with Ok (lm, _) => lm | _ => [] end.
Definition wlM0 : list (Z * Z) := match build_tables wsh with Ok (_, lM) => lM | _ => [] end.
Lemma wtables : build_tables wsh = Ok (wlm0, wlM0).
Proof. vm_compute. reflexivity. Qed.

(** Kernels of rank one that vanish except for L = 0 and the second channel. *)
Definition wv (L : Z) (x : nat) : R := if ((L =? 0)%Z && Nat.leb 4 x)%bool then 1 else 0.
Definition wI : integrals := mkInt (fun _ _ ch _ _ _ => INR (ch + 1)) (fun _ _ ch _ _ _ => INR (ch + 3)) (fun L _ _ x y => wv L x * wv L y).
Definition wstate (nel : nat) : dstate := mkDS (nel * length wlm0) (fun a i =>
  if Nat.ltb a 4 then mkD 2 2 (fun _ _ => INR (a + 1))
  else if Nat.eqb a 4 then mkD 8 1 (fun x _ => wv (fst (nth (i / nel) wlm0 (0, 0)%Z)) x)
  else mkD 1 1 (fun _ _ => 1)).

Lemma wb_ok absm nel : (0 < nel)%nat -> dbasis_ok (wb absm nel).
Proof.
  intros H. split; [|split; [exact sample_ok|split; [|cbn [wb db_lay wlay lnel lnbf]; lia]]].
  - split; [discriminate|]. intros l m [E|[E|[E|[]]]]; injection E as <- <-; cbn; lia.
  - intros e He. cbn [wb db_lay wlay lnel lnbf] in *. unfold first_of, count_of. cbn [wlay lidx fst snd]. lia.
Qed.

Lemma wstores absm nel : (0 < nel)%nat -> stores (wb absm nel) (wstate nel) wlm0 wI.
Proof.
  intros Hnel. split; [reflexivity|]. intros ilm e L Ma En He. cbn [wb db_lay wlay lnel] in *.
  assert (Hc : count_of (wlay nel) e = 2%nat) by (reflexivity). rewrite Hc.
  assert (Hil : (ilm < length wlm0)%nat) by (apply nth_error_Some; congruence).
  assert (Hlt : (ilm * nel + e < nel * length wlm0)%nat) by nia.
  assert (Hdiv : ((ilm * nel + e) / nel = ilm)%nat) by (rewrite Nat.add_comm, Nat.div_add by lia; rewrite Nat.div_small; lia).
  split.
  - intros ch Hch. unfold supplies, arr. cbn [wstate ds_size ds_mem].
    destruct (Nat.ltb_spec (ilm * nel + e) (nel * length wlm0)); [|lia].
    destruct (Nat.ltb_spec ch 4); [|lia]. destruct (Nat.ltb_spec (2 + ch) 4); [|lia].
    split; [eexists; split; [reflexivity|]; cbn [drows dcols dent wI in_P]; auto|].
    split; [intros i j _ _; reflexivity|].
    split; [eexists; split; [reflexivity|]; cbn [drows dcols dent wI in_Q]; split; [reflexivity|]; split; [reflexivity|]; intros; f_equal; lia|].
    intros i j _ _; reflexivity.
  - cbn [wstate ds_mem Nat.ltb Nat.leb Nat.eqb drows dcols dent]. split; [reflexivity|]. split; [reflexivity|]. split; [reflexivity|].
    intros x y Hx Hy. rewrite Hdiv. rewrite (nth_error_nth wlm0 ilm (0, 0)%Z En). cbn [sum wI in_W fst]. ring.
Qed.

Lemma weven absm nel : (0 < nel)%nat -> pair_even (wb absm nel) wlm0 wI.
Proof.
  intros Hnel L Ma e ch x y z _ He Hch n Hx Hy Hz. cbn [wb db_lay wlay lnel] in *.
  assert (Hc : n = 2%nat) by reflexivity. clearbody n. subst n. cbn [wI in_W]. f_equal.
  unfold wv, pair_ix. f_equal. f_equal. assert (E1 : ch = 0%nat \/ ch = 1%nat) by lia.
  destruct E1 as [-> | ->].
  - destruct (Nat.leb_spec 4 (0 * (2 * 2) + (y * 2 + x))); destruct (Nat.leb_spec 4 (0 * (2 * 2) + (x * 2 + y))); auto; lia.
  - destruct (Nat.leb_spec 4 (1 * (2 * 2) + (y * 2 + x))); destruct (Nat.leb_spec 4 (1 * (2 * 2) + (x * 2 + y))); auto; lia.
Qed.

Lemma wpaired : paired_shells wsh.
Proof.
  split.
  - unfold wsh. repeat constructor; cbn; intros H; repeat (destruct H as [H|H]; [discriminate H|]); contradiction.
  - intros l m [E|[E|[E|[]]]]; injection E as <- <-; cbn; auto.
Qed.

(** The unit matrix as density. *)
Definition wunit (n : nat) : dmat := mkD n n (fun r t => if Nat.eqb r t then 1 else 0).
Definition worder : list (nat * nat) := rev (list_prod (seq 0 3) (seq 0 3)).
Lemma worder_ok absm nel : all_pairs (wb absm nel) worder.
Proof. unfold all_pairs, worder. cbn [wb db_sh wsh length]. apply Permutation_sym, Permutation_rev. Qed.

(** Functions with equal shell and radial function are equal. *)
Lemma same_function b r t : (0 < lnbf (db_lay b))%nat -> (r < dia_size b)%nat -> (t < dia_size b)%nat -> sh_ix b r = sh_ix b t -> rad_ix b r = rad_ix b t -> r = t.
Proof.
  intros HN Hr Ht E1 E2. destruct (sh_rad b r HN Hr) as (_ & _ & F1). destruct (sh_rad b t HN Ht) as (_ & _ & F2).
  apply (proj1 (NoDup_nth (survivors b) 0%nat) (surv_nodup b)); [exact Hr|exact Ht|]. now rewrite F1, F2, E1, E2.
Qed.

Lemma mirror_back b r t r' t' : dbasis_ok b -> paired_shells (db_sh b) -> mirror_functions b r r' -> mirror_functions b t t' -> r' = t' -> r = t.
Proof.
  intros Hb [Hn _] (R1 & R2 & R3 & R4 & R5) (T1 & T2 & T3 & T4 & T5) <-.
  assert (HN : (0 < lnbf (db_lay b))%nat) by apply Hb.
  apply (same_function b); auto; [|lia].
  destruct (sh_rad b r HN R1) as (Hj & _). destruct (sh_rad b t HN T1) as (Hk & _).
  apply (proj1 (NoDup_nth (db_sh b) (0, 0)%Z) Hn); [exact Hj|exact Hk|]. unfold l_of, m_of in *. apply injective_projections; lia.
Qed.
Lemma wunit_ok b : dbasis_ok b -> paired_shells (db_sh b) ->
  density (dia_size b) (wunit (dia_size b)) /\ symmetric (dia_size b) (dent (wunit (dia_size b))) /\
  mirror_symmetric b (dent (wunit (dia_size b))) /\ m_diagonal b (dent (wunit (dia_size b))).
Proof.
  intros Hb Hp. cbn [wunit dent]. split; [split; reflexivity|]. split; [|split].
  - intros i j _ _. now rewrite Nat.eqb_sym.
  - intros r t r' t' Hr Ht. assert (HN : (0 < lnbf (db_lay b))%nat) by apply Hb.
    destruct (Nat.eqb_spec r t) as [->|Hne].
    + destruct (Nat.eqb_spec r' t'); auto. exfalso. apply n.
      destruct Hr as (R1 & R2 & R3 & R4 & R5). destruct Ht as (T1 & T2 & T3 & T4 & T5). apply (same_function b); auto; [|lia].
      destruct (sh_rad b r' HN R2) as (Hj & _). destruct (sh_rad b t' HN T2) as (Hk & _).
      apply (proj1 (NoDup_nth (db_sh b) (0, 0)%Z) (proj1 Hp)); [exact Hj|exact Hk|]. unfold l_of, m_of in *. apply injective_projections; lia.
    + destruct (Nat.eqb_spec r' t') as [E|]; auto. exfalso. apply Hne. exact (mirror_back b r t r' t' Hb Hp Hr Ht E).
  - intros r t _ _ Hm. destruct (Nat.eqb_spec r t) as [->|]; [now contradiction Hm|reflexivity].
Qed.

Lemma case_matrices absm : let b := wb absm 2 in
  dbasis_ok b /\ build_tables (db_sh b) = Ok (wlm0, wlM0) /\ stores b (wstate 2) wlm0 wI /\ pair_even b wlm0 wI /\ dia_size b = 7%nat /\
  density (dia_size b) (wunit (dia_size b)) /\ symmetric (dia_size b) (dent (wunit (dia_size b))) /\ all_pairs b worder /\
  paired_shells (db_sh b) /\ mirror_symmetric b (dent (wunit (dia_size b))) /\ m_diagonal b (dent (wunit (dia_size b))).
Proof.
  intros b. assert (Hb : dbasis_ok b) by (apply wb_ok; lia). destruct (wunit_ok b Hb wpaired) as (A1 & A2 & A3 & A4).
  split; [exact Hb|]. split; [exact wtables|]. split; [apply wstores; lia|]. split; [apply weven; lia|]. split; [reflexivity|].
  split; [exact A1|]. split; [exact A2|]. split; [apply worder_ok|]. split; [exact wpaired|]. now split.
Qed.

(* ---------- the shortcut outside of its domain ---------- *)

(** One element, functions 0, 1 with m = 0, 2 with m = -1 and 3 with m = 1; a density
    that is the same for m and -m and mixes m. *)
Definition wmix : dmat := mkD 4 4 (fun r t => if (Nat.eqb r 0 && Nat.leb 2 t || Nat.leb 2 r && Nat.eqb t 0)%bool then 1 else 0).

Lemma wfun absm : let b := wb absm 1 in dia_size b = 4%nat /\ map (sh_ix b) (seq 0 4) = [0; 0; 1; 2]%nat /\ map (rad_ix b) (seq 0 4) = [0; 1; 1; 1]%nat.
Proof. cbv zeta. split; [reflexivity|]. split; reflexivity. Qed.

Lemma wmix_sym absm : mirror_symmetric (wb absm 1) (dent wmix).
Proof.
  intros r t r' t' (R1 & R2 & R3 & R4 & R5) (T1 & T2 & T3 & T4 & T5). change (dia_size (wb absm 1)) with 4%nat in *.
  assert (Hr : r = 0%nat /\ r' = 0%nat \/ r = 1%nat /\ r' = 1%nat \/ (2 <= r)%nat /\ (2 <= r')%nat).
  { destruct r as [|[|[|[|]]]]; destruct r' as [|[|[|[|]]]]; try lia; cbn in R3, R4, R5; lia. }
  assert (Ht : t = 0%nat /\ t' = 0%nat \/ t = 1%nat /\ t' = 1%nat \/ (2 <= t)%nat /\ (2 <= t')%nat).
  { destruct t as [|[|[|[|]]]]; destruct t' as [|[|[|[|]]]]; try lia; cbn in T3, T4, T5; lia. }
  cbn [wmix dent]. clear - Hr Ht R1 R2 T1 T2.
  destruct r as [|[|[|[|]]]]; destruct r' as [|[|[|[|]]]]; try lia; destruct t as [|[|[|[|]]]]; destruct t' as [|[|[|[|]]]]; try lia; reflexivity.
Qed.

Lemma wintegral absm r t u v : (r < 4)%nat -> (t < 4)%nat -> (u < 4)%nat -> (v < 4)%nat ->
  let b := wb absm 1 in
  let m := fun x => m_of wsh (sh_ix b x) in let l := fun x => l_of wsh (sh_ix b x) in
  dia_integral b wI 4 r t u v = if ((m u - m v =? m t - m r) && (m t - m r =? 0))%bool%Z then
    4 * PI * (gaunt_coefficient sample_eval (l t) (m t) 0 0 (l r) (m r) * gaunt_coefficient sample_eval (l u) (m u) 0 0 (l v) (m v)) else 0.
Proof.
  intros Hr Ht Hu Hv b m l. unfold dia_integral, dia_tensor. cbn [b wb db_sh db_lay db_Rhalf db_eval]. fold b.
  fold (m r) (m t) (m u) (m v) (l r) (l t) (l u) (l v).
  destruct (Z.eqb_spec (m u - m v) (m t - m r)) as [E|E]; cbn [andb]; [|reflexivity].
  assert (HR : forall L Ma ch ch', radial_tensor (wlay 1) wI L Ma ch ch' (rad_ix b r) (rad_ix b t) (rad_ix b u) (rad_ix b v) =
     if ((L =? 0)%Z && Nat.leb 1 ch && Nat.leb 1 ch')%bool then 1 else 0).
  { intros L Ma ch ch'. unfold radial_tensor, tensor. cbn [wlay lnel sum]. rewrite !Rplus_0_l.
    assert (Hin : forall x, (x < 4)%nat -> inside (wlay 1) 0 (rad_ix b x) = true /\ local (wlay 1) 0 (rad_ix b x) = rad_ix b x /\ (rad_ix b x < 2)%nat).
    { intros x Hx. destruct x as [|[|[|[|]]]]; try lia; cbn; auto. }
    destruct (Hin r Hr) as (-> & -> & B1). destruct (Hin t Ht) as (-> & -> & B2). destruct (Hin u Hu) as (-> & -> & B3). destruct (Hin v Hv) as (-> & -> & B4).
    cbn [andb]. unfold two_block. rewrite Nat.eqb_refl. change (count_of (wlay 1) 0) with 2%nat. cbn [wI in_W]. unfold wv, pair_ix.
    assert (G : forall c x y, (x < 2)%nat -> (y < 2)%nat -> Nat.leb 4 (c * (2 * 2) + (y * 2 + x)) = Nat.leb 1 c).
    { intros c x y Hx Hy. destruct c as [|c]; [|destruct (Nat.leb_spec 4 (S c * (2 * 2) + (y * 2 + x))); [reflexivity|lia]].
      destruct (Nat.leb_spec 4 (0 * (2 * 2) + (y * 2 + x))); [lia|reflexivity]. }
    rewrite !G by auto. destruct (L =? 0)%Z; cbn [andb]; [|ring]. destruct (Nat.leb 1 ch), (Nat.leb 1 ch'); cbn [andb]; ring. }
  destruct (Z.eqb_spec (m t - m r) 0) as [E0|E0].
  - rewrite E0. change (zrange (Z.abs 0) 4) with [0; 1; 2; 3; 4]%Z. cbn [lsum sum]. rewrite !HR. cbn [Z.eqb andb Nat.leb].
    assert (F0 : multipole_factor 1 0 0 = 4 * PI).
    { unfold multipole_factor. change (Z.odd 0) with false. cbn. field. }
    rewrite F0. unfold channel_coupling. cbn [Nat.eqb]. ring.
  - apply lsum_zero. intros L HL. apply zrange_in in HL. rewrite sum_zero'; [ring|]. intros ch _. apply sum_zero'. intros ch' _. rewrite HR.
    destruct (Z.eqb_spec L 0); [lia|]. cbn [andb]. ring.
Qed.

Lemma wmix_exact absm : dia_K (wb absm 1) wI 4 (dent wmix) 2 0 = 52 * PI.
Proof.
  unfold dia_K. change (dia_size (wb absm 1)) with 4%nat.
  transitivity (- (dia_integral (wb absm 1) wI 4 2 2 0 0 + dia_integral (wb absm 1) wI 4 3 2 0 0 + dia_integral (wb absm 1) wI 4 0 2 0 2 + dia_integral (wb absm 1) wI 4 0 2 0 3)).
  { cbn [sum wmix dent Nat.eqb Nat.leb andb orb]. ring. }
  rewrite !wintegral by lia. cbn -[gaunt_coefficient PI]. unfold gaunt_coefficient, parity_sign, sample_eval. cbn -[PI]. ring.
Qed.

Lemma unscreened b P r t : db_thr b <= 0 -> dia_screened b P r t = P r t.
Proof. intros H. unfold dia_screened. destruct (Rltb_spec (shell_norm b P (sh_ix b r) (sh_ix b t)) (db_thr b)) as [H1|]; [|reflexivity].
  pose proof (sqrt_pos (sum (dia_size b) (fun u => sum (dia_size b) (fun v =>
    if (Nat.eqb (sh_ix b u) (sh_ix b r) && Nat.eqb (sh_ix b v) (sh_ix b t))%bool then P u v * P u v else 0)))). unfold shell_norm in H1. lra.
Qed.

Lemma shortcut_refuted : exists b s lm lM I order P, dbasis_ok b /\ build_tables (db_sh b) = Ok (lm, lM) /\ stores b s lm I /\
  density (dia_size b) P /\ symmetric (dia_size b) (dent P) /\ all_pairs b order /\
  db_absm b = true /\ paired_shells (db_sh b) /\ mirror_symmetric b (dent P) /\
  exists K r t, di_exchange b s order P = Ok K /\ (r < dia_size b)%nat /\ (t < dia_size b)%nat /\
    dent K r t = 0 /\ dia_K b I (Lmax_of b) (dia_screened b (dent P)) r t <> 0.
Proof.
  exists (wb true 1), (wstate 1), wlm0, wlM0, wI, worder, wmix.
  assert (Hb : dbasis_ok (wb true 1)) by (apply wb_ok; lia). assert (Hst : stores (wb true 1) (wstate 1) wlm0 wI) by (apply wstores; lia).
  assert (HP : density (dia_size (wb true 1)) wmix) by (split; reflexivity).
  split; [exact Hb|]. split; [exact wtables|]. split; [exact Hst|]. split; [exact HP|].
  split; [intros i j _ _; cbn [wmix dent]; rewrite orb_comm, (andb_comm (Nat.leb 2 i)), (andb_comm (Nat.eqb i 0)); reflexivity|].
  split; [apply worder_ok|]. split; [reflexivity|]. split; [exact wpaired|]. split; [apply wmix_sym|].
  destruct (mixed_zero (wb true 1) (wstate 1) wlm0 wlM0 wI worder wmix Hb wtables Hst HP (worder_ok true 1) eq_refl) as (K & EK & HK).
  exists K, 2%nat, 0%nat. split; [exact EK|]. change (dia_size (wb true 1)) with 4%nat in *. split; [lia|]. split; [lia|].
  split; [apply HK; [lia|lia|vm_compute; split; [reflexivity|discriminate]]|].
  replace (dia_K (wb true 1) wI (Lmax_of (wb true 1)) (dia_screened (wb true 1) (dent wmix)) 2 0) with (52 * PI).
  - pose proof PI_RGT_0. lra.
  - rewrite <- (wmix_exact true). unfold dia_K. f_equal. apply sum_ext. intros u _. apply sum_ext. intros v _.
    rewrite unscreened by (cbn [wb db_thr]; lra). reflexivity.
Qed.

(** The integrals of the case of the precomputation fit a basis. *)
Definition wb1 : dbasis := mkDB [(0, 0); (1, -1)]%Z (mkLayout 2 2 (fun e => (e, 1)%nat)) 1 sample_eval 0 false.
Lemma case_computed : legendre_ok LegPos.ratio 1 LegWit.Pfam LegWit.Qfam /\ elements_ok wrb /\ numerics_ok wrb /\ dbasis_ok wb1 /\ radial_of wb1 wrb /\
  exists lm lM, build_tables (db_sh wb1) = Ok (lm, lM) /\ (2 < length lm)%nat.
Proof.
  destruct case_ok as (A1 & _ & A3 & A4 & _). split; [exact A1|]. split; [exact A3|]. split; [exact A4|]. split; [|split].
  - split; [|split; [exact sample_ok|split; [|cbn; lia]]].
    + split; [discriminate|]. intros l m [E|[E|[]]]; injection E as <- <-; cbn; lia.
    + intros e He. cbn in He |- *. lia.
  - split; [reflexivity|]. intros e _. reflexivity.
  - eexists. eexists. split; [vm_compute; reflexivity|]. cbn. lia.
Qed.
