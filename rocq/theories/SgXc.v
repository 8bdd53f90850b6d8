(** The functional on the points of one element, for any arguments. *)
Require Import Reals ZArith List Bool Arith Lia Lra Permutation.
Require Import Verif.Prelude Verif.FEModel Verif.FESpec Verif.AngModel Verif.AngProofs Verif.JKModel Verif.DftModel Verif.DftSpec Verif.DftProofs Verif.DftXc Verif.DftFock.
Import ListNotations.
Local Open Scope R_scope.

(** The buffers hold the arguments of the functional. *)
Record arg_rep (fl : flags) (N : nat) (pol : bool) (A : nat -> xargs) (d : densb) : Prop := {
  ag_pol : d_pol d = pol;
  ag_len : forall ip, (ip < N)%nat -> length (a_rho (A ip)) = nspin pol /\ length (a_sigma (A ip)) = nsigma pol /\
                                      length (a_lapl (A ip)) = nspin pol /\ length (a_tau (A ip)) = nspin pol;
  ag_rho : is_mat (d_rho d) (nspin pol) N (fun s ip => nth s (a_rho (A ip)) 0);
  ag_sigma : f_grad fl = true -> is_mat (d_sigma d) (nsigma pol) N (fun s ip => nth s (a_sigma (A ip)) 0);
  ag_tau : f_tau fl = true -> is_mat (d_tau d) (nspin pol) N (fun s ip => nth s (a_tau (A ip)) 0);
  ag_lapl : f_lapl fl = true -> is_mat (d_lapl d) (nspin pol) N (fun s ip => nth s (a_lapl (A ip)) 0) }.
Lemma column_args M k N (h : nat -> list R) ip : is_mat M k N (fun s ip => nth s (h ip) 0) -> (ip < N)%nat -> length (h ip) = k -> column M ip = h ip.
Proof. intros HM Hp Hl. rewrite (column_ok _ _ _ _ ip HM Hp), <- Hl. apply map_nth_seq. Qed.

Section Xc.
Variables (lib : libxc) (fl : flags) (g : gridb) (N : nat) (pol : bool) (A : nat -> xargs) (thr : R).
Hypothesis HG : g_n g = N.
Hypothesis HF : flags_ok fl.
Variable d : densb.
Hypothesis HD : arg_rep fl N pol A d.

Record sx_rep (l : list (Z * list R)) (x : xcb) : Prop := {
  sx_gga : x_gga x = usesl l (is_gga lib);
  sx_mt : x_mt x = usesl l (is_tau lib);
  sx_ml : x_ml x = usesl l (is_lapl lib);
  sx_exc : is_mat (x_exc x) 1 N (fun _ ip => overl lib pol thr l (xc_have_exc lib) o_exc (A ip));
  sx_vrho : is_mat (x_vrho x) (nspin pol) N (fun s ip => overl lib pol thr l (fun _ => true) (fun o => o_vrho o s) (A ip));
  sx_vsigma : f_grad fl = true -> is_mat (x_vsigma x) (nsigma pol) N (fun s ip => overl lib pol thr l (is_gga lib) (fun o => o_vsigma o s) (A ip));
  sx_vtau : f_tau fl = true -> is_mat (x_vtau x) (nspin pol) N (fun s ip => overl lib pol thr l (is_tau lib) (fun o => o_vtau o s) (A ip));
  sx_vlapl : f_lapl fl = true -> is_mat (x_vlapl x) (nspin pol) N (fun s ip => overl lib pol thr l (is_lapl lib) (fun o => o_vlapl o s) (A ip)) }.

Lemma sg_init_xc_ok x : exists x', init_xc (mkW fl g d x) = mkW fl g d x' /\ sx_rep [] x'.
Proof.
  unfold init_xc. cbn [w_fl w_g w_d w_x]. rewrite HG, (ag_pol _ _ _ _ _ HD).
  eexists; split; [reflexivity|]. constructor; cbn; try reflexivity; try (repeat split; fail);
    intros ->; repeat split.
Qed.

(** libxc sees the values of the specification. *)
Lemma sg_call_ok ip0 gga ip : part_ok lib ip0 -> is_gga_mgga lib (fst ip0) = Ok (gga, is_tau lib (fst ip0), is_lapl lib (fst ip0)) ->
  (is_gga lib (fst ip0) = true -> f_grad fl = true) -> (is_tau lib (fst ip0) = true -> f_tau fl = true) ->
  (is_lapl lib (fst ip0) = true -> f_lapl fl = true) -> (ip < N)%nat ->
  call_xc lib (fst ip0) (snd ip0) thr gga (is_tau lib (fst ip0)) (is_lapl lib (fst ip0)) d ip
  = xc_at lib pol thr (fst ip0) (snd ip0) (A ip).
Proof.
  intros (A0 & B & C & D & E) K Hg Ht Hl Hp. unfold call_xc, xc_at. rewrite (ag_pol _ _ _ _ _ HD).
  assert (Er : column (d_rho d) ip = a_rho (A ip)).
  { apply (column_args _ _ _ _ ip (ag_rho _ _ _ _ _ HD) Hp); apply (ag_len _ _ _ _ _ HD ip Hp). }
  assert (Es : is_gga lib (fst ip0) = true -> column (d_sigma d) ip = a_sigma (A ip)).
  { intros H. apply (column_args _ _ _ _ ip (ag_sigma _ _ _ _ _ HD (Hg H)) Hp); apply (ag_len _ _ _ _ _ HD ip Hp). }
  assert (Et : is_tau lib (fst ip0) = true -> column (d_tau d) ip = a_tau (A ip)).
  { intros H. apply (column_args _ _ _ _ ip (ag_tau _ _ _ _ _ HD (Ht H)) Hp); apply (ag_len _ _ _ _ _ HD ip Hp). }
  assert (El : is_lapl lib (fst ip0) = true -> column (d_lapl d) ip = a_lapl (A ip)).
  { intros H. apply (column_args _ _ _ _ ip (ag_lapl _ _ _ _ _ HD (Hl H)) Hp); apply (ag_len _ _ _ _ _ HD ip Hp). }
  unfold is_gga_mgga in K. rewrite with_func_ok in K by auto.
  unfold is_tau, is_lapl, is_gga in *. destruct (xc_family lib (fst ip0)).
  - inversion K. cbn. rewrite Er. reflexivity.
  - inversion K. cbn. rewrite Er, Es by auto. reflexivity.
  - rewrite Er, Es by auto.
    destruct (D eq_refl) as [H|H]; rewrite H.
    + rewrite Et by auto. cbn [orb]. destruct (xc_lapl lib (fst ip0)); [rewrite El by auto|]; reflexivity.
    + rewrite El by auto. rewrite orb_true_r. destruct (xc_tau lib (fst ip0)); [rewrite Et by auto|]; reflexivity.
  - congruence.
Qed.

Lemma sg_compute_xc_ok l ip0 x : part_ok lib ip0 ->
  (is_gga lib (fst ip0) = true -> f_grad fl = true) -> (is_tau lib (fst ip0) = true -> f_tau fl = true) ->
  (is_lapl lib (fst ip0) = true -> f_lapl fl = true) -> sx_rep l x ->
  exists x', compute_xc lib (fst ip0) (snd ip0) thr true (mkW fl g d x) = Ok (mkW fl g d x') /\ sx_rep (l ++ [ip0]) x'.
Proof.
  intros HP Hg Ht Hl HX. destruct (kind_ok lib ip0 HP) as (gga & K & Kany).
  unfold compute_xc. rewrite K. cbn [bind w_g w_d w_x w_fl]. unfold has_exc.
  assert (HP' := HP). destruct HP' as (A0 & B & C & D & E).
  rewrite with_func_ok by auto. cbn [bind]. rewrite B. cbn [negb].
  assert (Ep : (match snd ip0 with [] => false | _ => negb (Nat.eqb (length (snd ip0)) (xc_npar lib (fst ip0))) end) = false).
  { destruct (snd ip0) eqn:Es; [reflexivity|]. destruct E as [E|E]; [discriminate|]. rewrite <- E, Nat.eqb_refl. reflexivity. }
  rewrite Ep, HG, (ag_pol _ _ _ _ _ HD), Kany.
  assert (Imp : forall (b c : bool), (b = true -> c = true) -> implb b c = true) by (intros [] []; cbn; auto).
  rewrite (sized_ok _ _ _ _ (ag_rho _ _ _ _ _ HD)).
  rewrite (Imp (is_gga lib (fst ip0))) by (intros H; apply (sized_ok _ _ _ _ (ag_sigma _ _ _ _ _ HD (Hg H)))).
  rewrite (Imp (is_lapl lib (fst ip0))) by (intros H; apply (sized_ok _ _ _ _ (ag_lapl _ _ _ _ _ HD (Hl H)))).
  rewrite (Imp (is_tau lib (fst ip0))) by (intros H; apply (sized_ok _ _ _ _ (ag_tau _ _ _ _ _ HD (Ht H)))).
  cbn [negb andb].
  rewrite (sized_ok _ _ _ _ (sx_exc _ _ HX)), (sized_ok _ _ _ _ (sx_vrho _ _ HX)).
  rewrite (Imp (is_gga lib (fst ip0))) by (intros H; apply (sized_ok _ _ _ _ (sx_vsigma _ _ HX (Hg H)))).
  rewrite (Imp (is_lapl lib (fst ip0))) by (intros H; apply (sized_ok _ _ _ _ (sx_vlapl _ _ HX (Hl H)))).
  rewrite (Imp (is_tau lib (fst ip0))) by (intros H; apply (sized_ok _ _ _ _ (sx_vtau _ _ HX (Ht H)))).
  cbn [negb andb]. eexists; split; [reflexivity|].
  assert (Hcall := fun ip => sg_call_ok ip0 gga ip HP K Hg Ht Hl).
  assert (Hadd : forall (c : bool) (cz : Z -> bool) Am r f, c = cz (fst ip0) ->
    is_mat Am r N (fun s ip => overl lib pol thr l cz (fun o => f o s) (A ip)) ->
    is_mat (if c then mkD (drows Am) (dcols Am) (fun i ip => dent Am i ip +
        f (call_xc lib (fst ip0) (snd ip0) thr gga (is_tau lib (fst ip0)) (is_lapl lib (fst ip0)) d ip) i) else Am)
      r N (fun s ip => overl lib pol thr (l ++ [ip0]) cz (fun o => f o s) (A ip))).
  { intros c cz Am r f Ec (H1 & H2 & H3). rewrite Ec. destruct (cz (fst ip0)) eqn:Ecz.
    - split; [exact H1|split; [exact H2|]]. intros i ip Hi Hp. cbn [dent]. rewrite H3, overl_snoc, Ecz, Hcall by auto. reflexivity.
    - split; [exact H1|split; [exact H2|]]. intros i ip Hi Hp. rewrite H3, overl_snoc, Ecz by auto. ring. }
  constructor; cbn [x_gga x_mt x_ml x_exc x_vrho x_vsigma x_vtau x_vlapl].
  - rewrite usesl_snoc, (sx_gga _ _ HX). reflexivity.
  - rewrite usesl_snoc, (sx_mt _ _ HX). reflexivity.
  - rewrite usesl_snoc, (sx_ml _ _ HX). reflexivity.
  - apply (Hadd _ (xc_have_exc lib) (x_exc x) 1%nat (fun o _ => o_exc o)); [reflexivity|apply (sx_exc _ _ HX)].
  - apply (Hadd true (fun _ => true) (x_vrho x) _ o_vrho); [reflexivity|apply (sx_vrho _ _ HX)].
  - intros H. apply (Hadd (is_gga lib (fst ip0)) (is_gga lib) (x_vsigma x) _ o_vsigma); [reflexivity|apply (sx_vsigma _ _ HX H)].
  - intros H. apply (Hadd (is_tau lib (fst ip0)) (is_tau lib) (x_vtau x) _ o_vtau); [reflexivity|apply (sx_vtau _ _ HX H)].
  - intros H. apply (Hadd (is_lapl lib (fst ip0)) (is_lapl lib) (x_vlapl x) _ o_vlapl); [reflexivity|apply (sx_vlapl _ _ HX H)].
Qed.
End Xc.

Lemma sg_run_xc_ok lib fn g N pol A d x : functional_ok lib fn -> g_n g = N ->
  arg_rep (fn_flags lib fn) N pol A d ->
  exists x', run_xc lib fn (mkW (fn_flags lib fn) g d x) = Ok (mkW (fn_flags lib fn) g d x') /\
    sx_rep lib (fn_flags lib fn) N pol A (fn_thr fn) (parts fn) x'.
Proof.
  intros HFn HG HD. assert (HP := parts_ok lib fn HFn). unfold run_xc.
  destruct (sg_init_xc_ok lib (fn_flags lib fn) g N pol A (fn_thr fn) HG d HD x) as (x0 & E0 & H0). rewrite E0.
  assert (Hu : forall (c : Z -> bool) ip, In ip (parts fn) -> c (fst ip) = true -> uses fn c = true).
  { intros c ip Hi Hc. apply existsb_exists. exists ip. auto. }
  assert (Step : forall l ip x, In ip (parts fn) -> sx_rep lib (fn_flags lib fn) N pol A (fn_thr fn) l x ->
    exists x', compute_xc lib (fst ip) (snd ip) (fn_thr fn) true (mkW (fn_flags lib fn) g d x) = Ok (mkW (fn_flags lib fn) g d x') /\
      sx_rep lib (fn_flags lib fn) N pol A (fn_thr fn) (l ++ [ip]) x').
  { intros l ip y Hi Hy. apply sg_compute_xc_ok; auto; intros Hc; [apply (Hu (is_gga lib) ip)|apply (Hu (is_tau lib) ip)|apply (Hu (is_lapl lib) ip)]; auto. }
  clear E0. unfold parts in *. cbn [filter fst] in *. destruct (0 <? fn_x fn)%Z, (0 <? fn_c fn)%Z.
  - destruct (Step [] (fn_x fn, fn_xp fn) x0 (or_introl eq_refl) H0) as (x1 & E1 & H1). cbn [fst snd] in E1. rewrite E1. cbn [bind].
    destruct (Step _ (fn_c fn, fn_cp fn) x1 (or_intror (or_introl eq_refl)) H1) as (x2 & E2 & H2). cbn [fst snd] in E2. rewrite E2.
    exists x2. split; [reflexivity|exact H2].
  - destruct (Step [] (fn_x fn, fn_xp fn) x0 (or_introl eq_refl) H0) as (x1 & E1 & H1). cbn [fst snd] in E1. rewrite E1. cbn [bind].
    exists x1. split; [reflexivity|exact H1].
  - cbn [bind]. destruct (Step [] (fn_c fn, fn_cp fn) x0 (or_introl eq_refl) H0) as (x1 & E1 & H1). cbn [fst snd] in E1. rewrite E1.
    exists x1. split; [reflexivity|exact H1].
  - exists x0. split; [reflexivity|exact H0].
Qed.

Section Energies.
Variables (lib : libxc) (fn : functional) (g : gridb) (N : nat) (pol : bool) (A : nat -> xargs) (d : densb) (x : xcb).
Let fl := fn_flags lib fn.
Hypothesis HG : g_n g = N.
Hypothesis HD : arg_rep fl N pol A d.
Definition tot (a : xargs) : R := if pol then nth 0 (a_rho a) 0 + nth 1 (a_rho a) 0 else nth 0 (a_rho a) 0.
Lemma sg_total ip : (ip < N)%nat -> total (d_pol d) (d_rho d) ip = Ok (tot (A ip)).
Proof.
  intros Hp. rewrite (ag_pol _ _ _ _ _ HD). unfold total, tot. assert (HR := ag_rho _ _ _ _ _ HD). destruct pol; cbn [nspin] in HR.
  - rewrite (get_ok _ _ _ _ 0 ip HR), (get_ok _ _ _ _ 1 ip HR) by (auto; lia). reflexivity.
  - rewrite (get_ok _ _ _ _ 0 ip HR) by (auto; lia). reflexivity.
Qed.
Lemma sg_Exc_ok : sx_rep lib fl N pol A (fn_thr fn) (parts fn) x ->
  eval_Exc (mkW fl g d x) = Ok (sum N (fun ip => g_w g ip * e_exc lib pol fn (A ip) * tot (A ip))).
Proof.
  intros HX. unfold eval_Exc. cbn [w_g w_d w_x]. rewrite HG. apply fold_sum_ok. intros ip Hp.
  rewrite (get_ok _ _ _ _ 0 ip (sx_exc _ _ _ _ _ _ _ _ HX)) by (auto; lia). cbn [bind]. rewrite sg_total by auto. reflexivity.
Qed.
Lemma sg_Nel_ok : compute_Nel (mkW fl g d x) = Ok (sum N (fun ip => g_w g ip * tot (A ip))).
Proof.
  unfold compute_Nel. cbn [w_g w_d]. rewrite HG. apply fold_sum_ok. intros ip Hp. rewrite sg_total by auto. reflexivity.
Qed.
End Energies.
