(** The functional on one block of the grid. *)
Require Import Reals ZArith List Bool Arith Lia Lra Permutation.
Require Import Verif.Prelude Verif.FEModel Verif.FESpec Verif.AngModel Verif.JKModel Verif.DftModel Verif.DftSpec Verif.DftProofs.
Import ListNotations.
Local Open Scope R_scope.

Definition part_ok (lib : libxc) (ip : Z * list R) : Prop :=
  (0 < fst ip)%Z /\ xc_known lib (fst ip) = true /\ xc_family lib (fst ip) <> OtherFamily /\
  (xc_family lib (fst ip) = MGGA -> xc_tau lib (fst ip) = true \/ xc_lapl lib (fst ip) = true) /\
  (snd ip = [] \/ length (snd ip) = xc_npar lib (fst ip)).

Lemma parts_ok lib fn : functional_ok lib fn -> forall ip, In ip (parts fn) -> part_ok lib ip.
Proof.
  intros H [id p] Hi. destruct (H id p Hi) as (A & B & C & D).
  assert ((0 <? id)%Z = true) by (apply filter_In in Hi; apply Hi). apply Z.ltb_lt in H0.
  split; [exact H0|]. auto.
Qed.

Lemma with_func_ok {A} lib id (d : A) f : (0 < id)%Z -> xc_known lib id = true -> with_func lib id d f = f.
Proof. intros H1 H2. unfold with_func. destruct (Z.leb_spec id 0); [lia|]. rewrite H2. reflexivity. Qed.

Lemma gradient_needed_ok lib ip : part_ok lib ip -> gradient_needed lib (fst ip) = Ok (is_gga lib (fst ip)).
Proof.
  intros (A & B & C & D & E). unfold gradient_needed. rewrite with_func_ok by auto. unfold is_gga.
  destruct (xc_family lib (fst ip)); try reflexivity. congruence.
Qed.
Lemma tau_needed_ok lib ip : part_ok lib ip -> tau_needed lib (fst ip) = Ok (is_tau lib (fst ip)).
Proof. intros (A & B & C & D & E). unfold tau_needed. rewrite with_func_ok by auto. reflexivity. Qed.
Lemma laplacian_needed_ok lib ip : part_ok lib ip -> laplacian_needed lib (fst ip) = Ok (is_lapl lib (fst ip)).
Proof. intros (A & B & C & D & E). unfold laplacian_needed. rewrite with_func_ok by auto. reflexivity. Qed.
Lemma kind_ok lib ip : part_ok lib ip -> exists gga,
  is_gga_mgga lib (fst ip) = Ok (gga, is_tau lib (fst ip), is_lapl lib (fst ip)) /\
  (gga || is_tau lib (fst ip) || is_lapl lib (fst ip))%bool = is_gga lib (fst ip).
Proof.
  intros (A & B & C & D & E). unfold is_gga_mgga. rewrite with_func_ok by auto. unfold is_tau, is_lapl, is_gga.
  destruct (xc_family lib (fst ip)); try (eexists; split; reflexivity); try congruence.
  eexists; split; [reflexivity|]. destruct D as [-> | ->]; auto. rewrite orb_comm. reflexivity.
Qed.

Lemma needed_ok fn (need : Z -> res bool) (c : Z -> bool) :
  (forall ip, In ip (parts fn) -> need (fst ip) = Ok (c (fst ip))) ->
  needed need (fn_x fn) (fn_c fn) = Ok (uses fn c).
Proof.
  unfold needed, uses, parts. cbn [filter fst].
  destruct (0 <? fn_x fn)%Z, (0 <? fn_c fn)%Z; intros H; cbn [existsb fst].
  - assert (H1 := H _ (or_introl eq_refl)). assert (H2 := H _ (or_intror (or_introl eq_refl))). cbn [fst] in H1, H2.
    rewrite H1. cbn [bind]. destruct (c (fn_x fn)); [reflexivity|]. rewrite H2, orb_false_r. reflexivity.
  - assert (H1 := H _ (or_introl eq_refl)). cbn [fst] in H1. rewrite H1, orb_false_r. reflexivity.
  - assert (H1 := H _ (or_introl eq_refl)). cbn [fst] in H1. cbn [bind]. rewrite H1, orb_false_r. reflexivity.
  - reflexivity.
Qed.
Definition fn_flags (lib : libxc) (fn : functional) : flags :=
  mkF (uses fn (is_gga lib)) (uses fn (is_tau lib)) (uses fn (is_lapl lib)).
Lemma check_ok lib fn : functional_ok lib fn -> check_grad_tau_lapl lib (fn_x fn) (fn_c fn) = Ok (fn_flags lib fn).
Proof.
  intros H. assert (HP := parts_ok lib fn H). unfold check_grad_tau_lapl.
  rewrite (needed_ok fn _ (is_gga lib)) by (intros; apply gradient_needed_ok; auto). cbn [bind].
  rewrite (needed_ok fn _ (is_tau lib)) by (intros; apply tau_needed_ok; auto). cbn [bind].
  rewrite (needed_ok fn _ (is_lapl lib)) by (intros; apply laplacian_needed_ok; auto). reflexivity.
Qed.
Lemma tau_is_gga lib id : is_tau lib id = true -> is_gga lib id = true.
Proof. unfold is_tau, is_gga. destruct (xc_family lib id); congruence. Qed.
Lemma lapl_is_gga lib id : is_lapl lib id = true -> is_gga lib id = true.
Proof. unfold is_lapl, is_gga. destruct (xc_family lib id); congruence. Qed.
Lemma uses_mono fn c c' : (forall id, c id = true -> c' id = true) -> uses fn c = true -> uses fn c' = true.
Proof.
  intros H Hu. unfold uses in *. apply existsb_exists in Hu. destruct Hu as (x & Hx & Hc). apply existsb_exists. exists x. auto.
Qed.
Lemma fn_flags_ok lib fn : flags_ok (fn_flags lib fn).
Proof.
  intros [H|H]; cbn in *; revert H; apply uses_mono; [apply tau_is_gga|apply lapl_is_gga].
Qed.

Section Xc.
Variables (lib : libxc) (fl : flags) (n : nat) (g : gridb) (pts : list gpoint) (pol : bool) (Ps : list dmat) (thr : R).
Hypothesis HG : g_n g = length pts.
Hypothesis HF : flags_ok fl.
Variable d : densb.
Hypothesis HD : dens_rep fl n pts pol Ps d.

Definition pargs (q : gpoint) : xargs := if pol then args2 n (spin Ps 0) (spin Ps 1) q else args1 n (spin Ps 0) q.
Definition overl (l : list (Z * list R)) (c : Z -> bool) (f : xcout -> R) (a : xargs) : R :=
  lsum l (fun ip => if c (fst ip) then f (xc_at lib pol thr (fst ip) (snd ip) a) else 0).
Definition usesl (l : list (Z * list R)) (c : Z -> bool) : bool := existsb (fun ip => c (fst ip)) l.

Record xc_rep (l : list (Z * list R)) (x : xcb) : Prop := {
  xr_gga : x_gga x = usesl l (is_gga lib);
  xr_mt : x_mt x = usesl l (is_tau lib);
  xr_ml : x_ml x = usesl l (is_lapl lib);
  xr_exc : is_mat (x_exc x) 1 (length pts) (fun _ ip => overl l (xc_have_exc lib) o_exc (pargs (pt pts ip)));
  xr_vrho : is_mat (x_vrho x) (nspin pol) (length pts) (fun s ip => overl l (fun _ => true) (fun o => o_vrho o s) (pargs (pt pts ip)));
  xr_vsigma : f_grad fl = true -> is_mat (x_vsigma x) (nsigma pol) (length pts) (fun s ip => overl l (is_gga lib) (fun o => o_vsigma o s) (pargs (pt pts ip)));
  xr_vtau : f_tau fl = true -> is_mat (x_vtau x) (nspin pol) (length pts) (fun s ip => overl l (is_tau lib) (fun o => o_vtau o s) (pargs (pt pts ip)));
  xr_vlapl : f_lapl fl = true -> is_mat (x_vlapl x) (nspin pol) (length pts) (fun s ip => overl l (is_lapl lib) (fun o => o_vlapl o s) (pargs (pt pts ip))) }.

Lemma init_xc_ok x : exists x', init_xc (mkW fl g d x) = mkW fl g d x' /\ xc_rep [] x'.
Proof.
  unfold init_xc. cbn [w_fl w_g w_d w_x]. rewrite HG, (dr_pol _ _ _ _ _ _ HD).
  eexists; split; [reflexivity|]. constructor; cbn; try reflexivity; try (repeat split; fail);
    intros ->; repeat split.
Qed.

(** libxc sees the values of the specification. *)
Lemma call_ok ip0 gga ip : part_ok lib ip0 -> is_gga_mgga lib (fst ip0) = Ok (gga, is_tau lib (fst ip0), is_lapl lib (fst ip0)) ->
  (is_gga lib (fst ip0) = true -> f_grad fl = true) -> (is_tau lib (fst ip0) = true -> f_tau fl = true) ->
  (is_lapl lib (fst ip0) = true -> f_lapl fl = true) -> (ip < length pts)%nat ->
  call_xc lib (fst ip0) (snd ip0) thr gga (is_tau lib (fst ip0)) (is_lapl lib (fst ip0)) d ip
  = xc_at lib pol thr (fst ip0) (snd ip0) (pargs (pt pts ip)).
Proof.
  intros (A & B & C & D & E) K Hg Ht Hl Hp. unfold call_xc, xc_at. rewrite (dr_pol _ _ _ _ _ _ HD).
  assert (Er : column (d_rho d) ip = a_rho (pargs (pt pts ip))).
  { rewrite (column_ok _ _ _ _ ip (dr_rho _ _ _ _ _ _ HD) Hp). unfold pargs. destruct pol; reflexivity. }
  assert (Es : is_gga lib (fst ip0) = true -> column (d_sigma d) ip = a_sigma (pargs (pt pts ip))).
  { intros H. rewrite (column_ok _ _ _ _ ip (dr_sigma _ _ _ _ _ _ HD (Hg H)) Hp). unfold pargs. destruct pol; reflexivity. }
  assert (Et : is_tau lib (fst ip0) = true -> column (d_tau d) ip = a_tau (pargs (pt pts ip))).
  { intros H. rewrite (column_ok _ _ _ _ ip (dr_tau _ _ _ _ _ _ HD (Ht H)) Hp). unfold pargs. destruct pol; reflexivity. }
  assert (El : is_lapl lib (fst ip0) = true -> column (d_lapl d) ip = a_lapl (pargs (pt pts ip))).
  { intros H. rewrite (column_ok _ _ _ _ ip (dr_lapl _ _ _ _ _ _ HD (Hl H)) Hp). unfold pargs. destruct pol; reflexivity. }
  unfold is_gga_mgga in K. rewrite with_func_ok in K by auto.
  unfold is_tau, is_lapl, is_gga in *. destruct (xc_family lib (fst ip0)).
  - inversion K. cbn. rewrite Er. reflexivity.
  - inversion K. cbn. rewrite Er, Es by auto. reflexivity.
  - rewrite Er, Es by auto.
    destruct (D eq_refl) as [H|H]; rewrite H.
    + rewrite Et by auto. cbn [orb]. destruct (xc_lapl lib (fst ip0)); [rewrite El by auto|]; reflexivity.
    + rewrite El by auto. rewrite orb_true_r. destruct (xc_tau lib (fst ip0)); [rewrite Et by auto|]; reflexivity.
  - congruence.
Qed.

Lemma overl_snoc l ip c f a : overl (l ++ [ip]) c f a =
  overl l c f a + (if c (fst ip) then f (xc_at lib pol thr (fst ip) (snd ip) a) else 0).
Proof. unfold overl. rewrite lsum_app. cbn. ring. Qed.
Lemma usesl_snoc l ip c : usesl (l ++ [ip]) c = (usesl l c || c (fst ip))%bool.
Proof. unfold usesl. rewrite existsb_app. cbn. rewrite orb_false_r. reflexivity. Qed.

Lemma compute_xc_ok l ip0 x : part_ok lib ip0 ->
  (is_gga lib (fst ip0) = true -> f_grad fl = true) -> (is_tau lib (fst ip0) = true -> f_tau fl = true) ->
  (is_lapl lib (fst ip0) = true -> f_lapl fl = true) -> xc_rep l x ->
  exists x', compute_xc lib (fst ip0) (snd ip0) thr true (mkW fl g d x) = Ok (mkW fl g d x') /\ xc_rep (l ++ [ip0]) x'.
Proof.
  intros HP Hg Ht Hl HX. destruct (kind_ok lib ip0 HP) as (gga & K & Kany).
  unfold compute_xc. rewrite K. cbn [bind w_g w_d w_x w_fl]. unfold has_exc.
  assert (HP' := HP). destruct HP' as (A & B & C & D & E).
  rewrite with_func_ok by auto. cbn [bind]. rewrite B. cbn [negb].
  assert (Ep : (match snd ip0 with [] => false | _ => negb (Nat.eqb (length (snd ip0)) (xc_npar lib (fst ip0))) end) = false).
  { destruct (snd ip0) eqn:Es; [reflexivity|]. destruct E as [E|E]; [discriminate|]. rewrite <- E, Nat.eqb_refl. reflexivity. }
  rewrite Ep, HG, (dr_pol _ _ _ _ _ _ HD), Kany.
  assert (Imp : forall (b c : bool), (b = true -> c = true) -> implb b c = true) by (intros [] []; cbn; auto).
  rewrite (sized_ok _ _ _ _ (dr_rho _ _ _ _ _ _ HD)).
  rewrite (Imp (is_gga lib (fst ip0))) by (intros H; apply (sized_ok _ _ _ _ (dr_sigma _ _ _ _ _ _ HD (Hg H)))).
  rewrite (Imp (is_lapl lib (fst ip0))) by (intros H; apply (sized_ok _ _ _ _ (dr_lapl _ _ _ _ _ _ HD (Hl H)))).
  rewrite (Imp (is_tau lib (fst ip0))) by (intros H; apply (sized_ok _ _ _ _ (dr_tau _ _ _ _ _ _ HD (Ht H)))).
  cbn [negb andb].
  rewrite (sized_ok _ _ _ _ (xr_exc _ _ HX)), (sized_ok _ _ _ _ (xr_vrho _ _ HX)).
  rewrite (Imp (is_gga lib (fst ip0))) by (intros H; apply (sized_ok _ _ _ _ (xr_vsigma _ _ HX (Hg H)))).
  rewrite (Imp (is_lapl lib (fst ip0))) by (intros H; apply (sized_ok _ _ _ _ (xr_vlapl _ _ HX (Hl H)))).
  rewrite (Imp (is_tau lib (fst ip0))) by (intros H; apply (sized_ok _ _ _ _ (xr_vtau _ _ HX (Ht H)))).
  cbn [negb andb]. eexists; split; [reflexivity|].
  assert (Hcall := fun ip => call_ok ip0 gga ip HP K Hg Ht Hl).
  assert (Hadd : forall (c : bool) (cz : Z -> bool) Am r f, c = cz (fst ip0) ->
    is_mat Am r (length pts) (fun s ip => overl l cz (fun o => f o s) (pargs (pt pts ip))) ->
    is_mat (if c then mkD (drows Am) (dcols Am) (fun i ip => dent Am i ip +
        f (call_xc lib (fst ip0) (snd ip0) thr gga (is_tau lib (fst ip0)) (is_lapl lib (fst ip0)) d ip) i) else Am)
      r (length pts) (fun s ip => overl (l ++ [ip0]) cz (fun o => f o s) (pargs (pt pts ip)))).
  { intros c cz Am r f Ec (H1 & H2 & H3). rewrite Ec. destruct (cz (fst ip0)) eqn:Ecz.
    - split; [exact H1|split; [exact H2|]]. intros i ip Hi Hp. cbn [dent]. rewrite H3, overl_snoc, Ecz, Hcall by auto. reflexivity.
    - split; [exact H1|split; [exact H2|]]. intros i ip Hi Hp. rewrite H3, overl_snoc, Ecz by auto. ring. }
  constructor; cbn [x_gga x_mt x_ml x_exc x_vrho x_vsigma x_vtau x_vlapl].
  - rewrite usesl_snoc, (xr_gga _ _ HX). reflexivity.
  - rewrite usesl_snoc, (xr_mt _ _ HX). reflexivity.
  - rewrite usesl_snoc, (xr_ml _ _ HX). reflexivity.
  - apply (Hadd _ (xc_have_exc lib) (x_exc x) 1%nat (fun o _ => o_exc o)); [reflexivity|apply (xr_exc _ _ HX)].
  - apply (Hadd true (fun _ => true) (x_vrho x) _ o_vrho); [reflexivity|apply (xr_vrho _ _ HX)].
  - intros H. apply (Hadd (is_gga lib (fst ip0)) (is_gga lib) (x_vsigma x) _ o_vsigma); [reflexivity|apply (xr_vsigma _ _ HX H)].
  - intros H. apply (Hadd (is_tau lib (fst ip0)) (is_tau lib) (x_vtau x) _ o_vtau); [reflexivity|apply (xr_vtau _ _ HX H)].
  - intros H. apply (Hadd (is_lapl lib (fst ip0)) (is_lapl lib) (x_vlapl x) _ o_vlapl); [reflexivity|apply (xr_vlapl _ _ HX H)].
Qed.
End Xc.

Lemma run_xc_ok lib fn n g pts pol Ps d x : functional_ok lib fn -> g_n g = length pts ->
  dens_rep (fn_flags lib fn) n pts pol Ps d ->
  exists x', run_xc lib fn (mkW (fn_flags lib fn) g d x) = Ok (mkW (fn_flags lib fn) g d x') /\
    xc_rep lib (fn_flags lib fn) n pts pol Ps (fn_thr fn) (parts fn) x'.
Proof.
  intros HFn HG HD. assert (HP := parts_ok lib fn HFn). unfold run_xc.
  destruct (init_xc_ok lib (fn_flags lib fn) n g pts pol Ps (fn_thr fn) HG d HD x) as (x0 & E0 & H0). rewrite E0.
  assert (Hu : forall (c : Z -> bool) ip, In ip (parts fn) -> c (fst ip) = true -> uses fn c = true).
  { intros c ip Hi Hc. apply existsb_exists. exists ip. auto. }
  assert (Step : forall l ip x, In ip (parts fn) -> xc_rep lib (fn_flags lib fn) n pts pol Ps (fn_thr fn) l x ->
    exists x', compute_xc lib (fst ip) (snd ip) (fn_thr fn) true (mkW (fn_flags lib fn) g d x) = Ok (mkW (fn_flags lib fn) g d x') /\
      xc_rep lib (fn_flags lib fn) n pts pol Ps (fn_thr fn) (l ++ [ip]) x').
  { intros l ip y Hi Hy. apply compute_xc_ok; auto; intros Hc; [apply (Hu (is_gga lib) ip)|apply (Hu (is_tau lib) ip)|apply (Hu (is_lapl lib) ip)]; auto. }
  clear E0. unfold parts in *. cbn [filter fst] in *. destruct (0 <? fn_x fn)%Z, (0 <? fn_c fn)%Z.
  - destruct (Step [] (fn_x fn, fn_xp fn) x0 (or_introl eq_refl) H0) as (x1 & E1 & H1). cbn [fst snd] in E1. rewrite E1. cbn [bind].
    destruct (Step _ (fn_c fn, fn_cp fn) x1 (or_intror (or_introl eq_refl)) H1) as (x2 & E2 & H2). cbn [fst snd] in E2. rewrite E2.
    exists x2. split; [reflexivity|exact H2].
  - destruct (Step [] (fn_x fn, fn_xp fn) x0 (or_introl eq_refl) H0) as (x1 & E1 & H1). cbn [fst snd] in E1. rewrite E1. cbn [bind].
    exists x1. split; [reflexivity|exact H1].
  - cbn [bind]. destruct (Step [] (fn_c fn, fn_cp fn) x0 (or_introl eq_refl) H0) as (x1 & E1 & H1). cbn [fst snd] in E1. rewrite E1.
    exists x1. split; [reflexivity|exact H1].
  - exists x0. split; [reflexivity|exact H0].
Qed.
