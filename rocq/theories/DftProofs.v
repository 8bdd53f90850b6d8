(** Density, functional and Fock matrix on one block of the grid. *)
Require Import Reals ZArith List Bool Arith Lia Lra Permutation.
Require Import Verif.Prelude Verif.FEModel Verif.FESpec Verif.AngModel Verif.JKModel Verif.DftModel Verif.DftSpec.
Import ListNotations.
Local Open Scope R_scope.

(* ------------------------------------------------------------------ *)
(** * Arrays *)

Lemma collect_ok n f h : (forall i, (i < n)%nat -> f i = Ok (h i)) -> collect n f = Ok (map h (seq 0 n)).
Proof.
  induction n; intros H; [reflexivity|]. cbn [collect]. rewrite IHn by (intros; apply H; lia). cbn [bind].
  rewrite H by lia. cbn [bind]. rewrite seq_S, map_app. reflexivity.
Qed.
Lemma collect2_ok n m f h : (forall i j, (i < n)%nat -> (j < m)%nat -> f i j = Ok (h i j)) ->
  collect2 n m f = Ok (map (fun i => map (h i) (seq 0 m)) (seq 0 n)).
Proof.
  induction n; intros H; [reflexivity|]. cbn [collect2]. rewrite IHn by (intros; apply H; lia). cbn [bind].
  rewrite (collect_ok m (f n) (h n)) by (intros; apply H; lia). cbn [bind]. rewrite seq_S, map_app. reflexivity.
Qed.
Lemma nth_map_seq {A} (f : nat -> A) n i d : (i < n)%nat -> nth i (map f (seq 0 n)) d = f i.
Proof.
  intros H. rewrite (nth_indep _ d (f 0%nat)) by (rewrite map_length, seq_length; auto).
  rewrite map_nth, seq_nth by auto. reflexivity.
Qed.
Lemma tab_ok n m f h : (forall i j, (i < n)%nat -> (j < m)%nat -> f i j = Ok (h i j)) ->
  exists A, tab n m f = Ok A /\ is_mat A n m h.
Proof.
  intros H. unfold tab. rewrite (collect2_ok n m f h H). cbn [bind]. eexists; split; [reflexivity|].
  split; [reflexivity|split; [reflexivity|]]. intros i j Hi Hj. cbn [dent].
  rewrite (nth_map_seq (fun i => map (h i) (seq 0 m))) by auto. apply nth_map_seq; auto.
Qed.

Lemma get_ok A n m h i j : is_mat A n m h -> (i < n)%nat -> (j < m)%nat -> get A i j = Ok (h i j).
Proof.
  intros (Hr & Hc & He) Hi Hj. unfold get. rewrite Hr, Hc.
  destruct (Nat.ltb_spec i n); [|lia]. destruct (Nat.ltb_spec j m); [|lia]. cbn. rewrite He; auto.
Qed.
Lemma rdiv_ok x y : y <> 0 -> rdiv x y = Ok (x / y).
Proof. intros H. unfold rdiv. destruct (Reqb_spec y 0); [contradiction|reflexivity]. Qed.
Lemma vget_ok {A} (l : list A) i d : (i < length l)%nat -> vget l i = Ok (nth i l d).
Proof. intros H. unfold vget. rewrite (nth_error_nth' l d H). reflexivity. Qed.
Lemma is_mat_ext A n m h h' : is_mat A n m h -> (forall i j, (i < n)%nat -> (j < m)%nat -> h i j = h' i j) -> is_mat A n m h'.
Proof. intros (H1 & H2 & H3) E. repeat split; auto. intros. rewrite H3; auto. Qed.

Lemma dprod_ok A B n k m a b : is_mat A n k a -> is_mat B k m b ->
  exists C, dprod A B = Ok C /\ is_mat C n m (fun i j => sum k (fun l => a i l * b l j)).
Proof.
  intros (Ha1 & Ha2 & Ha3) (Hb1 & Hb2 & Hb3). unfold dprod. rewrite Ha2, Hb1, Nat.eqb_refl.
  eexists; split; [reflexivity|]. split; [exact Ha1|split; [exact Hb2|]]. intros i j Hi Hj. cbn [dent]. unfold mmul.
  apply sum_ext. intros l Hl. rewrite Ha3, Hb3 by auto. reflexivity.
Qed.
Lemma dadd_ok A B n m a b : is_mat A n m a -> is_mat B n m b ->
  exists C, dadd A B = Ok C /\ is_mat C n m (fun i j => a i j + b i j).
Proof.
  intros (Ha1 & Ha2 & Ha3) (Hb1 & Hb2 & Hb3). unfold dadd. rewrite Ha1, Ha2, Hb1, Hb2, !Nat.eqb_refl. cbn [andb].
  eexists; split; [reflexivity|]. split; [reflexivity|split; [reflexivity|]]. intros i j Hi Hj. cbn [dent]. unfold madd.
  rewrite Ha3, Hb3 by auto. reflexivity.
Qed.
Lemma dT_ok A n m a : is_mat A n m a -> is_mat (dT A) m n (fun i j => a j i).
Proof. intros (Ha1 & Ha2 & Ha3). repeat split; auto. intros. cbn [dT dent]. unfold mT. auto. Qed.
Lemma dscale_ok c A n m a : is_mat A n m a -> is_mat (dscale c A) n m (fun i j => c * a i j).
Proof. intros (Ha1 & Ha2 & Ha3). repeat split; auto. intros. cbn [dscale dent]. unfold mscal. rewrite Ha3; auto. Qed.
Lemma dzero_ok n m : is_mat (dzero n m) n m (fun _ _ => 0).
Proof. repeat split. Qed.
Lemma colscale_ok A v n m a : is_mat A n m a -> is_mat (colscale A v) n m (fun i j => a i j * v j).
Proof. intros (Ha1 & Ha2 & Ha3). repeat split; auto. intros. cbn [colscale dent]. rewrite Ha3; auto. Qed.
Lemma coldot_ok A B n m a b p : is_mat A n m a -> is_mat B n m b -> (p < m)%nat ->
  coldot A B p = Ok (sum n (fun i => a i p * b i p)).
Proof.
  intros (Ha1 & Ha2 & Ha3) (Hb1 & Hb2 & Hb3) Hp. unfold coldot. rewrite Ha1, Ha2, Hb1, Hb2, Nat.eqb_refl.
  destruct (Nat.ltb_spec p m); [|lia]. cbn. f_equal. apply sum_ext. intros. rewrite Ha3, Hb3; auto.
Qed.
Lemma row_ok A n m h s : is_mat A n m h -> (s < n)%nat ->
  exists v, row A s m = Ok v /\ forall ip, (ip < m)%nat -> v ip = h s ip.
Proof.
  intros (H1 & H2 & H3) Hs. unfold row. rewrite H1, H2, Nat.eqb_refl. destruct (Nat.ltb_spec s n); [|lia]. cbn.
  eexists; split; [reflexivity|]. intros; auto.
Qed.
Lemma column_ok A n m h ip : is_mat A n m h -> (ip < m)%nat -> column A ip = map (fun i => h i ip) (seq 0 n).
Proof.
  intros (H1 & H2 & H3) Hp. unfold column. rewrite H1. apply map_ext_in. intros i Hi. apply in_seq in Hi. apply H3; lia.
Qed.
Lemma sized_ok A n m h : is_mat A n m h -> sized A n m = true.
Proof. intros (H1 & H2 & _). unfold sized. rewrite H1, H2, !Nat.eqb_refl. reflexivity. Qed.

(** Complex matrices *)
Definition is_cmat (X : cmat) (n m : nat) (h : nat -> nat -> R * R) : Prop :=
  is_mat (fst X) n m (fun i j => fst (h i j)) /\ is_mat (snd X) n m (fun i j => snd (h i j)).

Lemma pprod_ok P X n m p h : is_mat P n n p -> is_cmat X n m h ->
  exists Y, pprod P X = Ok Y /\
    is_cmat Y n m (fun i j => (sum n (fun l => p i l * fst (h l j)), sum n (fun l => p i l * snd (h l j)))).
Proof.
  intros HP [H1 H2]. unfold pprod.
  destruct (dprod_ok P (fst X) n n m p _ HP H1) as (A & EA & HA). rewrite EA. cbn [bind].
  destruct (dprod_ok P (snd X) n n m p _ HP H2) as (B & EB & HB). rewrite EB. cbn [bind].
  eexists; split; [reflexivity|]. split; [exact HA|exact HB].
Qed.
Lemma dot2_ok X Y n m h k p : is_cmat X n m h -> is_cmat Y n m k -> (p < m)%nat ->
  dot2 X Y p = Ok (sum n (fun i => reprod (h i p) (k i p))).
Proof.
  intros [H1 H2] [K1 K2] Hp. unfold dot2.
  rewrite (coldot_ok _ _ n m _ _ p H1 K1 Hp), (coldot_ok _ _ n m _ _ p H2 K2 Hp). cbn [bind]. f_equal.
  rewrite <- sum_plus. reflexivity.
Qed.

Lemma fold_res_map {A B} (f : A -> res B) (g : A -> B) l acc :
  (forall x, In x l -> f x = Ok (g x)) ->
  fold_res (fun s x => bind (f x) (fun y => Ok (s ++ [y]))) l acc = Ok (acc ++ map g l).
Proof.
  revert acc. induction l as [|x l IH]; intros acc H; cbn [fold_res map]; [rewrite app_nil_r; reflexivity|].
  rewrite H by (left; auto). cbn [bind]. rewrite IH by (intros; apply H; right; auto).
  rewrite <- app_assoc. reflexivity.
Qed.

(** A local sum is the global one if everything else vanishes. *)
Lemma sum_local n ind F : NoDup ind -> (forall i, In i ind -> (i < n)%nat) ->
  (forall i, (i < n)%nat -> ~ In i ind -> F i = 0) ->
  sum (length ind) (fun i => F (nth i ind 0%nat)) = sum n F.
Proof.
  intros Hd Hlt Hz.
  assert (E : sum n F = sum n (fun m => sum (length ind) (fun i => if Nat.eqb (nth i ind 0%nat) m then F m else 0))).
  { apply sum_ext. intros m Hm. destruct (in_dec Nat.eq_dec m ind) as [Hi|Hi].
    - destruct (In_nth ind m 0%nat Hi) as (k & Hk & Ek).
      rewrite (sum_single (length ind) k); auto.
      + rewrite Ek, Nat.eqb_refl. reflexivity.
      + intros i Hil Hne. destruct (Nat.eqb_spec (nth i ind 0%nat) m) as [Em|]; [|reflexivity].
        exfalso. apply Hne. apply (proj1 (NoDup_nth ind 0%nat) Hd); auto. congruence.
    - rewrite Hz by auto. symmetry. apply sum_zero'. intros i Hil.
      destruct (Nat.eqb_spec (nth i ind 0%nat) m) as [Em|]; [|reflexivity]. exfalso. apply Hi. rewrite <- Em. apply nth_In; auto. }
  rewrite E, sum_swap. apply sum_ext. intros i Hi.
  rewrite (sum_single n (nth i ind 0%nat)).
  - rewrite Nat.eqb_refl. reflexivity.
  - apply Hlt, nth_In; auto.
  - intros m _ Hne. destruct (Nat.eqb_spec (nth i ind 0%nat) m); [congruence|reflexivity].
Qed.

(** The same for double sums. *)
Lemma contract_local n ind P X : NoDup ind -> (forall i, In i ind -> (i < n)%nat) ->
  (forall i j, (i < n)%nat -> (j < n)%nat -> ~ In i ind \/ ~ In j ind -> X i j = 0) ->
  sum (length ind) (fun i => sum (length ind) (fun j => P (nth i ind 0%nat) (nth j ind 0%nat) * X (nth i ind 0%nat) (nth j ind 0%nat)))
  = contract n P X.
Proof.
  intros Hd Hlt Hz. unfold contract.
  rewrite <- (sum_local n ind (fun i => sum n (fun j => P i j * X i j))); auto.
  - apply sum_ext. intros i Hi.
    apply (sum_local n ind (fun j => P (nth i ind 0%nat) j * X (nth i ind 0%nat) j)); auto.
    intros j Hj Hn. rewrite Hz; auto; [ring|]. apply Hlt, nth_In; auto.
  - intros i Hi Hn. apply sum_zero'. intros j Hj. rewrite Hz; auto. ring.
Qed.

(* ------------------------------------------------------------------ *)
(** * A block of the grid *)

Definition conj (x : R * R) : R * R := (fst x, - snd x).
Lemma reprod_conj x y : reprod (conj x) (conj y) = reprod x y.
Proof. unfold reprod, conj. cbn. ring. Qed.
Lemma reprod_sym x y : reprod x y = reprod y x.
Proof. unfold reprod. ring. Qed.

Definition dpoint := mkP 0 (fun _ => (0, 0)) (fun _ _ => (0, 0)) (fun _ => (0, 0)).
Definition pt (pts : list gpoint) (ip : nat) : gpoint := nth ip pts dpoint.

(** The grid of a worker stands for the points [pts]: rows are the functions in g_ind,
    stored complex conjugated, derivatives not yet divided by the scale factors, and the
    other functions vanish in these points. *)
Record grid_rep (fl : flags) (n : nat) (g : gridb) (pts : list gpoint) : Prop := {
  gr_n : g_n g = length pts;
  gr_nodup : NoDup (g_ind g);
  gr_lt : forall i, In i (g_ind g) -> (i < n)%nat;
  gr_out : forall ip i, (ip < length pts)%nat -> (i < n)%nat -> ~ In i (g_ind g) ->
    p_f (pt pts ip) i = (0, 0) /\ (forall c, p_g (pt pts ip) c i = (0, 0)) /\ p_l (pt pts ip) i = (0, 0);
  gr_w : forall ip, (ip < length pts)%nat -> g_w g ip = p_w (pt pts ip);
  gr_bf : is_cmat (g_bf g) (length (g_ind g)) (length pts) (fun i ip => conj (p_f (pt pts ip) (nth i (g_ind g) 0%nat)));
  gr_scale : forall c ip, (c < 3)%nat -> (ip < length pts)%nat -> g_scale g c ip <> 0;
  gr_inv2 : forall c ip, (c < 3)%nat -> (ip < length pts)%nat -> g_inv2 g c ip = / (g_scale g c ip) ^ 2;
  gr_df : f_grad fl = true -> forall c, (c < 3)%nat -> is_cmat (g_df g c) (length (g_ind g)) (length pts)
     (fun i ip => cscal (g_scale g c ip) (conj (p_g (pt pts ip) c (nth i (g_ind g) 0%nat))));
  gr_lf : f_lapl fl = true -> is_cmat (g_lf g) (length (g_ind g)) (length pts)
     (fun i ip => conj (p_l (pt pts ip) (nth i (g_ind g) 0%nat))) }.
Arguments gr_n {_ _ _ _}. Arguments gr_nodup {_ _ _ _}. Arguments gr_lt {_ _ _ _}. Arguments gr_out {_ _ _ _}.
Arguments gr_w {_ _ _ _}. Arguments gr_bf {_ _ _ _}. Arguments gr_scale {_ _ _ _}. Arguments gr_inv2 {_ _ _ _}.
Arguments gr_df {_ _ _ _}. Arguments gr_lf {_ _ _ _}.

(** tau and Laplacian need the gradient. *)
Definition flags_ok (fl : flags) : Prop := f_tau fl = true \/ f_lapl fl = true -> f_grad fl = true.

(** Local values in point ip *)
Definition lf g pts ip i := p_f (pt pts ip) (nth i (g_ind g) 0%nat).
Definition lg g pts c ip i := p_g (pt pts ip) c (nth i (g_ind g) 0%nat).
Definition ll g pts ip i := p_l (pt pts ip) (nth i (g_ind g) 0%nat).

Section Block.
Variables (fl : flags) (n : nat) (g : gridb) (pts : list gpoint).
Hypothesis HG : grid_rep fl n g pts.
Hypothesis HF : flags_ok fl.

Lemma slice_ok P : drows P = n -> dcols P = n ->
  exists S, slice (g_ind g) P = Ok S /\
    is_mat S (length (g_ind g)) (length (g_ind g)) (fun i j => dent P (nth i (g_ind g) 0%nat) (nth j (g_ind g) 0%nat)).
Proof.
  intros Hr Hc. apply tab_ok. intros i j Hi Hj. rewrite (vget_ok _ i 0%nat), (vget_ok _ j 0%nat) by auto. cbn [bind].
  apply (get_ok P n n (dent P)); [repeat split; auto| |]; apply (gr_lt HG), nth_In; auto.
Qed.

(** sum_i (P X)_i . Y_i *)
Lemma quad_ok X Y S P h k ip : is_mat S (length (g_ind g)) (length (g_ind g)) P ->
  is_cmat X (length (g_ind g)) (length pts) h -> is_cmat Y (length (g_ind g)) (length pts) k -> (ip < length pts)%nat ->
  forall Z, pprod S X = Ok Z ->
  dot2 Z Y ip = Ok (sum (length (g_ind g)) (fun i => sum (length (g_ind g)) (fun j => P i j * reprod (h j ip) (k i ip)))).
Proof.
  intros HS HX HY Hp Z EZ. destruct (pprod_ok S X _ _ _ _ HS HX) as (Z' & EZ' & HZ'). rewrite EZ' in EZ. inversion EZ; subst Z'.
  rewrite (dot2_ok _ _ _ _ _ _ ip HZ' HY Hp). f_equal. apply sum_ext. intros i Hi.
  unfold reprod at 1. cbn [fst snd]. rewrite <- !sum_scal_r, <- sum_plus. apply sum_ext. intros j Hj. unfold reprod. ring.
Qed.

Lemma out_f ip i : (ip < length pts)%nat -> (i < n)%nat -> ~ In i (g_ind g) -> p_f (pt pts ip) i = (0, 0).
Proof. intros A B C. apply (proj1 (gr_out HG ip i A B C)). Qed.
Lemma out_g ip c i : (ip < length pts)%nat -> (i < n)%nat -> ~ In i (g_ind g) -> p_g (pt pts ip) c i = (0, 0).
Proof. intros A B C. apply (proj1 (proj2 (gr_out HG ip i A B C))). Qed.
Lemma out_l ip i : (ip < length pts)%nat -> (i < n)%nat -> ~ In i (g_ind g) -> p_l (pt pts ip) i = (0, 0).
Proof. intros A B C. apply (proj2 (proj2 (gr_out HG ip i A B C))). Qed.

(** A double sum over local functions *)
Lemma to_contract P X ip : (ip < length pts)%nat ->
  (forall i j, (i < n)%nat -> (j < n)%nat -> ~ In i (g_ind g) \/ ~ In j (g_ind g) -> X i j = 0) ->
  sum (length (g_ind g)) (fun i => sum (length (g_ind g)) (fun j =>
     dent P (nth i (g_ind g) 0%nat) (nth j (g_ind g) 0%nat) * X (nth i (g_ind g) 0%nat) (nth j (g_ind g) 0%nat)))
  = contract n (dent P) X.
Proof. intros _ H. apply contract_local; auto; [exact (gr_nodup HG)|exact (gr_lt HG)]. Qed.

Lemma sum_sym P X : sym_mat n P -> contract n P X = contract n P (fun i j => X j i).
Proof.
  intros H. unfold contract. rewrite sum_swap. apply sum_ext. intros i Hi. apply sum_ext. intros j Hj. rewrite (H j i); auto.
Qed.
Lemma contract_add P X Y : contract n P (fun i j => X i j + Y i j) = contract n P X + contract n P Y.
Proof.
  unfold contract. rewrite <- sum_plus. apply sum_ext. intros. rewrite <- sum_plus. apply sum_ext. intros. ring.
Qed.
Lemma contract_scal P c X : contract n P (fun i j => c * X i j) = c * contract n P X.
Proof.
  unfold contract. rewrite <- sum_scal. apply sum_ext. intros. rewrite <- sum_scal. apply sum_ext. intros. ring.
Qed.
Lemma contract_ext P X Y : (forall i j, (i < n)%nat -> (j < n)%nat -> X i j = Y i j) -> contract n P X = contract n P Y.
Proof. intros H. unfold contract. apply sum_ext. intros. apply sum_ext. intros. rewrite H; auto. Qed.

Lemma reprod_0l y : reprod (0, 0) y = 0. Proof. unfold reprod; cbn; ring. Qed.
Lemma reprod_0r y : reprod y (0, 0) = 0. Proof. unfold reprod; cbn; ring. Qed.

Definition unres {A} (x : res A) (d : A) : A := match x with Ok a => a | _ => d end.
Definition spin (Ps : list dmat) (s : nat) : mat := dent (nth s Ps dempty).

Record dens_rep (pol : bool) (Ps : list dmat) (d : densb) : Prop := {
  dr_pol : d_pol d = pol;
  dr_rho : is_mat (d_rho d) (nspin pol) (length pts) (fun s ip => dens n (spin Ps s) (pt pts ip));
  dr_grho : f_grad fl = true -> is_mat (d_grho d) (3 * nspin pol) (length pts)
     (fun k ip => grad n (spin Ps (k / 3)) (pt pts ip) (k mod 3));
  dr_sigma : f_grad fl = true -> is_mat (d_sigma d) (nsigma pol) (length pts)
     (fun k ip => dot3 (grad n (spin Ps (if Nat.eqb k 2 then 1 else 0)%nat) (pt pts ip))
                       (grad n (spin Ps (if Nat.eqb k 0 then 0 else 1)%nat) (pt pts ip)));
  dr_tau : f_tau fl = true -> is_mat (d_tau d) (nspin pol) (length pts) (fun s ip => tau n (spin Ps s) (pt pts ip));
  dr_lapl : f_lapl fl = true -> is_mat (d_lapl d) (nspin pol) (length pts) (fun s ip => lapl n (spin Ps s) (pt pts ip)) }.

Section Dens.
Variables (pol : bool) (Ps : list dmat).
Hypothesis HPs : length Ps = nspin pol.
Hypothesis HP : forall P, In P Ps -> is_density n P.
Hypothesis Hn : (0 < n)%nat.

Let NF := length (g_ind g).
Definition Sm P := unres (slice (g_ind g) P) dempty.
Lemma Sm_ok P : In P Ps -> slice (g_ind g) P = Ok (Sm P) /\
  is_mat (Sm P) NF NF (fun i j => dent P (nth i (g_ind g) 0%nat) (nth j (g_ind g) 0%nat)).
Proof.
  intros Hi. destruct (HP P Hi) as (Hr & Hc & _). destruct (slice_ok P Hr Hc) as (S & ES & HS).
  unfold Sm. rewrite ES. split; [reflexivity|exact HS].
Qed.
Definition Vm P := unres (pprod (Sm P) (g_bf g)) (dempty, dempty).
Lemma Vm_ok P : In P Ps -> pprod (Sm P) (g_bf g) = Ok (Vm P).
Proof.
  intros Hi. destruct (Sm_ok P Hi) as [_ HS]. destruct (pprod_ok _ _ _ _ _ _ HS (gr_bf HG)) as (Y & EY & _).
  unfold Vm. rewrite EY. reflexivity.
Qed.
Lemma Vm_dot P Y k ip : In P Ps -> is_cmat Y NF (length pts) k -> (ip < length pts)%nat ->
  dot2 (Vm P) Y ip = Ok (sum NF (fun i => sum NF (fun j => dent P (nth i (g_ind g) 0%nat) (nth j (g_ind g) 0%nat) *
     reprod (conj (p_f (pt pts ip) (nth j (g_ind g) 0%nat))) (k i ip)))).
Proof.
  intros Hi HY Hp. destruct (Sm_ok P Hi) as [_ HS].
  apply (quad_ok (g_bf g) Y (Sm P) _ _ k ip HS (gr_bf HG) HY Hp (Vm P) (Vm_ok P Hi)).
Qed.

Lemma nth_P s : (s < nspin pol)%nat -> In (nth s Ps dempty) Ps.
Proof. intros H. apply nth_In. rewrite HPs. exact H. Qed.
Lemma sym_P P : In P Ps -> sym_mat n (dent P).
Proof. intros H. apply (HP P H). Qed.

Lemma rho_entry P ip : In P Ps -> (ip < length pts)%nat ->
  dot2 (Vm P) (g_bf g) ip = Ok (dens n (dent P) (pt pts ip)).
Proof.
  intros Hi Hp. rewrite (Vm_dot P _ _ ip Hi (gr_bf HG) Hp). f_equal. unfold dens.
  rewrite <- (to_contract P (pair_n (pt pts ip)) ip Hp).
  - apply sum_ext. intros i Hil. apply sum_ext. intros j Hj. rewrite reprod_conj. unfold pair_n. rewrite reprod_sym. reflexivity.
  - intros i j Hil Hj [H|H]; unfold pair_n; [rewrite (out_f ip i Hp Hil H); apply reprod_0l|rewrite (out_f ip j Hp Hj H); apply reprod_0r].
Qed.

Lemma grad_ok P c ip : In P Ps -> f_grad fl = true -> (c < 3)%nat -> (ip < length pts)%nat ->
  grad_entry g (Vm P) c ip = Ok (grad n (dent P) (pt pts ip) c).
Proof.
  intros Hi Hg Hc Hp. unfold grad_entry. rewrite (Vm_dot P _ _ ip Hi (gr_df HG Hg c Hc) Hp). cbn [bind].
  rewrite rdiv_ok by (apply (gr_scale HG); auto). f_equal.
  assert (Hs := gr_scale HG c ip Hc Hp).
  transitivity (2 * contract n (dent P) (fun i j => reprod (p_g (pt pts ip) c i) (p_f (pt pts ip) j))).
  - rewrite <- (to_contract P (fun i j => reprod (p_g (pt pts ip) c i) (p_f (pt pts ip) j)) ip Hp).
    + unfold Rdiv. rewrite Rmult_assoc. f_equal.
      rewrite <- sum_scal_r. apply sum_ext. intros i Hil. rewrite <- sum_scal_r. apply sum_ext. intros j Hj.
      unfold reprod, conj, cscal. cbn. field. exact Hs.
    + intros i j Hil Hj [H|H]; [rewrite (out_g ip c i Hp Hil H); apply reprod_0l|rewrite (out_f ip j Hp Hj H); apply reprod_0r].
  - unfold grad.
    rewrite (contract_ext (dent P) (pair_g (pt pts ip) c)
       (fun i j => reprod (p_g (pt pts ip) c j) (p_f (pt pts ip) i) + reprod (p_g (pt pts ip) c i) (p_f (pt pts ip) j))).
    2:{ intros i j _ _. unfold pair_g. rewrite (reprod_sym (p_f _ _) (p_g _ _ _)). reflexivity. }
    rewrite contract_add.
    rewrite (sum_sym (dent P) (fun i j => reprod (p_g (pt pts ip) c i) (p_f (pt pts ip) j)) (sym_P P Hi)). ring.
Qed.

Definition Gm P := unres (grad_products (Sm P) g) (fun _ => (dempty, dempty)).
Lemma Gm_ok P : In P Ps -> f_grad fl = true -> grad_products (Sm P) g = Ok (Gm P) /\
  forall c, (c < 3)%nat -> pprod (Sm P) (g_df g c) = Ok (Gm P c).
Proof.
  intros Hi Hg. destruct (Sm_ok P Hi) as [_ HS]. unfold Gm, grad_products.
  destruct (pprod_ok _ _ _ _ _ _ HS (gr_df HG Hg 0 ltac:(lia))) as (X0 & E0 & _).
  destruct (pprod_ok _ _ _ _ _ _ HS (gr_df HG Hg 1 ltac:(lia))) as (X1 & E1 & _).
  destruct (pprod_ok _ _ _ _ _ _ HS (gr_df HG Hg 2 ltac:(lia))) as (X2 & E2 & _).
  rewrite E0, E1, E2. cbn [bind unres]. split; [reflexivity|].
  intros [|[|[|c]]] Hc; auto; lia.
Qed.
Lemma kin_entry_ok P c ip : In P Ps -> f_grad fl = true -> (c < 3)%nat -> (ip < length pts)%nat ->
  kin_entry g (Gm P) c ip = Ok (contract n (dent P) (fun i j => reprod (p_g (pt pts ip) c i) (p_g (pt pts ip) c j))).
Proof.
  intros Hi Hg Hc Hp. destruct (Sm_ok P Hi) as [_ HS]. destruct (Gm_ok P Hi Hg) as [_ HGm].
  assert (Hs := gr_scale HG c ip Hc Hp). unfold kin_entry.
  rewrite (quad_ok (g_df g c) (g_df g c) (Sm P) _ _ _ ip HS (gr_df HG Hg c Hc) (gr_df HG Hg c Hc) Hp (Gm P c) (HGm c Hc)). cbn [bind].
  rewrite rdiv_ok by (apply pow_nonzero; auto). f_equal.
  rewrite <- (to_contract P (fun i j => reprod (p_g (pt pts ip) c i) (p_g (pt pts ip) c j)) ip Hp).
  - unfold Rdiv. rewrite <- sum_scal_r. apply sum_ext. intros i Hil. rewrite <- sum_scal_r. apply sum_ext. intros j Hj.
    unfold reprod, conj, cscal. cbn. field. exact Hs.
  - intros i j Hil Hj [H|H]; [rewrite (out_g ip c i Hp Hil H); apply reprod_0l|rewrite (out_g ip c j Hp Hj H); apply reprod_0r].
Qed.
Lemma kin_ok P ip : In P Ps -> f_grad fl = true -> (ip < length pts)%nat ->
  kin g (Gm P) ip = Ok (contract n (dent P) (pair_gg (pt pts ip))).
Proof.
  intros Hi Hg Hp. unfold kin. rewrite !kin_entry_ok by (auto; lia). cbn [bind]. f_equal.
  rewrite <- !contract_add. apply contract_ext. intros. unfold pair_gg. cbn [sum]. ring.
Qed.
Lemma lap_ok P ip : In P Ps -> f_lapl fl = true -> (ip < length pts)%nat ->
  dot2 (Vm P) (g_lf g) ip = Ok (contract n (dent P) (fun i j => reprod (p_l (pt pts ip) i) (p_f (pt pts ip) j))).
Proof.
  intros Hi Hl Hp. rewrite (Vm_dot P _ _ ip Hi (gr_lf HG Hl) Hp). f_equal.
  rewrite <- (to_contract P (fun i j => reprod (p_l (pt pts ip) i) (p_f (pt pts ip) j)) ip Hp).
  - apply sum_ext. intros i Hil. apply sum_ext. intros j Hj. rewrite reprod_conj, reprod_sym. reflexivity.
  - intros i j Hil Hj [H|H]; [rewrite (out_l ip i Hp Hil H); apply reprod_0l|rewrite (out_f ip j Hp Hj H); apply reprod_0r].
Qed.
Lemma lapl_value P ip : In P Ps ->
  2 * (contract n (dent P) (pair_gg (pt pts ip)) + contract n (dent P) (fun i j => reprod (p_l (pt pts ip) i) (p_f (pt pts ip) j)))
  = lapl n (dent P) (pt pts ip).
Proof.
  intros Hi. unfold lapl.
  rewrite (contract_ext (dent P) (pair_l (pt pts ip))
     (fun i j => (reprod (p_l (pt pts ip) j) (p_f (pt pts ip) i) + reprod (p_l (pt pts ip) i) (p_f (pt pts ip) j)) + 2 * pair_gg (pt pts ip) i j)).
  2:{ intros i j _ _. unfold pair_l. rewrite (reprod_sym (p_f _ _) (p_l _ _)). reflexivity. }
  rewrite contract_add, contract_add, contract_scal.
  rewrite (sum_sym (dent P) (fun i j => reprod (p_l (pt pts ip) i) (p_f (pt pts ip) j)) (sym_P P Hi)). ring.
Qed.

Lemma update_density_ok w : w_fl w = fl -> w_g w = g ->
  exists d, update_density pol w Ps = Ok (mkW fl g d (w_x w)) /\ dens_rep pol Ps d.
Proof.
  intros Ef Eg. unfold update_density.
  assert (Ee : existsb (fun P => Nat.eqb (drows P * dcols P) 0) Ps = false).
  { apply not_true_is_false. intros H. apply existsb_exists in H. destruct H as (P & Hi & E).
    apply Nat.eqb_eq in E. destruct (HP P Hi) as (Hr & Hc & _). rewrite Hr, Hc in E. nia. }
  rewrite Ee, Ef, Eg, (gr_n HG).
  rewrite (fold_res_map (slice (g_ind g)) Sm Ps []) by (intros P H; apply (Sm_ok P H)). cbn [app bind].
  rewrite (fold_res_map (fun P => pprod P (g_bf g)) (fun S => unres (pprod S (g_bf g)) (dempty, dempty)) (map Sm Ps) []).
  2:{ intros S H. apply in_map_iff in H. destruct H as (P & <- & H). apply (Vm_ok P H). }
  cbn [app bind]. rewrite map_map.
  assert (Hv : forall s, (s < nspin pol)%nat ->
    vget (map (fun x => unres (pprod (Sm x) (g_bf g)) (dempty, dempty)) Ps) s = Ok (Vm (nth s Ps dempty))).
  { intros s Hs. rewrite (vget_ok _ s (unres (pprod (Sm dempty) (g_bf g)) (dempty, dempty))) by (rewrite map_length, HPs; auto).
    rewrite (map_nth (fun x => unres (pprod (Sm x) (g_bf g)) (dempty, dempty))). reflexivity. }
  set (PV := map (fun x => unres (pprod (Sm x) (g_bf g)) (dempty, dempty)) Ps) in *. clearbody PV.
  destruct (tab_ok (nspin pol) (length pts) (fun s ip => bind (vget PV s) (fun X => dot2 X (g_bf g) ip))
     (fun s ip => dens n (spin Ps s) (pt pts ip))) as (rho & Erho & Hrho).
  { intros s ip Hs Hp. rewrite Hv by auto. cbn [bind]. apply rho_entry; auto. apply nth_P; auto. }
  rewrite Erho. cbn [bind].
  (* gradient *)
  assert (Hgr : exists grho sigma,
    (if f_grad fl then
          bind (tab (3 * nspin pol) (length pts) (fun k ip => bind (vget PV (k / 3)) (fun X => grad_entry g X (k mod 3) ip))) (fun grho =>
          bind (tab (nsigma pol) (length pts) (fun k ip =>
                  sigma_entry grho (if Nat.eqb k 2 then 3 else 0) (if Nat.eqb k 0 then 0 else 3) ip)) (fun sigma =>
          Ok (grho, sigma)))
        else Ok (d_grho (w_d w), d_sigma (w_d w))) = Ok (grho, sigma) /\
    (f_grad fl = true -> is_mat grho (3 * nspin pol) (length pts)
     (fun k ip => grad n (spin Ps (k / 3)) (pt pts ip) (k mod 3))) /\
    (f_grad fl = true -> is_mat sigma (nsigma pol) (length pts)
     (fun k ip => dot3 (grad n (spin Ps (if Nat.eqb k 2 then 1 else 0)%nat) (pt pts ip))
                       (grad n (spin Ps (if Nat.eqb k 0 then 0 else 1)%nat) (pt pts ip))))).
  { destruct (f_grad fl) eqn:Eg'; [|do 2 eexists; split; [reflexivity|split; discriminate]].
    destruct (tab_ok (3 * nspin pol) (length pts) (fun k ip => bind (vget PV (k / 3)) (fun X => grad_entry g X (k mod 3) ip))
      (fun k ip => grad n (spin Ps (k / 3)) (pt pts ip) (k mod 3))) as (grho & Egr & Hgr).
    { intros k ip Hk Hp. assert (k / 3 < nspin pol)%nat by (apply Nat.div_lt_upper_bound; lia).
      rewrite Hv by auto. cbn [bind]. apply grad_ok; auto; [apply nth_P; auto|apply Nat.mod_upper_bound; lia]. }
    rewrite Egr. cbn [bind].
    destruct (tab_ok (nsigma pol) (length pts) (fun k ip =>
                  sigma_entry grho (if Nat.eqb k 2 then 3 else 0) (if Nat.eqb k 0 then 0 else 3) ip)
      (fun k ip => dot3 (grad n (spin Ps (if Nat.eqb k 2 then 1 else 0)%nat) (pt pts ip))
                       (grad n (spin Ps (if Nat.eqb k 0 then 0 else 1)%nat) (pt pts ip)))) as (sigma & Esg & Hsg).
    { intros k ip Hk Hp.
      assert (Hent : forall m, (m < 3 * nspin pol)%nat -> get grho m ip = Ok (grad n (spin Ps (m / 3)) (pt pts ip) (m mod 3))).
      { intros m Hm. apply (get_ok _ _ _ _ _ _ Hgr Hm Hp). }
      unfold sigma_entry.
      destruct pol; cbn [nspin nsigma] in Hk, Hent |- *.
      - destruct k as [|[|[|k]]]; [| | |lia]; cbn [Nat.eqb Nat.add]; rewrite !Hent by lia; cbn [bind]; unfold dot3; cbn; f_equal; ring.
      - destruct k as [|k]; [|lia]; cbn [Nat.eqb Nat.add]; rewrite !Hent by lia; cbn [bind]; unfold dot3; cbn; f_equal; ring. }
    rewrite Esg. cbn [bind]. exists grho, sigma. split; [reflexivity|split; intros _; assumption]. }
  destruct Hgr as (grho & sigma & Egr & Hgrho & Hsigma). rewrite Egr. cbn [bind fst snd]. clear Egr.
  (* tau and Laplacian *)
  destruct (f_tau fl || f_lapl fl)%bool eqn:Etl.
  - assert (Hg : f_grad fl = true) by (apply HF; apply orb_true_iff in Etl; exact Etl).
    rewrite (fold_res_map (fun P => grad_products P g) (fun S => unres (grad_products S g) (fun _ => (dempty, dempty))) (map Sm Ps) []).
    2:{ intros S H. apply in_map_iff in H. destruct H as (P & <- & H). apply (Gm_ok P H Hg). }
    cbn [app bind]. rewrite map_map.
    assert (Hgm : forall s, (s < nspin pol)%nat ->
      vget (map (fun x => unres (grad_products (Sm x) g) (fun _ => (dempty, dempty))) Ps) s = Ok (Gm (nth s Ps dempty))).
    { intros s Hs. rewrite (vget_ok _ s (unres (grad_products (Sm dempty) g) (fun _ => (dempty, dempty)))) by (rewrite map_length, HPs; auto).
      rewrite (map_nth (fun x => unres (grad_products (Sm x) g) (fun _ => (dempty, dempty)))). reflexivity. }
    set (PG := map (fun x => unres (grad_products (Sm x) g) (fun _ => (dempty, dempty))) Ps) in *. clearbody PG.
    destruct (tab_ok (nspin pol) (length pts) (fun s ip => bind (vget PG s) (fun X => bind (kin g X ip) (fun k => Ok (/ 2 * k))))
      (fun s ip => tau n (spin Ps s) (pt pts ip))) as (t & Et & Ht).
    { intros s ip Hs Hp. rewrite Hgm by auto. cbn [bind]. rewrite kin_ok by (auto; apply nth_P; auto). cbn [bind].
      f_equal. unfold tau, spin. rewrite <- contract_scal. reflexivity. }
    rewrite Et. cbn [bind].
    destruct (f_lapl fl) eqn:El.
    + destruct (tab_ok (nspin pol) (length pts) (fun s ip => bind (vget PG s) (fun X => bind (kin g X ip) (fun k =>
                    bind (vget PV s) (fun Y => bind (dot2 Y (g_lf g) ip) (fun l => Ok (2 * (k + l)))))))
        (fun s ip => lapl n (spin Ps s) (pt pts ip))) as (l & Ell & Hl).
      { intros s ip Hs Hp. rewrite Hgm by auto. cbn [bind]. rewrite kin_ok by (auto; apply nth_P; auto). cbn [bind].
        rewrite Hv by auto. cbn [bind]. rewrite lap_ok by (auto; apply nth_P; auto). cbn [bind]. f_equal.
        apply lapl_value. apply nth_P; auto. }
      rewrite Ell. cbn [bind fst snd]. eexists; split; [reflexivity|]. constructor; cbn; auto.
    + cbn [bind fst snd]. eexists; split; [reflexivity|]. constructor; cbn; auto. congruence.
  - apply orb_false_iff in Etl. destruct Etl as [Et El]. cbn [bind fst snd]. eexists; split; [reflexivity|].
    constructor; cbn; auto; congruence.
Qed.
End Dens.

End Block.
