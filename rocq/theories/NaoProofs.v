(** Proofs about numerical atomic orbitals. *)
Require Import Reals ZArith List Bool Arith Lia Lra.
Require Import Verif.Prelude Verif.FEModel Verif.AngModel Verif.JKModel Verif.JKSpec Verif.JKProofs Verif.NaoModel Verif.NaoSpec.
Import ListNotations.
Local Open Scope R_scope.

Lemma sum_swap22 a b c d (F : nat -> nat -> nat -> nat -> R) :
  sum a (fun i => sum b (fun j => sum c (fun k => sum d (fun l => F i j k l)))) =
  sum c (fun k => sum d (fun l => sum a (fun i => sum b (fun j => F i j k l)))).
Proof.
  transitivity (sum a (fun i => sum c (fun k => sum d (fun l => sum b (fun j => F i j k l))))).
  - apply sum_ext; intros i _. rewrite sum_swap. apply sum_ext; intros k _. apply sum_swap.
  - rewrite sum_swap. apply sum_ext; intros k _. apply sum_swap.
Qed.
Lemma sum2_ext a b F G : (forall i j, (i < a)%nat -> (j < b)%nat -> F i j = G i j) ->
  sum a (fun i => sum b (fun j => F i j)) = sum a (fun i => sum b (fun j => G i j)).
Proof. intros H. apply sum_ext; intros i Hi. apply sum_ext; intros j Hj. auto. Qed.
Lemma sum2_scal a b c F : c * sum a (fun i => sum b (fun j => F i j)) = sum a (fun i => sum b (fun j => c * F i j)).
Proof. rewrite <- sum_scal. apply sum_ext; intros i _. now rewrite sum_scal. Qed.

(* ------------------------------------------------------------------ *)
Lemma congruence_ok n C M : square n M -> drows C = n ->
  is_matrix (congruence C M) (dcols C) (fun a b => quadratic n (dent M) (column C a) (column C b)).
Proof.
  intros [Hr Hc] HC. unfold congruence, dprod, dT. cbn [dcols drows dent bind].
  rewrite HC, Hr, Nat.eqb_refl. cbn [bind dcols drows dent]. rewrite Hc, Nat.eqb_refl.
  eexists; split; [reflexivity|]. cbn [dcols drows dent]. split; [reflexivity|]. split; [reflexivity|].
  intros a b _ _. unfold mmul, mT, quadratic, column.
  rewrite sum_swap. apply sum_ext; intros q _. rewrite <- sum_scal_r. now apply sum_ext.
Qed.

Lemma new_ok h p C b : nao_new h p C = Ok b <->
  exists a u, p = Some a /\ h a = Some u /\ drows C = r_nbf u /\ dcols C <> 0%nat /\ b = mkNao a C.
Proof.
  unfold nao_new. destruct p as [a|]; [|split; [discriminate|intros (? & ? & E & _); discriminate]].
  destruct (h a) as [u|] eqn:Eu.
  2:{ split; [discriminate|]. intros (a' & u & E & E' & _). congruence. }
  destruct (Nat.eqb_spec (drows C) (r_nbf u)) as [E|E]; cbn [negb].
  2:{ split; [discriminate|]. intros (a' & u' & E1 & E2 & E3 & _). injection E1 as <-. congruence. }
  destruct (Nat.eqb_spec (dcols C) 0) as [E'|E'].
  { split; [discriminate|]. intros (a' & u' & _ & _ & _ & E4 & _). contradiction. }
  split.
  - intros Eb. injection Eb as <-. exists a, u. auto.
  - intros (a' & u' & E1 & _ & _ & _ & ->). now injection E1 as <-.
Qed.
Lemma new_throws h p C : (forall a, p = Some a -> h a <> None) ->
  (exists b, nao_new h p C = Ok b) \/ nao_new h p C = Throw LogicError.
Proof.
  intros H. unfold nao_new. destruct p as [a|]; [|now right]. specialize (H a eq_refl).
  destruct (h a) as [u|]; [|contradiction].
  destruct (negb _); [now right|]. destruct (dcols C =? 0)%nat; [now right|]. left. eauto.
Qed.
Lemma new_wraps h p C b : nao_new h p C = Ok b -> exists u, wraps h b u /\ n_C b = C.
Proof.
  intros H. apply new_ok in H. destruct H as (a & u & -> & Eu & Er & Ec & ->). exists u.
  unfold wraps, nao_nbf. cbn. repeat split; auto. lia.
Qed.
Lemma owned_ok h a u C : let '(h', r) := from_owned h a u C in
  h' a = Some u /\ (forall x, x <> a -> h' x = h x) /\
  (drows C = r_nbf u /\ dcols C <> 0%nat -> r = Ok (mkNao a C)) /\
  (~ (drows C = r_nbf u /\ dcols C <> 0%nat) -> r = Throw LogicError).
Proof.
  unfold from_owned, nao_new. cbv zeta. rewrite Nat.eqb_refl. split; [reflexivity|].
  split. { intros x Hx. destruct (Nat.eqb_spec x a); [contradiction|reflexivity]. }
  destruct (Nat.eqb_spec (drows C) (r_nbf u)); destruct (Nat.eqb_spec (dcols C) 0); cbn [negb]; split; intros H; auto; try tauto; exfalso; tauto.
Qed.

Lemma deref_ok h b u : wraps h b u -> deref h b = Ok u.
Proof. intros (E & _). unfold deref. now rewrite E. Qed.
Lemma one_electron_ok h b u : wraps h b u ->
  square (r_nbf u) (r_overlap u) -> square (r_nbf u) (r_kinetic u) ->
  square (r_nbf u) (r_kinetic_l u) -> square (r_nbf u) (r_nuclear u) ->
  let entries M := fun i j => quadratic (r_nbf u) (dent M) (column (n_C b) i) (column (n_C b) j) in
  is_matrix (nao_overlap h b) (nao_nbf b) (entries (r_overlap u)) /\
  is_matrix (nao_kinetic h b) (nao_nbf b) (entries (r_kinetic u)) /\
  is_matrix (nao_kinetic_l h b) (nao_nbf b) (entries (r_kinetic_l u)) /\
  is_matrix (nao_nuclear h b) (nao_nbf b) (entries (r_nuclear u)).
Proof.
  intros Hw H1 H2 H3 H4 entries. pose proof (deref_ok _ _ _ Hw) as E. destruct Hw as (_ & Hr & _).
  unfold nao_overlap, nao_kinetic, nao_kinetic_l, nao_nuclear. rewrite E. cbn [bind].
  repeat split; apply congruence_ok; auto.
Qed.

(** A bilinear form of combinations. *)
Lemma form_left B : bilinear B -> forall n c phi g, B (combination n c phi) g = sum n (fun i => c i * B (phi i) g).
Proof.
  intros (A1 & _ & S1 & _ & X1 & _). induction n; intros c phi g.
  - cbn [sum]. rewrite (X1 _ (fun r => 0 * phi 0%nat r)). 2:{ intros r. unfold combination. cbn [sum]. ring. }
    rewrite S1. ring.
  - cbn [sum]. rewrite <- IHn, <- S1, <- A1. apply X1. intros r. unfold combination. cbn [sum]. reflexivity.
Qed.
Lemma form_right B : bilinear B -> forall n c phi g, B g (combination n c phi) = sum n (fun i => c i * B g (phi i)).
Proof.
  intros (_ & A2 & _ & S2 & _ & X2). induction n; intros c phi g.
  - cbn [sum]. rewrite (X2 _ (fun r => 0 * phi 0%nat r)). 2:{ intros r. unfold combination. cbn [sum]. ring. }
    rewrite S2. ring.
  - cbn [sum]. rewrite <- IHn, <- S2, <- A2. apply X2. intros r. unfold combination. cbn [sum]. reflexivity.
Qed.
Lemma form_quadratic B n M phi f g : bilinear B ->
  (forall p q, (p < n)%nat -> (q < n)%nat -> M p q = B (phi p) (phi q)) ->
  quadratic n M f g = B (combination n f phi) (combination n g phi).
Proof.
  intros HB HM. rewrite (form_left B HB). unfold quadratic. apply sum_ext; intros p Hp.
  rewrite (form_right B HB), <- sum_scal. apply sum_ext; intros q Hq. rewrite HM by auto. ring.
Qed.

Lemma eval_ok h b u phi r C_orb : wraps h b u -> evaluates u phi r ->
  (drows C_orb = nao_nbf b -> exists v, nao_eval h b C_orb r = Ok v /\ length v = dcols C_orb /\
     forall j, (j < dcols C_orb)%nat ->
       nth j v 0 = combination (nao_nbf b) (column C_orb j) (fun a => combination (r_nbf u) (column (n_C b) a) phi) r) /\
  (drows C_orb <> nao_nbf b -> nao_eval h b C_orb r = Throw LogicError).
Proof.
  intros Hw He. unfold nao_eval. split; intros HC.
  - rewrite HC, Nat.eqb_refl. cbn [negb]. rewrite (deref_ok _ _ _ Hw). cbn [bind]. unfold dprod.
    rewrite HC. unfold nao_nbf. rewrite Nat.eqb_refl. cbn [bind].
    destruct Hw as (_ & Hr & _).
    destruct (He (mkD (drows (n_C b)) (dcols C_orb) (mmul (dcols (n_C b)) (dent (n_C b)) (dent C_orb))) Hr) as (v & Ev & Lv & Hv).
    cbn [dcols] in Lv, Hv. exists v. split; [exact Ev|]. split; [exact Lv|]. intros j Hj. rewrite Hv by auto.
    unfold combination, column, mmul. cbn [dent].
    transitivity (sum (r_nbf u) (fun i => sum (dcols (n_C b)) (fun a => dent C_orb a j * (dent (n_C b) i a * phi i r)))).
    + apply sum_ext; intros i _. rewrite <- sum_scal_r. apply sum_ext; intros a _. ring.
    + rewrite sum_swap. apply sum_ext; intros a _. now rewrite sum_scal.
  - apply Nat.eqb_neq in HC. rewrite HC. reflexivity.
Qed.

(* ------------------------------------------------------------------ *)
(** * Two-electron operators *)

Lemma promote_ok h o u D : wraps h o u -> square (nao_nbf o) D ->
  exists P, promote o D = Ok P /\ density (r_nbf u) P /\
    forall c d, dent P c d = sum (nao_nbf o) (fun m => sum (nao_nbf o) (fun n => dent D m n * dent (n_C o) c m * dent (n_C o) d n)).
Proof.
  intros (_ & Hr & _) [D1 D2]. unfold promote, dprod, nao_nbf in *. rewrite D1, Nat.eqb_refl. cbn [bind dcols drows dT].
  rewrite D2, Nat.eqb_refl. eexists; split; [reflexivity|]. split; [split; cbn; auto|].
  intros c d. cbn [dent]. unfold mmul, dT, mT. cbn [dent].
  transitivity (sum (dcols (n_C o)) (fun n => sum (dcols (n_C o)) (fun m => dent D m n * dent (n_C o) c m * dent (n_C o) d n))); [|apply sum_swap].
  apply sum_ext; intros n _. rewrite <- sum_scal_r. apply sum_ext; intros m _. ring.
Qed.
Lemma coulomb_transform n (T : nat -> nat -> nat -> nat -> R) f g N D (C P : mat) :
  (forall c d, P c d = sum N (fun m => sum N (fun k => D m k * C c m * C d k))) ->
  quadratic n (coulomb_of n T P) f g =
  sum N (fun m => sum N (fun k => D m k * slater n T f g (fun c => C c m) (fun d => C d k))).
Proof.
  intros HP. unfold quadratic, coulomb_of, slater.
  transitivity (sum n (fun p => sum n (fun q => sum N (fun m => sum N (fun k =>
      D m k * sum n (fun c => sum n (fun d => f p * g q * C c m * C d k * T p q c d))))))).
  - apply sum2_ext; intros p q _ _.
    transitivity (f p * g q * sum n (fun c => sum n (fun d => sum N (fun m => sum N (fun k => T p q c d * (D m k * C c m * C d k)))))).
    { rewrite Rmult_assoc, (Rmult_comm _ (g q)), <- Rmult_assoc. f_equal. apply sum2_ext; intros c d _ _. now rewrite HP, sum2_scal. }
    rewrite sum_swap22, sum2_scal. apply sum2_ext; intros m k _ _. rewrite !sum2_scal. apply sum2_ext; intros c d _ _. ring.
  - rewrite sum_swap22. apply sum2_ext; intros m k _ _. now rewrite <- sum2_scal.
Qed.
Lemma exchange_transform n (T : nat -> nat -> nat -> nat -> R) f g N D (C P : mat) :
  (forall c d, P c d = sum N (fun m => sum N (fun k => D m k * C c m * C d k))) ->
  quadratic n (exchange_of n T P) f g =
  sum N (fun m => sum N (fun k => D m k * slater n T f (fun c => C c m) g (fun d => C d k))).
Proof.
  intros HP.
  transitivity (quadratic n (coulomb_of n (fun a b c d => T a c b d) P) f g); [reflexivity|].
  rewrite (coulomb_transform n _ f g N D C P HP). apply sum2_ext; intros m k _ _. f_equal. unfold slater.
  apply sum_ext; intros p _. rewrite sum_swap. apply sum_ext; intros q _. apply sum_ext; intros r _. apply sum_ext; intros s _. ring.
Qed.

Lemma matrix_congruence n C J F : drows C = n -> is_matrix J n F ->
  is_matrix (bind J (congruence C)) (dcols C) (fun a b => quadratic n F (column C a) (column C b)).
Proof.
  intros HC (M & -> & Hr & Hc & He). cbn [bind].
  destruct (congruence_ok n C M (conj Hr Hc) HC) as (A & EA & A1 & A2 & A3).
  exists A. repeat split; auto. intros a b Ha Hb. rewrite A3 by auto. unfold quadratic.
  apply sum2_ext; intros p q Hp Hq. now rewrite He.
Qed.

Section Two.
Variables (h : heap) (b o : nao) (u : radial) (f : fem_part) (k : nat) (D : dmat).
Hypotheses (Hb : wraps h b u) (Ho : wraps h o u) (Hp : n_ptr b = n_ptr o) (Hf : r_fem u = Some f) (HD : square (nao_nbf o) D).

Lemma shared_ok : require_shared h b o = Ok tt.
Proof. unfold require_shared, underlying_fem. rewrite Hp, Nat.eqb_refl. cbn [negb]. rewrite (deref_ok _ _ _ Hb). cbn [bind]. now rewrite Hf. Qed.
Lemma shape_ok : require_shape o D = Ok tt.
Proof. unfold require_shape. destruct HD as [-> ->]. rewrite Nat.eqb_refl. reflexivity. Qed.
Lemma fem_is : underlying_fem h b = Ok f.
Proof. unfold underlying_fem. rewrite (deref_ok _ _ _ Hb). cbn [bind]. now rewrite Hf. Qed.

Lemma two_ok (K : kernel) : fem_ok u (f_layout f) K k ->
  exists P, promote o D = Ok P /\
  is_matrix (bind (assemble_J_uncached (f_layout f) K k P) (congruence (n_C b))) (nao_nbf b)
    (fun i j => sum (nao_nbf o) (fun m => sum (nao_nbf o) (fun n => dent D m n *
       slater (r_nbf u) (kernel_tensor (f_layout f) K k) (column (n_C b) i) (column (n_C b) j) (column (n_C o) m) (column (n_C o) n)))) /\
  is_matrix (bind (assemble_K_uncached (f_layout f) K k P) (congruence (n_C b))) (nao_nbf b)
    (fun i j => sum (nao_nbf o) (fun m => sum (nao_nbf o) (fun n => dent D m n *
       slater (r_nbf u) (kernel_tensor (f_layout f) K k) (column (n_C b) i) (column (n_C o) m) (column (n_C b) j) (column (n_C o) n)))).
Proof.
  intros (HL & Hfit & HK).
  destruct (promote_ok h o u D Ho HD) as (P & EP & dP & HP). exists P. split; [exact EP|].
  rewrite <- HL in *. destruct (uncached_ok (f_layout f) K k P Hfit dP HK) as [HJ HKm].
  destruct Hb as (_ & Hr & _). rewrite <- HL in Hr. split.
  - destruct (matrix_congruence _ _ _ _ Hr HJ) as (M & EM & M1 & M2 & M3). exists M. split; [exact EM|]. repeat split; auto.
    intros i j Hi Hj. rewrite M3 by auto. now apply coulomb_transform.
  - destruct (matrix_congruence _ _ _ _ Hr HKm) as (M & EM & M1 & M2 & M3). exists M. split; [exact EM|]. repeat split; auto.
    intros i j Hi Hj. rewrite M3 by auto. now apply exchange_transform.
Qed.
End Two.

Lemma two_electron_ok h b o u f k D : wraps h b u -> wraps h o u -> n_ptr b = n_ptr o -> r_fem u = Some f ->
  square (nao_nbf o) D -> fem_ok u (f_layout f) (f_bare f) k ->
  let T := kernel_tensor (f_layout f) (f_bare f) k in
  let A i := column (n_C b) i in let B m := column (n_C o) m in
  is_matrix (coulomb_radial h b k o D) (nao_nbf b)
    (fun i j => sum (nao_nbf o) (fun m => sum (nao_nbf o) (fun n => dent D m n * slater (r_nbf u) T (A i) (A j) (B m) (B n)))) /\
  is_matrix (exchange_radial h b k o D) (nao_nbf b)
    (fun i j => sum (nao_nbf o) (fun m => sum (nao_nbf o) (fun n => dent D m n * slater (r_nbf u) T (A i) (B m) (A j) (B n)))).
Proof.
  intros Hb Ho Hp Hf HD HK. cbv zeta.
  destruct (two_ok h b o u f k D Hb Ho HD (f_bare f) HK) as (P & EP & HJ & HX).
  unfold coulomb_radial, exchange_radial.
  rewrite (shared_ok h b o u f Hb Hp Hf), (shape_ok o D HD), (fem_is h b u f Hb Hf), EP. cbn [bind]. auto.
Qed.
Lemma screened_ok h b o u f k lambda D : wraps h b u -> wraps h o u -> n_ptr b = n_ptr o -> r_fem u = Some f ->
  square (nao_nbf o) D -> 0 < lambda -> fem_ok u (f_layout f) (f_yukawa f lambda) k ->
  let T := kernel_tensor (f_layout f) (f_yukawa f lambda) k in
  let A i := column (n_C b) i in let B m := column (n_C o) m in
  is_matrix (coulomb_radial_yukawa h b k lambda o D) (nao_nbf b)
    (fun i j => sum (nao_nbf o) (fun m => sum (nao_nbf o) (fun n => dent D m n * slater (r_nbf u) T (A i) (A j) (B m) (B n)))) /\
  is_matrix (exchange_radial_yukawa h b k lambda o D) (nao_nbf b)
    (fun i j => sum (nao_nbf o) (fun m => sum (nao_nbf o) (fun n => dent D m n * slater (r_nbf u) T (A i) (B m) (A j) (B n)))).
Proof.
  intros Hb Ho Hp Hf HD Hl HK. cbv zeta.
  destruct (two_ok h b o u f k D Hb Ho HD (f_yukawa f lambda) HK) as (P & EP & HJ & HX).
  unfold coulomb_radial_yukawa, exchange_radial_yukawa.
  rewrite (shared_ok h b o u f Hb Hp Hf), (shape_ok o D HD), (fem_is h b u f Hb Hf), EP. cbn [bind].
  destruct (Rleb_spec lambda 0); [lra|]. auto.
Qed.

Lemma two_throws h b o u k lambda D : wraps h b u -> (exists u', wraps h o u') ->
  (n_ptr b <> n_ptr o \/ r_fem u = None \/ ~ square (nao_nbf o) D ->
   coulomb_radial h b k o D = Throw LogicError /\ exchange_radial h b k o D = Throw LogicError) /\
  (n_ptr b <> n_ptr o \/ r_fem u = None \/ ~ square (nao_nbf o) D \/ lambda <= 0 ->
   coulomb_radial_yukawa h b k lambda o D = Throw LogicError /\ exchange_radial_yukawa h b k lambda o D = Throw LogicError).
Proof.
  intros Hb _.
  assert (X : require_shared h b o = Throw LogicError \/ n_ptr b = n_ptr o /\ r_fem u <> None /\ require_shared h b o = Ok tt).
  { unfold require_shared. destruct (Nat.eqb_spec (n_ptr b) (n_ptr o)) as [E|E]; cbn [negb]; [|now left].
    unfold underlying_fem. rewrite (deref_ok _ _ _ Hb). cbn [bind]. destruct (r_fem u); [right|now left].
    repeat split; auto. discriminate. }
  assert (Y : require_shape o D = Throw LogicError \/ square (nao_nbf o) D /\ require_shape o D = Ok tt).
  { unfold require_shape, square. destruct (Nat.eqb_spec (drows D) (nao_nbf o)); destruct (Nat.eqb_spec (dcols D) (nao_nbf o)); cbn [negb orb]; auto. }
  unfold coulomb_radial, exchange_radial, coulomb_radial_yukawa, exchange_radial_yukawa.
  destruct X as [->|(E1 & E2 & ->)]; [now split|]. cbn [bind].
  destruct Y as [->|(E3 & ->)]; [now split|]. cbn [bind].
  split; intros H.
  - exfalso. tauto.
  - destruct (Rleb_spec lambda 0); [now split|]. exfalso. destruct H as [H|[H|[H|H]]]; try tauto.
Qed.
