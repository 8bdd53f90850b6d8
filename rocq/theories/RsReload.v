(** Reading back what was saved, examples and counterexamples. *)
Require Import Reals ZArith List Bool Arith Lia Lra Permutation FunctionalExtensionality.
Require Import Verif.Prelude Verif.FEModel Verif.AngModel Verif.JKModel Verif.ScfModel Verif.ScfSpec Verif.ScfProofs Verif.SgProofs
  Verif.RsModel Verif.RsSpec Verif.RsProofs Verif.RsGrad Verif.RsMain Verif.RsRest Verif.RsLoad.
Import ListNotations.
Local Open Scope R_scope.

Lemma fold_collect {A} (g : nat -> res A) d : forall n a acc bs,
  fold_res (fun acc l => bind (g l) (fun b => Ok (acc ++ [b]))) (seq a n) acc = Ok bs ->
  exists tl, bs = acc ++ tl /\ length tl = n /\ forall l, (l < n)%nat -> g (a + l)%nat = Ok (nth l tl d).
Proof.
  induction n; intros a acc bs; cbn [seq fold_res].
  - intros H. injection H as <-. exists []. rewrite app_nil_r. split; [reflexivity|]. split; [reflexivity|]. intros; lia.
  - destruct (g a) as [b| | |] eqn:E; try discriminate. cbn [bind]. intros H. destruct (IHn _ _ _ H) as (tl & E1 & E2 & E3).
    exists (b :: tl). split; [rewrite E1, <- app_assoc; reflexivity|]. split; [cbn; lia|]. intros l Hl. destruct l as [|l].
    + rewrite Nat.add_0_r. exact E.
    + cbn [nth]. rewrite <- E3 by lia. f_equal. lia.
Qed.
Lemma load_blocks sv s k no S12 bs : load_state sv s k no S12 = Ok bs -> length bs = nblocks s /\
  forall t l, (t < nparttype s)%nat -> (l < sa_nb s)%nat ->
    fill_l sv s no S12 (sd_lmax k) l (file_density k t) (per_l_of (file_occs k t) l) (INR (maximum_occupation s l)) = Ok (nth (t * sa_nb s + l) bs no_block).
Proof.
  unfold load_state, nblocks, nparttype. cbv zeta.
  match goal with |- bind ?r _ = _ -> _ => destruct r as [a| | |] eqn:Ea; try discriminate end. cbn [bind].
  destruct (fold_collect _ no_block _ _ _ _ Ea) as (ta & Ea1 & Ea2 & Ea3). cbn [app] in Ea1. subst ta.
  destruct (sa_restricted s) eqn:Hr.
  - intros H. injection H as <-. split; [lia|]. intros t l Ht Hl. assert (t = 0)%nat by lia. subst t. exact (Ea3 l Hl).
  - match goal with |- bind ?r _ = _ -> _ => destruct r as [b| | |] eqn:Eb; try discriminate end. cbn [bind].
    destruct (fold_collect _ no_block _ _ _ _ Eb) as (tb & Eb1 & Eb2 & Eb3). cbn [app] in Eb1. subst tb.
    intros H. injection H as <-. split; [rewrite app_length; lia|]. intros t l Ht Hl. destruct t as [|[|t]]; [| |lia].
    + cbn [Nat.mul plus]. rewrite app_nth1 by lia. exact (Ea3 l Hl).
    + rewrite Nat.mul_1_l, app_nth2 by lia. rewrite Ea2. replace (sa_nb s + l - sa_nb s)%nat with l by lia. exact (Eb3 l Hl).
Qed.
Lemma max_nonneg s l : 0 <= INR (maximum_occupation s l).
Proof. apply pos_INR. Qed.

Lemma loaded_blocks sv s k no S12 bs : solvers_ok sv -> file_symmetric k no -> load_state sv s k no S12 = Ok bs ->
  length bs = nblocks s /\
  forall t l, (t < nparttype s)%nat -> (l < sa_nb s)%nat -> let b := nth (t * sa_nb s + l) bs no_block in
    b_m b = sa_n s /\ orthonormal (sa_n s) b /\
    (forall i, (i < sa_n s)%nat -> 0 <= b_occ b i <= INR (maximum_occupation s l)) /\
    (forall i j, (i <= j)%nat -> (j < sa_n s)%nat -> b_occ b j <= b_occ b i).
Proof.
  intros Hsv Hk HL. destruct (load_blocks _ _ _ _ _ _ HL) as [H1 H2]. split; [exact H1|]. intros t l Ht Hl b.
  destruct (fill_l_ok _ _ _ _ _ _ _ _ _ _ Hsv (max_nonneg s l) (Hk t) (H2 t l Ht Hl)) as (B1 & B2 & B3 & B4 & _). auto.
Qed.

Section Same.
Variables (s : satom) (poly : polybasis) (bval : list R) (blk : nat -> block).
Notation n := (sa_n s).
Notation k := (save_state s poly bval blk).
Lemma saved_slices t l : (t < nparttype s)%nat -> (l < sa_nb s)%nat ->
  length (file_density k t) = sa_nb s /\ nth l (file_density k t) dempty = mkD n n (block_P s (blk (t * sa_nb s + l)%nat)) /\
  per_l_of (file_occs k t) l = IZR (round_away (occupation (blk (t * sa_nb s + l)%nat))).
Proof.
  intros Ht Hl. unfold nparttype in Ht.
  assert (G : forall t', (t' < 2)%nat -> let part := fun l => if Nat.ltb l (sa_nb s) then Some (mkD n n (build_cube (extract_channel s blk t') l)) else None in
     length (read_slices (sa_nb s - 1) part) = sa_nb s /\ nth l (read_slices (sa_nb s - 1) part) dempty = mkD n n (block_P s (blk (t' * sa_nb s + l)%nat)) /\
     per_l_of (Some (map (ch_occs (extract_channel s blk t')) (seq 0 (sa_nb s)))) l = IZR (round_away (occupation (blk (t' * sa_nb s + l)%nat)))).
  { intros t' _ part. unfold read_slices. unfold part at 1 3. destruct (Nat.ltb_spec 0 (sa_nb s)); [|lia].
    replace (sa_nb s - 1 + 1)%nat with (sa_nb s) by lia. split; [now rewrite map_length, seq_length|]. split.
    - set (F := fun l0 : nat => match part l0 with Some A => A | None => _ end).
      rewrite (nth_indep _ dempty (F 0%nat)) by now rewrite map_length, seq_length.
      rewrite map_nth, seq_nth by auto. unfold F, part. cbn [plus]. destruct (Nat.ltb_spec l (sa_nb s)); [|lia]. now rewrite cube_is_density.
    - unfold per_l_of. rewrite map_length, seq_length. destruct (Nat.ltb_spec l (sa_nb s)); [|lia].
      rewrite (nth_indep _ 0%Z (ch_occs (extract_channel s blk t') 0%nat)) by now rewrite map_length, seq_length.
      rewrite map_nth, seq_nth by auto. reflexivity. }
  unfold file_density, file_occs, save_state. cbn [sd_lmax sd_Pal sd_Pbl sd_occs_a sd_occs_b]. destruct (sa_restricted s).
  - assert (t = 0)%nat by lia. subst t. apply (G 0%nat). lia.
  - destruct t as [|[|t]]; [| |lia]; cbn [Nat.eqb]; [apply (G 0%nat)|apply (G 1%nat)]; lia.
Qed.
Lemma saved_symmetric : (0 < sa_nb s)%nat -> file_symmetric k n.
Proof.
  intros Hnb t A HA i j Hi Hj.
  assert (E : exists t' l, A = mkD n n (block_P s (blk (t' * sa_nb s + l)%nat))).
  { assert (G : forall t', let part := fun l => if Nat.ltb l (sa_nb s) then Some (mkD n n (build_cube (extract_channel s blk t') l)) else None in
      In A (read_slices (sa_nb s - 1) part) -> exists t' l, A = mkD n n (block_P s (blk (t' * sa_nb s + l)%nat))).
    { intros t' part. unfold read_slices. unfold part at 1. destruct (Nat.ltb 0 (sa_nb s)); [|intros []]. intros HI. apply in_map_iff in HI.
      destruct HI as (l & El & Hl). apply in_seq in Hl. unfold part in El. destruct (Nat.ltb_spec l (sa_nb s)); [|lia].
      exists t', l. rewrite <- El. now rewrite cube_is_density. }
    unfold file_density, save_state in HA. cbn [sd_lmax sd_Pal sd_Pbl] in HA. destruct (Nat.eqb t 0); [apply (G 0%nat HA)|].
    destruct (sa_restricted s); [destruct HA|apply (G 1%nat HA)]. }
  destruct E as (t' & l & ->). cbn [dent]. exact (block_P_sym s (blk (t' * sa_nb s + l)%nat) n i j Hi Hj).
Qed.

Lemma spectrum_meq m A B lo hi : meq m m A B -> spectrum_in m A lo hi -> spectrum_in m B lo hi.
Proof.
  intros H HA v. specialize (HA v). replace (quad_form m B v) with (quad_form m A v); [exact HA|].
  unfold quad_form. apply sum_ext. intros i Hi. apply sum_ext. intros j Hj. now rewrite H.
Qed.
Lemma sand_meq m X A B : meq m m A B -> meq m m (mmul m (mmul m (mT X) A) X) (mmul m (mmul m (mT X) B) X).
Proof. intros H i j Hi Hj. apply mmul_l. intros p Hp. apply mmul_r. intros q Hq. now apply H. Qed.

(** The projection of the saved density on the same basis. *)
Lemma reload_project b z : half_inverse n (sa_X s) (sa_S s) -> orthonormal n b -> occupation b = IZR z -> (0 <= z)%Z ->
  meq n n (project n n (sa_X s) (sa_S s) (sa_S s) (block_P s b) (IZR z)) (block_P s b).
Proof.
  intros HX Ho Ez Hz. destruct (Z.eq_dec z 0) as [->|Hn].
  - pose proof HX as [_ HX2]. unfold project. set (Q := mmul n (mmul n (sa_X s) (mT (sa_X s))) (sa_S s)).
    assert (E : meq n n (mmul n (mmul n Q (block_P s b)) (mT Q)) (block_P s b)).
    { intros i j Hi Hj. rewrite (mmul_l n (mmul n Q (block_P s b)) (block_P s b)).
      2:{ intros q Hq. rewrite (mmul_l n Q mid) by (intros; apply HX2; auto). apply mmul_id_l; auto. }
      rewrite (mmul_r n (block_P s b) (mT Q) mid).
      2:{ intros q Hq. unfold mT. rewrite mid_sym. apply HX2; auto. }
      apply mmul_id_r; auto. }
    destruct (Rltb_spec 0 0); [lra|]. rewrite andb_false_r. exact E.
  - apply project_same; auto; [apply IZR_lt; lia|]. rewrite P_trace; auto.
Qed.
Lemma reload_same sv bs : solvers_ok sv -> half_inverse n (sa_X s) (sa_S s) -> all_orthonormal s blk ->
  (forall j, (j < nblocks s)%nat -> exists z, occupation (blk j) = IZR z /\ (0 <= z)%Z) ->
  (forall t l, (t < nparttype s)%nat -> (l < sa_nb s)%nat ->
    spectrum_in n (mmul n (mmul n (mT (sa_X s)) (block_P s (blk (t * sa_nb s + l)%nat))) (sa_X s)) 0 (INR (maximum_occupation s l))) ->
  load_state sv s k n (sa_S s) = Ok bs ->
  forall t l, (t < nparttype s)%nat -> (l < sa_nb s)%nat ->
    let G := mmul n (sa_X s) (mT (sa_X s)) in
    meq n n (block_P s (nth (t * sa_nb s + l) bs no_block)) (mmul n (mmul n G (block_P s (blk (t * sa_nb s + l)%nat))) G).
Proof.
  intros Hsv HX Ho Hz Hsp HL t l Ht Hl G.
  destruct (load_blocks _ _ _ _ _ _ HL) as [_ H2].
  destruct (saved_slices t l Ht Hl) as (L1 & L2 & L3).
  destruct (fill_l_ok _ _ _ _ _ _ _ _ _ _ Hsv (max_nonneg s l) (saved_symmetric ltac:(lia) t) (H2 t l Ht Hl)) as (_ & _ & _ & _ & Pn & _ & HPn & HD).
  assert (Hj : (t * sa_nb s + l < nblocks s)%nat) by (unfold nblocks; nia).
  destruct (Hz _ Hj) as (z & Ez & Hz0).
  rewrite L1, L2, L3, Ez, round_integer in HPn. cbn [dent] in HPn.
  assert (EP : meq n n Pn (block_P s (blk (t * sa_nb s + l)%nat))).
  { rewrite HPn; [apply reload_project; auto|unfold save_state; cbn [sd_lmax]; lia|auto]. }
  intros i j Hi Hj'. rewrite HD; auto.
  - fold G. apply mmul_l. intros p Hp. apply mmul_r. intros q Hq. apply EP; auto.
  - eapply spectrum_meq; [|exact (Hsp t l Ht Hl)]. apply sand_meq. intros p q Hp Hq. symmetry. apply EP; auto.
Qed.
Lemma reload_exact sv bs : solvers_ok sv -> half_inverse n (sa_X s) (sa_S s) -> meq n n (mmul n (sa_X s) (mT (sa_X s))) mid -> all_orthonormal s blk ->
  (forall j, (j < nblocks s)%nat -> exists z, occupation (blk j) = IZR z /\ (0 <= z)%Z) ->
  (forall t l, (t < nparttype s)%nat -> (l < sa_nb s)%nat ->
    spectrum_in n (mmul n (mmul n (mT (sa_X s)) (block_P s (blk (t * sa_nb s + l)%nat))) (sa_X s)) 0 (INR (maximum_occupation s l))) ->
  load_state sv s k n (sa_S s) = Ok bs ->
  forall t l, (t < nparttype s)%nat -> (l < sa_nb s)%nat ->
    meq n n (block_P s (nth (t * sa_nb s + l) bs no_block)) (block_P s (blk (t * sa_nb s + l)%nat)).
Proof.
  intros Hsv HX HG Ho Hz Hsp HL t l Ht Hl i j Hi Hj.
  rewrite (reload_same sv bs Hsv HX Ho Hz Hsp HL t l Ht Hl i j Hi Hj).
  rewrite (mmul_r n _ _ mid) by (intros; apply HG; auto). rewrite mmul_id_r by auto.
  rewrite (mmul_l n _ mid) by (intros; apply HG; auto). now apply mmul_id_l.
Qed.
End Same.

(** A slice that does not have the size of the rebuilt basis. *)
Lemma load_size sv s k no S12 A rest : (0 < sa_nb s)%nat -> read_slices (sd_lmax k) (sd_Pal k) = A :: rest -> drows A <> no ->
  load_state sv s k no S12 = UB.
Proof.
  intros Hnb E Hd. unfold load_state. cbv zeta. rewrite E. destruct (sa_nb s) as [|m]; [lia|]. cbn [seq fold_res].
  unfold fill_l at 1. cbv zeta. cbn [length Nat.leb Nat.ltb andb nth]. destruct (Nat.eqb_spec (drows A) no); [contradiction|]. reflexivity.
Qed.

(* ---------- frozen occupations ---------- *)
Lemma frozen_given s fa fb : length fa = sa_nb s -> (sa_restricted s = false -> length fb = sa_nb s) ->
  exists o, frozen s fa fb = Some o /\ length o = nblocks s /\
    forall l, (l < sa_nb s)%nat -> nth l o 0 = nth l fa 0 /\ (sa_restricted s = false -> nth (sa_nb s + l) o 0 = nth l fb 0).
Proof.
  intros Ha Hb. unfold frozen, nblocks, nparttype. rewrite Ha, Nat.eqb_refl. cbn [orb]. eexists. split; [reflexivity|].
  destruct (sa_restricted s).
  - rewrite app_nil_r. split; [lia|]. intros l Hl. split; [reflexivity|discriminate].
  - rewrite (Hb eq_refl), Nat.eqb_refl. cbn [negb andb]. rewrite app_length, Ha, (Hb eq_refl). split; [lia|]. intros l Hl. split.
    + rewrite app_nth1 by lia. reflexivity.
    + intros _. rewrite app_nth2 by lia. f_equal. lia.
Qed.
Lemma frozen_none s fa fb : frozen s fa fb = None <-> length fa <> sa_nb s /\ (sa_restricted s = false -> length fb <> sa_nb s).
Proof.
  unfold frozen. destruct (Nat.eqb_spec (length fa) (sa_nb s)); destruct (Nat.eqb_spec (length fb) (sa_nb s)); destruct (sa_restricted s); cbn [negb andb orb];
  intuition congruence.
Qed.

(* ---------- examples ---------- *)
Lemma sum1 f : sum 1 f = f 0%nat.
Proof. cbn [sum]. ring. Qed.
Definition sp (P : cube) : R := P 0%nat 0%nat 0%nat + P 1%nat 0%nat 0%nat.
Definition ex_xc1 (P : cube) : R * cube := (sp P * sp P, fun _ _ _ => 2 * sp P).
Definition ex_xc2 (beta : bool) (Pa Pb : cube) : R * (cube * cube) :=
  let v := fun _ _ _ => 2 * (sp Pa + sp Pb) in ((sp Pa + sp Pb) * (sp Pa + sp Pb), (v, if beta then v else czero)).
(** One radial function with overlap 4, s and p blocks, a quarter of exact exchange and a functional. *)
Definition ex_atom (r : bool) (nelb : nat) : satom :=
  mkSA 1 2 r 1 nelb ex_S ex_X (fun _ _ => 3) (fun _ _ => 5) (fun _ _ => - 2) (Some (fun _ _ => 7)) (/ 4) 0 true
    (fun A => A) (fun A => A) (fun A => A) ex_xc1 ex_xc2.
Definition ex_blk (o : R) : nat -> block := fun k => mkBlock 1 mid (fun _ => o).
Lemma ex_filled r nelb o : blocks_filled (ex_atom r nelb) (ex_blk o).
Proof. intros k _. cbn. lia. Qed.
Lemma ex_shell nb n : shell_linear_symmetric nb n (fun A => A).
Proof. split; [intros A B t l _ _ _ i j _ _; reflexivity|]. intros A B _ _. apply sum_ext. intros l _. f_equal. apply tr_comm. Qed.
Lemma ex_atom_ok r nelb : atom_ok (ex_atom r nelb).
Proof. split; [apply ex_linear|]. split; intros _; apply ex_shell. Qed.
Lemma sp_direction P D : direction 2 1 P D -> derivable_pt_lim (fun t => sp (P t)) 0 (sp D).
Proof.
  intros H. apply (derivable_pt_lim_plus (fun t => P t 0%nat 0%nat 0%nat) (fun t => P t 1%nat 0%nat 0%nat)); apply H; lia.
Qed.
Lemma deriv_square f d x : derivable_pt_lim f 0 d -> f 0 = x -> derivable_pt_lim (fun t => f t * f t) 0 (d * (2 * x)).
Proof.
  intros H <-. replace (d * (2 * f 0)) with (d * f 0 + f 0 * d) by ring. exact (derivable_pt_lim_mult f f 0 d d H H).
Qed.
Lemma ctr21 A c : ctr 2 1 A (fun _ _ _ => c) = sp A * c.
Proof. unfold ctr, tr, sp. cbn [sum]. ring. Qed.
Lemma ex_curve1 : xc_curve1 2 1 ex_xc1.
Proof.
  intros P D _ _ H. unfold ex_xc1. cbn [fst snd]. rewrite ctr21. apply (deriv_square (fun t => sp (P t))); [|reflexivity]. now apply sp_direction.
Qed.
Lemma ex_curve2 : xc_curve2 2 1 (ex_xc2 true).
Proof.
  intros Pa Pb Da Db _ _ _ _ H1 H2. unfold ex_xc2. cbn [fst snd]. rewrite !ctr21.
  replace (_ + _) with ((sp Da + sp Db) * (2 * (sp (Pa 0) + sp (Pb 0)))) by ring.
  apply (deriv_square (fun t => sp (Pa t) + sp (Pb t))); [|reflexivity].
  apply (derivable_pt_lim_plus (fun t => sp (Pa t)) (fun t => sp (Pb t))); now apply sp_direction.
Qed.
Lemma line_start P D : cadd P (cscal 0 D) = P.
Proof. fext. unfold cadd, cscal, madd, mscal. ring. Qed.
Lemma line_direction nb n P D : direction nb n (fun t => cadd P (cscal t D)) D.
Proof.
  pose proof (crv_direction nb n P D czero czero) as H. intros l a b Hl Ha Hb.
  replace (fun t => cadd P (cscal t D) l a b) with (fun t => crv P D czero czero t l a b) by (apply functional_extensionality; intros t; now rewrite crv_line).
  now apply H.
Qed.
Lemma line_sym nb n P D t : csym nb n P -> csym nb n D -> csym nb n (cadd P (cscal t D)).
Proof. apply csym_line. Qed.
Lemma ex_line1 : xc_line1 2 1 ex_xc1.
Proof.
  intros P D HP HD. pose proof (ex_curve1 (fun t => cadd P (cscal t D)) D (fun t => line_sym 2 1 P D t HP HD) HD (line_direction 2 1 P D)) as H.
  cbv beta in H. rewrite line_start in H. exact H.
Qed.
Lemma ex_line2 : xc_line2 2 1 (ex_xc2 true).
Proof.
  intros Pa Pb Da Db HPa HPb HDa HDb.
  pose proof (ex_curve2 (fun t => cadd Pa (cscal t Da)) (fun t => cadd Pb (cscal t Db)) Da Db (fun t => line_sym 2 1 Pa Da t HPa HDa)
    (fun t => line_sym 2 1 Pb Db t HPb HDb) HDa HDb (line_direction 2 1 Pa Da) (line_direction 2 1 Pb Db)) as H.
  cbv beta in H. rewrite !line_start in H. exact H.
Qed.
Lemma ex_alpha : xc_curve1 2 1 (fun P => (fst (ex_xc2 false P czero), fst (snd (ex_xc2 false P czero)))).
Proof.
  intros P D HP HD H. pose proof (ex_curve1 P D HP HD H) as H1. unfold ex_xc1, ex_xc2 in *. cbn [fst snd] in *.
  assert (E : sp czero = 0) by (unfold sp, czero, mzero; ring). rewrite E, !Rplus_0_r.
  replace (fun t => (sp (P t) + 0) * (sp (P t) + 0)) with (fun t => sp (P t) * sp (P t)) by (apply functional_extensionality; intros; ring). exact H1.
Qed.
Lemma ex_closed : xc_closed 2 1 ex_xc1 (ex_xc2 true).
Proof.
  intros P _. cbv zeta. unfold ex_xc1, ex_xc2. cbn [fst snd]. assert (E : sp (cscal (/ 2) P) + sp (cscal (/ 2) P) = sp P) by (unfold sp, cscal, mscal; field).
  rewrite E. split; [reflexivity|]. intros l _. split; intros i j _ _; reflexivity.
Qed.
Lemma ex_same : same_atom (ex_atom true 1) (ex_atom false 1).
Proof. unfold same_atom. repeat split. Qed.
Lemma ex_half1 : half_inverse 1 ex_X ex_S.
Proof. split; intros i j Hi Hj; assert (i = 0)%nat by lia; assert (j = 0)%nat by lia; subst; unfold mmul, mT, ex_X, ex_S, mid; cbn [sum Nat.eqb]; lra. Qed.
Lemma ex_orthonormal r nelb o : all_orthonormal (ex_atom r nelb) (ex_blk o).
Proof.
  intros k _ i j Hi Hj. cbn in Hi, Hj. assert (i = 0)%nat by lia. assert (j = 0)%nat by lia. subst. unfold mmul, mT, mid. cbn. lra.
Qed.

(* ---------- what does not hold ---------- *)

(** One function, one block, X = S = 1, nothing but a functional linear in the density. *)
Definition lin_xc (beta : bool) (Pa Pb : cube) : R * (cube * cube) :=
  (Pa 0%nat 0%nat 0%nat + Pb 0%nat 0%nat 0%nat, (fun _ _ _ => 1, if beta then fun _ _ _ => 1 else czero)).
Definition one_atom (r : bool) (nelb : nat) (X S : mat) (xc : bool) : satom :=
  mkSA 1 1 r 1 nelb S X mzero mzero mzero None 0 0 xc (fun _ => mzero) (fun A => A) (fun A => A) (fun P => (0, czero)) lin_xc.
Definition one_blk (oa ob : R) : nat -> block := fun k => mkBlock 1 mid (fun _ => if Nat.eqb k 0 then oa else ob).
Lemma lin_xc_ok : xc_line2 1 1 (lin_xc true).
Proof.
  intros Pa Pb Da Db _ _ _ _. unfold lin_xc. cbn [fst snd].
  set (a := Pa 0%nat 0%nat 0%nat). set (b := Pb 0%nat 0%nat 0%nat). set (c := Da 0%nat 0%nat 0%nat). set (d := Db 0%nat 0%nat 0%nat).
  replace (ctr 1 1 Da (fun _ _ _ => 1) + ctr 1 1 Db (fun _ _ _ => 1)) with (c + d) by (unfold ctr, tr; cbn [sum]; fold c d; ring).
  replace (fun t => cadd Pa (cscal t Da) 0%nat 0%nat 0%nat + cadd Pb (cscal t Db) 0%nat 0%nat 0%nat) with (fun t => (a + b) + (c + d) * t + 0 * (t * t)).
  - apply deriv_quadratic.
  - apply functional_extensionality; intros t. unfold cadd, cscal, madd, mscal. fold a b c d. ring.
Qed.
Lemma beta_gradient : exists s blk dn, atom_ok s /\ sa_restricted s = false /\ sa_nelb s = 0%nat /\ blocks_filled s blk /\ xc_line2 (sa_nb s) (sa_n s) (sa_xc2 s true) /\
  (forall Pa Pb, fst (sa_xc2 s false Pa Pb) = fst (sa_xc2 s true Pa Pb)) /\ (forall i, b_occ (blk 1%nat) i = 0) /\
  ~ gradient_along s blk (move_occ blk dn) (fun F => orbital_energies s F blk dn (seq 0 (nblocks s))).
Proof.
  set (s := one_atom false 0 mid mid true). set (blk := one_blk 1 0). set (dn := fun k (_ : nat) => if Nat.eqb k 0 then 0 else 1).
  assert (Hf : forall t l, (l < sa_nb s)%nat -> (0 < b_m (move_occ blk dn t l))%nat /\ (0 < b_m (move_occ blk dn t (sa_nb s + l)%nat))%nat)
    by (intros; cbn; lia).
  exists s, blk, dn. split.
  { split; [|split; intros H; exfalso; apply H; reflexivity]. cbn [sa_n sa_coulomb s one_atom]. split.
    - intros A B t _ _ i j _ _. unfold madd, mscal, mzero. ring.
    - intros A B _ _. rewrite (tr_comm 1 A), (tr_comm 1 B), !tr_zero. reflexivity. }
  split; [reflexivity|]. split; [reflexivity|]. split; [intros k _; cbn; lia|]. split; [exact lin_xc_ok|]. split; [reflexivity|]. split; [reflexivity|].
  intros (E & F & H1 & H2 & H3).
  assert (Hp := angfac_pos).
  assert (EE : forall t, E t = / angfac + t * / angfac).
  { intros t. destruct (H2 t) as [Ft H]. unfold build_fock in H. cbn [sa_restricted s one_atom] in H. change (mkSA _ _ _ _ _ _ _ _ _ _ _ _ _ _ _ _ _ _ _) with s in H.
    rewrite build_unrestricted_eval in H by apply Hf. injection H as H _. rewrite <- H.
    unfold Eu, xc2, ctr, tr, csum, coul, Kof, have_exx. cbn [s one_atom sa_kfrac sa_kshort sa_have_xc sa_nb sa_n sa_nelb sa_xc2 sa_coulomb lin_xc fst snd sum Nat.ltb Nat.leb].
    destruct (Reqb_spec 0 0); [|lra]. cbn [negb orb].
    unfold ham, kin, confm, densr, densb, upto, dens, block_P, block_density, move_occ, blk, one_blk, dn, divided_cube, mmul, mid, madd, mscal, mzero, czero.
    cbn [s one_atom sa_nb sa_n sa_X sa_T sa_Tl sa_Vnuc sa_conf b_m b_orb b_occ sum Nat.eqb Nat.ltb Nat.leb plus Nat.mul INR]. unfold mid, mzero. cbn [Nat.eqb]. field. lra. }
  assert (HF : F 1%nat 0%nat 0%nat = 0).
  { unfold build_fock in H1. cbn [sa_restricted s one_atom] in H1. change (mkSA _ _ _ _ _ _ _ _ _ _ _ _ _ _ _ _ _ _ _) with s in H1.
    rewrite build_unrestricted_eval in H1 by (intros; cbn; lia). injection H1 as _ H. rewrite <- H.
    unfold Fu, xc2, sandw, fao, coul, mmul, mT, ham, kin, confm, madd, mscal, mzero, czero, mid.
    cbn [s one_atom sa_nb sa_n sa_X sa_T sa_Tl sa_Vnuc sa_conf sa_have_xc sa_nelb sa_coulomb fst snd sum Nat.ltb Nat.leb Nat.eqb Nat.sub Nat.mul INR plus].
    unfold mzero. ring. }
  assert (HS : orbital_energies s F blk dn (seq 0 (nblocks s)) = 0).
  { unfold orbital_energies, element, col, nblocks, nparttype. cbn [s one_atom sa_restricted sa_nb sa_n Nat.mul Nat.add seq lsum].
    unfold blk, one_blk, dn, mid. cbn [b_m b_orb sum Nat.eqb]. rewrite HF. ring. }
  rewrite HS in H3.
  assert (H4 : derivable_pt_lim E 0 (/ angfac)).
  { replace E with (fun t => / angfac + / angfac * t + 0 * (t * t)) by (apply functional_extensionality; intros; rewrite EE; ring). apply deriv_quadratic. }
  pose proof (uniqueness_limite _ _ _ _ H3 H4) as H. assert (0 < / angfac) by now apply Rinv_0_lt_compat. lra.
Qed.
Lemma frozen_zero : exists s fa o, sa_restricted s = false /\ (0 < sa_nelb s)%nat /\ length fa = sa_nb s /\ frozen s fa [] = Some o /\
  length o = nblocks s /\ forall l, (l < sa_nb s)%nat -> nth (sa_nb s + l) o 0 = 0.
Proof.
  exists (ex_atom false 1), [1; 0], [1; 0; 0; 0]. repeat split; auto. intros l Hl. cbn in Hl. destruct l as [|[|l]]; [reflexivity|reflexivity|lia].
Qed.

Definition lip : polybasis := mkPoly LIP GaussLobatto 4 15.
Ltac load1 := unfold load_state, save_state, read_slices; cbv zeta; cbn [one_atom sa_nb sa_n sa_restricted sa_X sa_S sd_lmax sd_Pal sd_Pbl sd_occs_a sd_occs_b
    Nat.sub Nat.add Nat.ltb Nat.leb map seq fold_res extract_channel ch_occs length nth app drows dcols Nat.eqb];
  unfold fill_l; cbv zeta; cbn [one_atom sa_n sa_X sa_S length nth Nat.leb Nat.ltb andb drows dcols Nat.eqb negb bind sv_eig diagonal_solvers]; rewrite ?asc1; cbn [bind fold_res app].
Lemma round_half : round_away (/ 2) = 1%Z.
Proof.
  unfold round_away. destruct (Rleb_spec 0 (/ 2)); [|lra]. pose proof (int_part_bounds (/ 2 + / 2)) as [H1 H2].
  replace (/ 2 + / 2) with 1 in H1, H2 by lra. replace (/ 2 + / 2) with 1 by lra. apply le_IZR in H1.
  replace (IZR (Int_part 1) + 1) with (IZR (Int_part 1 + 1)) in H2 by apply plus_IZR. apply lt_IZR in H2. lia.
Qed.
Lemma one_orthonormal r nelb X S xc oa ob : all_orthonormal (one_atom r nelb X S xc) (one_blk oa ob).
Proof. intros k _ i j Hi Hj. cbn in Hi, Hj. assert (i = 0)%nat by lia. assert (j = 0)%nat by lia. subst. unfold mmul, mT, mid. cbn. lra. Qed.
Lemma mid_half : half_inverse 1 mid mid.
Proof. split; intros i j Hi Hj; assert (i = 0)%nat by lia; assert (j = 0)%nat by lia; subst; unfold mmul, mT, mid; cbn; lra. Qed.

(** The loaded block of a 1 x 1 problem. *)
Definition one_occ (s : satom) (S12 : R) (P per mx : R) : R :=
  let x := sa_X s 0%nat 0%nat in let q := x * x * S12 in
  let Pn := q * P * q in let T := Pn * sa_S s 0%nat 0%nat in
  let Pn := if (Rltb 0 T && Rltb 0 per)%bool then per / T * Pn else Pn in
  Rmin (Rmax (x * Pn * x) 0) mx.
Lemma fill_one s S12 old P per mx : sa_n s = 1%nat -> exists b,
  fill_l diagonal_solvers s 1 S12 old 0 [mkD 1 1 P] per mx = Ok b /\ occupation b = one_occ s (S12 0%nat 0%nat) (P 0%nat 0%nat) per mx.
Proof.
  intros Hn. unfold fill_l. cbv zeta. rewrite Hn. cbn [length Nat.leb Nat.ltb andb nth drows dcols Nat.eqb negb bind sv_eig diagonal_solvers]. rewrite asc1.
  eexists. split; [reflexivity|]. unfold occupation. cbn [b_m b_occ sum Nat.sub]. unfold one_occ.
  set (x := sa_X s 0%nat 0%nat).
  match goal with |- context [Rltb 0 ?T && Rltb 0 per] => set (T1 := T) end.
  match goal with |- _ = Rmin (Rmax (x * (if Rltb 0 ?T && Rltb 0 per then _ else _) * x) 0) mx => set (T2 := T) end.
  assert (ET : T1 = T2) by (unfold T1, T2, tr, mmul, mT; cbn [sum dent]; fold x; ring).
  rewrite Rplus_0_l, <- ET. f_equal. f_equal.
  destruct (Rltb 0 T1 && Rltb 0 per)%bool; unfold mscal, mmul, mT; cbn [sum dent]; fold x; unfold Rdiv; ring.
Qed.
Lemma fill_none s S12 old per mx : sa_n s = 1%nat -> 0 <= mx -> exists b,
  fill_l diagonal_solvers s 1 S12 old 0 [] per mx = Ok b /\ occupation b = 0.
Proof.
  intros Hn Hm. unfold fill_l. cbv zeta. rewrite Hn. cbn [length Nat.leb Nat.ltb andb bind sv_eig diagonal_solvers]. rewrite asc1.
  eexists. split; [reflexivity|]. unfold occupation. cbn [b_m b_occ sum Nat.sub]. unfold mmul, mT, mzero. cbn [sum].
  unfold Rmin, Rmax. repeat destruct (Rle_dec _ _); lra.
Qed.
Lemma load_restricted s k S12 P za : sa_nb s = 1%nat -> sa_n s = 1%nat -> sa_restricted s = true -> sd_lmax k = 0%nat ->
  sd_Pal k 0%nat = Some (mkD 1 1 P) -> sd_occs_a k = Some [za] ->
  exists bs, load_state diagonal_solvers s k 1 S12 = Ok bs /\ loaded bs = one_occ s (S12 0%nat 0%nat) (P 0%nat 0%nat) (IZR za) 2.
Proof.
  intros Hb Hn Hr Hl HP Ho. unfold load_state, read_slices. cbv zeta. rewrite Hb, Hr, Hl, HP, Ho. cbn [Nat.add seq map fold_res]. rewrite HP.
  replace (INR (maximum_occupation s 0)) with 2 by (unfold maximum_occupation; rewrite Hr; cbn; lra).
  cbn [per_l_of length Nat.ltb Nat.leb nth]. destruct (fill_one s S12 0 P (IZR za) 2 Hn) as (b & Eb & Ob). rewrite Eb. cbn [bind app].
  eexists. split; [reflexivity|]. unfold loaded. cbn [lsum]. rewrite Ob. ring.
Qed.
Lemma load_unrestricted s k S12 P za : sa_nb s = 1%nat -> sa_n s = 1%nat -> sa_restricted s = false -> sd_lmax k = 0%nat ->
  sd_Pal k 0%nat = Some (mkD 1 1 P) -> sd_occs_a k = Some [za] -> sd_Pbl k 0%nat = None ->
  exists bs, load_state diagonal_solvers s k 1 S12 = Ok bs /\ loaded bs = one_occ s (S12 0%nat 0%nat) (P 0%nat 0%nat) (IZR za) 1.
Proof.
  intros Hb Hn Hr Hl HP Ho HB. unfold load_state, read_slices. cbv zeta. rewrite Hb, Hr, Hl, HP, HB, Ho. cbn [Nat.add seq map fold_res]. rewrite HP.
  replace (INR (maximum_occupation s 0)) with 1 by (unfold maximum_occupation; rewrite Hr; cbn; lra).
  cbn [per_l_of length Nat.ltb Nat.leb nth]. destruct (fill_one s S12 0 P (IZR za) 1 Hn) as (b & Eb & Ob). rewrite Eb. cbn [bind app fold_res].
  destruct (fill_none s S12 0 (per_l_of (sd_occs_b k) 0) 1 Hn ltac:(lra)) as (b' & Eb' & Ob'). rewrite Eb'. cbn [bind app].
  eexists. split; [reflexivity|]. unfold loaded. cbn [lsum]. rewrite Ob, Ob'. ring.
Qed.
Lemma one_value r nelb X S xc oa ob t : block_P (one_atom r nelb X S xc) (one_blk oa ob t) 0%nat 0%nat =
  X 0%nat 0%nat * (if Nat.eqb t 0 then oa else ob) * X 0%nat 0%nat.
Proof. unfold block_P, block_density, mmul, one_blk, mid. cbn [one_atom sa_n sa_X b_m b_orb b_occ sum Nat.eqb]. ring. Qed.
Ltac rr := repeat match goal with |- context [Rltb ?a ?b] => destruct (Rltb_spec a b); [|lra] end; cbn [andb]; unfold Rmin, Rmax; repeat destruct (Rle_dec _ _); lra.

(** The saved state of a one-block calculation. *)
Lemma one_saved r nelb X S xc oa ob z : round_away oa = z -> let k := save_state (one_atom r nelb X S xc) lip [0; 1] (one_blk oa ob) in
  sd_lmax k = 0%nat /\ sd_occs_a k = Some [z] /\ (r = true -> sd_Pbl k 0%nat = None) /\
  sd_Pal k 0%nat = Some (mkD 1 1 (block_P (one_atom r nelb X S xc) (one_blk oa ob 0%nat))).
Proof.
  intros Hz. split; [reflexivity|]. split; [|split].
  - unfold save_state. cbn [sd_occs_a one_atom sa_nb seq map]. f_equal. f_equal. unfold extract_channel. cbn [ch_occs one_atom sa_nb one_blk b_m b_occ sum Nat.mul Nat.add Nat.eqb].
    now rewrite Rplus_0_l.
  - intros ->. reflexivity.
  - transitivity (Some (mkD 1 1 (build_cube (extract_channel (one_atom r nelb X S xc) (one_blk oa ob) 0) 0%nat))); [reflexivity|].
    now rewrite cube_is_density.
Qed.

(** A basis with overlap 4: the electron that was saved comes back as a sixteenth. *)
Lemma reload_loses : exists s blk sv bs, solvers_ok sv /\ half_inverse (sa_n s) (sa_X s) (sa_S s) /\ all_orthonormal s blk /\ electrons s blk = 1 /\
  load_state sv s (save_state s lip [0; 1] blk) (sa_n s) (sa_S s) = Ok bs /\ loaded bs = / 16.
Proof.
  set (s := one_atom true 0 ex_X ex_S false). exists s, (one_blk 1 0), diagonal_solvers.
  destruct (one_saved true 0 ex_X ex_S false 1 0 1 (round_integer 1)) as (K1 & K2 & _ & K4).
  destruct (load_restricted s _ (sa_S s) _ _ eq_refl eq_refl eq_refl K1 K4 K2) as (bs & E1 & E2). exists bs.
  split; [exact diagonal_solvers_ok|]. split; [exact ex_half1|]. split; [apply one_orthonormal|]. split; [|split; [exact E1|]].
  - unfold electrons, nblocks, nparttype, occupation. cbn [s one_atom sa_restricted sa_nb Nat.mul Nat.add sum one_blk b_m b_occ Nat.eqb]. ring.
  - rewrite E2, one_value. unfold one_occ. cbn [s one_atom sa_X sa_S Nat.eqb]. unfold ex_X, ex_S. cbn [Nat.eqb]. cbv zeta. rr.
Qed.
(** Half an electron in a shell is rounded to one when it is saved. *)
Lemma reload_doubles : exists s blk sv bs, solvers_ok sv /\ half_inverse (sa_n s) (sa_X s) (sa_S s) /\ meq (sa_n s) (sa_n s) (mmul (sa_n s) (sa_X s) (mT (sa_X s))) mid /\
  all_orthonormal s blk /\ electrons s blk = / 2 /\
  load_state sv s (save_state s lip [0; 1] blk) (sa_n s) (sa_S s) = Ok bs /\ loaded bs = 1.
Proof.
  set (s := one_atom true 0 mid mid false). exists s, (one_blk (/ 2) 0), diagonal_solvers.
  destruct (one_saved true 0 mid mid false (/ 2) 0 1 round_half) as (K1 & K2 & _ & K4).
  destruct (load_restricted s _ (sa_S s) _ _ eq_refl eq_refl eq_refl K1 K4 K2) as (bs & E1 & E2). exists bs.
  split; [exact diagonal_solvers_ok|]. split; [exact mid_half|]. split; [|split; [apply one_orthonormal|split; [|split; [exact E1|]]]].
  - intros i j Hi Hj. cbn in Hi, Hj. assert (i = 0)%nat by lia. assert (j = 0)%nat by lia. subst. unfold mmul, mT, mid. cbn. lra.
  - unfold electrons, nblocks, nparttype, occupation. cbn [s one_atom sa_restricted sa_nb Nat.mul Nat.add sum one_blk b_m b_occ Nat.eqb]. ring.
  - rewrite E2, one_value. unfold one_occ. cbn [s one_atom sa_X sa_S Nat.eqb]. unfold mid. cbn [Nat.eqb]. cbv zeta. rr.
Qed.
(** Changing between restricted and spin-polarised calculations: one of two electrons is lost either way. *)
Lemma reload_spin : forall r, exists s u blk sv bs, sa_restricted s = r /\ sa_restricted u = negb r /\ sa_n u = sa_n s /\ sa_nb u = sa_nb s /\ sa_S u = sa_S s /\ sa_X u = sa_X s /\
  solvers_ok sv /\ half_inverse (sa_n s) (sa_X s) (sa_S s) /\ all_orthonormal s blk /\ electrons s blk = 2 /\
  load_state sv u (save_state s lip [0; 1] blk) (sa_n s) (sa_S s) = Ok bs /\ loaded bs = 1.
Proof.
  intros [|].
  - set (s := one_atom true 1 mid mid false). set (u := one_atom false 1 mid mid false). exists s, u, (one_blk 2 0), diagonal_solvers.
    destruct (one_saved true 1 mid mid false 2 0 2 (round_integer 2)) as (K1 & K2 & K3 & K4).
    destruct (load_unrestricted u _ (sa_S s) _ _ eq_refl eq_refl eq_refl K1 K4 K2 (K3 eq_refl)) as (bs & E1 & E2). exists bs.
    repeat (split; [reflexivity|]). split; [exact diagonal_solvers_ok|]. split; [exact mid_half|]. split; [apply one_orthonormal|]. split; [|split; [exact E1|]].
    + unfold electrons, nblocks, nparttype, occupation. cbn [s one_atom sa_restricted sa_nb Nat.mul Nat.add sum one_blk b_m b_occ Nat.eqb]. ring.
    + rewrite E2, one_value. unfold one_occ. cbn [s u one_atom sa_X sa_S Nat.eqb]. unfold mid. cbn [Nat.eqb]. cbv zeta. rr.
  - set (s := one_atom false 1 mid mid false). set (u := one_atom true 1 mid mid false). exists s, u, (one_blk 1 1), diagonal_solvers.
    destruct (one_saved false 1 mid mid false 1 1 1 (round_integer 1)) as (K1 & K2 & _ & K4).
    destruct (load_restricted u _ (sa_S s) _ _ eq_refl eq_refl eq_refl K1 K4 K2) as (bs & E1 & E2). exists bs.
    repeat (split; [reflexivity|]). split; [exact diagonal_solvers_ok|]. split; [exact mid_half|]. split; [apply one_orthonormal|]. split; [|split; [exact E1|]].
    + unfold electrons, nblocks, nparttype, occupation. cbn [s one_atom sa_restricted sa_nb Nat.mul Nat.add sum one_blk b_m b_occ Nat.eqb]. ring.
    + rewrite E2, one_value. unfold one_occ. cbn [s u one_atom sa_X sa_S Nat.eqb]. unfold mid. cbn [Nat.eqb]. cbv zeta. rr.
Qed.

(** Hermite functions: the run that saves drops the derivative at the end, the run that loads keeps it. *)
Lemma reload_zeroder : exists s b b' poly bval blk N N', get_basis 5 3 = Ok poly /\
  b = mkFE (pb_family poly) 3 bval true false true true /\ get_nbf b = Ok (Z.of_nat N) /\ sa_n s = N /\ (0 < sa_nb s)%nat /\
  rebuild (save_state s poly bval blk) false = Ok b' /\ get_nbf b' = Ok (Z.of_nat N') /\
  forall sv S12, load_state sv s (save_state s poly bval blk) N' S12 = UB.
Proof.
  set (poly := mkPoly HIP GaussLobatto 5 3).
  set (s := mkSA 3 1 true 1 0 mid mid mzero mzero mzero None 0 0 false (fun A => A) (fun A => A) (fun A => A) (fun P => (0, czero)) lin_xc).
  exists s, (mkFE HIP 3 [0; 1] true false true true), (mkFE HIP 3 [0; 1] true false true false), poly, [0; 1], (one_blk 1 0), 3%nat, 4%nat.
  repeat (split; [first [reflexivity|vm_compute; reflexivity|cbn; lia]|]).
  intros sv S12. eapply load_size; [cbn; lia|reflexivity|cbn; lia].
Qed.
(** Chebyshev nodes are not recorded in the file. *)
Lemma reload_nodes s bval blk n : (2 <= n)%Z -> forall id, id = 100%Z \/ id = 101%Z ->
  exists p p', get_basis id n = Ok p /\ get_basis (sd_primbas (save_state s p bval blk)) (sd_nnodes (save_state s p bval blk)) = Ok p' /\
    pb_family p' = pb_family p /\ pb_nodes p = ChebyshevNodes /\ pb_nodes p' = GaussLobatto.
Proof.
  intros Hn id Hid. unfold save_state. cbn [sd_primbas sd_nnodes]. unfold get_basis.
  destruct Hid as [-> | ->]; (destruct (Z.ltb_spec n 2); [lia|]); do 2 eexists; (split; [reflexivity|]); cbn [pb_id pb_nnodes];
  (destruct (Z.ltb_spec n 2); [lia|]); repeat split.
Qed.

Lemma guess_choice s model i : ((0 <= i <= 4)%Z -> exists V, guess_potential s model i = Ok V) /\
  (guess_potential s model 0 = Ok (sa_Vnuc s)) /\ ((i < 0)%Z \/ (4 < i)%Z -> guess_potential s model i = Throw LogicError).
Proof.
  split; [|split; [reflexivity|]].
  - intros H. assert (C : (i = 0 \/ i = 1 \/ i = 2 \/ i = 3 \/ i = 4)%Z) by lia.
    destruct C as [->|[->|[->|[->| ->]]]]; eexists; reflexivity.
  - intros H. unfold guess_potential. destruct (Z.eqb_spec i 0); [lia|].
    destruct i as [|p|p]; [lia| |reflexivity]. destruct p as [[[p|p|]|[p|p|]|]|[[p|p|]|[p|p|]|]|]; try reflexivity; lia.
Qed.
Lemma rounded_channel s blk t l : nearest (ch_occs (extract_channel s blk t) l) (occupation (blk (t * sa_nb s + l)%nat)) /\
  forall z, occupation (blk (t * sa_nb s + l)%nat) = IZR z -> ch_occs (extract_channel s blk t) l = z.
Proof.
  split; [apply round_nearest|]. intros z H. transitivity (round_away (IZR z)); [|apply round_integer]. rewrite <- H. reflexivity.
Qed.
Lemma ex_counts : half_inverse 1 (sa_X (ex_atom false 1)) (sa_S (ex_atom false 1)) /\ all_orthonormal (ex_atom false 1) (ex_blk 1) /\ electrons (ex_atom false 1) (ex_blk 1) = 4.
Proof.
  split; [exact ex_half1|]. split; [apply ex_orthonormal|]. unfold electrons, nblocks, nparttype, occupation.
  cbn [ex_atom sa_restricted sa_nb Nat.mul Nat.add sum ex_blk b_m b_occ]. ring.
Qed.
Lemma bare_ok : atom_ok (one_atom false 0 mid mid false) /\ blocks_filled (one_atom false 0 mid mid false) (one_blk 0 0).
Proof.
  split; [|intros k _; cbn; lia]. split; [|split; intros H; exfalso; apply H; reflexivity]. cbn [sa_n sa_coulomb one_atom]. split.
  - intros A B t _ _ i j _ _. unfold madd, mscal, mzero. ring.
  - intros A B _ _. rewrite (tr_comm 1 A), (tr_comm 1 B), !tr_zero. reflexivity.
Qed.
Lemma ex_reload : exists bs, let s := one_atom true 0 mid mid false in let blk := one_blk 1 0 in
  half_inverse 1 mid mid /\ all_orthonormal s blk /\ file_symmetric (save_state s lip [0; 1] blk) 1 /\
  spectrum_in 1 (mmul 1 (mmul 1 (mT mid) (block_P s (blk 0%nat))) mid) 0 (INR (maximum_occupation s 0)) /\
  load_state diagonal_solvers s (save_state s lip [0; 1] blk) 1 mid = Ok bs /\ loaded bs = 1.
Proof.
  cbv zeta. set (s := one_atom true 0 mid mid false).
  destruct (one_saved true 0 mid mid false 1 0 1 (round_integer 1)) as (K1 & K2 & _ & K4).
  destruct (load_restricted s _ mid _ _ eq_refl eq_refl eq_refl K1 K4 K2) as (bs & E1 & E2). exists bs.
  split; [exact mid_half|]. split; [apply one_orthonormal|]. split; [apply saved_symmetric; cbn; lia|]. split; [|split; [exact E1|]].
  - intros v. unfold quad_form, mmul, mT. cbn [sum]. unfold s. rewrite one_value. unfold mid, maximum_occupation. cbn [one_atom sa_restricted Nat.eqb Nat.mul Nat.add INR]. nra.
  - rewrite E2. unfold s. rewrite one_value. unfold one_occ. cbn [one_atom sa_X sa_S Nat.eqb]. unfold mid. cbn [Nat.eqb]. cbv zeta. rr.
Qed.
