(** Properties C118 to C121: the two-dimensional quadrature of a diatomic molecule. *)
Require Import Reals ZArith List Bool Arith Lia Lra.
Require Import Verif.Prelude Verif.FEModel Verif.AngModel Verif.JKModel Verif.DftModel Verif.DftSpec Verif.DftProofs Verif.DdfSpec Verif.PmModel Verif.PmSpec Verif.PmMore Verif.PotModel Verif.CbModel Verif.TqModel Verif.TqSpec Verif.TqProofs Verif.TqDrv Verif.TqMore.
Import ListNotations.
Local Open Scope R_scope.

(** C118: the matrix of two atomic potentials is their sum, each at the distance from its
    nucleus, between functions of the same m *)
Theorem C118_potential b Rh lang p1 p2 : di_basis_ok b Rh -> exists V, tq_model_potential b Rh lang p1 p2 = Ok V /\
  is_mat V (di_nbf b) (di_nbf b) (fun i j => if (fn_m b i =? fn_m b j)%Z then
     gsum b Rh (cheb_rule lang) (fun q s => p_w q * (finite (p1 (from (- Rh) s)) + finite (p2 (from Rh s))) * reprod (p_f q (di_fn b i)) (p_f q (di_fn b j))) else 0).
Proof. intros H. exact (potential_ok b Rh lang H p1 p2). Qed.
Print Assumptions C118_potential.
Theorem C118_symmetric b Rh lang p1 p2 V : di_basis_ok b Rh -> tq_model_potential b Rh lang p1 p2 = Ok V ->
  forall i j, (i < di_nbf b)%nat -> (j < di_nbf b)%nat -> dent V i j = dent V j i.
Proof. intros H. exact (potential_symmetric b Rh lang H p1 p2 V). Qed.
Print Assumptions C118_symmetric.
(* a basis of ten functions with sigma and pi shells, two point nuclei *)
Example C118_case : di_basis_ok wpm 1 /\ di_nbf wpm = 10%nat /\ exists V, tq_model_potential wpm 1 5 (V_point 1) (V_point 2) = Ok V.
Proof. split; [exact wpm_basis|]. split; [reflexivity|]. destruct (C118_potential wpm 1 5 (V_point 1) (V_point 2) wpm_basis) as (V & E & _). exists V. exact E. Qed.

(** C119: Gaussian and Slater functions on a nucleus are projected with the distance from
    the nucleus and the polar angle about it *)
Theorem C119_gto b Rh lang Y l m expn p : di_basis_ok b Rh -> p <> PROBE_MIDDLE -> exists S, gto_projection b Rh lang Y l m expn p = Ok S /\
  is_mat S (length expn) (di_nbf b) (fun a j => if (fn_m b j =? m)%Z then
    gsum b Rh (cheb_rule lang) (fun q s => p_w q * (radial_GTO (from (centre Rh p) s) l (nth a expn 0) * Y l (Z.abs_nat m) (polar Rh p s)) * fst (p_f q (di_fn b j))) else 0).
Proof. intros H Hp. exact (projection_val b Rh lang H Y _ _ _ l m p (gto_ao l expn) (or_introl Hp)). Qed.
Print Assumptions C119_gto.
Theorem C119_sto b Rh lang Y l m expn p : di_basis_ok b Rh -> p <> PROBE_MIDDLE -> exists S, sto_projection b Rh lang Y l m expn p = Ok S /\
  is_mat S (length expn) (di_nbf b) (fun a j => if (fn_m b j =? m)%Z then
    gsum b Rh (cheb_rule lang) (fun q s => p_w q * (radial_STO (from (centre Rh p) s) l (nth a expn 0) * Y l (Z.abs_nat m) (polar Rh p s)) * fst (p_f q (di_fn b j))) else 0).
Proof. intros H Hp. exact (projection_val b Rh lang H Y _ _ _ l m p (sto_ao l expn) (or_introl Hp)). Qed.
Print Assumptions C119_sto.
Example C119_case : di_basis_ok wpm 1 /\ PROBE_RIGHT <> PROBE_MIDDLE. Proof. split; [exact wpm_basis|discriminate]. Qed.
(** C119: in the middle of the bond the same holds for functions without angular
    dependence; missing: all others, see below *)
Theorem C119_middle_partial b Rh lang Y expn : di_basis_ok b Rh -> (forall t t', Y 0%nat 0%nat t = Y 0%nat 0%nat t') -> exists S, gto_projection b Rh lang Y 0 0 expn PROBE_MIDDLE = Ok S /\
  is_mat S (length expn) (di_nbf b) (fun a j => if (fn_m b j =? 0)%Z then
    gsum b Rh (cheb_rule lang) (fun q s => p_w q * (radial_GTO (from 0 s) 0 (nth a expn 0) * Y 0%nat 0%nat (polar Rh PROBE_MIDDLE s)) * fst (p_f q (di_fn b j))) else 0).
Proof. intros H HY. exact (projection_val b Rh lang H Y _ _ _ 0 0 PROBE_MIDDLE (gto_ao 0 expn) (or_intror HY)). Qed.
Print Assumptions C119_middle_partial.
Example C119_middle_partial_case : forall t t', wPl 0 0 t = wPl 0 0 t'. Proof. reflexivity. Qed.
(** C119: a p function in the middle of the bond is projected with another angle, that of
    the coordinate nu *)
Theorem C119_middle_refuted : exists Q, gto_projection wpm 1 2 wPl 1 0 [1] PROBE_MIDDLE = Ok Q /\ fn_m wpm 4 = 0%Z /\
  dent Q 0%nat 4%nat <> gsum wpm 1 (cheb_rule 2) (fun q s => p_w q * (radial_GTO (from (centre 1 PROBE_MIDDLE) s) 1 1 * wPl 1 0 (polar 1 PROBE_MIDDLE s)) * fst (p_f q (di_fn wpm 4))).
Proof. exact middle_wrong. Qed.
Print Assumptions C119_middle_refuted.

(** C120: the overlap of the projected functions on the points: its entries, symmetry, no
    negative norm, and the bound on projections *)
Theorem C120_overlap b Rh lang Y l m expn p : di_basis_ok b Rh -> p <> PROBE_MIDDLE -> exists S, gto_overlap b Rh lang Y l m expn p = Ok S /\
  is_mat S (length expn) (length expn) (fun a c => gsum b Rh (cheb_rule lang) (fun q s => p_w q *
    (radial_GTO (from (centre Rh p) s) l (nth a expn 0) * Y l (Z.abs_nat m) (polar Rh p s)) * (radial_GTO (from (centre Rh p) s) l (nth c expn 0) * Y l (Z.abs_nat m) (polar Rh p s)))).
Proof. intros H Hp. exact (overlap_val b Rh lang H Y _ _ _ l m p (gto_ao l expn) (or_introl Hp)). Qed.
Print Assumptions C120_overlap.
Theorem C120_overlap_sto b Rh lang Y l m expn p : di_basis_ok b Rh -> p <> PROBE_MIDDLE -> exists S, sto_overlap b Rh lang Y l m expn p = Ok S /\
  is_mat S (length expn) (length expn) (fun a c => gsum b Rh (cheb_rule lang) (fun q s => p_w q *
    (radial_STO (from (centre Rh p) s) l (nth a expn 0) * Y l (Z.abs_nat m) (polar Rh p s)) * (radial_STO (from (centre Rh p) s) l (nth c expn 0) * Y l (Z.abs_nat m) (polar Rh p s)))).
Proof. intros H Hp. exact (overlap_val b Rh lang H Y _ _ _ l m p (sto_ao l expn) (or_introl Hp)). Qed.
Print Assumptions C120_overlap_sto.
Theorem C120_positive b Rh lang Y l m expn p S : di_basis_ok b Rh -> weights_ok b -> gto_overlap b Rh lang Y l m expn p = Ok S ->
  (forall i j, (i < length expn)%nat -> (j < length expn)%nat -> dent S i j = dent S j i) /\
  forall x, 0 <= sum (length expn) (fun i => sum (length expn) (fun j => x i * x j * dent S i j)).
Proof. intros H HW. exact (overlap_psd b Rh lang H Y _ _ _ l m p (gto_ao l expn) HW S). Qed.
Print Assumptions C120_positive.
Theorem C120_bound b Rh lang Y l m expn p S Q : di_basis_ok b Rh -> weights_ok b -> gto_overlap b Rh lang Y l m expn p = Ok S -> gto_projection b Rh lang Y l m expn p = Ok Q ->
  forall i j, (i < length expn)%nat -> (j < di_nbf b)%nat ->
  Rsqr (dent Q i j) <= dent S i i * gsum b Rh (cheb_rule lang) (fun q _ => p_w q * reprod (p_f q (di_fn b j)) (p_f q (di_fn b j))).
Proof. intros H HW. exact (overlap_bound b Rh lang H Y _ _ _ l m p (gto_ao l expn) HW S Q). Qed.
Print Assumptions C120_bound.
Example C120_case : di_basis_ok wpm 1 /\ weights_ok wpm. Proof. split; [exact wpm_basis|exact wpm_weights]. Qed.

(** C121: the tabulated occupations of every element up to 118 add up to its charge *)
Theorem C121_table z : (1 <= z <= 118)%Z -> exists o, side_options z = Ok o /\ so_Z o = z /\ fold_left Z.add (so_fixed o) 0%Z = z /\
  (so_nela o + so_nelb o = 2 * (z / 2))%Z /\ Z.of_nat (length (so_fixed o)) = (so_lmax o + 1)%Z.
Proof. exact (options_ok z). Qed.
Print Assumptions C121_table.
Theorem C121_occupations z : (1 <= z <= 118)%Z -> exists occ, per_l_occ z = Ok occ /\ fold_left Z.add occ 0%Z = z /\
  (forall n, In n occ -> 0 <= n)%Z /\ (0 < last occ 0)%Z /\ (length occ <= 4)%nat.
Proof. exact (occ_ok z). Qed.
Print Assumptions C121_occupations.
Example C121_table_case : (1 <= 26 <= 118)%Z /\ per_l_occ 26 = Ok [6; 12; 8]%Z. Proof. split; [lia|reflexivity]. Qed.
(** C121: the numbers of electrons given with an odd charge are one electron short of the
    occupations given with it *)
Theorem C121_electrons_refuted : exists z o, (1 <= z <= 118)%Z /\ side_options z = Ok o /\ (so_nela o + so_nelb o <> fold_left Z.add (so_fixed o) 0)%Z.
Proof. exists 1%Z. eexists. split; [lia|]. split; [vm_compute; reflexivity|]. vm_compute. discriminate. Qed.
Print Assumptions C121_electrons_refuted.
(** C121: no table entry is read safely for heavier elements *)
Theorem C121_heavy scf Zl Zr g : (118 < Zl)%Z -> compute_atoms scf Zl Zr g = UB.
Proof. exact (atoms_ub scf Zl Zr g). Qed.
Print Assumptions C121_heavy.
Example C121_heavy_case : (118 < 119)%Z. Proof. lia. Qed.
(** C121: what is computed for the atoms; a nucleus without charge keeps what was there *)
Theorem C121_atoms scf Zl Zr g g' : compute_atoms scf Zl Zr g = Ok g' ->
  ((Zl <= 0)%Z -> g_lh g' = g_lh g) /\ ((Zr <= 0)%Z -> g_rh g' = g_rh g) /\
  ((0 < Zl)%Z -> exists o, side_options Zl = Ok o /\ scf o = Ok (g_lh g')) /\ ((0 < Zr)%Z -> exists o, side_options Zr = Ok o /\ scf o = Ok (g_rh g')).
Proof. exact (atoms_left scf Zl Zr g g'). Qed.
Print Assumptions C121_atoms.
Example C121_atoms_case : exists g', compute_atoms (fun _ => Ok wside) 2 0 new_grid = Ok g' /\ g_lh g' = wside /\ g_rh g' = no_side.
Proof. eexists. split; [vm_compute; reflexivity|]. split; reflexivity. Qed.
(** C121: as many orbitals as hold the electrons are projected *)
Theorem C121_projection b Rh lang Y g l m p occ C k phi : di_basis_ok b Rh -> p <> PROBE_MIDDLE ->
  nth_error (s_occs (side_of g p)) l = Some occ -> nth_error (s_orbs (side_of g p)) l = Some C -> (0 < occ)%Z -> holds l occ (Z.of_nat k) -> (k <= dcols C)%nat ->
  (forall r, s_eval (side_of g p) (mkD (drows C) k (dent C)) r = Ok (map (fun a => phi a r) (seq 0 k))) ->
  exists S, atomic_projection b Rh lang Y g l m p = Ok S /\
  is_mat S k (di_nbf b) (fun a j => if (fn_m b j =? m)%Z then gsum b Rh (cheb_rule lang) (fun q s => p_w q * (phi a (from (centre Rh p) s) * Y l (Z.abs_nat m) (polar Rh p s)) * fst (p_f q (di_fn b j))) else 0).
Proof. exact (atomic_ok b Rh lang Y g l m p occ C k phi). Qed.
Print Assumptions C121_projection.
Example C121_projection_case : exists S, atomic_projection wpm 1 5 wPl wgrid 0 0 PROBE_LEFT = Ok S /\ drows S = 1%nat.
Proof.
  destruct (C121_projection wpm 1 5 wPl wgrid 0 0 PROBE_LEFT 2 (mkD 2 2 (fun i j => if Nat.eqb i j then 1 else 0)) 1 (fun a r => INR (S a) * exp (- r))
    wpm_basis ltac:(discriminate) eq_refl eq_refl ltac:(lia) ltac:(unfold holds; lia) ltac:(cbn; lia) (fun _ => eq_refl)) as (S & E & H1 & _). exists S. auto.
Qed.
Theorem C121_none b Rh lang Y g l m p : p <> PROBE_MIDDLE -> (length (s_occs (side_of g p)) <= l)%nat \/ nth_error (s_occs (side_of g p)) l = Some 0%Z ->
  atomic_projection b Rh lang Y g l m p = Ok dempty.
Proof. exact (atomic_none b Rh lang Y g l m p). Qed.
Print Assumptions C121_none.
Example C121_none_case : (length (s_occs (side_of wgrid PROBE_LEFT)) <= 1)%nat. Proof. cbn. lia. Qed.
Theorem C121_middle b Rh lang Y g l m : atomic_projection b Rh lang Y g l m PROBE_MIDDLE = Throw LogicError.
Proof. exact (atomic_middle b Rh lang Y g l m). Qed.
Print Assumptions C121_middle.
