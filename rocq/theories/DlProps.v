(** Statements about densities along a line, and cases that meet their hypotheses. *)
Require Import Reals ZArith List Bool Arith Lia Lra Sorted.
Require Import Verif.Prelude Verif.AngModel Verif.AngSpec Verif.BsModel Verif.BsProofs Verif.DlModel Verif.DlSpec Verif.DlProofs.
Import ListNotations.
Open Scope R_scope.

(** C137 *)
Theorem C137_coordinates : forall at2 Rh x y z, is_atan2 at2 -> 0 < Rh ->
  let mu := arcosh (dl_xi Rh (x * x + y * y) z) in let eta := dl_eta Rh (x * x + y * y) z in
  0 <= mu /\ -1 <= eta <= 1 /\ prolate_point Rh mu eta (at2 y x) = (x, y, z) /\
  Rh * (cosh mu + eta) = sqrt ((z + Rh) ^ 2 + (x * x + y * y)) /\ Rh * (cosh mu - eta) = sqrt ((z - Rh) ^ 2 + (x * x + y * y)).
Proof. exact coordinates. Qed.
Theorem C137_table : forall at2 b Rh P Q x y zmin zmax Nz, is_atan2 at2 -> 0 < Rh -> mesh (pb_bval b) -> fits b -> (2 <= Nz)%nat ->
  exists rows, density_line at2 b Rh P Q x y zmin zmax Nz = Ok rows /\ length rows = Nz /\
  forall i, (i < Nz)%nat -> let z := zmin + INR i * (zmax - zmin) / INR (Nz - 1) in
    exists mu eta phi, 0 <= mu /\ -1 <= eta <= 1 /\ prolate_point Rh mu eta phi = (x, y, z) /\ row_of b P Q mu eta phi z (nth i rows []).
Proof. exact line_table. Qed.
Theorem C137_orbitals : forall n C bf, dl_rho (dmat n C) bf = sum n (fun o => norm2 (orbital bf C o)).
Proof. exact rho_orbitals. Qed.
Theorem C137_nonnegative : forall at2 b Rh P Q x y zmin zmax Nz rows, is_atan2 at2 -> 0 < Rh -> mesh (pb_bval b) -> fits b -> (2 <= Nz)%nat ->
  psd (length (pure_functions (pb_sh b) (pb_Nrad b))) P -> psd (length (pure_functions (pb_sh b) (pb_Nrad b))) Q ->
  density_line at2 b Rh P Q x y zmin zmax Nz = Ok rows -> forall i, (i < Nz)%nat -> exists z ra rb, nth i rows [] = [z; ra; rb; ra + rb] /\ 0 <= ra /\ 0 <= rb.
Proof. exact line_psd. Qed.
Theorem C137_rotation : forall at2 b Rh P Q x y x' y' zmin zmax Nz, mesh (pb_bval b) -> fits b -> m_diagonal b P -> m_diagonal b Q ->
  x * x + y * y = x' * x' + y' * y' -> density_line at2 b Rh P Q x y zmin zmax Nz = density_line at2 b Rh P Q x' y' zmin zmax Nz.
Proof. exact line_rotation. Qed.

(** C138 *)
Theorem C138_values : forall b mu eta, mesh (pb_bval b) -> fits b -> 0 <= mu <= get_mumax b ->
  exists iel, (S iel < length (pb_bval b))%nat /\ nth iel (pb_bval b) 0 <= mu <= nth (S iel) (pb_bval b) 0 /\
  (forall ph, eval_point b mu eta ph = Ok (map (point_value b iel mu eta ph) (pure_functions (pb_sh b) (pb_Nrad b)))) /\
  let x := 2 * (mu - nth iel (pb_bval b) 0) / (nth (S iel) (pb_bval b) 0 - nth iel (pb_bval b) 0) - 1 in
  -1 <= x <= 1 /\ mu = nth iel (pb_bval b) 0 + (nth (S iel) (pb_bval b) 0 - nth iel (pb_bval b) 0) * (x + 1) / 2.
Proof. exact point_ok. Qed.
Theorem C138_outside : forall b mu cth phi, mesh (pb_bval b) -> fits b ->
  (eval_point b mu cth phi = Throw LogicError <-> mu < 0 \/ get_mumax b < mu).
Proof. exact outside. Qed.
Theorem C138_harmonics : forall leg l m eta phi,
  (spherical_harmonics leg l (- m) eta phi = dl_scal ((-1) ^ Z.abs_nat m) (dl_conj (spherical_harmonics leg l m eta phi))) /\
  spherical_harmonics leg l m eta (phi + 2 * PI) = spherical_harmonics leg l m eta phi /\
  norm2 (spherical_harmonics leg l m eta phi) = (leg l (Z.abs m) (acos eta)) ^ 2.
Proof. exact harmonics. Qed.

(** A mesh of two elements with two linear functions in each, an m = 0 and an m = 1 shell. *)
Definition bex : pbasis := mkPB [(0, 0); (1, 1)]%Z 3 [0; 1; 3] (fun _ x k => if (k =? 0)%nat then (1 - x) / 2 else (1 + x) / 2)
  (fun iel => (iel, S iel)) (fun l m th => if (m =? 0)%Z then 1 else sin th).
Example bex_mesh : mesh (pb_bval bex).
Proof.
  unfold mesh, bex; cbn. split; [lia|]. split; [reflexivity|].
  repeat (constructor; [|repeat (constructor; [lra|]); try constructor]); constructor.
Qed.
Example bex_fits : fits bex.
Proof. intros iel H. cbn in H |- *. lia. Qed.
Example C138_values_ex : get_mumax bex = 3 /\ 0 <= 2 <= get_mumax bex /\ length (pure_functions (pb_sh bex) 3) = 5%nat /\
  (exists iel, nth iel (pb_bval bex) 0 <= 2 <= nth (S iel) (pb_bval bex) 0).
Proof. cbn. repeat split; try lra. exists 1%nat. cbn. lra. Qed.
Example C138_outside_ex cth phi : eval_point bex 4 cth phi = Throw LogicError.
Proof. apply (proj2 (C138_outside bex 4 cth phi bex_mesh bex_fits)). right. cbn. lra. Qed.
Example C138_harmonics_ex : spherical_harmonics (pb_leg bex) 1 (-1) 0 0 = (- 1, 0).
Proof.
  change (dl_conj (dl_scal ((-1) ^ 1) (dl_scal (sin (acos 0)) (cos (1 * 0), sin (1 * 0)))) = (- 1, 0)).
  rewrite Rmult_0_r, cos_0, sin_0, acos_0, sin_PI2. unfold dl_conj, dl_scal; cbn [fst snd]. f_equal; ring.
Qed.
Example C137_atan2_ex : is_atan2 at2_ex.
Proof. exact at2_ex_ok. Qed.
Example C137_coordinates_ex : prolate_point 1 (arcosh (dl_xi 1 0 2)) (dl_eta 1 0 2) (at2_ex 0 0) = (0, 0, 2) /\ dl_xi 1 0 2 = 2 /\ dl_eta 1 0 2 = 1.
Proof.
  assert (A : dl_ra 1 0 2 = 3) by (unfold dl_ra; replace ((2 + 1) ^ 2 + 0) with (3 * 3) by ring; apply sqrt_square; lra).
  assert (B : dl_rb 1 0 2 = 1) by (unfold dl_rb; replace ((2 - 1) ^ 2 + 0) with (1 * 1) by ring; apply sqrt_square; lra).
  assert (E : (dl_ra 1 0 2 - dl_rb 1 0 2) / (2 * 1) = 1) by (rewrite A, B; lra).
  pose proof (C137_coordinates at2_ex 1 0 0 2 C137_atan2_ex Rlt_0_1) as T. cbv zeta in T. rewrite Rmult_0_l, Rplus_0_r in T. split; [apply T|]. split.
  - unfold dl_xi. rewrite A, B. lra.
  - destruct (eta_raw 1 0 2 Rlt_0_1 (Rle_refl 0)) as [F _]. rewrite F. exact E.
Qed.
Example C137_table_ex : exists rows, density_line at2_ex bex 1 mid mzero 0 0 (-10) 10 5 = Ok rows /\ length rows = 5%nat.
Proof.
  destruct (C137_table at2_ex bex 1 mid mzero 0 0 (-10) 10 5 C137_atan2_ex Rlt_0_1 bex_mesh bex_fits ltac:(lia)) as (rows & E & L & _). eauto.
Qed.
Example C137_orbitals_ex : dl_rho (dmat 1 (fun i _ => if (i =? 0)%nat then 1 else 2)) [(3, 4); (1, -1)] = 29.
Proof. rewrite C137_orbitals. unfold norm2, orbital. cbn. lra. Qed.
Example C137_nonnegative_ex : psd (length (pure_functions (pb_sh bex) (pb_Nrad bex))) mid.
Proof.
  intros v. apply sum_nonneg. intros i Hi. rewrite (sum_ext _ _ (fun j => if Nat.eqb j i then v i * v i else 0)).
  - apply sum_nonneg. intros j _. destruct (Nat.eqb j i); nra.
  - intros j _. unfold mid. rewrite (Nat.eqb_sym j i). destruct (Nat.eqb_spec i j) as [->|]; ring.
Qed.
Example C137_rotation_ex : m_diagonal bex mid /\ 3 * 3 + 4 * 4 = 5 * 5 + 0 * 0 /\
  ~ m_diagonal bex (fun _ _ => 1).
Proof.
  split; [|split; [ring|]].
  - intros i j _ _ H. unfold mid. destruct (Nat.eqb_spec i j) as [->|]; [contradiction | reflexivity].
  - intros H. specialize (H 0%nat 3%nat). cbn in H. specialize (H ltac:(lia) ltac:(lia) ltac:(lia)). lra.
Qed.

Print Assumptions C137_coordinates.
Print Assumptions C137_table.
Print Assumptions C137_orbitals.
Print Assumptions C137_nonnegative.
Print Assumptions C137_rotation.
Print Assumptions C138_values.
Print Assumptions C138_outside.
Print Assumptions C138_harmonics.
