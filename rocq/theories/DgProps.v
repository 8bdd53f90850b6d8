(** Statements about densities on a grid, and cases that meet their hypotheses. *)
Require Import Reals ZArith List Bool Arith Lia Lra Sorted.
Require Import Verif.Prelude Verif.AngModel Verif.AngSpec Verif.DlModel Verif.DlSpec Verif.DgModel Verif.DgSpec Verif.DgProofs.
Import ListNotations.
Open Scope R_scope.

(** C141 *)
Theorem C141_grid : forall b g, mesh (pb_bval b) -> fits b -> joined b -> fitting b g -> inner (gi_quad g) -> quiet g ->
  let nel := (length (pb_bval b) - 1)%nat in let na := length (gi_ang g) in let nq := length (gi_quad g) in
  exists ps, density_grid b g = Ok ps /\ length ps = (nel * na * nq)%nat /\
  forall iel ia iq, (iel < nel)%nat -> (ia < na)%nat -> (iq < nq)%nat ->
    point_of b g iel (nth ia (gi_ang g) (0, 0, 0)) (nth iq (gi_quad g) (0, 0)) (nth ((iel * na + ia) * nq + iq) ps gp0).
Proof. exact grid_ok. Qed.
Example C141_grid_ex : mesh (pb_bval bg) /\ fits bg /\ joined bg /\ fitting bg (gg false) /\ inner (gi_quad (gg false)) /\ quiet (gg false) /\
  (gi_nelb (gg false) < dcols (gi_B (gg false)))%nat /\ nfun bg = 5%nat.
Proof. destruct (bg_ok false) as (H1 & H2 & H3 & H4 & H5). repeat (split; [assumption|]). split; [left; reflexivity|]. split; [cbn; lia | reflexivity]. Qed.
Example C141_eight_points_ex : exists ps, density_grid bg (gg false) = Ok ps /\ length ps = 8%nat.
Proof.
  destruct C141_grid_ex as (H1 & H2 & H3 & H4 & H5 & H6 & _). destruct (C141_grid bg (gg false) H1 H2 H3 H4 H5 H6) as (ps & E & L & _). exists ps. split; [exact E | exact L].
Qed.
Theorem C141_assertion : forall b g, mesh (pb_bval b) -> fits b -> joined b -> fitting b g -> inner (gi_quad g) -> gi_quad g <> [] -> gi_ang g <> [] ->
  gi_asserts g = true -> gi_nelb g <> 0%nat -> dcols (gi_B g) <> gi_nelb g -> density_grid b g = UB.
Proof. exact grid_ub. Qed.
Example C141_assertion_ex : density_grid bg (gg true) = UB.
Proof. destruct (bg_ok true) as (H1 & H2 & H3 & H4 & H5). apply C141_assertion; try assumption; cbn; try discriminate; reflexivity. Qed.
Theorem C141_assertion_refuted : ~ (forall b g, mesh (pb_bval b) -> fits b -> joined b -> fitting b g -> inner (gi_quad g) -> exists ps, density_grid b g = Ok ps).
Proof. exact assertion_hit. Qed.

(** C142 *)
Theorem C142_integrals : forall b g ps, mesh (pb_bval b) -> fits b -> joined b -> fitting b g -> inner (gi_quad g) -> quiet g -> density_grid b g = Ok ps -> 0 < gi_Rh g ->
  Forall (fun q => 0 <= snd q) (gi_quad g) -> Forall (fun a => -1 <= fst (fst a) <= 1 /\ 0 <= snd a) (gi_ang g) ->
  (forall p, In p ps -> 0 <= g_dena p /\ 0 <= g_denb p /\ 0 <= g_dV p) /\
  0 <= grid_norm g_dena ps /\ grid_norm g_dena ps = sum (gi_nela g) (fun i => fst (grid_overlap g_orba ps i i)) /\
  0 <= grid_norm g_denb ps /\ grid_norm g_denb ps = sum (gi_nelb g) (fun i => fst (grid_overlap g_orbb ps i i)) /\
  (forall i j, grid_overlap g_orba ps j i = dl_conj (grid_overlap g_orba ps i j)) /\ (forall i j, grid_overlap g_orbb ps j i = dl_conj (grid_overlap g_orbb ps i j)).
Proof. exact grid_integrals. Qed.
Example C142_integrals_ex : 0 < gi_Rh (gg false) /\ Forall (fun q => 0 <= snd q) (gi_quad (gg false)) /\ Forall (fun a => -1 <= fst (fst a) <= 1 /\ 0 <= snd a) (gi_ang (gg false)).
Proof. cbn. split; [lra|]. split; repeat constructor; cbn; lra. Qed.

Print Assumptions C141_grid.
Print Assumptions C141_assertion.
Print Assumptions C141_assertion_refuted.
Print Assumptions C142_integrals.
