(** Vocabulary for densities on a grid. *)
Require Import Reals ZArith List Bool Arith.
Require Import Verif.Prelude Verif.AngModel Verif.AngSpec Verif.DlModel Verif.DlSpec Verif.DgModel.
Import ListNotations.
Open Scope R_scope.

(** Index ranges of a conforming basis: only the first element has function zero. *)
Definition joined (b : pbasis) : Prop := forall iel, (S iel < length (pb_bval b))%nat ->
  (fst (pb_idx b iel) = 0%nat <-> iel = 0%nat).
(** Nodes strictly inside the reference element. *)
Definition inner (quad : list (R * R)) : Prop := Forall (fun q => -1 < fst q < 1) quad.
(** The number of functions. *)
Definition nfun (b : pbasis) : nat := length (pure_functions (pb_sh b) (pb_Nrad b)).
(** Matrices and numbers of electrons that fit the basis. *)
Definition fitting (b : pbasis) (g : ginput) : Prop :=
  drows (gi_A g) = nfun b /\ drows (gi_B g) = nfun b /\ (gi_nela g <= dcols (gi_A g))%nat /\ (gi_nelb g <= dcols (gi_B g))%nat.
(** No assertion is hit: there are none, no beta electrons, or no empty beta orbitals. *)
Definition quiet (g : ginput) : Prop := gi_asserts g = false \/ gi_nelb g = 0%nat \/ dcols (gi_B g) = gi_nelb g.
(** The values of n orbitals, from the values of all functions. *)
Definition orbitals (bf : list (R * R)) (C : mat) (n : nat) : list (R * R) := map (orbital bf C) (seq 0 n).
(** The point made from node (x, w) of an element and direction (cth, phi, wang). *)
Definition point_of (b : pbasis) (g : ginput) (iel : nat) (a : R * R * R) (q : R * R) (p : gpoint) : Prop :=
  let '(cth, phi, wang) := a in let '(x, w) := q in
  let lo := nth iel (pb_bval b) 0 in let hi := nth (S iel) (pb_bval b) 0 in
  let n := nfun b in
  g_mu p = lo + (hi - lo) * (x + 1) / 2 /\ g_cth p = cth /\ g_phi p = phi /\ g_wquad p = (hi - lo) / 2 * w * wang /\
  g_dV p = gi_Rh g ^ 3 * sinh (g_mu p) * (cosh (g_mu p) ^ 2 - cth ^ 2) * g_wquad p /\
  exists bf, eval_point b (g_mu p) cth phi = Ok bf /\ length bf = n /\
    g_orba p = orbitals bf (dent (gi_A g)) (gi_nela g) /\ g_orbb p = orbitals bf (dent (gi_B g)) (gi_nelb g) /\
    g_Torba p = orbitals bf (mmul n (gi_ST g) (dent (gi_A g))) (gi_nela g) /\ g_Torbb p = orbitals bf (mmul n (gi_ST g) (dent (gi_B g))) (gi_nelb g) /\
    g_dena p = sum (gi_nela g) (fun o => norm2 (orbital bf (dent (gi_A g)) o)) /\
    g_denb p = sum (gi_nelb g) (fun o => norm2 (orbital bf (dent (gi_B g)) o)).
(** What is read past the end of a list of points. *)
Definition gp0 : gpoint := mkG 0 0 0 0 0 0 0 [] [] [] [].
