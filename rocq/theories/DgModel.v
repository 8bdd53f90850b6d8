(** Model of the density on a grid, /repo/src/diatomic/density_grid.cpp 90-244, with
    basis.cpp 480-503 (nodes, weights and radial functions of an element) and 2356-2377
    (functions of an element).  Scalars are exact real numbers. *)
Require Import Reals ZArith List Bool Arith.
Require Import Verif.Prelude Verif.AngModel Verif.DlModel.
Import ListNotations.
Open Scope R_scope.

(** basis.cpp 496-503 with FiniteElementBasis.cpp 183-186, 219-221, 253-255: the coordinate and
    the weight of a node. *)
Definition node_mu (b : pbasis) (iel : nat) (x : R) : R :=
  let lo := nth iel (pb_bval b) 0 in let hi := nth (S iel) (pb_bval b) 0 in 1 / 2 * (lo + hi) + (hi - lo) / 2 * x.
Definition node_w (b : pbasis) (iel : nat) (w : R) : R :=
  let lo := nth iel (pb_bval b) 0 in let hi := nth (S iel) (pb_bval b) 0 in (hi - lo) / 2 * w.
(** basis.cpp 2356-2377: bf_list.  The number of columns of get_rad_bf is taken as the number
    of functions of the element. *)
Definition el_nfun (b : pbasis) (iel : nat) : nat := (snd (pb_idx b iel) - fst (pb_idx b iel) + 1)%nat.
Definition el_dummy (b : pbasis) (iel : nat) : list nat :=
  flat_map (fun iam => map (fun j => (pb_Nrad b * iam + fst (pb_idx b iel) + j)%nat) (seq 0 (el_nfun b iel))) (seq 0 (length (pb_sh b))).
Definition el_list (b : pbasis) (iel : nat) : res (list nat) :=
  if (snd (pb_idx b iel) <? fst (pb_idx b iel))%nat then UB else dummy_idx_to_real_idx (pb_sh b) (pb_Nrad b) (el_dummy b iel).
(** density_grid.cpp 172-180: the values of the functions of the element at a point. *)
Definition el_row (b : pbasis) (iel : nat) (x cth phi : R) : list (R * R) :=
  flat_map (fun lm =>
    let firstfun := if ((iel =? 0)%nat && negb (snd lm =? 0)%Z)%bool then 1%nat else 0%nat in
    map (fun ifun => dl_scal (pb_rad b iel x ifun) (spherical_harmonics (pb_leg b) (fst lm) (snd lm) cth phi))
        (seq firstfun (el_nfun b iel - firstfun))) (pb_sh b).
(** density_grid.cpp 189-198: bf * M(bidx, all), n columns. *)
Definition orb_vals (M : mat) (n : nat) (idx : list nat) (row : list (R * R)) : list (R * R) :=
  map (fun o => (sum (length idx) (fun k => fst (nth k row (0, 0)) * M (nth k idx 0%nat) o),
                 sum (length idx) (fun k => snd (nth k row (0, 0)) * M (nth k idx 0%nat) o))) (seq 0 n).
Definition sq_norm (v : list (R * R)) : R := sum (length v) (fun o => fst (nth o v (0, 0)) * fst (nth o v (0, 0)) + snd (nth o v (0, 0)) * snd (nth o v (0, 0))).

Record gpoint := mkG { g_dena : R; g_denb : R; g_mu : R; g_cth : R; g_phi : R; g_wquad : R; g_dV : R;
  g_orba : list (R * R); g_orbb : list (R * R); g_Torba : list (R * R); g_Torbb : list (R * R) }.
(** What is read: Rhalf, nodes and weights of an element and of the sphere, orbitals, and
    the matrix Sinv * T (density_grid.cpp 85-95, 137); and whether Eigen's assertions are
    compiled in (CMakeLists.txt 27-28 turns them off by default). *)
Record ginput := mkGI { gi_Rh : R; gi_quad : list (R * R); gi_ang : list (R * R * R); gi_A : dmat; gi_B : dmat; gi_ST : mat; gi_nela : nat; gi_nelb : nat; gi_asserts : bool }.
(** density_grid.cpp 138-139: Sinv * T * C. *)
Definition stc (ST : mat) (C : dmat) : mat := mmul (drows C) ST (dent C).
(** density_grid.cpp 168-228: one point.  Storing past the end of bf is undefined.  STCbsub in
    line 158 has all the columns of Cb, so that line 222 may assign a longer row to a row of
    nelb entries: this breaks a precondition that Eigen asserts, shown as UB; without
    assertions Eigen copies as many entries as the left-hand side has. *)
Definition grid_point (b : pbasis) (g : ginput) (idx : list nat) (iel : nat) (a : R * R * R) (q : R * R) : res gpoint :=
  let '(cth, phi, wang) := a in
  let '(x, w) := q in
  let row := el_row b iel x cth phi in
  if (length idx <? length row)%nat then UB
  else if (length row <? length idx)%nat then Throw LogicError
  else
    let polar := negb (gi_nelb g =? 0)%nat in
    let orba := orb_vals (dent (gi_A g)) (gi_nela g) idx row in
    let orbb := if polar then orb_vals (dent (gi_B g)) (gi_nelb g) idx row else [] in
    let Torba := orb_vals (stc (gi_ST g) (gi_A g)) (gi_nela g) idx row in
    let Torbb := if polar then orb_vals (stc (gi_ST g) (gi_B g)) (dcols (gi_B g)) idx row else [] in
    let stored := if polar then firstn (gi_nelb g) Torbb else [] in
    let mu := node_mu b iel x in
    let wr := node_w b iel w in
    if (gi_asserts g && polar && negb (length Torbb =? gi_nelb g)%nat)%bool then UB
    else Ok (mkG (sq_norm orba) (if polar then sq_norm orbb else 0) mu cth phi (wr * wang)
      (gi_Rh g ^ 3 * sinh mu * (cosh mu * cosh mu - cth * cth) * wr * wang) orba orbb Torba stored).
Fixpoint g_flat {A B} (f : A -> res (list B)) (l : list A) : res (list B) :=
  match l with
  | [] => Ok []
  | a :: l => bind (f a) (fun x => bind (g_flat f l) (fun y => Ok (x ++ y)))
  end.
(** density_grid.cpp 143-231: one element; leftCols and the choice of rows must be in range. *)
Definition grid_element (b : pbasis) (g : ginput) (iel : nat) : res (list gpoint) :=
  bind (el_list b iel) (fun idx =>
  if (dcols (gi_A g) <? gi_nela g)%nat then UB
  else if (negb (gi_nelb g =? 0)%nat && (dcols (gi_B g) <? gi_nelb g)%nat)%bool then UB
  else if existsb (fun i => (drows (gi_A g) <=? i)%nat) idx then UB
  else if (negb (gi_nelb g =? 0)%nat && existsb (fun i => (drows (gi_B g) <=? i)%nat) idx)%bool then UB
  else g_flat (fun a => g_flat (fun q => bind (grid_point b g idx iel a q) (fun p => Ok [p])) (gi_quad g)) (gi_ang g)).
(** density_grid.cpp 97-101, 141-233: the whole grid. *)
Definition density_grid (b : pbasis) (g : ginput) : res (list gpoint) :=
  let Nel := (length (pb_bval b) - 1)%nat in
  if (Nel =? 0)%nat then UB
  else
    let Ngrid := (Nel * length (gi_quad g) * length (gi_ang g))%nat in
    bind (g_flat (grid_element b g) (seq 0 Nel)) (fun ps =>
    if (Ngrid <? length ps)%nat then UB
    else if (length ps <? Ngrid)%nat then Throw LogicError
    else Ok ps).
(** density_grid.cpp 224-226: entry (i, j) of Sa or Sb. *)
Definition grid_overlap (sel : gpoint -> list (R * R)) (ps : list gpoint) (i j : nat) : R * R :=
  (lsum ps (fun p => (fst (nth i (sel p) (0, 0)) * fst (nth j (sel p) (0, 0)) + snd (nth i (sel p) (0, 0)) * snd (nth j (sel p) (0, 0))) * g_dV p),
   lsum ps (fun p => (fst (nth i (sel p) (0, 0)) * snd (nth j (sel p) (0, 0)) - snd (nth i (sel p) (0, 0)) * fst (nth j (sel p) (0, 0))) * g_dV p)).
(** density_grid.cpp 238-240: (den * dV).sum(). *)
Definition grid_norm (den : gpoint -> R) (ps : list gpoint) : R := lsum ps (fun p => den p * g_dV p).
