(** Properties C113, C114 and C115: exchange-correlation screening of spherical atoms and
    the extraction of numerical orbitals. *)
Require Import Reals ZArith List Bool Arith Lia Lra Sorted.
Require Import Verif.Prelude Verif.FEModel Verif.FESpec Verif.DftModel Verif.DftWit Verif.SadModel Verif.SadSpec Verif.SadWit
  Verif.XsModel Verif.XsSpec Verif.XsProofs Verif.XsAtom Verif.XsWit.
Import ListNotations.
Local Open Scope R_scope.

(** C113: with local density functionals, r times the potential of each spin *)
Theorem C113_lda nel npts xq rad first len bf df lf nuc lib fx Pa Pb x c fs : (1 <= nel)%nat ->
  ask_both lib x c = Ok fs -> existsb snd fs = false ->
  exists V, xc_screening nel npts xq rad first len bf df lf nuc lib fx Pa Pb x c = Ok V /\ (forall s, V s 0%nat = 0) /\
  forall e i, (e < nel)%nat -> (i < npts)%nat -> rad e (xq i) <> 0 ->
  forall s na nb ga gb, na (rad e (xq i)) = point_density first len bf Pa e (xq i) -> nb (rad e (xq i)) = point_density first len bf Pb e (xq i) ->
  exists v, is_potential fx fs na nb ga gb s (rad e (xq i)) v /\ V s (1 + e * npts + i)%nat = rad e (xq i) * v.
Proof. exact (grid_lda nel npts xq rad first len bf df lf nuc lib fx Pa Pb x c fs). Qed.
Print Assumptions C113_lda.
Example C113_lda_case : ask_both wlib 1 0 = Ok [(1%Z, false)] /\ existsb snd [(1%Z, false)] = false.
Proof. split; reflexivity. Qed.

(** C113: with gradient corrections, the potential minus two errors *)
Theorem C113_gga_partial nel npts xq rad first len bf df lf nuc lib fx : (1 <= nel)%nat -> forall Pa Pb x c fs, ask_both lib x c = Ok fs ->
  exists V, xc_screening nel npts xq rad first len bf df lf nuc lib fx Pa Pb x c = Ok V /\ (forall s, V s 0%nat = 0) /\
  forall e i, (e < nel)%nat -> (i < npts)%nat -> forall X r, X r = xq i -> rad e (xq i) = r -> r <> 0 ->
  symmetric_block (first e) (len e) Pa -> symmetric_block (first e) (len e) Pb ->
  (forall a, (a < len e)%nat -> derivable_pt_lim (fun q => bf e (X q) a) r (df e (X r) a)) ->
  (forall a, (a < len e)%nat -> derivable_pt_lim (fun q => df e (X q) a) r (lf e (X r) a)) ->
  exists na nb ga gb ha hb,
    (forall q, na q = point_density first len bf Pa e (X q)) /\ (forall q, nb q = point_density first len bf Pb e (X q)) /\
    derivable_pt_lim na r (ga r) /\ derivable_pt_lim nb r (gb r) /\ derivable_pt_lim ga r ha /\ derivable_pt_lim gb r hb /\
    ((forall id, In (id, true) fs -> second_derivatives fx id (na r) (nb r) (ga r * ga r) (ga r * gb r) (gb r * gb r)) ->
     forall s, exists v, is_potential fx fs na nb ga gb s r v /\
       V s (1 + e * npts + i)%nat = r * (v - laplacian_excess fx fs (na r) (nb r) (ga r) (gb r) r s
                                           - mixed_excess fx fs (na r) (nb r) (ga r) (gb r) ha hb s)).
Proof. exact (grid_gga nel npts xq rad first len bf df lf nuc lib fx). Qed.
Print Assumptions C113_gga_partial.

(** C113: it is not r times the potential: the functional sigma_aa + sigma_bb *)
Theorem C113_gga_refuted : exists fx r n g h v V,
  (forall id a b s0 s1 s2, second_derivatives fx id a b s0 s1 s2) /\ 0 < r /\
  (forall q, n q = point_density wfirst wlen1 fall wP1 0 (prim_of wgrid 0 q)) /\ derivable_pt_lim n r (g r) /\ derivable_pt_lim g r h /\
  is_potential fx [(2%Z, true)] n n g g 0 r v /\
  xc_screening 2 1 wmid (radius_of wgrid) wfirst wlen1 fall fall1 fall2 (fun _ => 0) wlib fx wP1 wP1 2 0 = Ok V /\
  radius_of wgrid 0 (wmid 0) = r /\ V 0%nat (1 + 0 * 1 + 0)%nat <> r * v.
Proof. exact gga_wrong. Qed.
Print Assumptions C113_gga_refuted.

(** C113: the formula is wrong even if it is given second derivatives for the Laplacians *)
Theorem C113_mixed_refuted : exists fx r n g h v,
  (forall id a b s0 s1 s2, second_derivatives fx id a b s0 s1 s2) /\ 0 < r /\
  (forall q, derivable_pt_lim n q (g q)) /\ (forall q, derivable_pt_lim g q h) /\
  is_potential fx [(2%Z, true)] n n g g 0 r v /\
  point_vxc fx [(2%Z, true)] r (n r) (n r) (g r) (g r) h h 0 <> v.
Proof. exact mixed_wrong. Qed.
Print Assumptions C113_mixed_refuted.

(** C113: the potential is unique *)
Theorem C113_unique fx fs na nb ga gb s r v w : r <> 0 ->
  is_potential fx fs na nb ga gb s r v -> is_potential fx fs na nb ga gb s r w -> v = w.
Proof. exact (potential_unique fx fs na nb ga gb s r v w). Qed.
Print Assumptions C113_unique.

(** C113: from the total density, the average over spins of half of it *)
Theorem C113_total nel npts xq rad first len bf df lf nuc lib fx : (1 <= nel)%nat -> forall P x c fs, ask_both lib x c = Ok fs ->
  exists V v, xc_screening nel npts xq rad first len bf df lf nuc lib fx (fun i j => P i j / 2) (fun i j => P i j / 2) x c = Ok V /\
    xc_screening_total nel npts xq rad first len bf df lf nuc lib fx P x c = Ok v /\
    v 0%nat = 0 /\ forall k, v k = (V 0%nat k + V 1%nat k) / 2.
Proof. exact (grid_total nel npts xq rad first len bf df lf nuc lib fx). Qed.
Print Assumptions C113_total.

(** C113: what is accepted, and how the rest is rejected *)
Theorem C113_functionals lib x c : match ask_both lib x c with
  | Ok fs => forall id g, In (id, g) fs <-> (0 < id)%Z /\ (id = x \/ id = c) /\ xc_known lib id = true /\
                 ((g = true /\ xc_family lib id = GGA) \/ (g = false /\ xc_family lib id = LDA))
  | Throw RuntimeError => exists id, (0 < id)%Z /\ (id = x \/ id = c) /\ (xc_known lib id = false \/ xc_family lib id = OtherFamily)
  | Throw LogicError => exists id, (0 < id)%Z /\ (id = x \/ id = c) /\ xc_known lib id = true /\ xc_family lib id = MGGA /\ (xc_tau lib id = true \/ xc_lapl lib id = true)
  | UB => exists id, (0 < id)%Z /\ (id = x \/ id = c) /\ xc_known lib id = true /\ xc_family lib id = MGGA /\ xc_tau lib id = false /\ xc_lapl lib id = false
  | _ => False
  end.
Proof. exact (both_ok lib x c). Qed.
Print Assumptions C113_functionals.
Theorem C113_rejects nel npts xq rad first len bf df lf nuc lib fx : (1 <= nel)%nat -> forall Pa Pb x c, match ask_both lib x c with
  | Ok _ => True
  | Throw e => xc_screening nel npts xq rad first len bf df lf nuc lib fx Pa Pb x c = Throw e
  | UB => xc_screening nel npts xq rad first len bf df lf nuc lib fx Pa Pb x c = UB
  | OutOfFuel => True
  end.
Proof. exact (grid_fail nel npts xq rad first len bf df lf nuc lib fx). Qed.
Print Assumptions C113_rejects.
Example C113_rejects_case : ask_both wlib 1 3 = Throw LogicError /\ ask_both wlib 5 0 = UB.
Proof. split; reflexivity. Qed.

(** C114: the stored functionals never change a result *)
Theorem C114_cache b first len bf df lf P fuel t lib fx calls :
  evaluations b first len bf df lf P fuel t lib fx None calls
  = map (fun k => snd (atom_xc_screening b first len bf df lf P fuel t lib fx None (fst (fst k)) (snd (fst k)) (snd k))) calls.
Proof. exact (cache_ok b first len bf df lf P fuel t lib fx calls None I). Qed.
Print Assumptions C114_cache.

(** C114: the screening of a tabulated atom is that of the grid *)
Theorem C114_agrees b first len bf df lf P fuel t lib fx : valid_fe b -> (get_nelem b <= fuel)%nat -> Rlast t = last_end b -> 0 <= nth 0 (fe_bval b) 0 ->
  forall npts xq nuc e i r x c fs hd, (e < get_nelem b)%nat -> (i < npts)%nat -> radius_of b e (xq i) = r -> -1 < xq i < 1 ->
  0 < point_density first len bf P e (xq i) -> good lib hd -> ask_both lib x c = Ok fs -> (0 < x \/ 0 < c)%Z ->
  exists v, xc_screening_total (get_nelem b) npts xq (radius_of b) first len bf df lf nuc lib fx P x c = Ok v /\
    snd (atom_xc_screening b first len bf df lf P fuel t lib fx hd r x c) = Ok (v (1 + e * npts + i)%nat).
Proof. exact (atom_agrees b first len bf df lf P fuel t lib fx). Qed.
Print Assumptions C114_agrees.
Example C114_agrees_case : valid_fe wgrid /\ Rlast wt = last_end wgrid /\ -1 < wmid 0 < 1 /\ radius_of wgrid 0 (wmid 0) = / 2 /\
  0 < point_density wfirst wlen1 fall wP1 0 (wmid 0) /\ ask_both wlib 2 1 = Ok [(2%Z, true); (1%Z, false)].
Proof. exact agree_case. Qed.

(** C114: its value at any radius inside of an element, with the same two errors *)
Theorem C114_gga_partial b first len bf df lf P fuel t lib fx : valid_fe b -> (get_nelem b <= fuel)%nat -> Rlast t = last_end b -> 0 <= nth 0 (fe_bval b) 0 ->
  forall e r x c fs hd, (e < get_nelem b)%nat -> left_end b e < r < right_end b e ->
  0 < point_density first len bf P e (prim_of b e r) -> good lib hd -> ask_both lib x c = Ok fs -> (0 < x \/ 0 < c)%Z ->
  symmetric_block (first e) (len e) P ->
  (forall a, (a < len e)%nat -> derivable_pt_lim (fun q => bf e (prim_of b e q) a) r (df e (prim_of b e r) a)) ->
  (forall a, (a < len e)%nat -> derivable_pt_lim (fun q => df e (prim_of b e q) a) r (lf e (prim_of b e r) a)) ->
  exists n g h, (forall q, n q = point_density first len bf P e (prim_of b e q) / 2) /\
    derivable_pt_lim n r (g r) /\ derivable_pt_lim g r h /\
    ((forall id, In (id, true) fs -> second_derivatives fx id (n r) (n r) (g r * g r) (g r * g r) (g r * g r)) ->
     exists v0 v1, is_potential fx fs n n g g 0 r v0 /\ is_potential fx fs n n g g 1 r v1 /\
       snd (atom_xc_screening b first len bf df lf P fuel t lib fx hd r x c)
       = Ok (r * ((v0 - laplacian_excess fx fs (n r) (n r) (g r) (g r) r 0 - mixed_excess fx fs (n r) (n r) (g r) (g r) h h 0)
                + (v1 - laplacian_excess fx fs (n r) (n r) (g r) (g r) r 1 - mixed_excess fx fs (n r) (n r) (g r) (g r) h h 1)) / 2)).
Proof. exact (atom_gga b first len bf df lf P fuel t lib fx). Qed.
Print Assumptions C114_gga_partial.
Theorem C114_gga_refuted : exists fx r n g h v z,
  (forall id a b s0 s1 s2, second_derivatives fx id a b s0 s1 s2) /\ 0 < r /\
  (forall q, n q = point_density wfirst wlen1 fall wP1 0 (prim_of wgrid 0 q) / 2) /\ derivable_pt_lim n r (g r) /\ derivable_pt_lim g r h /\
  is_potential fx [(2%Z, true)] n n g g 0 r v /\ is_potential fx [(2%Z, true)] n n g g 1 r v /\
  snd (atom_xc_screening wgrid wfirst wlen1 fall fall1 fall2 wP1 2 wt wlib fx None r 2 0) = Ok z /\ z <> r * v.
Proof. exact atom_wrong. Qed.
Print Assumptions C114_gga_refuted.

(** C114: the effective charge at the nucleus and outside of the grid *)
Theorem C114_ends b first len bf df lf P fuel t lib fx : Rlast t = last_end b -> forall Z_ nq xq wq hd r x c,
  (r <= 0 -> snd (effective_charge b first len bf df lf P nq xq wq fuel t lib fx Z_ hd r x c) = Ok Z_) /\
  (0 < r -> last_end b < r -> snd (effective_charge b first len bf df lf P nq xq wq fuel t lib fx Z_ hd r x c) = Ok (Z_ - Ntot t)).
Proof. exact (charge_ends b first len bf df lf P fuel t lib fx). Qed.
Print Assumptions C114_ends.
Example C114_ends_case : Rlast wt = last_end wgrid.
Proof. reflexivity. Qed.

(** C114: the effective charge anywhere *)
Theorem C114_charge b first len bf df lf P fuel t lib fx Z_ nq xq wq hd r x c s v :
  hartree_screening b first len bf P nq xq wq fuel t r = Ok s ->
  snd (atom_xc_screening b first len bf df lf P fuel t lib fx hd r x c) = Ok v ->
  snd (effective_charge b first len bf df lf P nq xq wq fuel t lib fx Z_ hd r x c) = Ok (Z_ - s - v).
Proof. exact (charge_value b first len bf df lf P fuel t lib fx Z_ nq xq wq hd r x c s v). Qed.
Print Assumptions C114_charge.
Example C114_charge_case : exists s v, hartree_screening wgrid wfirst wlen1 wbf1 wP1 3 lx lw 2 wt 3 = Ok s /\ snd (atom_xc_screening wgrid wfirst wlen1 wbf1 wbf1 wbf1 wP1 2 wt wlib fx_grad None 3 2 0) = Ok v.
Proof. exact charge_case. Qed.

(** C115: one radial basis for every l that keeps orbitals, in order of l, with the first ones *)
Theorem C115_extract (C : Type) (cube : list (list C)) keep : length keep = length cube ->
  (forall l, (l < length cube)%nat -> (nth l keep 0 <= Z.of_nat (length (nth l cube [])))%Z) ->
  exists out, extract_naos_per_l cube keep = Ok out /\ StronglySorted lt (map fst out) /\
    forall l cs, In (l, cs) out <-> (l < length cube)%nat /\ nth l keep 0%Z <> 0%Z /\
      cs = (if (nth l keep 0 <? 0)%Z then nth l cube [] else firstn (Z.to_nat (nth l keep 0%Z)) (nth l cube [])).
Proof. exact (extract_ok cube keep). Qed.
Print Assumptions C115_extract.
Example C115_extract_case : extract_naos_per_l [[1; 2; 3]; [4]; [5; 6]]%nat [2; 0; -1]%Z = Ok [(0, [1; 2]); (2, [5; 6])]%nat.
Proof. reflexivity. Qed.

(** C115: everything else is rejected *)
Theorem C115_rejects (C : Type) (cube : list (list C)) keep :
  length keep <> length cube \/ (exists l, (l < length cube)%nat /\ (Z.of_nat (length (nth l cube [])) < nth l keep 0)%Z) ->
  extract_naos_per_l cube keep = Throw LogicError.
Proof. exact (extract_fail cube keep). Qed.
Print Assumptions C115_rejects.
Example C115_rejects_case : extract_naos_per_l [[1]; [2; 3]]%nat [1; 3]%Z = Throw LogicError.
Proof. reflexivity. Qed.
