(** Statements about the jellium program, and cases that meet their hypotheses. *)
Require Import Reals ZArith List Bool Arith Lia Lra Permutation.
Require Import Verif.Prelude Verif.GridModel Verif.GridSpec Verif.TabModel Verif.AijModel Verif.AijSpec Verif.AijProofs.
Import ListNotations.
Open Scope R_scope.

(** C143 *)
Theorem C143_lmax : forall nj,
  ((nj < 99284)%Z -> consistent_lmax nj = Ok (count_upto nj magic)) /\ ((99284 <= nj)%Z -> consistent_lmax nj = Throw LogicError).
Proof. exact lmax_ok. Qed.
Example C143_lmax_ex : consistent_lmax 1 = Ok 0%Z /\ consistent_lmax 2 = Ok 1%Z /\ consistent_lmax 118 = Ok 7%Z /\ consistent_lmax 99283 = Ok 99%Z /\ consistent_lmax 99284 = Throw LogicError.
Proof. vm_compute. repeat split. Qed.
Theorem C143_lmax_monotone : forall n1 n2 l1 l2, (n1 <= n2)%Z -> consistent_lmax n1 = Ok l1 -> consistent_lmax n2 = Ok l2 -> (0 <= l1 <= l2 /\ l2 <= 99)%Z.
Proof. exact lmax_mono. Qed.
Example C143_lmax_monotone_ex : consistent_lmax 20 = Ok 3%Z /\ consistent_lmax 1000 = Ok 17%Z.
Proof. vm_compute. split; reflexivity. Qed.
Theorem C143_shell : forall j, physical j ->
  0 <= fst (shell j) <= snd (shell j) /\ snd (shell j) ^ 3 - fst (shell j) ^ 3 = IZR (j_nj j) * j_rs j ^ 3.
Proof. exact shell_ok. Qed.
Example C143_shell_ex : physical (jex true 1) /\ shell (jex true 1) = (1, 2).
Proof. split; [exact (proj1 (jex_asks true 1 Rlt_0_1)) | exact (jex_shell 1)]. Qed.
Theorem C143_charge_check : forall j, physical j -> charge_check j = Ok tt.
Proof. exact charge_ok. Qed.
Example C143_charge_check_ex : charge_check (jex true 1) = Ok tt.
Proof. exact (C143_charge_check _ (proj1 C143_shell_ex)). Qed.
Theorem C143_potential : forall rs ri ro, 0 < rs -> 0 <= ri <= ro -> potential_of rs ri ro (fun r => - potfunc rs ri ro r).
Proof. exact background_ok. Qed.
Example C143_potential_ex : potfunc 1 1 2 3 = - (7 / 3) /\ potfunc 1 1 2 0 = - (9 / 2).
Proof.
  unfold potfunc, sphere_pot. cbv zeta. destruct (Rltb_spec 0 1), (Rltb_spec 3 2), (Rltb_spec 3 1), (Rltb_spec 0 2); try lra; split; field.
Qed.
Theorem C143_repulsion : forall rs ri ro, 0 < rs -> 0 <= ri <= ro ->
  integral_is (fun r => / 2 * radial_charge rs r * - potfunc rs ri ro r) ri ro (erep rs ri ro).
Proof. exact erep_ok. Qed.
Theorem C143_repulsion_nonneg : forall rs ri ro, 0 < rs -> 0 <= ri <= ro -> 0 <= erep rs ri ro.
Proof. exact erep_nonneg. Qed.
Theorem C143_repulsion_balls : forall rs ri ro, 0 < rs -> 0 < ri <= ro ->
  let Qo := (ro / rs) ^ 3 in let Qi := (ri / rs) ^ 3 in
  erep rs ri ro = 3 / 5 * Qo ^ 2 / ro + 3 / 5 * Qi ^ 2 / ri - 3 * Qi * Qo / (2 * ro) * (1 - ri ^ 2 / (5 * ro ^ 2)).
Proof. exact erep_balls. Qed.
Example C143_repulsion_ex : erep 1 1 2 = 141 / 10 /\ erep 1 0 1 = 3 / 5.
Proof. unfold erep. destruct (Rltb_spec 0 1); [|lra]. split; field. Qed.
Theorem C143_nucleus : forall Z0 rs ri ro, 0 < rs -> 0 <= ri <= ro ->
  integral_is (fun r => IZR Z0 * (3 * r / rs ^ 3)) ri ro (enucfield Z0 rs ri ro).
Proof. exact enucfield_ok. Qed.
Example C143_nucleus_ex : enucfield 2 1 1 2 = 9.
Proof. unfold enucfield. rewrite (proj2 C143_potential_ex). field. Qed.

(** C144 *)
Theorem C144_friedel : forall rs kF, 0 < rs -> kF ^ 3 = 3 * PI ^ 2 * (3 / (4 * PI * rs ^ 3)) -> friedel rs * kF = PI.
Proof. exact friedel_ok. Qed.
Example C144_friedel_ex : cbrt (3 * PI ^ 2 * (3 / (4 * PI * 2 ^ 3))) ^ 3 = 3 * PI ^ 2 * (3 / (4 * PI * 2 ^ 3)).
Proof. exact (cbrt_cube _). Qed.
Theorem C144_grid : forall j, asks_grid j -> j_vac j = false ->
  exists Nu Nv l, jellium_grid j = Ok l /\ grid_from_0_to (snd (shell j) + Rmax 0 (j_Rmax j)) (j_nelem j + Nu - 1 + Nv) l /\
    fewest (snd (shell j)) (friedel (j_rs j) / j_nufreq j) Nu /\
    (0 < j_Rmax j -> fewest (j_Rmax j) (friedel (j_rs j) / j_nufreq j) Nv) /\ (j_Rmax j <= 0 -> Nv = 0%Z) /\
    (forall k, (1 <= k <= Nu)%Z -> In (IZR k * (snd (shell j) / IZR Nu)) l).
Proof. exact plain_grid_ok. Qed.
Example C144_grid_ex : asks_grid (jex false (1 / 2)) /\ j_vac (jex false (1 / 2)) = false.
Proof. split; [apply jex_asks; lra | reflexivity]. Qed.
Theorem C144_atom : forall j, j_vac j = false -> (0 < j_nelem j)%Z -> 0 < j_Rmax j -> admissible (j_igrid j) (j_zexp j) -> (j_nj j < 99284)%Z ->
  j_rs j = 0 \/ (0 < j_rs j /\ j_nj j = 0%Z) -> exists l, jellium_grid j = Ok l /\ grid_from_0_to (j_Rmax j) (j_nelem j) l.
Proof. exact atom_grid_ok. Qed.
Example C144_atom_ex : exists l, jellium_grid (mkJ 10 0 0 2 false (1 / 2) 40 5 4 2) = Ok l /\ grid_from_0_to 40 5 l.
Proof. apply (C144_atom (mkJ 10 0 0 2 false (1 / 2) 40 5 4 2)); cbn; try lia; try lra; try reflexivity. - right. left. split; [right; reflexivity | lra]. - right. split; [lra | reflexivity]. Qed.
Theorem C144_vacancy : forall j, asks_grid j -> j_vac j = true -> (j_nj (filled j) < 99284)%Z ->
  exists l l', jellium_grid j = Ok l /\ jellium_grid (filled j) = Ok l' /\ ascending l /\ Permutation (fst (shell j) :: l') l /\
    (increasing l <-> ~ In (fst (shell j)) l').
Proof. exact vacancy_grid_ok. Qed.
Example C144_vacancy_ex : asks_grid (jex true (1 / 2)) /\ j_vac (jex true (1 / 2)) = true /\ (j_nj (filled (jex true (1 / 2))) < 99284)%Z.
Proof. split; [apply jex_asks; lra|]. split; [reflexivity | cbn; lia]. Qed.
Theorem C144_vacancy_increasing_refuted :
  exists j, asks_grid j /\ j_vac j = true /\ j_Z j = 1%Z /\ j_Q j = 0%Z /\ j_nj j = 7%Z /\ j_nufreq j = 1 /\ exists l, jellium_grid j = Ok l /\ ~ increasing l.
Proof. exact repeated_boundary. Qed.

(** C145 *)
Theorem C145_restricted : forall bs i k, restricted_density bs i k = over_orbitals bs (fun _ C o => C i o * C k o).
Proof. exact restricted_ok. Qed.
Example C145_restricted_ex : restricted_density [(mid, [2; 0]); (mid, [0]); (fun _ _ => 1, [3])] 0%nat 0%nat = 5.
Proof. rewrite C145_restricted. unfold over_orbitals, mid. cbn. ring. Qed.
Theorem C145_trace : forall n A bs, trace2 n (restricted_density bs) A = over_orbitals bs (fun _ C o => expect n A C o).
Proof. exact restricted_trace. Qed.
Theorem C145_electrons : forall n A bs,
  (forall l, (l < length bs)%nat -> forall o, (o < length (snd (nth l bs (mzero, []))))%nat -> expect n A (fst (nth l bs (mzero, []))) o = 1) ->
  trace2 n (restricted_density bs) A = over_orbitals bs (fun _ _ _ => 1).
Proof. exact count_ok. Qed.
Example C145_electrons_ex : trace2 2 (restricted_density [(mid, [2; 1]); (mid, [0; 0]); (mid, [6])]) mid = 9.
Proof.
  rewrite C145_electrons.
  - unfold over_orbitals. cbn. ring.
  - intros l Hl o Ho. cbn in Hl. destruct l as [|[|[|l]]]; try lia; cbn in Ho; destruct o as [|[|o]]; try lia; unfold expect, mid; cbn; ring.
Qed.
Theorem C145_kinetic : forall n T Tl bs,
  restricted_kinetic n T Tl 0 bs = over_orbitals bs (fun l C o => expect n T C o + INR l * (INR l + 1) * expect n Tl C o).
Proof. exact kinetic_ok. Qed.
Example C145_kinetic_ex : restricted_kinetic 1 mid mid 0 [(mid, [2]); (mid, [0]); (mid, [1])] = 9.
Proof. rewrite C145_kinetic. unfold over_orbitals, expect, mid. cbn. ring. Qed.
Theorem C145_unrestricted_partial : forall bs i k, (forall p, In p bs -> unoccupied (fst p) = true -> unoccupied (snd p) = true) ->
  unrestricted_density bs i k = over_orbitals (map fst bs) (fun _ C o => C i o * C k o) + over_orbitals (map snd bs) (fun _ C o => C i o * C k o).
Proof. exact unrestricted_ok. Qed.
Example C145_unrestricted_partial_ex : unrestricted_density [((mid, [1]), (mid, [1])); ((mid, [1]), (mid, [0]))] 0%nat 0%nat = 3.
Proof.
  rewrite C145_unrestricted_partial; [unfold over_orbitals, mid; cbn; ring|]. intros p [<-|[<-|[]]]; unfold unoccupied; cbn [fst snd forallb]; rewrite Rabs_R1; destruct (Reqb_spec 1 0); try lra; discriminate.
Qed.
Theorem C145_unrestricted_refuted :
  ~ (forall bs i k, unrestricted_density bs i k = over_orbitals (map fst bs) (fun _ C o => C i o * C k o) + over_orbitals (map snd bs) (fun _ C o => C i o * C k o)).
Proof. exact beta_lost. Qed.

Print Assumptions C143_lmax.
Print Assumptions C143_lmax_monotone.
Print Assumptions C143_shell.
Print Assumptions C143_charge_check.
Print Assumptions C143_potential.
Print Assumptions C143_repulsion.
Print Assumptions C143_repulsion_nonneg.
Print Assumptions C143_repulsion_balls.
Print Assumptions C143_nucleus.
Print Assumptions C144_friedel.
Print Assumptions C144_grid.
Print Assumptions C144_atom.
Print Assumptions C144_vacancy.
Print Assumptions C144_vacancy_increasing_refuted.
Print Assumptions C145_restricted.
Print Assumptions C145_trace.
Print Assumptions C145_electrons.
Print Assumptions C145_kinetic.
Print Assumptions C145_unrestricted_partial.
Print Assumptions C145_unrestricted_refuted.
