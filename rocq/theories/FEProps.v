(** Properties C01-C05, C08, C09: function numbering, element search, boundaries,
    coordinates, assembly, boundary conditions and the primitive-basis factory. *)
Require Import Reals ZArith List Bool Arith Permutation.
Require Import Verif.Prelude Verif.FEModel Verif.FESpec Verif.FEProofs.
Import ListNotations.

(** A basis used to show that hypotheses are satisfiable: first-order Hermite
    functions on three nodes, elements 0-1-3-7, zero value at both ends. *)
Definition sample_fe : fe := mkFE HIP 3 [0; 1; 3; 7]%R true false true false.

Example sample_valid : valid_fe sample_fe.
Proof. repeat split; [exact (le_n_S _ _ (le_S _ _ (le_n 1)))|exact (le_n_S _ _ (le_n_S _ _ (le_0_n _)))|exact increasing_sample]. Qed.

(* ---------------------------- C01 ---------------------------------- *)

(** Every element has one contiguous, non-negative index range, as long as its
    list of functions, the first one starting at 0. *)
Theorem fe_ranges : forall b, valid_fe b ->
  (forall iel, iel < get_nelem b -> exists f l en,
     get_idx b iel = Ok (f, l) /\ basis_indices b iel = Ok en /\
     (l - f + 1 = Z.of_nat (length en))%Z /\ (0 <= f)%Z) /\
  (exists l, get_idx b 0 = Ok (0%Z, l)) /\
  exists N, get_nbf b = Ok N.
Proof. exact (fun b H => layout_total b (proj1 H) (proj1 (proj2 H))). Qed.
Print Assumptions fe_ranges.

(** Neighbouring elements share exactly noverlap functions. *)
Theorem fe_neighbours_share : forall b iel f1 l1 f2 l2, valid_fe b ->
  get_idx b iel = Ok (f1, l1) -> get_idx b (S iel) = Ok (f2, l2) ->
  forall g, (in_range g (f1, l1) /\ in_range g (f2, l2)) <->
            exists k, (k < noverlap (fe_fam b)) /\ (g = f2 + Z.of_nat k)%Z.
Proof. exact (fun b i f1 l1 f2 l2 H => layout_shared b i f1 l1 f2 l2 (proj1 H)). Qed.
Print Assumptions fe_neighbours_share.

(** A shared function is, on the left, the k-th function of the last node and,
    on the right, the k-th function of the first node. *)
Theorem fe_shared_same_node_function : forall b iel f1 l1 f2 l2 en1 en2, valid_fe b ->
  get_idx b iel = Ok (f1, l1) -> get_idx b (S iel) = Ok (f2, l2) ->
  basis_indices b iel = Ok en1 -> basis_indices b (S iel) = Ok en2 ->
  forall k, k < noverlap (fe_fam b) ->
    nth_error en1 (Z.to_nat (f2 + Z.of_nat k - f1)) =
      Some ((fe_n b - 1) * noverlap (fe_fam b) + k) /\
    nth_error en2 k = Some k.
Proof. exact (fun b i f1 l1 f2 l2 e1 e2 H => layout_same_function b i f1 l1 f2 l2 e1 e2 (proj1 H)). Qed.
Print Assumptions fe_shared_same_node_function.

(** Elements that are not neighbours share nothing. *)
Theorem fe_far_elements_disjoint : forall b i j f1 l1 f2 l2, valid_fe b ->
  get_idx b i = Ok (f1, l1) -> get_idx b j = Ok (f2, l2) -> i + 1 < j ->
  forall g, ~ (in_range g (f1, l1) /\ in_range g (f2, l2)).
Proof. exact (fun b i j f1 l1 f2 l2 H => layout_disjoint b i j f1 l1 f2 l2 (proj1 H)). Qed.
Print Assumptions fe_far_elements_disjoint.

(** The ranges together are 0 .. get_nbf()-1. *)
Theorem fe_ranges_cover : forall b N, valid_fe b -> get_nbf b = Ok N ->
  forall g, (0 <= g < N)%Z <->
    exists iel f l, get_idx b iel = Ok (f, l) /\ in_range g (f, l).
Proof. exact (fun b N H => layout_cover b N (proj1 H) (proj1 (proj2 H))). Qed.
Print Assumptions fe_ranges_cover.

(** get_nbf is the sum of the element counts minus the shared functions. *)
Theorem fe_nbf_is_sum : forall b N, valid_fe b -> get_nbf b = Ok N ->
  (N = zsum (get_nelem b)
         (fun i => Z.of_nat match basis_indices b i with Ok en => length en | _ => 0 end)
       - (Z.of_nat (get_nelem b) - 1) * Z.of_nat (noverlap (fe_fam b)))%Z.
Proof. exact (fun b N H => nbf_sum b N (proj1 H) (proj1 (proj2 H))). Qed.
Print Assumptions fe_nbf_is_sum.

(** Closed formula for the dimension. *)
Theorem fe_nbf_formula : forall b, valid_fe b ->
  (fe_fam b = HIP -> fe_zfr b || fe_zdr b = true) ->
  get_nbf b = Ok (Z.of_nat (get_nelem b) * Z.of_nat ((fe_n b - 1) * noverlap (fe_fam b))
      + Z.of_nat (noverlap (fe_fam b))
      - Z.of_nat (ndropped (fe_fam b) (fe_zfl b) (fe_zdl b))
      - Z.of_nat (ndropped (fe_fam b) (fe_zfr b) (fe_zdr b)))%Z.
Proof. exact (fun b H => nbf_formula b (proj1 H) (proj1 (proj2 H))). Qed.
Print Assumptions fe_nbf_formula.

Example sample_layout :
  get_idx sample_fe 0 = Ok (0, 4)%Z /\ get_idx sample_fe 1 = Ok (3, 8)%Z /\
  get_idx sample_fe 2 = Ok (7, 11)%Z /\ get_nbf sample_fe = Ok 12%Z.
Proof. repeat split. Qed.

(* ---------------------------- C02 ---------------------------------- *)

(** The search terminates within one step per element and returns an element
    containing the radius; outside the grid it returns the first or last one. *)
Theorem find_element_correct : forall b r fuel, valid_fe b -> get_nelem b <= fuel ->
  exists i, find_element b (Fin r) fuel = Ok i /\ i < get_nelem b /\
    ((r <= nth 0 (fe_bval b) 0)%R -> i = 0) /\
    ((nth (get_nelem b) (fe_bval b) 0 <= r)%R -> i = get_nelem b - 1) /\
    ((nth 0 (fe_bval b) 0 <= r <= nth (get_nelem b) (fe_bval b) 0)%R -> in_element b i r).
Proof. exact find_element_finite. Qed.
Print Assumptions find_element_correct.

Theorem find_element_infinite : forall b fuel, valid_fe b ->
  find_element b NInf fuel = Ok 0 /\
  find_element b PInf fuel = Ok (get_nelem b - 1).
Proof. exact find_element_inf. Qed.
Print Assumptions find_element_infinite.

(** A NaN argument never returns, however long it runs. *)
Theorem find_element_nan_diverges : forall b fuel, valid_fe b ->
  find_element b NaN fuel = OutOfFuel.
Proof. exact find_element_nan. Qed.
Print Assumptions find_element_nan_diverges.

(* ---------------------------- C03 ---------------------------------- *)

Theorem add_boundary_correct : forall b r, valid_fe b ->
  let b' := add_boundary b r in
  increasing (fe_bval b') /\ In r (fe_bval b') /\
  (forall v, In v (fe_bval b') <-> v = r \/ In v (fe_bval b)) /\
  length (fe_bval b') = length (fe_bval b) + (if in_dec Req_EM_T r (fe_bval b) then 0 else 1) /\
  fe_fam b' = fe_fam b /\ fe_n b' = fe_n b /\ fe_zfl b' = fe_zfl b /\ fe_zdl b' = fe_zdl b /\
  fe_zfr b' = fe_zfr b /\ fe_zdr b' = fe_zdr b.
Proof. exact (fun b r H => add_boundary_ok b r (proj2 (proj2 H))). Qed.
Print Assumptions add_boundary_correct.

Theorem add_boundary_twice : forall b r, valid_fe b ->
  add_boundary (add_boundary b r) r = add_boundary b r.
Proof. exact (fun b r H => add_boundary_idem b r (proj2 (proj2 H))). Qed.
Print Assumptions add_boundary_twice.

(** After any history of insertions the boundaries are exactly the old ones
    and the inserted ones, in increasing order. *)
Theorem add_boundary_any_history : forall b rs, valid_fe b ->
  let b' := fold_left add_boundary rs b in
  increasing (fe_bval b') /\
  (forall v, In v (fe_bval b') <-> In v rs \/ In v (fe_bval b)) /\
  fe_fam b' = fe_fam b /\ fe_n b' = fe_n b.
Proof. exact (fun b rs H => add_boundary_history b rs (proj2 (proj2 H))). Qed.
Print Assumptions add_boundary_any_history.

(* ---------------------------- C04 ---------------------------------- *)

Theorem coordinates_ends : forall b iel, iel < get_nelem b ->
  eval_coord b (-1) iel = Ok (nth iel (fe_bval b) 0%R) /\
  eval_coord b 1 iel = Ok (nth (iel + 1) (fe_bval b) 0%R).
Proof. exact coord_ends. Qed.
Print Assumptions coordinates_ends.

Theorem coordinates_increasing : forall b iel x y rx ry, valid_fe b -> iel < get_nelem b ->
  (x < y)%R -> eval_coord b x iel = Ok rx -> eval_coord b y iel = Ok ry -> (rx < ry)%R.
Proof. exact coord_mono. Qed.
Print Assumptions coordinates_increasing.

Theorem coordinates_inside : forall b iel x rx, valid_fe b -> iel < get_nelem b ->
  (-1 <= x <= 1)%R -> eval_coord b x iel = Ok rx -> in_element b iel rx.
Proof. exact coord_inside. Qed.
Print Assumptions coordinates_inside.

Theorem coordinates_round_trip : forall b iel, valid_fe b -> iel < get_nelem b ->
  (forall x, (-1 <= x <= 1)%R -> bind (eval_coord b x iel) (fun r => eval_prim b r iel) = Ok x) /\
  (forall y, in_element b iel y -> bind (eval_prim b y iel) (fun x => eval_coord b x iel) = Ok y) /\
  (forall y, ~ in_element b iel y -> eval_prim b y iel = Throw LogicError).
Proof.
  exact (fun b iel H Hi => conj (fun x => prim_coord b x iel H Hi)
    (conj (fun y => coord_prim b y iel H Hi) (fun y => prim_outside b y iel H Hi))).
Qed.
Print Assumptions coordinates_round_trip.

(** Element queries beyond the last element throw. *)
Theorem element_out_of_range_throws : forall b iel x, get_nelem b <= iel ->
  element_begin b iel = Throw LogicError /\ element_end b iel = Throw LogicError /\
  element_length b iel = Throw LogicError /\ eval_coord b x iel = Throw LogicError /\
  eval_prim b x iel = Throw LogicError.
Proof. exact elem_throw. Qed.
Print Assumptions element_out_of_range_throws.

(* ---------------------------- C05 ---------------------------------- *)

(** The (i,j) entry is the sum, over the elements whose index range contains
    both i and j, of that element's local entry. *)
Theorem assembly_is_sum_of_blocks : forall b blk i j, valid_fe b ->
  matrix_element b blk i j =
  sum (get_nelem b) (fun e =>
    match get_idx b e with
    | Ok (f, l) =>
      if ((f <=? Z.of_nat i) && (Z.of_nat i <=? l) && ((f <=? Z.of_nat j) && (Z.of_nat j <=? l)))%Z
      then blk e (Z.to_nat (Z.of_nat i - f)) (Z.to_nat (Z.of_nat j - f)) else 0%R
    | _ => 0%R
    end).
Proof. exact (fun b blk i j H => matrix_element_sum b blk i j (proj1 H)). Qed.
Print Assumptions assembly_is_sum_of_blocks.

Theorem assembly_zero_without_common_element : forall b blk i j, valid_fe b ->
  (forall e f l, get_idx b e = Ok (f, l) ->
     ~ (in_range (Z.of_nat i) (f, l) /\ in_range (Z.of_nat j) (f, l))) ->
  matrix_element b blk i j = 0%R.
Proof. exact (fun b blk i j H => matrix_element_zero b blk i j (proj1 H)). Qed.
Print Assumptions assembly_zero_without_common_element.

Theorem assembly_symmetric : forall b blk i j,
  (forall e p q, blk e p q = blk e q p) -> matrix_element b blk i j = matrix_element b blk j i.
Proof. exact matrix_element_sym. Qed.
Print Assumptions assembly_symmetric.

(** Any order of visiting the elements gives the same matrix. *)
Theorem assembly_order_independent : forall b blk els i j,
  Permutation els (seq 0 (get_nelem b)) ->
  assemble (elem_range b) blk els i j = matrix_element b blk i j.
Proof. exact matrix_element_order. Qed.
Print Assumptions assembly_order_independent.

(** The local block is the weighted quadrature sum over the (sub)element, a
    non-finite weight contributing nothing, and is symmetric for equal operands. *)
Theorem element_block_is_quadrature : forall mid sf xl xr nq xq wq f lh rh i j,
  element_block mid sf xl xr nq xq wq f lh rh i j =
  sum nq (fun q =>
    let x := ((xr - xl) / 2 * xq q + (xr + xl) / 2)%R in
    match f (mid + sf * x)%R with
    | Some fv => (sf * ((xr - xl) / 2) * wq q * fv * lh x i * rh x j)%R
    | None => 0%R
    end).
Proof. exact element_block_value. Qed.
Print Assumptions element_block_is_quadrature.

Theorem element_block_symmetric : forall mid sf xl xr nq xq wq f g i j,
  element_block mid sf xl xr nq xq wq f g g i j = element_block mid sf xl xr nq xq wq f g g j i.
Proof. exact element_block_sym. Qed.
Print Assumptions element_block_symmetric.

(* ---------------------------- C08 ---------------------------------- *)

(** Every element keeps exactly the functions not removed by its boundary
    conditions, in order, except that first-order Hermite bases must request a
    condition at the right end. *)
Theorem boundary_conditions_partial : forall b iel, valid_fe b ->
  (fe_fam b = HIP -> iel + 2 = length (fe_bval b) -> fe_zfr b || fe_zdr b = true) ->
  basis_indices b iel = Ok (expected_functions b iel).
Proof. exact (fun b iel H => basis_indices_expected b iel (proj1 H)). Qed.
Print Assumptions boundary_conditions_partial.

(** The excluded case is a violation: with no condition requested the value
    function of the last node is removed. *)
Theorem hip_without_right_condition_refuted : forall b iel, valid_fe b -> fe_fam b = HIP ->
  iel + 2 = length (fe_bval b) -> fe_zfr b = false -> fe_zdr b = false ->
  exists en, basis_indices b iel = Ok en /\ ~ In ((fe_n b - 1) * 2) en /\
             In ((fe_n b - 1) * 2) (expected_functions b iel).
Proof. exact (fun b iel H => hip_ff_removes b iel (proj1 H)). Qed.
Print Assumptions hip_without_right_condition_refuted.

Example hip_ff_witness :
  basis_indices (mkFE HIP 3 [0; 1; 3; 7]%R false false false false) 2 = Ok [0; 1; 2; 3; 5].
Proof. reflexivity. Qed.

(* ---------------------------- C09 ---------------------------------- *)

Theorem factory_decision : forall p n pb, get_basis p n = Ok pb <->
  (2 <= n)%Z /\
  ((p = 3 /\ pb = mkPoly Legendre NoNodes 3 n) \/ (p = 4 /\ pb = mkPoly LIP GaussLobatto 4 n) \/
   (p = 5 /\ pb = mkPoly HIP GaussLobatto 5 n) \/ (p = 8 /\ pb = mkPoly HIP2 GaussLobatto 8 n) \/
   (p = 9 /\ pb = mkPoly HIP3 GaussLobatto 9 n) \/ (p = 100 /\ pb = mkPoly LIP ChebyshevNodes 4 n) \/
   (p = 101 /\ pb = mkPoly HIP ChebyshevNodes 5 n))%Z.
Proof. exact get_basis_ok. Qed.
Print Assumptions factory_decision.

Theorem factory_throws_iff : forall p n,
  (exists e, get_basis p n = Throw e) <-> (n < 2)%Z \/ ~ In p [3; 4; 5; 8; 9; 100; 101]%Z.
Proof. exact get_basis_throws. Qed.
Print Assumptions factory_throws_iff.

(** The reported id and node count rebuild the basis for every id below 100. *)
Theorem factory_rebuild_partial : forall p n pb, get_basis p n = Ok pb -> (p < 100)%Z ->
  get_basis (pb_id pb) (pb_nnodes pb) = Ok pb.
Proof. exact get_basis_rebuild. Qed.
Print Assumptions factory_rebuild_partial.

(** Chebyshev-node bases report an id that rebuilds a Gauss-Lobatto basis. *)
Theorem factory_rebuild_refuted : exists p n pb pb',
  get_basis p n = Ok pb /\ get_basis (pb_id pb) (pb_nnodes pb) = Ok pb' /\ pb <> pb'.
Proof. exact get_basis_chebyshev. Qed.
Print Assumptions factory_rebuild_refuted.

Theorem templated_factory_agrees : forall p n pb, get_basis_T p n = Ok pb <->
  get_basis p n = Ok pb /\ pb_nodes pb <> ChebyshevNodes.
Proof. exact get_basis_T_agrees. Qed.
Print Assumptions templated_factory_agrees.
