(** Properties of numerical atomic orbitals and of the Slater and Gaussian bases (C46, C84-C86). *)
Require Import Reals ZArith List Bool Arith.
Require Import Verif.Prelude Verif.PotSpec Verif.FEModel Verif.AngModel Verif.JKModel Verif.JKSpec Verif.JKProofs
  Verif.NaoModel Verif.NaoSpec Verif.NaoProofs Verif.NaoExtent Verif.NaoMake Verif.NaoWit.
Import ListNotations.
Local Open Scope R_scope.

(** A basis can be built from a non-null underlying basis and a coefficient matrix with one row per
    underlying function and at least one column, and from nothing else. *)
Theorem C46_new : forall h p C b, nao_new h p C = Ok b <->
  exists a u, p = Some a /\ h a = Some u /\ drows C = r_nbf u /\ dcols C <> 0%nat /\ b = mkNao a C.
Proof. exact new_ok. Qed.
Print Assumptions C46_new.
Theorem C46_new_throws : forall h p C, (forall a, p = Some a -> h a <> None) ->
  (exists b, nao_new h p C = Ok b) \/ nao_new h p C = Throw LogicError.
Proof. exact new_throws. Qed.
Print Assumptions C46_new_throws.
Theorem C46_new_wraps : forall h p C b, nao_new h p C = Ok b -> exists u, wraps h b u /\ n_C b = C.
Proof. exact new_wraps. Qed.
Print Assumptions C46_new_wraps.
(** The convenience factory stores the given basis and leaves all others alone. *)
Theorem C46_owned : forall h a u C, let '(h', r) := from_owned h a u C in
  h' a = Some u /\ (forall x, x <> a -> h' x = h x) /\
  (drows C = r_nbf u /\ dcols C <> 0%nat -> r = Ok (mkNao a C)) /\
  (~ (drows C = r_nbf u /\ dcols C <> 0%nat) -> r = Throw LogicError).
Proof. exact owned_ok. Qed.
Print Assumptions C46_owned.
(** Every one-electron matrix is sum_pq C(p,i) M(p,q) C(q,j). *)
Theorem C46_one_electron : forall h b u, wraps h b u ->
  square (r_nbf u) (r_overlap u) -> square (r_nbf u) (r_kinetic u) ->
  square (r_nbf u) (r_kinetic_l u) -> square (r_nbf u) (r_nuclear u) ->
  let entries M := fun i j => quadratic (r_nbf u) (dent M) (column (n_C b) i) (column (n_C b) j) in
  is_matrix (nao_overlap h b) (nao_nbf b) (entries (r_overlap u)) /\
  is_matrix (nao_kinetic h b) (nao_nbf b) (entries (r_kinetic u)) /\
  is_matrix (nao_kinetic_l h b) (nao_nbf b) (entries (r_kinetic_l u)) /\
  is_matrix (nao_nuclear h b) (nao_nbf b) (entries (r_nuclear u)).
Proof. exact one_electron_ok. Qed.
Print Assumptions C46_one_electron.
(** So an entry is the matrix element of the orbitals themselves whenever the underlying matrix holds
    the matrix elements of the underlying functions. *)
Theorem C46_matrix_element : forall B n M phi f g, bilinear B ->
  (forall p q, (p < n)%nat -> (q < n)%nat -> M p q = B (phi p) (phi q)) ->
  quadratic n M f g = B (combination n f phi) (combination n g phi).
Proof. exact form_quadratic. Qed.
Print Assumptions C46_matrix_element.
(** Evaluation sums the orbitals with the given coefficients; a wrong number of rows throws. *)
Theorem C46_eval : forall h b u phi r C_orb, wraps h b u -> evaluates u phi r ->
  (drows C_orb = nao_nbf b -> exists v, nao_eval h b C_orb r = Ok v /\ length v = dcols C_orb /\
     forall j, (j < dcols C_orb)%nat ->
       nth j v 0 = combination (nao_nbf b) (column C_orb j) (fun a => combination (r_nbf u) (column (n_C b) a) phi) r) /\
  (drows C_orb <> nao_nbf b -> nao_eval h b C_orb r = Throw LogicError).
Proof. exact eval_ok. Qed.
Print Assumptions C46_eval.
(** The Coulomb and exchange operators are sum_mn D_mn R(a_i a_j, b_m b_n) and
    sum_mn D_mn R(a_i b_m, a_j b_n), R being the integrals over the orbitals. *)
Theorem C46_two_electron : forall h b o u f k D, wraps h b u -> wraps h o u -> n_ptr b = n_ptr o -> r_fem u = Some f ->
  square (nao_nbf o) D -> fem_ok u (f_layout f) (f_bare f) k ->
  let T := kernel_tensor (f_layout f) (f_bare f) k in
  let A i := column (n_C b) i in let B m := column (n_C o) m in
  is_matrix (coulomb_radial h b k o D) (nao_nbf b)
    (fun i j => sum (nao_nbf o) (fun m => sum (nao_nbf o) (fun n => dent D m n * slater (r_nbf u) T (A i) (A j) (B m) (B n)))) /\
  is_matrix (exchange_radial h b k o D) (nao_nbf b)
    (fun i j => sum (nao_nbf o) (fun m => sum (nao_nbf o) (fun n => dent D m n * slater (r_nbf u) T (A i) (B m) (A j) (B n)))).
Proof. exact two_electron_ok. Qed.
Print Assumptions C46_two_electron.
(** The same with the screened integrals. *)
Theorem C46_screened : forall h b o u f k lambda D, wraps h b u -> wraps h o u -> n_ptr b = n_ptr o -> r_fem u = Some f ->
  square (nao_nbf o) D -> 0 < lambda -> fem_ok u (f_layout f) (f_yukawa f lambda) k ->
  let T := kernel_tensor (f_layout f) (f_yukawa f lambda) k in
  let A i := column (n_C b) i in let B m := column (n_C o) m in
  is_matrix (coulomb_radial_yukawa h b k lambda o D) (nao_nbf b)
    (fun i j => sum (nao_nbf o) (fun m => sum (nao_nbf o) (fun n => dent D m n * slater (r_nbf u) T (A i) (A j) (B m) (B n)))) /\
  is_matrix (exchange_radial_yukawa h b k lambda o D) (nao_nbf b)
    (fun i j => sum (nao_nbf o) (fun m => sum (nao_nbf o) (fun n => dent D m n * slater (r_nbf u) T (A i) (B m) (A j) (B n)))).
Proof. exact screened_ok. Qed.
Print Assumptions C46_screened.
(** Different underlying bases, an underlying basis without elements, a density of the wrong shape
    and a non-positive screening throw. *)
Theorem C46_throws : forall h b o u k lambda D, wraps h b u -> (exists u', wraps h o u') ->
  (n_ptr b <> n_ptr o \/ r_fem u = None \/ ~ square (nao_nbf o) D ->
   coulomb_radial h b k o D = Throw LogicError /\ exchange_radial h b k o D = Throw LogicError) /\
  (n_ptr b <> n_ptr o \/ r_fem u = None \/ ~ square (nao_nbf o) D \/ lambda <= 0 ->
   coulomb_radial_yukawa h b k lambda o D = Throw LogicError /\ exchange_radial_yukawa h b k lambda o D = Throw LogicError).
Proof. exact two_throws. Qed.
Print Assumptions C46_throws.
Example C46_case : nao_new heap3 (Some 7%nat) (n_C nao3) = Ok nao3 /\ wraps heap3 nao3 u3.
Proof. exact nao3_ok. Qed.
Example C46_case_fem : forall k, fem_ok u3 lay2 kernel2 k.
Proof. exact nao3_fem. Qed.
Example C46_case_eval : forall r, evaluates u3 (fun i r => r ^ i) r.
Proof. exact nao3_eval. Qed.
Example C46_case_kinetic : exists M, nao_kinetic heap3 nao3 = Ok M /\ dent M 0%nat 1%nat = 78.
Proof. exact nao3_kinetic. Qed.
Example C46_case_exchange : exists M J, exchange_radial heap3 nao3 0 nao3 (mkD 2 2 mid) = Ok M /\ coulomb_radial heap3 nao3 0 nao3 (mkD 2 2 mid) = Ok J /\
  dent M 0%nat 0%nat = 776 /\ dent J 0%nat 0%nat = 840.
Proof. exact nao3_exchange. Qed.
Example C46_case_form : inner three_points.
Proof. exact three_inner. Qed.

(** The extent of a Slater primitive lies beyond its maximum, the function stays below tol times the
    maximum from there on, and no radius smaller by 1e-12 max(1, r_peak) has this property. *)
Theorem C84_slater : forall p, valid_prim 1 p -> forall tol, exp (- (10 ^ 40)) <= tol ->
  maximum_at (slater_shape p) (sto_peak p) /\
  exists fuel0, forall fuel, (fuel0 <= fuel)%nat -> exists e, sto_extent fuel tol p = Ok e /\
    tail_radius (slater_shape p) (sto_peak p) tol (1 / 10 ^ 12 * Rmax 1 (sto_peak p)) e.
Proof. exact sto_extent_ok. Qed.
Print Assumptions C84_slater.
Theorem C84_gauss : forall p, valid_prim 0 p -> forall tol, exp (- (10 ^ 40)) <= tol ->
  maximum_at (gauss_shape p) (gto_peak p) /\
  exists fuel0, forall fuel, (fuel0 <= fuel)%nat -> exists e, gto_extent fuel tol p = Ok e /\
    tail_radius (gauss_shape p) (gto_peak p) tol (1 / 10 ^ 12 * Rmax 1 (gto_peak p)) e.
Proof. exact gto_extent_ok. Qed.
Print Assumptions C84_gauss.
(** With a negative tolerance the search never ends. *)
Theorem C84_negative : forall tol p fuel, tol < 0 ->
  (valid_prim 1 p -> sto_extent fuel tol p = OutOfFuel) /\ (valid_prim 0 p -> gto_extent fuel tol p = OutOfFuel).
Proof. exact negative_ok. Qed.
Print Assumptions C84_negative.
(** Beyond a radius where all its primitives are negligible, a contracted function is. *)
Theorem C84_slater_contracted : forall tol c rmax, Forall (valid_prim 1) (c_prims c) ->
  (forall p, In p (c_prims c) -> negligible_from (slater_shape p) (sto_peak p) tol rmax) ->
  (forall r, sto_u c r = contraction (fun p => NaoModel.sto_norm p * slater_shape p r) c) /\
  forall r, 0 <= r -> rmax <= r -> Rabs (sto_u c r) <= tol * abs_contraction (fun p => NaoModel.sto_norm p * slater_shape p (sto_peak p)) c.
Proof. exact sto_contracted. Qed.
Print Assumptions C84_slater_contracted.
Theorem C84_gauss_contracted : forall g tol c rmax, Forall (valid_prim 0) (c_prims c) ->
  (forall p, In p (c_prims c) -> negligible_from (gauss_shape p) (gto_peak p) tol rmax) ->
  (forall r, gto_u g c r = contraction (fun p => NaoModel.gto_norm g p * gauss_shape p r) c) /\
  forall r, 0 <= r -> rmax <= r -> Rabs (gto_u g c r) <= tol * abs_contraction (fun p => NaoModel.gto_norm g p * gauss_shape p (gto_peak p)) c.
Proof. exact gto_contracted. Qed.
Print Assumptions C84_gauss_contracted.
Example C84_case : valid_basis 1 two_stos /\ valid_basis 0 two_stos.
Proof. exact two_stos_ok. Qed.
Example C84_case_tol : exp (- (10 ^ 40)) <= 1 / 10 ^ 12.
Proof. exact tol_ok. Qed.

(** Building a basis from Slater functions: the elements go from zero to the largest extent, all
    primitives are negligible from there on, and every column solves the overlap equations. *)
Theorem C85_slater : forall radial_of bf_of nq xq wq ldlt h a bas tol nelem nnodes,
  valid_basis 1 bas -> exp (- (10 ^ 40)) <= tol -> (1 <= nelem)%Z -> (2 <= nnodes)%Z ->
  (forall rmax, 0 < rmax -> let u := radial_of (nao_fe rmax nelem nnodes) in square (r_nbf u) (r_overlap u) /\ solves (r_overlap u) ldlt) ->
  exists fuel0, forall fuel, (fuel0 <= fuel)%nat -> exists rmax,
    largest (sto_extent fuel tol) bas rmax /\
    (forall p, In p (primitives bas) -> maximum_at (slater_shape p) (sto_peak p) /\ negligible_from (slater_shape p) (sto_peak p) tol rmax) /\
    spans (nao_fe rmax nelem nnodes) rmax (Z.to_nat nelem) /\
    projected radial_of bf_of nq xq wq h a (nao_fe rmax nelem nnodes) (map sto_u bas)
      (make_nao_sto radial_of bf_of nq xq wq ldlt fuel h a bas tol nelem nnodes).
Proof. exact make_sto_ok. Qed.
Print Assumptions C85_slater.
Theorem C85_gauss : forall radial_of bf_of nq xq wq ldlt tg h a bas tol nelem nnodes,
  valid_basis 0 bas -> exp (- (10 ^ 40)) <= tol -> (1 <= nelem)%Z -> (2 <= nnodes)%Z ->
  (forall rmax, 0 < rmax -> let u := radial_of (nao_fe rmax nelem nnodes) in square (r_nbf u) (r_overlap u) /\ solves (r_overlap u) ldlt) ->
  exists fuel0, forall fuel, (fuel0 <= fuel)%nat -> exists rmax,
    largest (gto_extent fuel tol) bas rmax /\
    (forall p, In p (primitives bas) -> maximum_at (gauss_shape p) (gto_peak p) /\ negligible_from (gauss_shape p) (gto_peak p) tol rmax) /\
    spans (nao_fe rmax nelem nnodes) rmax (Z.to_nat nelem) /\
    projected radial_of bf_of nq xq wq h a (nao_fe rmax nelem nnodes) (map (gto_u tg) bas)
      (make_nao_gto radial_of bf_of nq xq wq ldlt tg fuel h a bas tol nelem nnodes).
Proof. exact make_gto_ok. Qed.
Print Assumptions C85_gauss.
(** Anything but a valid basis throws, and so does a number of nodes below two. *)
Theorem C85_invalid : forall radial_of bf_of nq xq wq ldlt tg fuel h a bas tol nelem nnodes,
  (~ valid_basis 1 bas -> make_nao_sto radial_of bf_of nq xq wq ldlt fuel h a bas tol nelem nnodes = Throw LogicError) /\
  (~ valid_basis 0 bas -> make_nao_gto radial_of bf_of nq xq wq ldlt tg fuel h a bas tol nelem nnodes = Throw LogicError).
Proof. exact make_throws_ok. Qed.
Print Assumptions C85_invalid.
Theorem C85_nodes : forall radial_of bf_of nq xq wq ldlt tg h a bas tol nelem nnodes,
  exp (- (10 ^ 40)) <= tol -> (1 <= nelem)%Z -> (nnodes < 2)%Z -> exists fuel0, forall fuel, (fuel0 <= fuel)%nat ->
  (valid_basis 1 bas -> make_nao_sto radial_of bf_of nq xq wq ldlt fuel h a bas tol nelem nnodes = Throw LogicError) /\
  (valid_basis 0 bas -> make_nao_gto radial_of bf_of nq xq wq ldlt tg fuel h a bas tol nelem nnodes = Throw LogicError).
Proof. exact make_nodes_ok. Qed.
Print Assumptions C85_nodes.
(** The solution of the overlap equations is the best approximation in the span of the elements'
    functions, and a function of that span is reproduced exactly. *)
Theorem C85_best : forall B n phi S u c ld, inner B ->
  (forall i j, (i < n)%nat -> (j < n)%nat -> S i j = B (phi i) (phi j)) -> (forall i, (i < n)%nat -> ld i = B (phi i) u) ->
  (forall i, (i < n)%nat -> sum n (fun j => S i j * c j) = ld i) ->
  forall d, B (fun r => u r - combination n c phi r) (fun r => u r - combination n c phi r) <=
    B (fun r => u r - combination n d phi r) (fun r => u r - combination n d phi r).
Proof. exact best. Qed.
Print Assumptions C85_best.
Theorem C85_reproduced : forall B n phi S u c ld, inner B ->
  (forall i j, (i < n)%nat -> (j < n)%nat -> S i j = B (phi i) (phi j)) -> (forall i, (i < n)%nat -> ld i = B (phi i) u) ->
  (forall i, (i < n)%nat -> sum n (fun j => S i j * c j) = ld i) ->
  forall a, nonsingular n S -> (forall i, (i < n)%nat -> B (phi i) u = B (phi i) (combination n a phi)) ->
  forall i, (i < n)%nat -> c i = a i.
Proof. exact reproduced. Qed.
Print Assumptions C85_reproduced.
Example C85_case : forall b, let u := diag_radial b in square (r_nbf u) (r_overlap u) /\ solves (r_overlap u) half_solver.
Proof. exact diag_ok. Qed.
Example C85_case_best : (forall i, (i < 2)%nat -> sum 2 (fun j => three_points (lines i) (lines j) * line_fit j) = three_points (lines i) (fun r => r * r)) /\
  nonsingular 2 (fun i j => three_points (lines i) (lines j)).
Proof. exact line_case. Qed.

(** A primitive with coefficient one is normalised. *)
Theorem C86_slater : forall p, valid_prim 1 p ->
  is_improper (fun r => sto_u (mkContr [p] [1]) r * sto_u (mkContr [p] [1]) r) 0 1.
Proof. exact sto_unit. Qed.
Print Assumptions C86_slater.
Theorem C86_gauss : forall g p, is_gamma g -> valid_prim 0 p ->
  is_improper (fun r => gto_u g (mkContr [p] [1]) r * gto_u g (mkContr [p] [1]) r) 0 1.
Proof. exact gto_unit. Qed.
Print Assumptions C86_gauss.
Example C86_case : is_gamma gamma_w.
Proof. exact gamma_w_ok. Qed.
