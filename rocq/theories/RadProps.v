(** Properties C47, C65-C70. *)
Require Import Reals List Arith Bool ZArith.
Require Import Verif.Prelude Verif.FEModel Verif.FESpec Verif.ShapeModel Verif.ShapeSpec Verif.QuadModel Verif.QuadSpec.
Require Import Verif.RadModel Verif.RadSpec Verif.RadProofs Verif.RadFun Verif.RadCache Verif.RadMat Verif.RadExact Verif.RadConf Verif.RadWit.
Import ListNotations.
Open Scope R_scope.

(* ------------------------------------------------------------------ *)
(** C47: after any history of cache fills (complete, partial or failed) and
    re-assignments the cached getters return what the evaluators of the basis last
    assigned return. *)
Theorem C47_cached_values : forall rb0 es iel, let rb := fst (run rb0 es) in let c := snd (run rb0 es) in
  get_bf_q rb c iel = bf_table rb iel /\ get_df_q rb c iel = df_table rb iel /\ get_lf_q rb c iel = lf_table rb iel.
Proof. exact transparent. Qed.
Print Assumptions C47_cached_values.

Theorem C47_current_basis : forall rb es, fst (run rb es) = last_basis rb es.
Proof. exact run_basis. Qed.
Print Assumptions C47_current_basis.

(** A fill that returns has stored what was asked for, and a fill of a radial basis
    returns. *)
Theorem C47_filled : forall rb0 es nd nl c', let rb := fst (run rb0 es) in
  fill_quadrature_cache rb nd nl (snd (run rb0 es)) = (c', Ok tt) ->
  forall i, (i < get_nelem (rb_fe rb))%nat ->
    held (bf_table rb) (bfq c') i /\ (nd = true -> held (df_table rb) (dfq c') i) /\ (nl = true -> held (lf_table rb) (lfq c') i).
Proof. exact filled. Qed.
Print Assumptions C47_filled.
Theorem C47_fill_returns : forall rb nd nl c, radial_ok rb -> exists c', fill_quadrature_cache rb nd nl c = (c', Ok tt).
Proof. exact fill_succeeds. Qed.
Print Assumptions C47_fill_returns.

Example C47_case : last_basis hat [Fill true false; Replace herm; Fill false true; Fill true true] = herm /\
  exists c', fill_quadrature_cache herm true true (snd (run hat [Fill true false; Replace herm; Fill false true])) = (c', Ok tt).
Proof. exact cache_case. Qed.

(* ------------------------------------------------------------------ *)
(** C65: in every element the radial functions are B / r, and the first and second
    derivative evaluators are their derivatives, at the origin too. *)
Theorem C65_radial_functions : forall rb e r k en, radial_ok rb -> basis_indices (rb_fe rb) e = Ok en -> (e < get_nelem (rb_fe rb))%nat ->
  e = 0%nat \/ r <> 0 -> (k < length en)%nat ->
  (exists v d l, get_bf rb e (xi (rb_fe rb) e r) = Ok v /\ get_df rb e (xi (rb_fe rb) e r) = Ok d /\ get_lf rb e (xi (rb_fe rb) e r) = Ok l /\
     length v = length en /\ length d = length en /\ length l = length en) /\
  r * entry (get_bf rb e (xi (rb_fe rb) e r)) k = entry (fe_dnf (rb_fe rb) (rb_x0 rb) 0 e (xi (rb_fe rb) e r)) k /\
  derivable_pt_lim (fun r => entry (get_bf rb e (xi (rb_fe rb) e r)) k) r (entry (get_df rb e (xi (rb_fe rb) e r)) k) /\
  derivable_pt_lim (fun r => entry (get_df rb e (xi (rb_fe rb) e r)) k) r (entry (get_lf rb e (xi (rb_fe rb) e r)) k).
Proof. exact radial_functions'. Qed.
Print Assumptions C65_radial_functions.

Example C65_case : radial_ok hat /\ basis_indices (rb_fe hat) 0 = Ok [1%nat] /\ (forall x, get_bf hat 0 x = Ok [1]).
Proof. exact (conj hat_ok (conj eq_refl hat_first)). Qed.
Example C65_hermite : radial_ok herm.
Proof. exact herm_ok. Qed.

(* ------------------------------------------------------------------ *)
(** C66: a function of the basis and its derivatives up to the order of the family have
    one value at a boundary between two elements. *)
Theorem C66_joins : forall b x0 c n e, valid_fe b -> nodes_ok (fe_fam b) (fe_n b) x0 -> (S e < get_nelem b)%nat ->
  (n < noverlap (fe_fam b))%nat ->
  succeeds (fe_dnf b x0 n e 1) /\ succeeds (fe_dnf b x0 n (S e) (-1)) /\
  field b x0 c n e 1 = field b x0 c n (S e) (-1).
Proof. exact field_joins. Qed.
Print Assumptions C66_joins.

(** The test of the constructor accepts every such basis, and bounds the jumps of what
    it accepts. *)
Theorem C66_check_accepts : forall eps b x0, 0 <= eps -> valid_fe b -> nodes_ok (fe_fam b) (fe_n b) x0 ->
  check_bf_continuity eps b x0 = Ok tt.
Proof. exact continuity_ok. Qed.
Print Assumptions C66_check_accepts.
Theorem C66_check_sound : forall eps b x0 e n k v1 v2, check_bf_continuity eps b x0 = Ok tt -> (S e < get_nelem b)%nat ->
  (n < noverlap (fe_fam b))%nat -> (k < noverlap (fe_fam b))%nat ->
  fe_dnf b x0 n e 1 = Ok v1 -> fe_dnf b x0 n (S e) (-1) = Ok v2 ->
  (noverlap (fe_fam b) <= length v1)%nat /\ (noverlap (fe_fam b) <= length v2)%nat /\
  Rabs (nth (length v1 - noverlap (fe_fam b) + k) v1 0 - nth k v2 0) <= sqrt eps.
Proof. exact check_sound. Qed.
Print Assumptions C66_check_sound.

Example C66_case : valid_fe (rb_fe herm) /\ nodes_ok HIP 3 three_nodes /\ get_nelem (rb_fe herm) = 3%nat /\ noverlap HIP = 2%nat.
Proof. exact (conj herm_valid (conj herm_nodes (conj eq_refl eq_refl))). Qed.

(* ------------------------------------------------------------------ *)
(** C67: the value, or every derivative the family carries, vanishes at the end of the
    domain where the flag asks for it. *)
Theorem C67_boundary : forall b x0 c (right : bool) k, valid_fe b -> nodes_ok (fe_fam b) (fe_n b) x0 ->
  (k < noverlap (fe_fam b))%nat ->
  (if right then (if k =? 0 then fe_zfr b else fe_zdr b) else (if k =? 0 then fe_zfl b else fe_zdl b))%nat = true ->
  let e := (if right then get_nelem b - 1 else 0)%nat in
  succeeds (fe_dnf b x0 k e (endpoint right)) /\ field b x0 c k e (endpoint right) = 0.
Proof. exact end_removed. Qed.
Print Assumptions C67_boundary.

Example C67_case : valid_fe (rb_fe herm) /\ nodes_ok HIP 3 three_nodes /\ fe_zfl (rb_fe herm) = true /\ fe_zfr (rb_fe herm) = true /\ fe_zdr (rb_fe herm) = true.
Proof. exact (conj herm_valid (conj herm_nodes (conj eq_refl (conj eq_refl eq_refl)))). Qed.

(* ------------------------------------------------------------------ *)
(** C68: orbitals at any radius: zero beyond the last boundary, an exception for a
    negative radius, and otherwise the expansion as any element containing the radius
    represents it. *)
Theorem C68_orbitals : forall rb, radial_ok rb -> forall C ncol r fuel, (get_nelem (rb_fe rb) <= fuel)%nat ->
  (hi (rb_fe rb) (get_nelem (rb_fe rb) - 1) < r -> eval_orbs rb C ncol r fuel = Ok (repeat 0 ncol)) /\
  (r < 0 -> eval_orbs rb C ncol r fuel = Throw LogicError) /\
  (forall e, (e < get_nelem (rb_fe rb))%nat -> in_element (rb_fe rb) e r ->
     eval_orbs rb C ncol r fuel = Ok (map (fun j => rfield rb (fun g => C g j) e (xi (rb_fe rb) e r)) (seq 0 ncol))).
Proof. exact orbitals. Qed.
Print Assumptions C68_orbitals.

(** At the nucleus: orbitals, density and its slope are those of the radial functions at
    r = 0. *)
Theorem C68_nuclear_orbital : forall rb, radial_ok rb -> forall C ncol,
  nuclear_orbital rb C ncol = Ok (map (fun j => rfield rb (fun g => C g j) 0 (-1)) (seq 0 ncol)).
Proof. exact nuc_orbital. Qed.
Print Assumptions C68_nuclear_orbital.
Theorem C68_nuclear_density : forall rb P N en, radial_ok rb -> get_nbf (rb_fe rb) = Ok (Z.of_nat N) -> basis_indices (rb_fe rb) 0 = Ok en ->
  nuclear_density rb P N N = Ok (first_density rb P (length en) 0) /\
  ((forall i j, P i j = P j i) ->
   exists g, nuclear_density_gradient rb P N N = Ok g /\ derivable_pt_lim (first_density rb P (length en)) 0 g).
Proof. exact nuc_values'. Qed.
Print Assumptions C68_nuclear_density.
Theorem C68_nuclear_shape : forall rb, radial_ok rb -> forall P rows cols,
  get_nbf (rb_fe rb) <> Ok (Z.of_nat rows) \/ get_nbf (rb_fe rb) <> Ok (Z.of_nat cols) ->
  nuclear_density rb P rows cols = Throw LogicError /\ nuclear_density_gradient rb P rows cols = Throw LogicError.
Proof. exact nuc_shape. Qed.
Print Assumptions C68_nuclear_shape.

Example C68_case : in_element (rb_fe hat) 1 2 /\ hi (rb_fe hat) (get_nelem (rb_fe hat) - 1) = 3.
Proof. exact hat_in. Qed.
Example C68_nuclear_case : nuclear_density hat mid 2 2 = Ok 1.
Proof. exact hat_nuclear. Qed.

(* ------------------------------------------------------------------ *)
(** C69: with a quadrature exact for products of two functions of the basis the overlap
    and kinetic matrices are the exact integrals and positive definite. *)
Theorem C69_overlap : forall rb, radial_ok rb -> forall lobx lobw dist scale tol sqrteps, basis_exact (rb_fe rb) lobx lobw ->
  exists S, overlap lobx lobw dist scale tol sqrteps rb = Ok S /\
  forall N, get_nbf (rb_fe rb) = Ok (Z.of_nat N) ->
   (forall u v, exists I : nat -> R,
     (forall e, (e < get_nelem (rb_fe rb))%nat -> integral (fun r => field (rb_fe rb) (rb_x0 rb) u 0 e (xi (rb_fe rb) e r) * field (rb_fe rb) (rb_x0 rb) v 0 e (xi (rb_fe rb) e r)) (lo (rb_fe rb) e) (hi (rb_fe rb) e) (I e)) /\
     form N S u v = sum (get_nelem (rb_fe rb)) I) /\
   (forall u, 0 <= form N S u u) /\
   (forall u, form N S u u = 0 -> forall g, (g < N)%nat -> u g = 0).
Proof. exact overlap_exact_pd. Qed.
Print Assumptions C69_overlap.

Theorem C69_kinetic : forall rb, radial_ok rb -> forall lobx lobw dist scale tol sqrteps, basis_exact (rb_fe rb) lobx lobw ->
  exists T, kinetic lobx lobw dist scale tol sqrteps rb = Ok T /\
  forall N, get_nbf (rb_fe rb) = Ok (Z.of_nat N) ->
   (forall u v, exists I : nat -> R,
     (forall e, (e < get_nelem (rb_fe rb))%nat -> integral (fun r => field (rb_fe rb) (rb_x0 rb) u 1 e (xi (rb_fe rb) e r) * field (rb_fe rb) (rb_x0 rb) v 1 e (xi (rb_fe rb) e r)) (lo (rb_fe rb) e) (hi (rb_fe rb) e) (I e)) /\
     form N T u v = 1 / 2 * sum (get_nelem (rb_fe rb)) I) /\
   (forall u, 0 <= form N T u u) /\
   (forall u, form N T u u = 0 -> forall g, (g < N)%nat -> u g = 0).
Proof. exact kinetic_exact_pd. Qed.
Print Assumptions C69_kinetic.

(** A Gauss-Lobatto rule is exact enough for every basis with fewer than 512 functions
    in an element. *)
Theorem C69_rule : forall b x w, lobatto_exact x w -> valid_fe b -> (noverlap (fe_fam b) * fe_n b <= 511)%nat -> basis_exact b x w.
Proof. exact lobatto_enough. Qed.
Print Assumptions C69_rule.

(** The centrifugal matrix is 1/2 int R_u R_v and positive semidefinite, the nuclear one
    is -int r R_u R_v and negative semidefinite. *)
Theorem C69_centrifugal : forall rb lobx lobw dist scale tol sqrteps, radial_ok rb ->
  exists (n : nat -> R * R -> nat) M, kinetic_l lobx lobw dist scale tol sqrteps rb = Ok M /\ (forall e p, (2 <= n e p <= 512)%nat) /\
  forall N, get_nbf (rb_fe rb) = Ok (Z.of_nat N) -> forall u v,
   form N M u v = sum (get_nelem (rb_fe rb)) (fun e => quad (n e (-1, 1)) (lobx (n e (-1, 1))) (lobw (n e (-1, 1))) (-1) 1 (fun x =>
          half (rb_fe rb) e * (1 / 2 * (rfield rb u e x * rfield rb v e x)))).
Proof. exact kinetic_l_form. Qed.
Print Assumptions C69_centrifugal.
Theorem C69_nuclear : forall rb lobx lobw dist scale tol sqrteps, radial_ok rb ->
  exists (n : nat -> R * R -> nat) M, nuclear lobx lobw dist scale tol sqrteps rb = Ok M /\ (forall e p, (2 <= n e p <= 512)%nat) /\
  forall N, get_nbf (rb_fe rb) = Ok (Z.of_nat N) -> forall u v,
   form N M u v = sum (get_nelem (rb_fe rb)) (fun e => quad (n e (-1, 1)) (lobx (n e (-1, 1))) (lobw (n e (-1, 1))) (-1) 1 (fun x =>
          half (rb_fe rb) e * (- radius (rb_fe rb) e x * (rfield rb u e x * rfield rb v e x)))).
Proof. exact nuclear_form. Qed.
Print Assumptions C69_nuclear.
Theorem C69_centrifugal_sign : forall rb lobx lobw dist scale tol sqrteps, radial_ok rb -> positive_rule lobx lobw ->
  exists M, kinetic_l lobx lobw dist scale tol sqrteps rb = Ok M /\
  forall N, get_nbf (rb_fe rb) = Ok (Z.of_nat N) -> (forall u v, form N M u v = form N M v u) /\ (forall u, 0 <= form N M u u).
Proof. exact kinetic_l_psd. Qed.
Print Assumptions C69_centrifugal_sign.
Theorem C69_nuclear_sign : forall rb lobx lobw dist scale tol sqrteps, radial_ok rb -> positive_rule lobx lobw ->
  exists M, nuclear lobx lobw dist scale tol sqrteps rb = Ok M /\
  forall N, get_nbf (rb_fe rb) = Ok (Z.of_nat N) -> (forall u v, form N M u v = form N M v u) /\ (forall u, form N M u u <= 0).
Proof. exact nuclear_nsd. Qed.
Print Assumptions C69_nuclear_sign.

(** A first boundary off the origin ends the program. *)
Theorem C69_off_origin : forall rb lobx lobw dist scale tol sqrteps, valid_fe (rb_fe rb) -> 1 / 10 ^ 14 < Rabs (lo (rb_fe rb) 0) ->
  kinetic_l lobx lobw dist scale tol sqrteps rb = UB /\ nuclear lobx lobw dist scale tol sqrteps rb = UB.
Proof. exact off_origin. Qed.
Print Assumptions C69_off_origin.

Example C69_case : radial_ok hat /\ basis_exact (rb_fe hat) simp_x simp_w /\ positive_rule simp_x simp_w /\ get_nbf (rb_fe hat) = Ok (Z.of_nat 2).
Proof. exact (conj hat_ok (conj simp_exact (conj simp_positive eq_refl))). Qed.
Example C69_off_case : let rb := mkRad (mkFE LIP 2 [1; 2] true false false false) two_nodes [] [] in
  valid_fe (rb_fe rb) /\ 1 / 10 ^ 14 < Rabs (lo (rb_fe rb) 0).
Proof. exact off_case. Qed.

(* ------------------------------------------------------------------ *)
(** C70: which confinement parameters are accepted. *)
Theorem C70_accepts : forall rb, radial_ok rb -> forall lobx lobw dist scale tol sqrteps e N r0 iconf V shift, (e < get_nelem (rb_fe rb))%nat ->
  (conf_ok iconf N V shift -> exists B, confinement_potential lobx lobw dist scale tol sqrteps rb e N r0 iconf V shift = Ok B) /\
  (~ conf_ok iconf N V shift -> confinement_potential lobx lobw dist scale tol sqrteps rb e N r0 iconf V shift = Throw LogicError).
Proof. exact conf_decides. Qed.
Print Assumptions C70_accepts.
Example C70_accepts_case : conf_ok 1 2 0 3 /\ conf_ok 2 1 0 0 /\ conf_ok 3 0 5 1 /\ conf_ok 4 2 1 0 /\ ~ conf_ok 1 (-1) 0 1 /\ ~ conf_ok 5 1 1 0.
Proof. exact conf_cases. Qed.

(** The matrices are those of the potentials, integrated piecewise up to and from the
    shift. *)
Theorem C70_exponential : forall rb, radial_ok rb -> forall lobx lobw dist scale tol sqrteps e N r0 V shift, (e < get_nelem (rb_fe rb))%nat -> (1 <= N)%nat ->
  exists n B, confinement_potential lobx lobw dist scale tol sqrteps rb e (Z.of_nat N) r0 2 V shift = Ok B /\ (forall p, (5 <= n p <= 512)%nat) /\
    matrix_of rb lobx lobw n [shift] e (conf_exp N (Rabs r0) shift) B.
Proof. exact conf_exp_matrix. Qed.
Print Assumptions C70_exponential.
(** It is never negative. *)
Theorem C70_exponential_sign : forall N r0 shift r, 0 < r0 -> 0 <= conf_exp N r0 shift r.
Proof. exact conf_exp_nonneg. Qed.
Print Assumptions C70_exponential_sign.

Theorem C70_barrier : forall rb, radial_ok rb -> forall lobx lobw dist scale tol sqrteps e N r0 V shift, (e < get_nelem (rb_fe rb))%nat -> 0 <= V ->
  exists n B, confinement_potential lobx lobw dist scale tol sqrteps rb e N r0 3 V shift = Ok B /\ (forall p, (5 <= n p <= 512)%nat) /\
    matrix_of rb lobx lobw n [shift] e (conf_barrier V shift) B.
Proof. exact conf_barrier_matrix. Qed.
Print Assumptions C70_barrier.

(** The Junquera potential diverges at the last boundary, where the program counts it as
    zero. *)
Theorem C70_junquera : forall rb, radial_ok rb -> forall lobx lobw dist scale tol sqrteps e N r0 V shift, (e < get_nelem (rb_fe rb))%nat -> (1 <= N)%nat -> 0 < V ->
  exists n B, confinement_potential lobx lobw dist scale tol sqrteps rb e (Z.of_nat N) r0 4 V shift = Ok B /\ (forall p, (5 <= n p <= 512)%nat) /\
    matrix_of rb lobx lobw n [shift] e
      (fun r => if Reqb r (hi (rb_fe rb) (get_nelem (rb_fe rb) - 1)) then 0 else conf_junq N V (hi (rb_fe rb) (get_nelem (rb_fe rb) - 1)) shift r) B.
Proof. exact conf_junq_matrix. Qed.
Print Assumptions C70_junquera.

(** Without a shift the polynomial potential is (r / r0)^N with the sign of r0; with one
    an additional factor ((r - shift) / r)^2 is present. *)
Theorem C70_polynomial_partial : forall rb, radial_ok rb -> forall lobx lobw dist scale tol sqrteps e N r0 V shift, (e < get_nelem (rb_fe rb))%nat -> r0 <> 0 -> positive_rule lobx lobw ->
  e <> 0%nat \/ shift = 0 ->
  exists n B, confinement_potential lobx lobw dist scale tol sqrteps rb e (Z.of_nat N) r0 1 V shift = Ok B /\ (forall p, (5 <= n p <= 512)%nat) /\
    matrix_of rb lobx lobw n [shift] e
      (fun r => (if Rltb r0 0 then -1 else 1) * (conf_poly N (Rabs r0) shift r * (if Reqb shift 0 then 1 else ((r - shift) / r) ^ 2))) B.
Proof. exact conf_poly_matrix. Qed.
Print Assumptions C70_polynomial_partial.
Theorem C70_polynomial_shift_refuted : radial_ok hat /\ positive_rule simp_x simp_w /\ forall dist scale tol sqrteps,
  exists B, confinement_potential simp_x simp_w dist scale tol sqrteps hat 1 0 1 1 0 2 = Ok B /\
  forall n, (forall p, (5 <= n p <= 512)%nat) -> ~ matrix_of hat simp_x simp_w n [2] 1 (conf_poly 0 1 2) B.
Proof. exact shifted_refuted. Qed.
Print Assumptions C70_polynomial_shift_refuted.
Theorem C70_inverse : forall rb, radial_ok rb -> forall lobx lobw dist scale tol sqrteps e N r0 V, (e < get_nelem (rb_fe rb))%nat -> r0 <> 0 -> positive_rule lobx lobw -> (1 <= N)%nat -> e <> 0%nat ->
  exists n B, confinement_potential lobx lobw dist scale tol sqrteps rb e (- Z.of_nat N) r0 1 V 0 = Ok B /\ (forall p, (5 <= n p <= 512)%nat) /\
    matrix_of rb lobx lobw n [0] e (fun r => (if Rltb r0 0 then -1 else 1) * (1 / (Rabs r0 * r)) ^ N) B.
Proof. exact conf_inverse_matrix. Qed.
Print Assumptions C70_inverse.

(** Off-centre nuclei: an element with the nucleus inside is rejected; otherwise the
    radial part of the multipole expansion. *)
Theorem C70_offcenter : forall rb, radial_ok rb -> forall lobx lobw dist scale tol sqrteps e Rh L, (e < get_nelem (rb_fe rb))%nat -> 0 < Rh -> positive_rule lobx lobw ->
  (lo (rb_fe rb) e < Rh < hi (rb_fe rb) e -> nuclear_offcenter lobx lobw dist scale tol sqrteps rb e Rh L = Throw LogicError) /\
  (~ (lo (rb_fe rb) e < Rh < hi (rb_fe rb) e) -> exists n B, nuclear_offcenter lobx lobw dist scale tol sqrteps rb e Rh L = Ok B /\
    (forall p, (5 <= n p <= 512)%nat) /\
    matrix_of rb lobx lobw n [] e (fun r => - sqrt (4 * PI / INR (2 * L + 1)) * (Rmin r Rh ^ L / Rmax r Rh ^ (L + 1))) B).
Proof. exact offcenter_matrix. Qed.
Print Assumptions C70_offcenter.
Example C70_offcenter_case : ~ (lo (rb_fe hat) 1 < 1 < hi (rb_fe hat) 1) /\ lo (rb_fe hat) 1 < 2 < hi (rb_fe hat) 1.
Proof. exact offcenter_case. Qed.
