(** Theorems about shells, symmetry blocks, boundary removal, element function
    lists and the auxiliary multipole tables (C12-C16, C19). *)
Require Import Reals ZArith List Bool Arith Permutation Sorted.
Require Import Verif.Prelude Verif.FEModel Verif.FESpec Verif.AngModel Verif.AngSpec Verif.AngProofs.
Import ListNotations.
Local Open Scope Z_scope.

(* ---------------------------- C12 ---------------------------------- *)

(** Every (l,m) with 0 <= l <= lmax, |m| <= min(l,mmax), exactly once, in the
    order |m|, then l, then +m before -m. *)
Theorem angular_basis_enumerates : forall lmax mmax, 0 <= mmax ->
  exists sh, angular_basis lmax mmax = Ok sh /\ NoDup sh /\ StronglySorted lm_order sh /\
    forall l m, In (l, m) sh <-> 0 <= l <= lmax /\ Z.abs m <= Z.min l mmax.
Proof. exact angular_basis_ok. Qed.
Print Assumptions angular_basis_enumerates.

Theorem lm_to_l_m_enumerates : forall lmax : list Z,
  NoDup (lm_to_l_m lmax) /\ StronglySorted lm_order (lm_to_l_m lmax) /\
  forall l m, In (l, m) (lm_to_l_m lmax) <->
    Z.abs m < Z.of_nat (length lmax) /\ Z.abs m <= l <= nth (Z.to_nat (Z.abs m)) lmax 0.
Proof. exact lm_to_l_m_ok. Qed.
Print Assumptions lm_to_l_m_enumerates.

Example angular_basis_2_1 :
  angular_basis 2 1 = Ok [(0,0); (1,0); (2,0); (1,1); (1,-1); (2,1); (2,-1)].
Proof. reflexivity. Qed.
Example lm_to_l_m_sample :
  lm_to_l_m [1; 2] = [(0,0); (1,0); (1,1); (1,-1); (2,1); (2,-1)].
Proof. reflexivity. Qed.

(* ---------------------------- C13 ---------------------------------- *)

Theorem atomic_symmetry_blocks : forall sh Nrad symm, NoDup sh -> (0 <= symm <= 2) ->
  exists blocks labels, at_get_sym_idx sh Nrad symm = Ok blocks /\
    at_get_sym_labels sh symm = Ok labels /\
    blocks_by (all_functions sh Nrad) (label_of symm true) labels blocks.
Proof. exact atomic_blocks. Qed.
Print Assumptions atomic_symmetry_blocks.

(** symm = 0 and symm = 1 need no assumption on the shells; the general
    statement above needs distinct shells only because symm = 2 makes one
    block per shell. *)
Theorem atomic_basis_size : forall sh Nrad, at_Nbf sh Nrad = length (all_functions sh Nrad).
Proof. exact (fun sh N => eq_sym (all_functions_length sh N)). Qed.
Print Assumptions atomic_basis_size.

Theorem atomic_unknown_symmetry_throws : forall sh Nrad symm, symm < 0 \/ 2 < symm ->
  at_get_sym_idx sh Nrad symm = Throw LogicError /\ at_get_sym_labels sh symm = Throw LogicError.
Proof. exact atomic_sym_throws. Qed.
Print Assumptions atomic_unknown_symmetry_throws.

Example atomic_blocks_sample :
  at_get_sym_idx [(0,0); (1,0); (1,1); (1,-1)] 2 1 = Ok [[6%nat; 7%nat]; [0; 1; 2; 3]%nat; [4; 5]%nat] /\
  at_get_sym_labels [(0,0); (1,0); (1,1); (1,-1)] 1 = Ok [LabM (-1); LabM 0; LabM 1].
Proof. split; reflexivity. Qed.

(* ---------------------------- C14 ---------------------------------- *)

Theorem diatomic_symmetry_blocks : forall sh Nrad symm, (1 <= Nrad)%nat ->
  (forall l m, In (l, m) sh -> 0 <= l) -> (0 <= symm <= 2) ->
  exists blocks labels, di_get_sym_idx sh Nrad symm = Ok blocks /\
    di_get_sym_labels sh symm = Ok labels /\
    di_get_sym_mirror_idx sh Nrad symm = Ok (map (fun _ => []) blocks) /\
    blocks_by (pure_functions sh Nrad) (label_of symm false) labels blocks.
Proof. exact diatomic_blocks. Qed.
Print Assumptions diatomic_symmetry_blocks.

(** symm = 3: block number a holds the m = +a functions, its mirror the m = -a
    ones; together they are everything; when the +m and -m shells agree, the
    k-th function of the block and of its mirror have the same l and the same
    radial function. *)
Theorem diatomic_absm_blocks : forall sh Nrad, sh <> [] -> (1 <= Nrad)%nat ->
  exists mm blocks mirrors,
    absm_max sh = Ok mm /\
    di_get_sym_idx sh Nrad 3 = Ok blocks /\ di_get_sym_mirror_idx sh Nrad 3 = Ok mirrors /\
    di_get_sym_labels sh 3 = Ok (map LabAbsM (zrange 0 mm)) /\
    Permutation (concat blocks ++ concat mirrors) (seq 0 (length (pure_functions sh Nrad))) /\
    (forall b, In b (blocks ++ mirrors) -> StronglySorted lt b) /\
    Forall2 (fun a b => forall g, In g b <->
       (g < length (pure_functions sh Nrad))%nat /\ bf_m (fnth (pure_functions sh Nrad) g) = a)
      (zrange 0 mm) blocks /\
    Forall2 (fun a b => forall g, In g b <->
       (g < length (pure_functions sh Nrad))%nat /\ a <> 0 /\ bf_m (fnth (pure_functions sh Nrad) g) = - a)
      (zrange 0 mm) mirrors /\
    (mirrored sh -> Forall2 (fun a bm => a <> 0 ->
        map (fun g => let f := fnth (pure_functions sh Nrad) g in (bf_l f, bf_k f)) (fst bm) =
        map (fun g => let f := fnth (pure_functions sh Nrad) g in (bf_l f, bf_k f)) (snd bm))
      (zrange 0 mm) (combine blocks mirrors)).
Proof. exact diatomic_blocks3. Qed.
Print Assumptions diatomic_absm_blocks.

(** The shells produced by lm_to_l_m have matching +m and -m lists. *)
Theorem lm_to_l_m_is_mirrored : forall lmax, mirrored (lm_to_l_m lmax).
Proof. exact lm_to_l_m_mirrored. Qed.
Print Assumptions lm_to_l_m_is_mirrored.

Theorem diatomic_unknown_symmetry_throws : forall sh Nrad symm, symm < 0 \/ 3 < symm ->
  di_get_sym_idx sh Nrad symm = Throw LogicError /\ di_get_sym_labels sh symm = Throw LogicError /\
  di_get_sym_mirror_idx sh Nrad symm = Throw LogicError.
Proof. exact diatomic_sym_throws. Qed.
Print Assumptions diatomic_unknown_symmetry_throws.

Example diatomic_blocks_sample :
  di_get_sym_idx (lm_to_l_m [1; 1]) 3 3 = Ok [[0; 1; 2; 3; 4; 5]%nat; [6; 7]%nat] /\
  di_get_sym_mirror_idx (lm_to_l_m [1; 1]) 3 3 = Ok [[]; [8; 9]%nat] /\
  di_get_sym_idx (lm_to_l_m [1; 1]) 3 2 =
    Ok [[]; [8; 9]%nat; [0; 1; 2]%nat; [3; 4; 5]%nat; []; [6; 7]%nat].
Proof. repeat split. Qed.

(* ---------------------------- C15 ---------------------------------- *)

Theorem diatomic_basis_size : forall sh Nrad, (1 <= Nrad)%nat ->
  di_Nbf sh Nrad = length (pure_functions sh Nrad).
Proof. exact di_Nbf_length. Qed.
Print Assumptions diatomic_basis_size.

Theorem remove_boundaries_selects : forall sh Nrad F,
  drows F = (length sh * Nrad)%nat -> dcols F = (length sh * Nrad)%nat ->
  exists G, remove_boundaries sh Nrad F = Ok G /\
    let surv := positions survives (all_functions sh Nrad) in
    drows G = length surv /\ dcols G = length surv /\
    forall i j, dent G i j = dent F (nth i surv 0%nat) (nth j surv 0%nat).
Proof. exact remove_ok. Qed.
Print Assumptions remove_boundaries_selects.

Theorem expand_boundaries_restores : forall sh Nrad P,
  let surv := positions survives (all_functions sh Nrad) in
  drows P = length surv -> dcols P = length surv ->
  exists Q, expand_boundaries sh Nrad P = Ok Q /\
    drows Q = (length sh * Nrad)%nat /\ dcols Q = (length sh * Nrad)%nat /\
    (forall i j, (i < length surv)%nat -> (j < length surv)%nat ->
       dent Q (nth i surv 0%nat) (nth j surv 0%nat) = dent P i j) /\
    (forall r c, (~ In r surv \/ ~ In c surv) -> dent Q r c = 0%R).
Proof. exact expand_ok. Qed.
Print Assumptions expand_boundaries_restores.

Theorem remove_after_expand : forall sh Nrad P,
  let n := length (positions survives (all_functions sh Nrad)) in
  drows P = n -> dcols P = n ->
  exists Q G, expand_boundaries sh Nrad P = Ok Q /\ remove_boundaries sh Nrad Q = Ok G /\
    drows G = n /\ dcols G = n /\
    forall i j, (i < n)%nat -> (j < n)%nat -> dent G i j = dent P i j.
Proof. exact remove_expand. Qed.
Print Assumptions remove_after_expand.

Theorem remove_boundaries_wrong_size : forall sh Nrad F,
  drows F <> (length sh * Nrad)%nat \/ dcols F <> (length sh * Nrad)%nat ->
  remove_boundaries sh Nrad F = Throw LogicError.
Proof. exact remove_throws. Qed.
Print Assumptions remove_boundaries_wrong_size.

Theorem expand_boundaries_wrong_size : forall sh Nrad P,
  let n := length (positions survives (all_functions sh Nrad)) in
  drows P <> n \/ dcols P <> n -> expand_boundaries sh Nrad P = Throw LogicError.
Proof. exact expand_throws. Qed.
Print Assumptions expand_boundaries_wrong_size.

(** The survivors of idx, in order, as positions among all survivors. *)
Theorem dummy_to_real_inverts : forall sh Nrad idx,
  let fs := all_functions sh Nrad in let surv := positions survives fs in
  (forall g, In g idx -> (g < length fs)%nat) ->
  exists r, dummy_idx_to_real_idx sh Nrad idx = Ok r /\
    (forall v, In v r -> (v < length surv)%nat) /\
    map (fun v => nth v surv 0%nat) r = filter (fun g => survives (fnth fs g)) idx.
Proof. exact dummy_to_real_ok. Qed.
Print Assumptions dummy_to_real_inverts.

Theorem dummy_to_real_out_of_range : forall sh Nrad idx,
  (exists g, In g idx /\ (length sh * Nrad <= g)%nat) ->
  dummy_idx_to_real_idx sh Nrad idx = Throw LogicError.
Proof. exact dummy_to_real_throws. Qed.
Print Assumptions dummy_to_real_out_of_range.

Example pure_indices_sample :
  pure_indices [(0,0); (1,1); (1,-1)] 3 = [0; 1; 2; 4; 5; 7; 8]%nat /\
  di_Nbf [(0,0); (1,1); (1,-1)] 3 = 7%nat /\
  dummy_idx_to_real_idx [(0,0); (1,1); (1,-1)] 3 [8; 6; 3; 1]%nat = Ok [6; 1]%nat.
Proof. repeat split. Qed.

(* ---------------------------- C16 ---------------------------------- *)

(** Atomic bf_list and diatomic bf_list_dummy. *)
Theorem bf_list_exact : forall b nang iel, valid_fe b -> (iel < get_nelem b)%nat ->
  exists l N, bf_list_full b nang iel = Ok l /\ get_nbf b = Ok N /\ 0 <= N /\ NoDup l /\
    (forall g, In g l <-> exists i r, (i < nang)%nat /\ lives_in b iel r /\ g = (i * Z.to_nat N + r)%nat) /\
    (forall g, In g l -> (g < nang * Z.to_nat N)%nat).
Proof. exact bf_full_ok. Qed.
Print Assumptions bf_list_exact.

Theorem bf_list_spherical_exact : forall b iel, valid_fe b -> (iel < get_nelem b)%nat ->
  exists l, bf_list_sad b iel = Ok l /\ NoDup l /\ forall r, In r l <-> lives_in b iel r.
Proof. exact bf_sad_ok. Qed.
Print Assumptions bf_list_spherical_exact.

Theorem bf_list_dummy_m_exact : forall b sh iel m, valid_fe b -> (iel < get_nelem b)%nat ->
  exists l N, bf_list_dummy_m b sh iel m = Ok l /\ get_nbf b = Ok N /\ NoDup l /\
    (forall g, In g l <-> exists i r, (i < length sh)%nat /\ snd (nth i sh (0, 0)) = m /\
                            lives_in b iel r /\ g = (i * Z.to_nat N + r)%nat).
Proof. exact bf_dummy_m_ok. Qed.
Print Assumptions bf_list_dummy_m_exact.

Theorem bf_list_diatomic_exact : forall b sh iel, valid_fe b -> (iel < get_nelem b)%nat ->
  exists l N, bf_list_diatomic b sh iel = Ok l /\ get_nbf b = Ok N /\ NoDup l /\
    (forall v, In v l <-> (v < length (pure_functions sh (Z.to_nat N)))%nat /\
                          lives_in b iel (bf_k (fnth (pure_functions sh (Z.to_nat N)) v))).
Proof. exact bf_diatomic_ok. Qed.
Print Assumptions bf_list_diatomic_exact.

Example bf_list_sample : forall z,
  bf_list_diatomic (mkFE LIP 3 [0; 1; 2]%R z z true true) [(0,0); (1,1)] 1 =
  Ok (if z then [1; 2; 3; 4]%nat else [2; 3; 5; 6]%nat).
Proof. destruct z; reflexivity. Qed.

(* ---------------------------- C19 ---------------------------------- *)

(** Both tables are strictly ascending (hence duplicate free); LM_map holds
    exactly the multipoles some pair of shells couples to and lm_map their
    (L,|M|). *)
Theorem multipole_tables : forall sh, exists lm lM, build_tables sh = Ok (lm, lM) /\
  ascending lm_less lm /\ ascending LM_less lM /\
  (forall L M, In (L, M) lM <-> exists i j, In i sh /\ In j sh /\ M = snd j - snd i /\
     Z.max (Z.abs (fst j - fst i) - 2) (Z.abs M) <= L <= fst j + fst i + 2) /\
  (forall L M, In (L, M) lm <-> exists M', M = Z.abs M' /\ In (L, M') lM).
Proof. exact build_tables_ok. Qed.
Print Assumptions multipole_tables.

(** Checked lookups return the position of the entry, or throw. *)
Theorem multipole_lookup : forall sh lm lM, build_tables sh = Ok (lm, lM) ->
  (forall L M, In (L, M) lM -> exists i, LMind lM L M true = Ok i /\ nth_error lM i = Some (L, M)) /\
  (forall L M, ~ In (L, M) lM -> LMind lM L M true = Throw LogicError) /\
  (forall L M, In (L, Z.abs M) lm -> exists i, lmind lm L M true = Ok i /\ nth_error lm i = Some (L, Z.abs M)) /\
  (forall L M, ~ In (L, Z.abs M) lm -> lmind lm L M true = Throw LogicError).
Proof. exact tables_lookup. Qed.
Print Assumptions multipole_lookup.

(** Every lookup of coulomb() succeeds, in both tables. *)
Theorem coulomb_lookups_succeed : forall sh lm lM k l, build_tables sh = Ok (lm, lM) ->
  In k sh -> In l sh -> forall L M, In (L, M) (coulomb_multipoles k l) ->
  (exists i, LMind lM L M true = Ok i /\ nth_error lM i = Some (L, M)) /\
  (exists i, lmind lm L M true = Ok i /\ nth_error lm i = Some (L, Z.abs M)).
Proof. exact coulomb_lookups. Qed.
Print Assumptions coulomb_lookups_succeed.

(** Every lookup of exchange() succeeds. *)
Theorem exchange_lookups_succeed : forall sh lm lM i j k l, build_tables sh = Ok (lm, lM) ->
  In i sh -> In j sh -> In k sh -> In l sh ->
  forall L M, In (L, M) (exchange_multipoles i j k l) ->
  exists n, lmind lm L M true = Ok n /\ nth_error lm n = Some (L, Z.abs M).
Proof. exact exchange_lookups. Qed.
Print Assumptions exchange_lookups_succeed.

Example tables_sample :
  build_tables [(0,0); (1,1)] =
  Ok ([(0,0); (1,0); (2,0); (3,0); (4,0); (1,1); (2,1); (3,1)],
      [(0,0); (1,-1); (1,0); (1,1); (2,-1); (2,0); (2,1); (3,-1); (3,0); (3,1); (4,0)]).
Proof. reflexivity. Qed.
