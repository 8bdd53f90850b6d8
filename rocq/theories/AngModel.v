(** Angular shells, symmetry blocks, boundary removal and the auxiliary
    (L,M) tables: src/atomic/basis.cpp, src/atomic/TwoDBasis.cpp,
    src/diatomic/basis.cpp, src/general/angular_index_helpers.h,
    src/sadatom/basis.cpp.

    Integers are unbounded; the pair of vectors (lval, mval) is one list of
    pairs (l, m). *)
Require Import Reals ZArith List Bool Arith.
Require Import Verif.Prelude Verif.FEModel.
Import ListNotations.
Local Open Scope Z_scope.

(** for(int i=lo;i<=hi;i++) *)
Definition zrange (lo hi : Z) : list Z :=
  map (fun i => lo + Z.of_nat i) (seq 0 (Z.to_nat (hi - lo + 1))).

(** src/atomic/basis.cpp:190-200, src/diatomic/basis.cpp:508-516: what one
    pass of the inner loop stores. *)
Definition push_lm (mabs l : Z) : list (Z * Z) :=
  if 0 <? mabs then [(l, mabs); (l, - mabs)] else [(l, mabs)].

(** src/atomic/basis.cpp:179-203: angular_basis(lmax, mmax, lval, mval).  A
    negative allocation size or a store beyond it is UB. *)
Definition angular_basis (lmax mmax : Z) : res (list (Z * Z)) :=
  let nang := fold_left (fun n l => n + (2 * Z.min mmax l + 1)) (zrange 0 lmax) 0 in
  let stored := flat_map (fun mabs => flat_map (push_lm mabs) (zrange mabs lmax)) (zrange 0 mmax) in
  let iang := Z.of_nat (length stored) in
  if nang <? 0 then UB
  else if nang <? iang then UB
  else if iang =? nang then Ok stored
  else Throw LogicError.

(** src/diatomic/basis.cpp:505-520: lm_to_l_m(lmax, lval, mval). *)
Definition lm_to_l_m (lmax : list Z) : list (Z * Z) :=
  flat_map (fun mabs => flat_map (push_lm (Z.of_nat mabs)) (zrange (Z.of_nat mabs) (nth mabs lmax 0)))
    (seq 0 (length lmax)).

(** src/general/angular_index_helpers.h:39-60: collect_shell_indices.  The
    first pass, which only counts, is folded into the growth of the list. *)
Definition collect_shell_indices (nshells : nat) (shell_size : nat -> nat) (match_ : nat -> bool)
  : list nat :=
  snd (fold_left (fun st i =>
         let '(ibf, idx) := st in
         ((ibf + shell_size i)%nat,
          if match_ i then idx ++ map (fun k => (ibf + k)%nat) (seq 0 (shell_size i)) else idx))
       (seq 0 nshells) (0%nat, [])).

Definition shell (sh : list (Z * Z)) (i : nat) : Z * Z := nth i sh (0, 0).

(** The "unique m values in ascending order" idiom: std::find over the values
    seen so far, then std::sort (TwoDBasis.cpp:209-213, basis.cpp:876-880). *)
Fixpoint zinsert (x : Z) (l : list Z) : list Z :=
  match l with
  | [] => [x]
  | y :: l' => if x <=? y then x :: l else y :: zinsert x l'
  end.
Definition zsort (l : list Z) : list Z := fold_right zinsert [] l.
Definition unique_m (sh : list (Z * Z)) : list Z :=
  zsort (fold_left (fun mv lm => if existsb (Z.eqb (snd lm)) mv then mv else mv ++ [snd lm]) sh []).

(** Labels of symmetry blocks; the rendering to text is not modelled. *)
Inductive label :=
| LabAll                      (* "all" *)
| LabM (m : Z)                (* "m=+1" *)
| LabLM (l m : Z)             (* "l=2 m=+1" *)
| LabMP (m : Z) (odd : bool)  (* "m=+1 g", "m=+1 u" *)
| LabAbsM (m : Z).            (* "|m|=1" *)

(* ------------------------------------------------------------------ *)
(** * Atomic basis: every shell has Nrad functions *)

(** src/atomic/TwoDBasis.cpp:166-173: Ndummy, Nbf. *)
Definition at_Nbf (sh : list (Z * Z)) (Nrad : nat) : nat := (length sh * Nrad)%nat.
(** TwoDBasis.cpp:186-190 *)
Definition at_m_indices (sh : list (Z * Z)) (Nrad : nat) (m : Z) : list nat :=
  collect_shell_indices (length sh) (fun _ => Nrad) (fun i => snd (shell sh i) =? m).
(** TwoDBasis.cpp:193-197 *)
Definition at_lm_indices (sh : list (Z * Z)) (Nrad : nat) (l m : Z) : list nat :=
  collect_shell_indices (length sh) (fun _ => Nrad)
    (fun i => (snd (shell sh i) =? m) && (fst (shell sh i) =? l)).
(** TwoDBasis.cpp:200-227 *)
Definition at_get_sym_idx (sh : list (Z * Z)) (Nrad : nat) (symm : Z) : res (list (list nat)) :=
  if symm =? 0 then Ok [seq 0 (at_Nbf sh Nrad)]
  else if symm =? 1 then Ok (map (at_m_indices sh Nrad) (unique_m sh))
  else if symm =? 2 then
    Ok (map (fun i => at_lm_indices sh Nrad (fst (shell sh i)) (snd (shell sh i))) (seq 0 (length sh)))
  else Throw LogicError.
(** TwoDBasis.cpp:230-263 *)
Definition at_get_sym_labels (sh : list (Z * Z)) (symm : Z) : res (list label) :=
  if symm =? 0 then Ok [LabAll]
  else if symm =? 1 then Ok (map LabM (unique_m sh))
  else if symm =? 2 then
    Ok (map (fun i => LabLM (fst (shell sh i)) (snd (shell sh i))) (seq 0 (length sh)))
  else Throw LogicError.

(* ------------------------------------------------------------------ *)
(** * Diatomic basis: shells with m <> 0 lose their first radial function *)

(** src/diatomic/basis.cpp:693-695: Ndummy. *)
Definition di_Ndummy (sh : list (Z * Z)) (Nrad : nat) : nat := (length sh * Nrad)%nat.
(** basis.cpp:697-708: Nbf. *)
Definition di_Nbf (sh : list (Z * Z)) (Nrad : nat) : nat :=
  fold_left (fun nbf lm => let nbf := (nbf + Nrad)%nat in
                           if snd lm =? 0 then nbf else (nbf - 1)%nat) sh 0%nat.
(** basis.cpp:718-737: pure_indices; the stores at ioff+j are consecutive, so
    the array is the concatenation of the runs. *)
Definition pure_indices (sh : list (Z * Z)) (Nrad : nat) : list nat :=
  flat_map (fun i =>
    if snd (shell sh i) =? 0
    then map (fun j => (i * Nrad + j)%nat) (seq 0 Nrad)
    else map (fun j => (i * Nrad + 1 + j)%nat) (seq 0 (Nrad - 1)))
  (seq 0 (length sh)).
(** basis.cpp:857, 863 *)
Definition di_shell_size (sh : list (Z * Z)) (Nrad : nat) (i : nat) : nat :=
  if snd (shell sh i) =? 0 then Nrad else (Nrad - 1)%nat.
(** basis.cpp:855-859: m_indices(m). *)
Definition di_m_indices (sh : list (Z * Z)) (Nrad : nat) (m : Z) : list nat :=
  collect_shell_indices (length sh) (di_shell_size sh Nrad) (fun i => snd (shell sh i) =? m).
(** basis.cpp:861-865: m_indices(m, odd); the C++ remainder truncates. *)
Definition di_m_indices_odd (sh : list (Z * Z)) (Nrad : nat) (m : Z) (odd : bool) : list nat :=
  collect_shell_indices (length sh) (di_shell_size sh Nrad)
    (fun i => (snd (shell sh i) =? m) && (Z.rem (fst (shell sh i)) 2 =? (if odd then 1 else 0))).
(** basis.cpp:921-923: absm_max; maxCoeff of an empty vector is undefined. *)
Definition absm_max (sh : list (Z * Z)) : res Z :=
  match sh with
  | [] => UB
  | lm :: sh' =>
    let mx := fold_left (fun a x => Z.max a (snd x)) sh' (snd lm) in
    let mn := fold_left (fun a x => Z.min a (snd x)) sh' (snd lm) in
    Ok (Z.max (Z.abs mx) (Z.abs mn))
  end.
(** basis.cpp:867-911: get_sym_idx. *)
Definition di_get_sym_idx (sh : list (Z * Z)) (Nrad : nat) (symm : Z) : res (list (list nat)) :=
  if symm =? 0 then Ok [seq 0 (di_Nbf sh Nrad)]
  else if symm =? 1 then Ok (map (di_m_indices sh Nrad) (unique_m sh))
  else if symm =? 2 then
    Ok (flat_map (fun m => [di_m_indices_odd sh Nrad m false; di_m_indices_odd sh Nrad m true])
          (unique_m sh))
  else if symm =? 3 then
    bind (absm_max sh) (fun mm => Ok (map (di_m_indices sh Nrad) (zrange 0 mm)))
  else Throw LogicError.
(** basis.cpp:925-937: get_sym_mirror_idx. *)
Definition di_get_sym_mirror_idx (sh : list (Z * Z)) (Nrad : nat) (symm : Z) : res (list (list nat)) :=
  if negb (symm =? 3) then
    bind (di_get_sym_idx sh Nrad symm) (fun idx => Ok (map (fun _ => []) idx))
  else
    bind (absm_max sh) (fun mm =>
    Ok (map (fun m => if negb (m =? 0) then di_m_indices sh Nrad (- m) else []) (zrange 0 mm))).
(** basis.cpp:939-983: get_sym_labels. *)
Definition di_get_sym_labels (sh : list (Z * Z)) (symm : Z) : res (list label) :=
  if symm =? 0 then Ok [LabAll]
  else if symm =? 1 then Ok (map LabM (unique_m sh))
  else if symm =? 2 then Ok (flat_map (fun m => [LabMP m false; LabMP m true]) (unique_m sh))
  else if symm =? 3 then bind (absm_max sh) (fun mm => Ok (map LabAbsM (zrange 0 mm)))
  else Throw LogicError.

(** A dense matrix with its dimensions. *)
Record dmat := mkD { drows : nat; dcols : nat; dent : mat }.

(** basis.cpp:2091-2104: remove_boundaries.  pure_idx is the cached result of
    pure_indices() (basis.cpp:646). *)
Definition remove_boundaries (sh : list (Z * Z)) (Nrad : nat) (F : dmat) : res dmat :=
  let N := di_Ndummy sh Nrad in
  if negb (Nat.eqb (drows F) N) || negb (Nat.eqb (dcols F) N) then Throw LogicError
  else
    let p := pure_indices sh Nrad in
    Ok (mkD (length p) (length p) (fun i j => dent F (nth i p 0%nat) (nth j p 0%nat))).

(** One store Pnob(r,c) = v. *)
Definition store (M : mat) (r c : nat) (v : R) : mat :=
  fun i j => if Nat.eqb i r && Nat.eqb j c then v else M i j.

(** basis.cpp:2106-2118: expand_boundaries. *)
Definition expand_boundaries (sh : list (Z * Z)) (Nrad : nat) (P : dmat) : res dmat :=
  let p := pure_indices sh Nrad in
  let n := length p in
  if negb (Nat.eqb (drows P) n) || negb (Nat.eqb (dcols P) n) then Throw LogicError
  else
    Ok (mkD (di_Ndummy sh Nrad) (di_Ndummy sh Nrad)
      (fold_left (fun M j =>
         fold_left (fun M i => store M (nth i p 0%nat) (nth j p 0%nat) (dent P i j)) (seq 0 n) M)
       (seq 0 n) mzero)).

(** std::map::find over mapping[real_idx[i]] = i (basis.cpp:2337-2346); a
    repeated key keeps the last value. *)
Fixpoint map_find (key : nat) (i : nat) (l : list nat) : option nat :=
  match l with
  | [] => None
  | x :: l' => match map_find key (S i) l' with
               | Some v => Some v
               | None => if Nat.eqb x key then Some i else None
               end
  end.

(** basis.cpp:2325-2354: dummy_idx_to_real_idx. *)
Definition dummy_idx_to_real_idx (sh : list (Z * Z)) (Nrad : nat) (idx : list nat) : res (list nat) :=
  if existsb (fun i => Nat.leb (di_Ndummy sh Nrad) i) idx then Throw LogicError
  else Ok (flat_map (fun i => match map_find i 0 (pure_indices sh Nrad) with
                              | Some v => [v]
                              | None => []
                              end) idx).

(* ------------------------------------------------------------------ *)
(** * Functions of an element *)

(** src/atomic/TwoDBasis.cpp:1238-1255 bf_list and src/diatomic/basis.cpp:2356-2373
    bf_list_dummy: the same loop.  size_t arithmetic that would go negative is UB. *)
Definition bf_list_full (b : fe) (nang : nat) (iel : nat) : res (list nat) :=
  bind (get_idx b iel) (fun r =>
  bind (get_nbf b) (fun nrad =>
  let '(ifirst, ilast) := r in
  let Nr := (ilast - ifirst + 1)%Z in
  if (ifirst <? 0) || (Nr <? 0) || (nrad <? 0) then UB
  else Ok (flat_map (fun iam =>
             map (fun j => (Z.to_nat nrad * iam + Z.to_nat ifirst + j)%nat) (seq 0 (Z.to_nat Nr)))
           (seq 0 nang)))).

(** src/sadatom/basis.cpp:448-461: bf_list. *)
Definition bf_list_sad (b : fe) (iel : nat) : res (list nat) :=
  bind (get_idx b iel) (fun r =>
  let '(ifirst, ilast) := r in
  let Nr := (ilast - ifirst + 1)%Z in
  if (ifirst <? 0) || (Nr <? 0) then UB
  else Ok (map (fun j => (Z.to_nat ifirst + j)%nat) (seq 0 (Z.to_nat Nr)))).

(** src/diatomic/basis.cpp:2379-2397: bf_list_dummy(iel, m). *)
Definition bf_list_dummy_m (b : fe) (sh : list (Z * Z)) (iel : nat) (m : Z) : res (list nat) :=
  bind (get_idx b iel) (fun r =>
  bind (get_nbf b) (fun nrad =>
  let '(ifirst, ilast) := r in
  let Nr := (ilast - ifirst + 1)%Z in
  if (ifirst <? 0) || (Nr <? 0) || (nrad <? 0) then UB
  else Ok (flat_map (fun iam =>
             if snd (shell sh iam) =? m
             then map (fun j => (Z.to_nat nrad * iam + Z.to_nat ifirst + j)%nat) (seq 0 (Z.to_nat Nr))
             else [])
           (seq 0 (length sh))))).

(** src/diatomic/basis.cpp:2375-2377: bf_list(iel). *)
Definition bf_list_diatomic (b : fe) (sh : list (Z * Z)) (iel : nat) : res (list nat) :=
  bind (get_nbf b) (fun nrad =>
  bind (bf_list_full b (length sh) iel) (dummy_idx_to_real_idx sh (Z.to_nat nrad))).

(* ------------------------------------------------------------------ *)
(** * Auxiliary (L,|M|) and (L,M) tables of the diatomic basis *)

(** basis.cpp:1310-1314: lm_less. *)
Definition lm_less (a b : Z * Z) : bool :=
  if negb (snd a =? snd b) then snd a <? snd b else fst a <? fst b.
(** basis.cpp:1316-1328: operator<. *)
Definition LM_less (a b : Z * Z) : bool :=
  if fst a <? fst b then true
  else if fst b <? fst a then false
  else if snd a <? snd b then true
  else if snd b <? snd a then false
  else false.
Definition pair_eqb (a b : Z * Z) : bool := (fst a =? fst b) && (snd a =? snd b).

(** std::lower_bound by its contract on a range partitioned by the order: the
    first position whose entry is not less than p. *)
Fixpoint lower_bound (less : Z * Z -> Z * Z -> bool) (l : list (Z * Z)) (p : Z * Z) : nat :=
  match l with
  | [] => 0%nat
  | x :: l' => if less x p then S (lower_bound less l' p) else 0%nat
  end.

(** basis.cpp:1562-1612: the body shared by lmind and LMind. *)
Definition table_ind (less : Z * Z -> Z * Z -> bool) (l : list (Z * Z)) (p : Z * Z) (check : bool)
  : res nat :=
  let idx := lower_bound less l p in
  if check && Nat.eqb idx (length l) then Throw LogicError
  else if Nat.eqb idx (length l) then Ok idx
  else bind (at_ l (Z.of_nat idx)) (fun q =>
       if check && (negb (fst q =? fst p) || negb (snd q =? snd p)) then Throw LogicError
       else Ok idx).
Definition lmind (l : list (Z * Z)) (L M : Z) (check : bool) : res nat :=
  table_ind lm_less l (L, Z.abs M) check.
Definition LMind (l : list (Z * Z)) (L M : Z) (check : bool) : res nat :=
  table_ind LM_less l (L, M) check.

(** basis.cpp:582-590 and 594-602: insert one entry unless present. *)
Definition table_insert (ind : list (Z * Z) -> Z -> Z -> bool -> res nat)
    (l : list (Z * Z)) (L M : Z) (p : Z * Z) : res (list (Z * Z)) :=
  match l with
  | [] => Ok [p]
  | _ =>
    bind (ind l L M false) (fun idx =>
    if Nat.eqb idx (length l) then Ok (l ++ [p])
    else bind (at_ l (Z.of_nat idx)) (fun q =>
         if negb (pair_eqb q p) then Ok (firstn idx l ++ p :: skipn idx l) else Ok l))
  end.

(** basis.cpp:553-605: the multipoles (L,M) visited for the shell pair (i,j). *)
Definition pair_multipoles (i j : Z * Z) : list (Z * Z) :=
  let '(li, mi) := i in let '(lj, mj) := j in
  let M := mj - mi in
  map (fun L => (L, M)) (zrange (Z.max (Z.abs (lj - li) - 2) (Z.abs M)) (lj + li + 2)).

(** basis.cpp:550-605: the construction of lm_map and LM_map. *)
Definition build_tables (sh : list (Z * Z)) : res (list (Z * Z) * list (Z * Z)) :=
  fold_left (fun st LM =>
      bind st (fun maps => let '(lm, lM) := maps in let '(L, M) := LM in
      bind (table_insert lmind lm L M (L, Z.abs M)) (fun lm' =>
      bind (table_insert LMind lM L M (L, M)) (fun lM' => Ok (lm', lM')))))
    (flat_map (fun i => flat_map (fun j => pair_multipoles i j) sh) sh) (Ok ([], [])).

(** basis.cpp:1658-1660, 1796-1798: the multipoles coulomb() looks up in LM_map
    for the shells (k,l). *)
Definition coulomb_multipoles (k l : Z * Z) : list (Z * Z) :=
  let '(lk, mk) := k in let '(ll, ml) := l in
  let M := mk - ml in
  map (fun L => (L, M)) (zrange (Z.max (Z.abs (lk - ll) - 2) (Z.abs M)) (lk + ll + 2)).

(** basis.cpp:1923-1929: the multipoles exchange() looks up in lm_map for the
    output block (j,k) and the density block (i,l). *)
Definition exchange_multipoles (i j k l : Z * Z) : list (Z * Z) :=
  let '(li, mi) := i in let '(lj, mj) := j in let '(lk, mk) := k in let '(ll, ml) := l in
  let M := mj - mi in
  map (fun L => (L, M))
    (zrange (Z.max (Z.max (Z.abs (li - lj)) (Z.abs (lk - ll)) - 2) (Z.abs M))
            (Z.min (li + lj) (lk + ll) + 2)).
