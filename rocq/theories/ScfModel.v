(** Linear algebra around the SCF solver: /repo/libhelfem/src/utils.cpp,
    /repo/src/general/scf_helpers.cpp, /repo/src/general/scf_driver_common.h, the
    Sinvh functions of the two bases and the Fock builders of the two drivers.

    Matrices are functions with explicit dimensions; arithmetic is exact.  The
    decompositions of Eigen and std::sort are arguments; what is assumed of them
    is stated in ScfSpec. *)
Require Import Reals List Bool Arith.
Require Import Verif.Prelude Verif.AngModel.
Import ListNotations.
Local Open Scope R_scope.

(** SelfAdjointEigenSolver (None if info() != Success), LLT, inverse of a
    triangular matrix, std::sort of indices by a key. *)
Record solvers := mkSolvers {
  sv_eig : nat -> mat -> option (vec * mat);
  sv_llt : nat -> mat -> option mat;
  sv_inv : nat -> mat -> mat;
  sv_sort : nat -> vec -> list nat }.

(** M(rows, cols) *)
Definition ix (l : list nat) (a : nat) : nat := nth a l 0%nat.
Definition gather (M : mat) (rows cols : list nat) : mat := fun a b => M (ix rows a) (ix cols b).

(** utils.cpp 120-159: invh.  inv_sqrt of a number that is not positive is not a
    number; the theorems are about positive definite matrices. *)
Definition invh (sv : solvers) (n : nat) (S : mat) (chol : bool) : res mat :=
  let d := fun i => / sqrt (S i i) in
  let S1 := fun i j => d i * S i j * d j in
  if chol then
    match sv_llt sv n S1 with
    | None => Throw LogicError
    | Some L => let U := mT L in Ok (fun i j => d i * sv_inv sv n U i j)
    end
  else
    match sv_eig sv n S1 with
    | None => Throw LogicError
    | Some (e, V) => Ok (fun i j => d i * sum n (fun k => V i k * / sqrt (e k) * V j k))
    end.

(** atomic/TwoDBasis.cpp 266-307, diatomic/basis.cpp 985-1022: Sinvh(chol, sym)
    for sym != 0, given the overlap and get_sym_idx(sym).  The columns of the
    blocks are packed contiguously. *)
Definition set_block (M : mat) (rows : list nat) (off : nat) (sub : mat) : mat :=
  fold_left (fun M a => fold_left (fun M b => store M (ix rows a) (off + b) (sub a b)) (seq 0 (length rows)) M)
    (seq 0 (length rows)) M.
Fixpoint sinvh_blocks (sv : solvers) (S : mat) (chol : bool) (blocks : list (list nat)) (M : mat) (ioff : nat) : res mat :=
  match blocks with
  | [] => Ok M
  | rows :: r =>
      if Nat.eqb (length rows) 0 then sinvh_blocks sv S chol r M ioff else
      bind (invh sv (length rows) (gather S rows rows) chol) (fun sub =>
      sinvh_blocks sv S chol r (set_block M rows ioff sub) (ioff + length rows))
  end.
Definition basis_Sinvh (sv : solvers) (S : mat) (chol : bool) (blocks : list (list nat)) : res mat :=
  sinvh_blocks sv S chol blocks mzero 0.

(** scf_helpers.cpp 41-51: eig_gsym; F is n by n, X is n by m *)
Definition eig_gsym (sv : solvers) (n m : nat) (F X : mat) : res (vec * mat) :=
  let Forth := mmul n (mmul n (mT X) F) X in
  match sv_eig sv m Forth with
  | None => Throw LogicError
  | Some (e, V) => Ok (e, mmul m X V)
  end.

(** scf_helpers.cpp 54-98: eig_gsym_sub; F is n by n, Sinvh has n rows and nc
    columns.  Writing past column n is undefined. *)
Definition sub_columns (nc : nat) (X : mat) (rows : list nat) : list nat :=
  filter (fun j => negb (Reqb (sqrt (lsum rows (fun r => X r j * X r j))) 0)) (seq 0 nc).
Fixpoint eig_blocks (sv : solvers) (n nc : nat) (F X : mat) (blocks : list (list nat)) (E : vec) (C : mat) (iidx : nat)
  : res (vec * mat * nat) :=
  match blocks with
  | [] => Ok (E, C, iidx)
  | rows :: r =>
      let Sind := sub_columns nc X rows in
      let m := length Sind in
      bind (eig_gsym sv n m F (fun i b => X i (ix Sind b))) (fun eC =>
      if Nat.leb (iidx + m) n then
        let E' := fun i => if (Nat.leb iidx i && Nat.ltb i (iidx + m))%bool then fst eC (i - iidx)%nat else E i in
        let C' := fun a i => if (Nat.leb iidx i && Nat.ltb i (iidx + m))%bool then snd eC a (i - iidx)%nat else C a i in
        eig_blocks sv n nc F X r E' C' (iidx + m)
      else UB)
  end.
Definition eig_gsym_sub (sv : solvers) (n nc : nat) (F X : mat) (blocks : list (list nat)) : res (vec * mat) :=
  bind (eig_blocks sv n nc F X blocks (fun _ => 0) mzero 0) (fun r =>
  let '(E, C, iidx) := r in
  if negb (Nat.eqb iidx n) then Throw LogicError else
  let ord := sv_sort sv n E in
  Ok (fun i => E (ix ord i), fun a i => C a (ix ord i))).

(** scf_driver_common.h 174-187: build_per_block_Sinvh; empty blocks keep an empty
    matrix *)
Fixpoint build_per_block_Sinvh (sv : solvers) (S : mat) (dsym : list (list nat)) : res (list mat) :=
  match dsym with
  | [] => Ok []
  | rows :: r =>
      bind (if Nat.eqb (length rows) 0 then Ok mzero else invh sv (length rows) (gather S rows rows) false) (fun X =>
      bind (build_per_block_Sinvh sv S r) (fun l => Ok (X :: l)))
  end.

(** M(idx, idx) += B, element by element *)
Definition scatter_add (M : mat) (idx : list nat) (B : mat) : mat :=
  fold_left (fun M a => fold_left (fun M b => store M (ix idx a) (ix idx b) (M (ix idx a) (ix idx b) + B a b))
    (seq 0 (length idx)) M) (seq 0 (length idx)) M.

(** Orbitals and occupations of one block: the number of orbitals, the matrix with
    one row per function of the block, the occupations. *)
Record block := mkBlock { b_m : nat; b_orb : mat; b_occ : vec }.

(** C_k * occ.asDiagonal() * C_k^T with C_k = Sinvh_k * orb *)
Definition block_density (n : nat) (X : mat) (m : nat) (orb : mat) (occ : vec) : mat :=
  let C := mmul n X orb in fun a b => sum m (fun i => C a i * occ i * C b i).

(** 403-430: accumulate_density_block; the mirror list must have the size of the
    block. *)
Definition accumulate_density_block (P : mat) (idx : list nat) (X : mat) (b : block) (mirror : list nat) : res mat :=
  if Nat.eqb (length idx) 0 then Ok P else
  let paired := negb (Nat.eqb (length mirror) 0) in
  let occ := if paired then fun i => / 2 * b_occ b i else b_occ b in
  let Pblock := block_density (length idx) X (b_m b) (b_orb b) occ in
  let P1 := scatter_add P idx Pblock in
  if paired then if Nat.eqb (length mirror) (length idx) then Ok (scatter_add P1 mirror Pblock) else UB
  else Ok P1.

(** The loops over blocks in the Fock builders (diatomic/main.cpp 385-406,
    atomic/main.cpp 390-404) and a block description: indices, mirror indices,
    orthonormaliser. *)
Record symblock := mkSym { y_idx : list nat; y_mirror : list nat; y_X : mat }.
Fixpoint density (bs : list (symblock * block)) (P : mat) : res mat :=
  match bs with
  | [] => Ok P
  | (y, b) :: r => bind (accumulate_density_block P (y_idx y) (y_X y) b (y_mirror y)) (density r)
  end.

(** 264-289: assemble_final_density *)
Fixpoint final_restricted (bs : list (symblock * block)) (Pa Pb : mat) : mat * mat :=
  match bs with
  | [] => (Pa, Pb)
  | (y, b) :: r =>
      if Nat.eqb (length (y_idx y)) 0 then final_restricted r Pa Pb else
      let B := mscal (/ 2) (block_density (length (y_idx y)) (y_X y) (b_m b) (b_orb b) (b_occ b)) in
      final_restricted r (scatter_add Pa (y_idx y) B) (scatter_add Pb (y_idx y) B)
  end.
Fixpoint final_unrestricted (bs : list (symblock * (block * block))) (Pa Pb : mat) : mat * mat :=
  match bs with
  | [] => (Pa, Pb)
  | (y, (a, b)) :: r =>
      if Nat.eqb (length (y_idx y)) 0 then final_unrestricted r Pa Pb else
      let n := length (y_idx y) in
      final_unrestricted r (scatter_add Pa (y_idx y) (block_density n (y_X y) (b_m a) (b_orb a) (b_occ a)))
        (scatter_add Pb (y_idx y) (block_density n (y_X y) (b_m b) (b_orb b) (b_occ b)))
  end.

(** 227-256: fill_block_from_density *)
Definition fill_block_from_density (sv : solvers) (P : mat) (idx : list nat) (X : mat) (max_occ : R) : res block :=
  let n := length idx in
  if Nat.eqb n 0 then Ok (mkBlock 0 mzero (fun _ => 0)) else
  let Porth := mmul n (mmul n (mT X) (gather P idx idx)) X in
  match sv_eig sv n Porth with
  | None => Throw LogicError
  | Some (e, V) => Ok (mkBlock n (fun a i => V a (n - 1 - i)%nat) (fun i => Rmin (Rmax (e (n - 1 - i)%nat) 0) max_occ))
  end.

(** 437-450: orthonormalize_fock_block *)
Definition fock_block (F : mat) (idx : list nat) (X : mat) : mat :=
  let n := length idx in mmul n (mmul n (mT X) (gather F idx idx)) X.

(** 195-218: build_coreH_from_H0, one entry *)
Definition coreH_block (H0 S : mat) (idx : list nat) (X : mat) (nparttype t : nat) (have_bfield : bool) (Bz : R) : mat :=
  let n := length idx in
  let H := gather H0 idx idx in
  let H' := if (have_bfield && Nat.eqb nparttype 2)%bool
            then madd H (mscal ((if Nat.eqb t 0 then - / 2 else / 2) * Bz) (gather S idx idx)) else H in
  mmul n (mmul n (mT X) H') X.

(** tr(A B) for n by n matrices *)
Definition tr (n : nat) (A B : mat) : R := sum n (fun i => sum n (fun j => A i j * B j i)).

(** atomic/main.cpp 604-622, diatomic/main.cpp 617-627: a density of a basis of no
    functions projected to this basis of n functions and scaled to nel electrons. *)
Definition project (n no : nat) (X S12 S P : mat) (nel : R) : mat :=
  let Q := mmul n (mmul n X (mT X)) S12 in
  let P1 := mmul no (mmul no Q P) (mT Q) in
  let na := tr n P1 S in
  if (Rltb 0 na && Rltb 0 nel)%bool then mscal (nel / na) P1 else P1.

(** One-electron data of a driver (atomic/main.cpp 285-309, diatomic/main.cpp
    252-292): overlap, kinetic, nuclear, dipole, quadrupole, confinement matrices,
    the magnetic field matrix as a function of the field, field strengths, the
    constant energies and the number of unpaired electrons. *)
Record driver := mkDriver {
  d_N : nat; d_S : mat; d_T : mat; d_Vnuc : mat; d_dip : mat; d_quad : mat; d_Bfield : R -> mat;
  d_iconf : bool; d_conf : mat; d_Ez : R; d_Qzz : R; d_Bz : R; d_Enucfield : R; d_Enucr : R; d_spin : R }.

Definition Vel (d : driver) : mat := madd (mscal (d_Ez d) (d_dip d)) (mscal (d_Qzz d / 3) (d_quad d)).
Definition Vmag (d : driver) : mat := d_Bfield d (d_Bz d).
Definition Vconf (d : driver) : mat := if d_iconf d then d_conf d else mzero.
Definition have_efield (d : driver) : bool := (negb (Reqb (d_Ez d) 0) || negb (Reqb (d_Qzz d) 0))%bool.
Definition have_bfield (d : driver) : bool := negb (Reqb (d_Bz d) 0).

(** Ekin + Enuc + Eefield + Emfield + Econf *)
Definition one_electron_energy (d : driver) (P : mat) : R :=
  tr (d_N d) P (d_T d) + tr (d_N d) P (d_Vnuc d) +
  (if have_efield d then tr (d_N d) P (Vel d) + d_Enucfield d else 0) +
  (if have_bfield d then tr (d_N d) P (Vmag d) - / 2 * d_Bz d * d_spin d else 0) +
  (if d_iconf d then tr (d_N d) P (Vconf d) else 0).
Definition H1 (d : driver) : mat := madd (madd (madd (madd (d_T d) (d_Vnuc d)) (Vel d)) (Vmag d)) (Vconf d).

(** The builders: coulomb, exchange_fn and the XC quadrature are arguments (None
    if have_exx or have_xc is false).  assemble_hf_exchange 466-482 and
    assemble_fock_blocks 499-532 inlined; the XC callable returns the energy and
    the potential(s). *)
Definition build_restricted (d : driver) (coul : mat -> mat) (exch : option (mat -> mat)) (xc : option (mat -> R * mat)) (P : mat)
  : R * mat :=
  let N := d_N d in
  let J := coul P in
  let Exc := match xc with None => 0 | Some f => fst (f P) end in
  let Pa := mscal (/ 2) P in
  let Exx := match exch with None => 0 | Some k => 2 * (/ 2 * tr N Pa (k Pa)) end in
  let F := madd (H1 d) J in
  let F := match xc with None => F | Some f => madd F (snd (f P)) end in
  let F := match exch with None => F | Some k => madd F (k Pa) end in
  (one_electron_energy d P + / 2 * tr N P J + Exc + Exx + d_Enucr d, F).

Definition build_unrestricted (d : driver) (coul : mat -> mat) (exch : option (mat -> mat)) (xc : option (mat -> mat -> R * (mat * mat)))
  (Pa Pb : mat) : R * (mat * mat) :=
  let N := d_N d in
  let P := madd Pa Pb in
  let J := coul P in
  let Exc := match xc with None => 0 | Some f => fst (f Pa Pb) end in
  let Exx := match exch with None => 0 | Some k => / 2 * tr N Pa (k Pa) + / 2 * tr N Pb (k Pb) end in
  let Fa := madd (H1 d) J in
  let Fb := madd (H1 d) J in
  let Fa := match xc with None => Fa | Some f => madd Fa (fst (snd (f Pa Pb))) end in
  let Fb := match xc with None => Fb | Some f => madd Fb (snd (snd (f Pa Pb))) end in
  let Fa := match exch with None => Fa | Some k => madd Fa (k Pa) end in
  let Fb := match exch with None => Fb | Some k => madd Fb (k Pb) end in
  let Fa := if have_bfield d then madd Fa (mscal (- (/ 2 * d_Bz d)) (d_S d)) else Fa in
  let Fb := if have_bfield d then madd Fb (mscal (/ 2 * d_Bz d) (d_S d)) else Fb in
  (one_electron_energy d P + / 2 * tr N P J + Exc + Exx + d_Enucr d, (Fa, Fb)).
