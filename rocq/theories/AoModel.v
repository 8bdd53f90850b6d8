(** Model of what the jellium program reads and writes, /repo/src/sadatom/aij.cpp 553-618 (density,
    Fock matrices), 679-771 (orbitals), 773-784 (names), 808-820 and 876-895 (guess).  Numbers are
    exact: the 17 digits after the point written for Fock matrices determine a double, the 6 of
    the orbital tables do not, and the rounding is not modelled. *)
Require Import String Reals ZArith List Bool Arith.
Require Import Verif.Prelude Verif.AngModel Verif.AijModel.
Import ListNotations.
Open Scope R_scope.

(** A file of Fock matrices: the header and the numbers that follow; white space is left out. *)
Definition fockfile := (nat * nat * nat * list R)%type.
(** aij.cpp 595-600 *)
Definition write_block (A : dmat) : list R :=
  flat_map (fun r => map (fun c => dent A r c) (seq 0 (dcols A))) (seq 0 (drows A)).
(** aij.cpp 588-601; the file can be opened.  fock[0] of no blocks is undefined. *)
Definition save_fock (fock : list dmat) : res fockfile :=
  match fock with
  | [] => UB
  | A :: _ => Ok (length fock, drows A, dcols A, flat_map write_block fock)
  end.
(** Reading n numbers; a stream that ends early is found out in the end, aij.cpp 615-616. *)
Fixpoint read_numbers (n : nat) (s : list R) : res (list R * list R) :=
  match n with
  | O => Ok ([], s)
  | S n' => match s with
            | [] => Throw RuntimeError
            | x :: s' => bind (read_numbers n' s') (fun q => Ok (x :: fst q, snd q))
            end
  end.
(** aij.cpp 612-614: one block, row by row. *)
Fixpoint read_rows (nr nc : nat) (s : list R) : res (list (list R) * list R) :=
  match nr with
  | O => Ok ([], s)
  | S nr' => bind (read_numbers nc s) (fun q => bind (read_rows nr' nc (snd q)) (fun p => Ok (fst q :: fst p, snd p)))
  end.
(** aij.cpp 611-614 *)
Fixpoint read_blocks (nb nr nc : nat) (s : list R) : res (list dmat) :=
  match nb with
  | O => Ok []
  | S nb' => bind (read_rows nr nc s) (fun q =>
             bind (read_blocks nb' nr nc (snd q)) (fun p =>
             Ok (mkD nr nc (fun r c => nth c (nth r (fst q) []) 0) :: p)))
  end.
(** aij.cpp 603-618; the file can be opened and has a header. *)
Definition load_fock (f : fockfile) : res (list dmat) :=
  let '(nb, nr, nc, s) := f in read_blocks nb nr nc s.

(** aij.cpp 812-820 *)
Definition guess_restricted (lmax : nat) (fock : list dmat) : res (list dmat) :=
  if ((length fock =? lmax + 1) || (length fock =? 2 * lmax + 2))%nat then Ok (firstn (lmax + 1) fock) else Throw LogicError.
(** aij.cpp 882-895: block l is read before the number of blocks is looked at. *)
Definition guess_unrestricted (lmax : nat) (fock : list dmat) : res (list dmat) :=
  match fock with
  | [] => UB
  | _ => if (length fock =? lmax + 1)%nat then Ok (fock ++ fock)
         else if (length fock =? 2 * lmax + 2)%nat then Ok fock else Throw LogicError
  end.

(** aij.cpp 553-569 and 571-574: the density matrix that is written, from the first lmax+1 blocks. *)
Definition saved_density (lmax : nat) (bs : list block) : mat :=
  mscal (/ (4 * PI)) (restricted_density (firstn (lmax + 1) bs)).

(** aij.cpp 773-784 *)
Definition file_names (Z0 Q nj : Z) : res (string * string) :=
  if (Z0 - Q =? 0)%Z && (0 <? nj)%Z then Ok ("density_jellium.dat", "jellium")%string
  else if (0 <? Z0 - Q)%Z && (nj =? 0)%Z then Ok ("density_atom.dat", "atom")%string
  else if (0 <? Z0 - Q)%Z && (0 <? nj)%Z then Ok ("density_aij.dat", "aij")%string
  else Throw LogicError.

(** aij.cpp 693-702: indices of the orbitals of a block that are written. *)
Definition occ_idx (thr : R) (occ : list R) : list nat :=
  filter (fun io => Rltb thr (Rabs (nth io occ 0))) (seq 0 (length occ)).
(** aij.cpp 720: Eigen's maxCoeff returns the first position of the largest square. *)
Fixpoint argmax_from (best : nat) (i : nat) (n : nat) (f : nat -> R) : nat :=
  match n with
  | O => best
  | S n' => argmax_from (if Rltb (f best) (f i) then i else best) (S i) n' f
  end.
Definition argmax_sq (np : nat) (v : nat -> R) : nat := argmax_from 0 1 (np - 1) (fun i => v i * v i).
(** aij.cpp 718-726: the factor that fixes the phase. *)
Definition phase (np : nat) (v : nat -> R) : R := if Rltb (v (argmax_sq np v)) 0 then -1 else 1.
(** One block: orbitals, derivatives and second derivatives at the radii by orbital, energies
    and occupations. *)
Record oblock := mkO { o_val : nat -> nat -> R; o_der : nat -> nat -> R; o_lap : nat -> nat -> R; o_E : nat -> R; o_occ : list R }.
(** The written table: angular momenta, occupations, energies, and by radius the columns. *)
Record otable := mkT { t_norb : nat; t_l : list nat; t_occ : list R; t_E : list R; t_col : nat -> list R }.
(** aij.cpp 729-766 for one of the three files; blocks are numbered from bstart. *)
Definition save_table (thr : R) (np lmax bstart : nat) (sel : oblock -> nat -> nat -> R) (bs : list oblock) : otable :=
  mkT (fold_left (fun n b => n + length (occ_idx thr (o_occ b)))%nat bs 0%nat)
      (flat_map (fun ib => map (fun _ => (fst ib mod (lmax + 1))%nat) (occ_idx thr (o_occ (snd ib)))) (combine (seq bstart (length bs)) bs))
      (flat_map (fun b => map (fun io => nth io (o_occ b) 0) (occ_idx thr (o_occ b))) bs)
      (flat_map (fun b => map (o_E b) (occ_idx thr (o_occ b))) bs)
      (fun ir => flat_map (fun b => map (fun io => phase np (o_val b io) * sel b io ir) (occ_idx thr (o_occ b))) bs).
