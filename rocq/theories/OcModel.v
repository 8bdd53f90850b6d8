(** Model of tables of integers and of frozen occupations: /repo/src/general/eigen_io.h
    109-137 and the --readocc parts of /repo/src/atomic/main.cpp 525-587 and
    /repo/src/diatomic/main.cpp 541-605. *)
Require Import ZArith List Bool Arith Ascii String.
Require Import Verif.Prelude Verif.TabModel Verif.AngModel.
Import ListNotations.
Open Scope Z_scope.

(* ------------------------------------------------------------------ *)
(** * Reading a table of integers *)

(** std::getline: the pieces before each newline, and what follows the last one if it is
    not empty. *)
Fixpoint lines (s : string) : list string :=
  match s with
  | EmptyString => []
  | String c t =>
      if code c =? 10 then EmptyString :: lines t
      else match lines t with [] => [String c EmptyString] | l :: ls => String c l :: ls end
  end.

(** The range of int. *)
Definition in_int (z : Z) : bool := (- 2 ^ 31 <=? z) && (z <? 2 ^ 31).
Fixpoint drop_digits (s : string) : string :=
  match s with EmptyString => EmptyString | String c t => if isdigit c then drop_digits t else s end.
(** iss >> v for an int in the C locale, decimal: white space, a sign, digits.  Without
    digits or outside of the range the stream fails. *)
Definition read_int (s : string) : option (Z * string) :=
  let s := skip_space s in
  let '(neg, s) := match s with
                   | String c t => if code c =? 45 then (true, t) else if code c =? 43 then (false, t) else (false, s)
                   | EmptyString => (false, s)
                   end in
  match s with
  | String c _ =>
      if isdigit c then
        let v := if neg : bool then - digits 0 s else digits 0 s in
        if in_int v then Some (v, drop_digits s) else None
      else None
  | EmptyString => None
  end.
(** eigen_io.h 121-123: while (iss >> v) row.push_back(v); every success takes a
    character, so the length of the line bounds the number of passes. *)
Fixpoint read_ints (fuel : nat) (s : string) : list Z :=
  match fuel with
  | O => []
  | S f => match read_int s with Some (v, t) => v :: read_ints f t | None => [] end
  end.
Definition read_row (s : string) : list Z := read_ints (S (String.length s)) s.

(** eigen_io.h 114-137: read_raw_ascii_imat.  The file is its text, or nothing if it
    cannot be opened; the matrix is the list of its rows. *)
Definition read_raw_ascii_imat (file : option string) : res (list (list Z)) :=
  match file with
  | None => Throw RuntimeError
  | Some text =>
      let rows := filter (fun r => negb (List.length r =? 0)%nat) (map read_row (lines text)) in
      match rows with
      | [] => Ok []
      | r :: _ => if forallb (fun x => (List.length x =? List.length r)%nat) rows then Ok rows else Throw RuntimeError
      end
  end.
(** cols() *)
Definition cols (M : list (list Z)) : nat := match M with [] => 0%nat | r :: _ => List.length r end.

(* ------------------------------------------------------------------ *)
(** * Frozen occupations *)

(** Signed addition; overflow is undefined. *)
Definition add_int (a b : Z) : res Z := if in_int (a + b) then Ok (a + b) else UB.
(** dsym[k] == row_idx, first match *)
Fixpoint same_list (a b : list nat) : bool :=
  match a, b with [], [] => true | x :: a, y :: b => (x =? y)%nat && same_list a b | _, _ => false end.
Fixpoint find_block (idx : list nat) (dsym : list (list nat)) (k : nat) : option nat :=
  match dsym with [] => None | d :: ds => if same_list d idx then Some k else find_block idx ds (S k) end.
(** fixed_particles, total_a, total_b *)
Record occ_st := mkOcc { o_fix : nat -> Z; o_a : Z; o_b : Z }.
Definition set_at (f : nat -> Z) (k : nat) (v : Z) : nat -> Z := fun i => if (i =? k)%nat then v else f i.
(** atomic/main.cpp 553-582, diatomic/main.cpp 568-600: one row.  [idxf] gives row_idx. *)
Definition occ_row (dsym : list (list nat)) (idxf : list Z -> res (list nat)) (restricted : bool) (st : occ_st) (row : list Z) : res occ_st :=
  let nocca := nth 0 row 0 in
  let noccb := nth 1 row 0 in
  bind (idxf row) (fun idx =>
  if (List.length idx =? 0)%nat then Throw LogicError
  else match find_block idx dsym 0 with
       | None => Throw LogicError
       | Some k =>
           bind (add_int (o_a st) nocca) (fun ta =>
           bind (add_int (o_b st) noccb) (fun tb =>
           if restricted then
             if nocca =? noccb then bind (add_int nocca noccb) (fun ab => Ok (mkOcc (set_at (o_fix st) k ab) ta tb))
             else Throw LogicError
           else Ok (mkOcc (set_at (set_at (o_fix st) k nocca) (List.length dsym + k) noccb) ta tb)))
       end).
Fixpoint occ_rows (dsym : list (list nat)) (idxf : list Z -> res (list nat)) (restricted : bool) (st : occ_st) (rows : list (list Z)) : res occ_st :=
  match rows with
  | [] => Ok st
  | r :: rs => bind (occ_row dsym idxf restricted st r) (fun st => occ_rows dsym idxf restricted st rs)
  end.
(** atomic/main.cpp 551-586: all rows and the sums. *)
Definition occ_all (dsym : list (list nat)) (idxf : list Z -> res (list nat)) (restricted : bool) (nela nelb : Z) (rows : list (list Z)) : res (nat -> Z) :=
  bind (occ_rows dsym idxf restricted (mkOcc (fun _ => 0) 0 0) rows) (fun st =>
  if negb (o_a st =? nela) then Throw LogicError
  else if negb (o_b st =? nelb) then Throw LogicError
  else Ok (o_fix st)).

(** atomic/main.cpp 538-587: --readocc.  [symm] is symm_eff. *)
Definition at_row_idx (sh : list (Z * Z)) (Nrad : nat) (symm : Z) (row : list Z) : res (list nat) :=
  Ok (if symm =? 1 then at_m_indices sh Nrad (nth 2 row 0) else at_lm_indices sh Nrad (nth 2 row 0) (nth 3 row 0)).
Definition at_readocc (sh : list (Z * Z)) (Nrad : nat) (symm : Z) (restricted : bool) (nela nelb : Z) (file : option string) : res (nat -> Z) :=
  bind (at_get_sym_idx sh Nrad symm) (fun dsym =>
  if symm =? 0 then Throw LogicError
  else bind (read_raw_ascii_imat file) (fun occs =>
  if (symm =? 1) && negb (cols occs =? 3)%nat then Throw LogicError
  else if (symm =? 2) && negb (cols occs =? 4)%nat then Throw LogicError
  else occ_all dsym (at_row_idx sh Nrad symm) restricted nela nelb occs)).

(** diatomic/main.cpp 550-605: --readocc. *)
Definition di_row_idx (sh : list (Z * Z)) (Nrad : nat) (ncol : nat) (row : list Z) : res (list nat) :=
  if (ncol =? 3)%nat then Ok (di_m_indices sh Nrad (nth 2 row 0))
  else if negb (nth 3 row 0 =? 1) && negb (nth 3 row 0 =? -1) then Throw LogicError
  else Ok (di_m_indices_odd sh Nrad (nth 2 row 0) (nth 3 row 0 =? -1)).
Definition di_readocc (sh : list (Z * Z)) (Nrad : nat) (Z1 Z2 symm : Z) (restricted : bool) (nela nelb : Z) (file : option string) : res (nat -> Z) :=
  bind (di_get_sym_idx sh Nrad symm) (fun dsym =>
  if symm =? 0 then Throw LogicError
  else bind (read_raw_ascii_imat file) (fun occs =>
  if negb (Z1 =? Z2) && negb (cols occs =? 3)%nat then Throw LogicError
  else if (Z1 =? Z2) && negb (cols occs =? 3)%nat && negb (cols occs =? 4)%nat then Throw LogicError
  else if (cols occs =? 4)%nat && negb (symm =? 2) then Throw LogicError
  else occ_all dsym (di_row_idx sh Nrad (cols occs)) restricted nela nelb occs)).
