(** Vocabulary for tables of integers and frozen occupations. *)
Require Import ZArith List Bool Arith Ascii String.
Require Import Verif.Prelude Verif.TabSpec Verif.AngModel Verif.AngSpec.
Import ListNotations.
Open Scope Z_scope.

Definition NL : ascii := ascii_of_nat 10.
Definition space (c : ascii) : Prop := blank c.
(** The range of int. *)
Definition int_range (z : Z) : Prop := - 2 ^ 31 <= z < 2 ^ 31.
Definition plus_minus (c : ascii) : Prop := c = "+"%char \/ c = "-"%char.
(** What a line of text means: integers as long as they can be read; the rest of the line
    is dropped from the first thing on that is no integer or does not fit an int. *)
Inductive line_means : string -> list Z -> Prop :=
| LM_end bs : all_of space bs -> line_means bs []
| LM_int bs sg ds rest row : all_of space bs -> all_of digit ds -> ds <> EmptyString -> head_not digit rest ->
    int_range (signed sg (value ds)) -> line_means rest row -> line_means (bs ++ sign_text sg ++ ds ++ rest)%string (signed sg (value ds) :: row)
| LM_junk bs sg rest : all_of space bs -> head_not digit rest ->
    match sg with NoSign => head_not (fun c => space c \/ plus_minus c) rest | _ => True end -> line_means (bs ++ sign_text sg ++ rest)%string []
| LM_big bs sg ds rest : all_of space bs -> all_of digit ds -> ds <> EmptyString -> head_not digit rest ->
    ~ int_range (signed sg (value ds)) -> line_means (bs ++ sign_text sg ++ ds ++ rest)%string [].

(** No newline in a string; a text made of lines, the last one possibly without newline. *)
Fixpoint one_line (s : string) : Prop := match s with EmptyString => True | String c t => c <> NL /\ one_line t end.
Fixpoint text (ls : list string) (last : string) : string :=
  match ls with [] => last | l :: ls => (l ++ String NL (text ls last))%string end.
Definition all_lines (ls : list string) (last : string) : list string := ls ++ match last with EmptyString => [] | _ => [last] end.

(** The rows that count: those with at least one number. *)
Inductive nonblank : list (list Z) -> list (list Z) -> Prop :=
| NB_nil : nonblank [] []
| NB_skip rs ds : nonblank rs ds -> nonblank ([] :: rs) ds
| NB_keep x r rs ds : nonblank rs ds -> nonblank ((x :: r) :: rs) ((x :: r) :: ds).

(** Sums. *)
Definition zsum (l : list Z) : Z := fold_right Z.add 0 l.
Definition total (n : nat) (f : nat -> Z) : Z := zsum (map f (seq 0 n)).
(** Columns of a table: electrons of either spin, and the labels of the block. *)
Definition alpha_of (row : list Z) : Z := nth 0 row 0.
Definition beta_of (row : list Z) : Z := nth 1 row 0.
Definition block_key (row : list Z) : list Z := skipn 2 row.

(** The functions that a row names.  Atoms: m, or l and m; molecules: m, or m and +1 for
    even l, -1 for odd l. *)
Definition at_named (sh : list (Z * Z)) (Nrad : nat) (symm : Z) (row : list Z) : list nat :=
  if symm =? 1 then positions (fun f => bf_m f =? nth 2 row 0) (all_functions sh Nrad)
  else positions (fun f => (bf_m f =? nth 3 row 0) && (bf_l f =? nth 2 row 0)) (all_functions sh Nrad).
Definition di_named (sh : list (Z * Z)) (Nrad : nat) (row : list Z) : list nat :=
  if (List.length row =? 3)%nat then positions (fun f => bf_m f =? nth 2 row 0) (pure_functions sh Nrad)
  else positions (fun f => (bf_m f =? nth 2 row 0) && (Z.rem (bf_l f) 2 =? (if nth 3 row 0 =? -1 then 1 else 0))) (pure_functions sh Nrad).
(** What a successful reading means, for a driver with the blocks [dsym]. *)
Definition frozen_ok (dsym : list (list nat)) (block : list Z -> list nat) (restricted : bool) (nela nelb : Z) (occs : list (list Z)) (f : nat -> Z) : Prop :=
  let n := List.length dsym in
  zsum (map alpha_of occs) = nela /\ zsum (map beta_of occs) = nelb /\ (restricted = true -> forall row, In row occs -> alpha_of row = beta_of row) /\
  (forall k, (k < n)%nat -> (forall row, In row occs -> block row <> nth k dsym []) -> f k = 0 /\ f (n + k)%nat = 0) /\
  (NoDup (map block_key occs) ->
     (forall row, In row occs -> exists k, (k < n)%nat /\ nth k dsym [] = block row /\ block row <> [] /\
        (restricted = true -> f k = alpha_of row + beta_of row) /\ (restricted = false -> f k = alpha_of row /\ f (n + k)%nat = beta_of row)) /\
     (restricted = true -> total n f = nela + nelb) /\
     (restricted = false -> total n f = nela /\ total n (fun k => f (n + k)%nat) = nelb)).
