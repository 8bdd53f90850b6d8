(** Vocabulary for the tables and name lookups. *)
Require Import Reals List Arith Bool ZArith Ascii String.
Require Import Verif.Prelude.
Import ListNotations.
Open Scope R_scope.

(** Radii in increasing order, the first one at the nucleus. *)
Definition rising (n : nat) (x : vec) : Prop := x 0%nat = 0 /\ forall i j, (i < j)%nat -> (j < n)%nat -> x i < x j.

(** The straight line through (x0, y0) and (x1, y1). *)
Definition line (x0 y0 x1 y1 x : R) : R := y0 + (y1 - y0) * ((x - x0) / (x1 - x0)).

(** c_0 + c_1 x + c_2 x^2 + ... *)
Fixpoint poly (c : list R) (x : R) : R := match c with [] => 0 | a :: c => a + x * poly c x end.

(** Letters of the C locale and equality up to their case. *)
Definition upper (c : ascii) : Prop := (65 <= nat_of_ascii c <= 90)%nat.
Definition lower (c : ascii) : Prop := (97 <= nat_of_ascii c <= 122)%nat.
Definition letter (c : ascii) : Prop := upper c \/ lower c.
Definition same_letter (c d : ascii) : Prop :=
  c = d \/ (upper c /\ nat_of_ascii d = nat_of_ascii c + 32)%nat \/ (upper d /\ nat_of_ascii c = nat_of_ascii d + 32)%nat.
Fixpoint same_name (a b : string) : Prop :=
  match a, b with
  | EmptyString, EmptyString => True
  | String c s, String d t => same_letter c d /\ same_name s t
  | _, _ => False
  end.

(** A character of 7 bits, and a string without NUL. *)
Definition seven_bit (c : ascii) : Prop := (nat_of_ascii c < 128)%nat.
Definition NUL : ascii := ascii_of_nat 0.
Fixpoint no_nul (s : string) : Prop := match s with EmptyString => True | String c t => c <> NUL /\ no_nul t end.

(** Decimal numerals: digit characters and their value. *)
Definition digit (c : ascii) : Prop := (48 <= nat_of_ascii c <= 57)%nat.
Fixpoint all_of (P : ascii -> Prop) (s : string) : Prop := match s with EmptyString => True | String c t => P c /\ all_of P t end.
Fixpoint value (s : string) : Z :=
  match s with
  | EmptyString => 0%Z
  | String c t => ((Z.of_nat (nat_of_ascii c) - 48) * 10 ^ Z.of_nat (String.length t) + value t)%Z
  end.
Definition blank (c : ascii) : Prop := nat_of_ascii c = 32%nat \/ (9 <= nat_of_ascii c <= 13)%nat.
Definition head_not (P : ascii -> Prop) (s : string) : Prop := match s with EmptyString => True | String c _ => ~ P c end.
Inductive sign : Type := Plus | Minus | NoSign.
Definition sign_text (s : sign) : string := match s with Plus => "+" | Minus => "-" | NoSign => "" end%string.
Definition signed (s : sign) (v : Z) : Z := match s with Minus => (- v)%Z | _ => v end.

(** The shells (n, l) in the order of n + l, then n; [below n l] electrons fill all shells
    before (n, l).  All shells of n up to 8 are listed. *)
Definition shells : list (nat * nat) := flat_map (fun n => map (fun l => (n, l)) (seq 0 n)) (seq 1 8).
Definition before (a b : nat * nat) : bool :=
  ((fst a + snd a <? fst b + snd b) || ((fst a + snd a =? fst b + snd b) && (fst a <? fst b)))%nat%bool.
Definition below (s : nat * nat) : nat :=
  fold_right (fun t n => if before t s then (2 * (2 * snd t + 1) + n)%nat else n) 0%nat shells.
(** How many shells with l >= m the atom Z occupies. *)
Definition occupied (m : nat) (z : Z) : Z :=
  Z.of_nat (List.length (filter (fun s => ((m <=? snd s)%nat && (Z.of_nat (below s) <? z)%Z)%bool) shells)).

(** The periodic table, one line per row, alkali metals and noble gases at the ends. *)
Definition periodic_table : list (list string) :=
  [["H"; "He"];
   ["Li"; "Be"; "B"; "C"; "N"; "O"; "F"; "Ne"];
   ["Na"; "Mg"; "Al"; "Si"; "P"; "S"; "Cl"; "Ar"];
   ["K"; "Ca"; "Sc"; "Ti"; "V"; "Cr"; "Mn"; "Fe"; "Co"; "Ni"; "Cu"; "Zn"; "Ga"; "Ge"; "As"; "Se"; "Br"; "Kr"];
   ["Rb"; "Sr"; "Y"; "Zr"; "Nb"; "Mo"; "Tc"; "Ru"; "Rh"; "Pd"; "Ag"; "Cd"; "In"; "Sn"; "Sb"; "Te"; "I"; "Xe"];
   ["Cs"; "Ba"; "La"; "Ce"; "Pr"; "Nd"; "Pm"; "Sm"; "Eu"; "Gd"; "Tb"; "Dy"; "Ho"; "Er"; "Tm"; "Yb"; "Lu"; "Hf"; "Ta"; "W"; "Re"; "Os"; "Ir"; "Pt"; "Au"; "Hg"; "Tl"; "Pb"; "Bi"; "Po"; "At"; "Rn"];
   ["Fr"; "Ra"; "Ac"; "Th"; "Pa"; "U"; "Np"; "Pu"; "Am"; "Cm"; "Bk"; "Cf"; "Es"; "Fm"; "Md"; "No"; "Lr"; "Rf"; "Db"; "Sg"; "Bh"; "Hs"; "Mt"; "Ds"; "Rg"; "Cn"; "Nh"; "Fl"; "Mc"; "Lv"; "Ts"; "Og"]]%string.
(** The symbol of the element with Z protons. *)
Definition symbol (Z : nat) : string := nth (Z - 1) (List.concat periodic_table) ""%string.
(** The characters before the first NUL. *)
Fixpoint upto_nul (s : string) : string :=
  match s with EmptyString => EmptyString | String c t => if Ascii.eqb c NUL then EmptyString else String c (upto_nul t) end.
