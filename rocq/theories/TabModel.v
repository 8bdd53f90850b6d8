(** Model of the tables and name lookups of /repo/src/general: sap.cpp, gsz.cpp,
    elements.cpp.  Arithmetic is exact. *)
Require Import Reals List Arith Bool ZArith Ascii String.
Require Import Verif.Prelude Verif.TabData.
Import ListNotations.
Open Scope R_scope.

(* ------------------------------------------------------------------ *)
(** * Superposition of atomic potentials *)

Section Sap.
(** SAP_NELEM, SAP_NRAD, LIP_ORDER and the table Zeff; row 0 holds the radii. *)
Variables (nelem nrad ord : nat) (tab : nat -> nat -> R).

(** sap.cpp:27916-27930: the binary search; the value at a knot, or the left end of the
    bracket.  For a NaN none of the three comparisons holds. *)
Fixpoint search (fuel : nat) (x : fp) (posleft posright : nat) : res (nat + nat) :=
  match fuel with
  | O => OutOfFuel
  | S f =>
      let posmiddle := ((posleft + posright) / 2)%nat in
      let next l r := if (l + 1 =? r)%nat then Ok (inr l) else search f x l r in
      if fltb (Fin (tab 0%nat posmiddle)) x then next posmiddle posright
      else if fltb x (Fin (tab 0%nat posmiddle)) then next posleft posmiddle
      else if (fleb (Fin (tab 0%nat posmiddle)) x && fleb x (Fin (tab 0%nat posmiddle)))%bool then Ok (inl posmiddle)
      else next posleft posright
  end.

(** sap.cpp:27934-27935: the window is moved left if it does not fit. *)
Definition window (posleft : nat) : nat :=
  if (nrad <=? posleft + ord - 1)%nat then (posleft - ((posleft + ord) - nrad))%nat else posleft.

(** sap.cpp:27943-27962: Lagrange interpolation. *)
Definition lagrange (xi yi : vec) (x : R) : R :=
  fold_left (fun y i =>
    let li := fold_left (fun li j => if (i =? j)%nat then li else li * ((x - xi j) / (xi i - xi j))) (seq 0 ord) 1 in
    y + yi i * li) (seq 0 ord) 0.

(** sap.cpp:46-27966: sap_effective_charge.  Reading a column outside of the table is UB. *)
Definition column (row i : nat) : res R := if (i <? nrad)%nat then Ok (tab row i) else UB.
Definition sap_effective_charge (fuel : nat) (Z : Z) (x : fp) : res R :=
  if (Z <? 1)%Z then Ok 0
  else if (Z.of_nat nelem <=? Z)%Z then Ok 0
  else
    let row := Z.to_nat Z in
    if fleb x (Fin 0) then column row 0
    else
      bind (column 0 (nrad - 1)) (fun last =>
      if fleb (Fin last) x then column row (nrad - 1)
      else
        bind (search fuel x 0 (nrad - 1)) (fun p =>
        match p with
        | inl i => column row i
        | inr l =>
            let l := window l in
            if (l + ord <=? nrad)%nat then
              match x with
              | Fin x => Ok (lagrange (fun i => tab 0%nat (l + i)%nat) (fun i => tab row (l + i)%nat) x)
              | _ => UB
              end
            else UB
        end)).
End Sap.

(** sap.cpp:35-41: SAP_NELEM, SAP_NRAD, LIP_ORDER; 47: the radii of the table; 44:
    sap_cutoff_radius. *)
Definition SAP_NELEM : nat := 119.
Definition SAP_NRAD : nat := 701.
Definition LIP_ORDER : nat := 2.
Definition sap_radius (i : nat) : R := IZR (nth i sap_radii 0%Z) / 10 ^ 24.
Definition sap_cutoff_radius : R := 399999998730599 / 10 ^ 13.

(* ------------------------------------------------------------------ *)
(** * Green-Sellin-Zachor potential *)

(** gsz.cpp:19: d_Z_GSZ in units of 1/1000. *)
Definition d_Z_GSZ : list Z :=
  [1000; 215; 563; 858; 979; 880; 776; 708; 575; 500; 561; 621; 729; 817; 868; 885; 881; 862; 1006; 1154;
   1116; 1060; 996; 837; 866; 807; 751; 700; 606; 612; 631; 649; 663; 675; 684; 689; 744; 798; 855; 866;
   831; 825; 855; 803; 788; 737; 754; 775; 810; 841; 870; 896; 919; 940; 1022; 1108; 1150; 1081; 970; 938;
   905; 873; 842; 862; 830; 754; 728; 702; 677; 654; 665; 672; 676; 679; 680; 680; 679; 661; 657; 671; 690;
   708; 726; 744; 761; 777; 818; 859; 899; 927; 887; 880; 872; 832; 822; 842; 830; 790; 778; 766; 754; 742;
   755]%Z.
(** gsz.cpp:23-32: GSZ_parameters; (size_t) Z of a negative Z is above every table size.
    std::pow(-1, 0.4) is a NaN, std::pow(0, 0.4) is 0. *)
Definition GSZ_parameters (Z : Z) : res (R * fp) :=
  let sz := if (Z <? 0)%Z then (Z + 2 ^ 64)%Z else Z in
  if (Z.of_nat (List.length d_Z_GSZ) <? sz)%Z then Throw LogicError
  else
    bind (at_ d_Z_GSZ Z) (fun k =>
    let d := IZR k / 1000 in
    Ok (d, if (Z - 1 <? 0)%Z then NaN else if (Z - 1 =? 0)%Z then Fin (d * 0) else Fin (d * Rpower (IZR (Z - 1)) (4 / 10)))).
(** gsz.cpp:34-36: Z_GSZ. *)
Definition Z_GSZ (r Z d_Z H_Z : R) : R := 1 + (Z - 1) * 1 / (1 + (exp (r / d_Z) - 1) * H_Z).
(** gsz.cpp:45-49 (one entry of the vector): Z_GSZ of an element; a NaN parameter makes the
    charge a NaN. *)
Definition Z_GSZ_element (r : R) (Z : Z) : res fp :=
  bind (GSZ_parameters Z) (fun p =>
  match snd p with
  | Fin H => Ok (Fin (Z_GSZ r (IZR Z) (fst p) H))
  | _ => Ok NaN
  end).
(** gsz.cpp:51-58: Z_thomasfermi; sqrt of a negative number is a NaN. *)
Definition cbrt (x : R) : R :=
  if Rltb 0 x then Rpower x (1 / 3) else if Rltb x 0 then - Rpower (- x) (1 / 3) else 0.
Definition Z_thomasfermi (r : R) (Z : Z) : fp :=
  let alpha := 7280642371 / 10 ^ 10 in
  let beta := - (5430794693 / 10 ^ 10) in
  let gamma := 3612163121 / 10 ^ 10 in
  let x := r * cbrt (128 * IZR Z / (9 * PI * PI)) in
  if Rltb x 0 then NaN
  else Fin (IZR Z * (1 + alpha * sqrt x + beta * x * exp (- gamma * sqrt x)) ^ 2 * exp (- 2 * alpha * sqrt x)).

(* ------------------------------------------------------------------ *)
(** * Element names *)

(** elements.h:34-42: element_symbols. *)
Definition element_symbols : list string :=
  [""; "H"; "He"; "Li"; "Be"; "B"; "C"; "N"; "O"; "F"; "Ne"; "Na"; "Mg"; "Al"; "Si"; "P"; "S"; "Cl"; "Ar";
   "K"; "Ca"; "Sc"; "Ti"; "V"; "Cr"; "Mn"; "Fe"; "Co"; "Ni"; "Cu"; "Zn"; "Ga"; "Ge"; "As"; "Se"; "Br"; "Kr";
   "Rb"; "Sr"; "Y"; "Zr"; "Nb"; "Mo"; "Tc"; "Ru"; "Rh"; "Pd"; "Ag"; "Cd"; "In"; "Sn"; "Sb"; "Te"; "I"; "Xe";
   "Cs"; "Ba"; "La"; "Ce"; "Pr"; "Nd"; "Pm"; "Sm"; "Eu"; "Gd"; "Tb"; "Dy"; "Ho"; "Er"; "Tm"; "Yb"; "Lu";
   "Hf"; "Ta"; "W"; "Re"; "Os"; "Ir"; "Pt"; "Au"; "Hg"; "Tl"; "Pb"; "Bi"; "Po"; "At"; "Rn"; "Fr"; "Ra";
   "Ac"; "Th"; "Pa"; "U"; "Np"; "Pu"; "Am"; "Cm"; "Bk"; "Cf"; "Es"; "Fm"; "Md"; "No"; "Lr"; "Rf"; "Db";
   "Sg"; "Bh"; "Hs"; "Mt"; "Ds"; "Rg"; "Cn"; "Nh"; "Fl"; "Mc"; "Lv"; "Ts"; "Og"]%string.

Definition code (c : ascii) : Z := Z.of_nat (nat_of_ascii c).
(** isalpha, isspace, isdigit, tolower of the C locale; a plain char is signed, and the
    argument must be an unsigned char or EOF. *)
Definition char_int (c : ascii) : Z := if (code c <? 128)%Z then code c else (code c - 256)%Z.
Definition isalpha (c : ascii) : res bool :=
  if (char_int c <? -1)%Z then UB
  else Ok (((65 <=? char_int c) && (char_int c <=? 90)) || ((97 <=? char_int c) && (char_int c <=? 122)))%Z%bool.
Definition isspace (c : ascii) : bool := ((code c =? 32) || ((9 <=? code c) && (code c <=? 13)))%Z%bool.
Definition isdigit (c : ascii) : bool := ((48 <=? code c) && (code c <=? 57))%Z%bool.
Definition tolower (c : ascii) : Z := if ((65 <=? code c) && (code c <=? 90))%Z%bool then (code c + 32)%Z else code c.

(** c_str(): the characters before the first NUL. *)
Fixpoint c_str (s : string) : string :=
  match s with
  | EmptyString => EmptyString
  | String c t => if (code c =? 0)%Z then EmptyString else String c (c_str t)
  end.
(** strcasecmp of two C strings (their NULs removed). *)
Fixpoint strcasecmp (a b : string) : Z :=
  match a, b with
  | EmptyString, EmptyString => 0%Z
  | EmptyString, String d _ => (0 - tolower d)%Z
  | String c _, EmptyString => tolower c
  | String c s, String d t => if (tolower c =? tolower d)%Z then strcasecmp s t else (tolower c - tolower d)%Z
  end.
(** libhelfem/src/utils.cpp:88-90. *)
Definition stricmp (a b : string) : Z := strcasecmp (c_str a) (c_str b).

(** atoi: white space, a sign, digits; a value that does not fit an int is UB. *)
Fixpoint skip_space (s : string) : string :=
  match s with EmptyString => EmptyString | String c t => if isspace c then skip_space t else s end.
Fixpoint digits (acc : Z) (s : string) : Z :=
  match s with
  | EmptyString => acc
  | String c t => if isdigit c then digits (10 * acc + (code c - 48)) t else acc
  end.
Definition atoi (s : string) : res Z :=
  let s := skip_space s in
  let v := match s with
           | String c t => if (code c =? 45)%Z then (- digits 0 t)%Z else if (code c =? 43)%Z then digits 0 t else digits 0 s
           | EmptyString => 0%Z
           end in
  if ((- 2 ^ 31 <=? v) && (v <? 2 ^ 31))%Z%bool then Ok v else UB.

(** elements.cpp:25-45: get_Z. *)
Fixpoint find_symbol (el : string) (Z : Z) (l : list string) : option BinInt.Z :=
  match l with
  | [] => None
  | s :: t => if (stricmp el s =? 0)%Z then Some Z else find_symbol el (Z + 1) t
  end.
Definition get_Z (el : string) : res Z :=
  match el with
  | EmptyString => Ok 0%Z
  | String c _ =>
      bind (isalpha c) (fun alpha =>
      if negb alpha then atoi (c_str el)
      else match find_symbol el 1 (List.tl element_symbols) with
           | Some Z => Ok Z
           | None => Throw RuntimeError
           end)
  end.

(** elements.cpp:47-69: num_orbs of one nucleus added to (sigma, pi, delta, phi); the cases
    fall through. *)
Definition shellZ : list Z := [1; 3; 5; 11; 13; 19; 21; 31; 37; 39; 49; 55; 57; 71; 81; 87; 89; 103; 113]%Z.
Definition shellL : list Z := [0; 0; 1;  0;  1;  0;  2;  1;  0;  2;  1;  0;  3;  2;  1;  0;  3;   2;   1]%Z.
Definition orbs : Type := (Z * Z * Z * Z)%type.
Definition add_shell (l : Z) (n : orbs) : res orbs :=
  let '(s, p, d, f) := n in
  match l with
  | 3 => Ok (s + 1, p + 1, d + 1, f + 1)
  | 2 => Ok (s + 1, p + 1, d + 1, f)
  | 1 => Ok (s + 1, p + 1, d, f)
  | 0 => Ok (s + 1, p, d, f)
  | _ => Throw LogicError
  end%Z.
Definition num_orbs1 (Z : Z) (n : orbs) : res orbs :=
  fold_left (fun r i => bind r (fun n =>
    bind (at_ shellZ (Z.of_nat i)) (fun z => if (z <=? Z)%Z then bind (at_ shellL (Z.of_nat i)) (fun l => add_shell l n) else Ok n)))
    (seq 0 (List.length shellZ)) (Ok n).
(** elements.cpp:71-78. *)
Definition num_orbs (Z1 Z2 : Z) : res orbs := bind (num_orbs1 Z1 (0, 0, 0, 0)%Z) (num_orbs1 Z2).
