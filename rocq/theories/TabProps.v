(** Tables and name lookups: C42, C43, C44, C75, C76. *)
Require Import Reals List Arith Bool ZArith Ascii String.
Require Import Verif.Prelude Verif.TabModel Verif.TabSpec Verif.TabProofs Verif.TabPoly Verif.TabGsz Verif.TabName Verif.TabWit.
Import ListNotations.
Open Scope R_scope.

(* ------------------------------------------------------------------ *)
(** * C42: sap_effective_charge *)

(** Unknown nuclei have no charge. *)
Theorem C42_unknown : forall nelem nrad ord tab Z fuel x, (Z < 1 \/ Z.of_nat nelem <= Z)%Z ->
  sap_effective_charge nelem nrad ord tab fuel Z x = Ok 0.
Proof. exact sap_unknown. Qed.
Print Assumptions C42_unknown.
(** Radii at or below zero and at or beyond the last entry, infinities included. *)
Theorem C42_ends : forall nelem nrad ord tab, rising nrad (tab 0%nat) -> forall Z fuel, (1 <= nrad)%nat -> (1 <= Z < Z.of_nat nelem)%Z ->
  (forall x, x <= 0 -> sap_effective_charge nelem nrad ord tab fuel Z (Fin x) = Ok (tab (Z.to_nat Z) 0%nat)) /\
  (forall x, 0 < x -> tab 0%nat (nrad - 1)%nat <= x -> sap_effective_charge nelem nrad ord tab fuel Z (Fin x) = Ok (tab (Z.to_nat Z) (nrad - 1)%nat)) /\
  sap_effective_charge nelem nrad ord tab fuel Z NInf = Ok (tab (Z.to_nat Z) 0%nat) /\
  sap_effective_charge nelem nrad ord tab fuel Z PInf = Ok (tab (Z.to_nat Z) (nrad - 1)%nat).
Proof. exact sap_ends. Qed.
Print Assumptions C42_ends.
(** Inside the table, for every interpolation order: a polynomial with [ord] coefficients
    through [ord] consecutive entries that contain the left end of the radius' interval. *)
Theorem C42_polynomial : forall nelem nrad ord tab Z fuel x, rising nrad (tab 0%nat) -> (1 <= ord <= nrad)%nat -> (1 <= Z < Z.of_nat nelem)%Z ->
  (nrad <= fuel)%nat -> 0 < x < tab 0%nat (nrad - 1)%nat ->
  exists w l c, (w + ord <= nrad)%nat /\ (w <= l < w + ord)%nat /\ (l + ord <= nrad -> w = l)%nat /\
    (l + 1 < nrad)%nat /\ tab 0%nat l <= x <= tab 0%nat (l + 1)%nat /\
    (List.length c <= ord)%nat /\ (forall i, (i < ord)%nat -> poly c (tab 0%nat (w + i)%nat) = tab (Z.to_nat Z) (w + i)%nat) /\
    sap_effective_charge nelem nrad ord tab fuel Z (Fin x) = Ok (poly c x).
Proof. exact sap_polynomial. Qed.
Print Assumptions C42_polynomial.
(** The order of the code: the straight line between the two neighbours. *)
Theorem C42_linear : forall nelem nrad tab Z fuel, rising nrad (tab 0%nat) -> (1 <= Z < Z.of_nat nelem)%Z -> (nrad <= fuel)%nat ->
  forall i x, (i + 1 < nrad)%nat -> tab 0%nat i <= x <= tab 0%nat (i + 1)%nat ->
  sap_effective_charge nelem nrad LIP_ORDER tab fuel Z (Fin x)
  = Ok (line (tab 0%nat i) (tab (Z.to_nat Z) i) (tab 0%nat (i + 1)%nat) (tab (Z.to_nat Z) (i + 1)%nat) x).
Proof. exact sap_linear. Qed.
Print Assumptions C42_linear.
(** It stays between the bounds of the table, for every radius. *)
Theorem C42_bounds : forall nelem nrad tab Z fuel lo hi, rising nrad (tab 0%nat) -> (2 <= nrad)%nat -> (1 <= Z < Z.of_nat nelem)%Z -> (nrad <= fuel)%nat ->
  (forall i, (i < nrad)%nat -> lo <= tab (Z.to_nat Z) i <= hi) ->
  forall x, exists v, sap_effective_charge nelem nrad LIP_ORDER tab fuel Z (Fin x) = Ok v /\ lo <= v <= hi.
Proof. exact sap_bounds. Qed.
Print Assumptions C42_bounds.
(** The radii in the code start at zero, increase, and end at sap_cutoff_radius. *)
Theorem C42_table : List.length TabData.sap_radii = SAP_NRAD /\ rising SAP_NRAD sap_radius /\ sap_radius (SAP_NRAD - 1) = sap_cutoff_radius.
Proof. exact sap_radii_ok. Qed.
Print Assumptions C42_table.
(** The lookup of a NaN does not end, however many steps it is given. *)
Theorem C42_nan_refuted : forall nelem nrad ord tab Z fuel, (3 <= nrad)%nat -> (1 <= Z < Z.of_nat nelem)%Z ->
  sap_effective_charge nelem nrad ord tab fuel Z NaN = OutOfFuel.
Proof. exact sap_nan. Qed.
Print Assumptions C42_nan_refuted.
Example C42_case : rising 4 (small 0) /\ sap_effective_charge 2 4 2 small 4 1 (Fin (3 / 2)) = Ok (3 / 2) /\
  sap_effective_charge 2 4 2 small 4 1 (Fin 3) = Ok 1 /\ line 1 2 2 1 (3 / 2) = 3 / 2 /\
  sap_effective_charge 2 4 2 small 4 1 (Fin 9) = Ok 1 /\ sap_effective_charge 2 4 2 small 4 2 (Fin 1) = Ok 0.
Proof. exact small_case. Qed.

(* ------------------------------------------------------------------ *)
(** * C43: GSZ_parameters *)

Theorem C43_throws : forall Z, (- 2 ^ 31 <= Z)%Z -> (Z < 0 \/ 103 < Z)%Z -> GSZ_parameters Z = Throw LogicError.
Proof. exact gsz_throws. Qed.
Print Assumptions C43_throws.
Theorem C43_table : forall Z, (1 <= Z <= 102)%Z ->
  exists d H, GSZ_parameters Z = Ok (d, Fin H) /\ d = IZR (nth (Z.to_nat Z) d_Z_GSZ 0%Z) / 1000 /\ 0 < d /\
    (Z = 1%Z -> H = 0) /\ ((2 <= Z)%Z -> H = d * Rpower (IZR Z - 1) (2 / 5)).
Proof. exact gsz_table. Qed.
Print Assumptions C43_table.
(** The first nucleus beyond the table is not rejected: the table is read outside its bounds. *)
Theorem C43_index_refuted : GSZ_parameters 103 = UB.
Proof. exact gsz_out. Qed.
Print Assumptions C43_index_refuted.
(** Z = 0 is accepted and gives a NaN. *)
Theorem C43_zero_refuted : exists d, GSZ_parameters 0 = Ok (d, NaN) /\ d = 1.
Proof. exact gsz_zero. Qed.
Print Assumptions C43_zero_refuted.
(** The 103 entries are those of Z = 1..103, helium's 0.215 being the second; the lookup of
    helium returns the entry of lithium. *)
Theorem C43_neighbour_refuted : nth 1 d_Z_GSZ 0%Z = 215%Z /\ exists H, GSZ_parameters 2 = Ok (563 / 1000, H).
Proof. exact gsz_neighbour. Qed.
Print Assumptions C43_neighbour_refuted.
Example C43_case : exists H, GSZ_parameters 10 = Ok (561 / 1000, Fin H) /\ Z_GSZ_element 0 10 = Ok (Fin 10).
Proof. exact gsz_case. Qed.

(* ------------------------------------------------------------------ *)
(** * C44: get_Z *)

(** Every symbol of the periodic table, in every mixture of cases. *)
Theorem C44_symbol : forall el Z, (1 <= Z <= 118)%nat -> same_name el (symbol Z) -> get_Z el = Ok (Z.of_nat Z).
Proof. exact name_symbol. Qed.
Print Assumptions C44_symbol.
(** Of a string that starts with a letter, the part before a NUL decides. *)
Theorem C44_letters : forall c s Z, letter c ->
  (get_Z (String c s) = Ok Z <-> (1 <= Z <= 118)%Z /\ same_name (upto_nul (String c s)) (symbol (Z.to_nat Z))).
Proof. exact name_iff. Qed.
Print Assumptions C44_letters.
Theorem C44_throws : forall c s, letter c -> (forall Z, (1 <= Z <= 118)%nat -> ~ same_name (upto_nul (String c s)) (symbol Z)) ->
  get_Z (String c s) = Throw RuntimeError.
Proof. exact name_throws. Qed.
Print Assumptions C44_throws.
(** White space, a sign, digits, and anything behind them. *)
Theorem C44_number : forall blanks sg ds rest, all_of blank blanks -> all_of digit ds -> ds <> EmptyString -> head_not digit rest ->
  (- 2 ^ 31 <= signed sg (value ds) < 2 ^ 31)%Z -> get_Z (blanks ++ sign_text sg ++ ds ++ rest) = Ok (signed sg (value ds)).
Proof. exact get_Z_number. Qed.
Print Assumptions C44_number.
Theorem C44_empty : get_Z "" = Ok 0%Z.
Proof. exact name_empty. Qed.
Print Assumptions C44_empty.
(** No letter and no digits: zero. *)
Theorem C44_other : forall blanks sg rest, all_of blank blanks -> head_not digit rest ->
  (blanks <> EmptyString \/ sg <> NoSign \/ match rest with EmptyString => False | String c _ => seven_bit c /\ ~ letter c end) ->
  match sg with NoSign => head_not (fun c => blank c \/ c = "+"%char \/ c = "-"%char) rest | _ => True end ->
  get_Z (blanks ++ sign_text sg ++ rest) = Ok 0%Z.
Proof. exact get_Z_other. Qed.
Print Assumptions C44_other.
(** A first character outside of ASCII is passed to isalpha as a negative number. *)
Theorem C44_ascii_refuted : forall c s, (128 <= nat_of_ascii c < 255)%nat -> get_Z (String c s) = UB.
Proof. exact name_high. Qed.
Print Assumptions C44_ascii_refuted.
Example C44_case : get_Z "he" = Ok 2%Z /\ get_Z "HE" = Ok 2%Z /\ get_Z "Og" = Ok 118%Z /\ get_Z "Xx" = Throw RuntimeError /\
  same_name "hE" (symbol 2) /\ get_Z "  -12abc" = Ok (-12)%Z /\ value "0118" = 118%Z /\ all_of digit "0118" /\ get_Z "+" = Ok 0%Z.
Proof. exact name_cases. Qed.

(* ------------------------------------------------------------------ *)
(** * C75: screened charges *)

(** GSZ: the whole charge at the nucleus, decreasing to one outside. *)
Theorem C75_gsz : forall Z, (1 <= Z <= 102)%Z ->
  (Z_GSZ_element 0 Z = Ok (Fin (IZR Z))) /\
  (forall r, 0 <= r -> exists c, Z_GSZ_element r Z = Ok (Fin c) /\ 1 <= c <= IZR Z) /\
  (forall r s a b, 0 <= r <= s -> Z_GSZ_element r Z = Ok (Fin a) -> Z_GSZ_element s Z = Ok (Fin b) -> b <= a) /\
  (forall e, 0 < e -> exists R0, forall r c, R0 < r -> Z_GSZ_element r Z = Ok (Fin c) -> c < 1 + e).
Proof. exact gsz_element. Qed.
Print Assumptions C75_gsz.
(** The same for any positive parameters. *)
Theorem C75_gsz_parameters : forall r z d H, 0 <= r -> 0 < d -> 0 <= H -> 1 <= z -> 1 <= Z_GSZ r z d H <= z.
Proof. exact gsz_between. Qed.
Print Assumptions C75_gsz_parameters.
(** Thomas-Fermi: the whole charge at the nucleus, positive, never above Z, vanishing outside. *)
Theorem C75_thomasfermi : forall r Z, (0 <= Z)%Z -> 0 <= r -> exists c, Z_thomasfermi r Z = Fin c /\ 0 <= c <= IZR Z /\ ((1 <= Z)%Z -> 0 < c).
Proof. exact tf_between. Qed.
Print Assumptions C75_thomasfermi.
Theorem C75_thomasfermi_origin : forall Z, (0 <= Z)%Z -> Z_thomasfermi 0 Z = Fin (IZR Z).
Proof. exact tf_origin. Qed.
Print Assumptions C75_thomasfermi_origin.
Theorem C75_thomasfermi_far : forall Z e, (1 <= Z)%Z -> 0 < e -> exists R0, forall r c, R0 < r -> Z_thomasfermi r Z = Fin c -> c < e.
Proof. exact tf_far. Qed.
Print Assumptions C75_thomasfermi_far.
Example C75_case : exists H, GSZ_parameters 10 = Ok (561 / 1000, Fin H) /\ Z_GSZ_element 0 10 = Ok (Fin 10).
Proof. exact gsz_case. Qed.

(* ------------------------------------------------------------------ *)
(** * C76: num_orbs *)

(** For each |m| up to 3 the number of shells with l >= |m| that the two atoms occupy when
    filled in the order of n + l, then n. *)
Theorem C76_counts : forall Z1 Z2, (Z1 <= 118)%Z -> (Z2 <= 118)%Z ->
  num_orbs Z1 Z2 = Ok (occupied 0 Z1 + occupied 0 Z2, occupied 1 Z1 + occupied 1 Z2, occupied 2 Z1 + occupied 2 Z2, occupied 3 Z1 + occupied 3 Z2)%Z.
Proof. exact num_orbs_ok. Qed.
Print Assumptions C76_counts.
Example C76_case : num_orbs 26 8 = Ok (10, 4, 1, 0)%Z /\ num_orbs 118 0 = Ok (19, 12, 6, 2)%Z.
Proof. exact orbs_case. Qed.
