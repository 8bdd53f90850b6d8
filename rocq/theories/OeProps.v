(** Properties of the one-electron matrices (C106 to C112). *)
Require Import Reals ZArith List Bool Arith Permutation.
Require Import Verif.Prelude Verif.AngModel Verif.AngSpec Verif.JKModel Verif.JKSpec Verif.GauntModel Verif.GauntSpec Verif.TwoDModel Verif.TwoDSpec
  Verif.DiaModel Verif.DiaSpec Verif.OeModel Verif.OeSpec Verif.OeDia Verif.OeCross Verif.OeAt Verif.OeWit.
Import ListNotations.
Local Open Scope R_scope.

(* ---------- C106: overlap ---------- *)

(** overlap() of an atomic basis. *)
Theorem C106_atomic : forall b, aone_ok b -> forall Rh okr rad E,
  one_electron_integrals (ao_eval b) (ao_sh b) (ao_sh b) (ao_N b) (ao_N b) okr rad E -> atomic_radial b Rh okr rad -> NoDup (ao_sh b) ->
  is_shell_matrix (ao_overlap b) (ao_n b) (ao_N b) (fun i a j c => E i a j c (fun _ _ => 1)).
Proof. exact overlap_at_ok. Qed.
Print Assumptions C106_atomic.
(** overlap(rh) of two atomic bases. *)
Theorem C106_atomic_pair : forall b rh Sr f, is_dmat Sr (ao_N b) (ao_N rh) f ->
  exists M, ao_cross_overlap b rh Sr = Ok M /\ drows M = (ao_n b * ao_N b)%nat /\ dcols M = (ao_n rh * ao_N rh)%nat /\
  forall i a j c, (i < ao_n b)%nat -> (a < ao_N b)%nat -> (j < ao_n rh)%nat -> (c < ao_N rh)%nat ->
    dent M (fn (ao_N b) i a) (fn (ao_N rh) j c) = if same_shell (ao_sh b) (ao_sh rh) i j then f a c else 0.
Proof. exact cross_at_ok. Qed.
Print Assumptions C106_atomic_pair.
(** overlap() of a diatomic basis. *)
Theorem C106_diatomic : forall b okr rad E, done_ok b ->
  one_electron_integrals (db_eval (do_b b)) (do_sh b) (do_sh b) (do_N b) (do_N b) okr rad E -> diatomic_radial b okr rad ->
  is_operator b E (do_overlap b) (fun _ => volume (db_Rhalf (do_b b))).
Proof. exact overlap_ok. Qed.
Print Assumptions C106_diatomic.
(** overlap(rh) of two diatomic bases, in the coordinates of the first. *)
Theorem C106_diatomic_pair : forall b rh okr rad E cross, done_ok b -> done_ok rh ->
  one_electron_integrals (db_eval (do_b b)) (do_sh b) (do_sh rh) (do_N b) (do_N rh) okr rad E ->
  (forall q, q = 0%nat \/ q = 2%nat -> okr (sinh_cosh 1 q) /\
     is_dmat (cross q) (do_N b) (do_N rh) (fun a c => rad a c (sinh_cosh 1 q))) ->
  is_dmat (do_cross_overlap b rh cross) (dia_size (do_b b)) (dia_size (do_b rh)) (fun u v =>
    E (sh_ix (do_b b) u) (rad_ix (do_b b) u) (sh_ix (do_b rh) v) (rad_ix (do_b rh) v) (volume (db_Rhalf (do_b b)))).
Proof. exact cross_overlap_ok. Qed.
Print Assumptions C106_diatomic_pair.

(* ---------- C107: kinetic energy ---------- *)

Theorem C107_atomic : forall b, aone_ok b -> forall K C, NoDup (ao_sh b) ->
  adds_up (ao_lay b) (ao_kin b) K -> adds_up (ao_lay b) (ao_kinl b) C ->
  is_shell_matrix (ao_kinetic b) (ao_n b) (ao_N b) (fun i a j c =>
    if same_shell (ao_sh b) (ao_sh b) i j then K a c + IZR (l_of (ao_sh b) i * (l_of (ao_sh b) i + 1)) * C a c else 0).
Proof. exact kinetic_at_ok. Qed.
Print Assumptions C107_atomic.
Theorem C107_diatomic : forall b okr rad, done_ok b -> diatomic_radial b okr rad -> forall K, NoDup (do_sh b) -> is_dmat (do_kin b) (do_N b) (do_N b) K ->
  is_dmat (do_kinetic b) (dia_size (do_b b)) (dia_size (do_b b)) (fun u v =>
    let i := sh_ix (do_b b) u in let j := sh_ix (do_b b) v in let a := rad_ix (do_b b) u in let c := rad_ix (do_b b) v in
    if same_shell (do_sh b) (do_sh b) i j
    then db_Rhalf (do_b b) / 2 * (K a c + IZR (l_of (do_sh b) i * (l_of (do_sh b) i + 1)) * rad a c (sinh_cosh 1 0)
                                  + IZR (m_of (do_sh b) i) ^ 2 * rad a c (sinh_cosh (-1) 0)) else 0).
Proof. exact kinetic_ok. Qed.
Print Assumptions C107_diatomic.

(* ---------- C108: nuclear attraction ---------- *)

(** nuclear() of an atomic basis and point nuclei, in whatever order the iterations of its loops take effect;
    every multipole that couples two shells is there. *)
Theorem C108_atomic : forall b, aone_ok b -> forall Rh okr rad E,
  one_electron_integrals (ao_eval b) (ao_sh b) (ao_sh b) (ao_N b) (ao_N b) okr rad E -> atomic_radial b Rh okr rad ->
  forall orderL order k, NoDup (ao_sh b) -> ao_point b = true -> orders_ok b orderL order -> (2 * lmax_of (ao_sh b) <= Z.of_nat k)%Z ->
  is_shell_matrix (ao_nuclear b orderL order) (ao_n b) (ao_N b) (fun i a j c =>
    E i a j c (atomic_attraction (ao_Z b) (ao_Zl b) (ao_Zr b) Rh k)).
Proof. exact nuclear_at_ok. Qed.
Print Assumptions C108_atomic.
(** nuclear() of a diatomic basis: Z1 is at -Rhalf and Z2 at Rhalf. *)
Theorem C108_diatomic : forall b okr rad E, done_ok b ->
  one_electron_integrals (db_eval (do_b b)) (do_sh b) (do_sh b) (do_N b) (do_N b) okr rad E -> diatomic_radial b okr rad ->
  let Rh := db_Rhalf (do_b b) in 0 < Rh ->
  is_operator b E (do_nuclear b) (fun _ mu x => volume Rh mu x *
    (- IZR (do_Z1 b) / nuclear_distance (-1) Rh mu x - IZR (do_Z2 b) / nuclear_distance 1 Rh mu x)).
Proof. exact nuclear_ok. Qed.
Print Assumptions C108_diatomic.
(** If the integrals of an off-centre charge throw, nuclear() neither returns nor throws. *)
Theorem C108_stops : forall b f orderL order L e, aone_ok b -> ao_point b = true -> (ao_Zl b <> 0 \/ ao_Zr b <> 0)%Z ->
  adds_up (ao_lay b) (ao_int b (-1)) f -> In L orderL -> assemble_radial_diagonal (ao_lay b) (ao_off b L) = Throw e ->
  (forall M, ao_nuclear b orderL order <> Ok M) /\ (forall e, ao_nuclear b orderL order <> Throw e).
Proof. exact offcenter_stops. Qed.
Print Assumptions C108_stops.

(* ---------- C109: finite nuclei ---------- *)

(** With a finite nucleus nuclear() is its potential, the same for all shells ... *)
Theorem C109_finite : forall b f orderL order, aone_ok b -> NoDup (ao_sh b) -> ao_point b = false -> adds_up (ao_lay b) (ao_nuc b) f ->
  is_shell_matrix (ao_nuclear b orderL order) (ao_n b) (ao_N b) (fun i a j c => if same_shell (ao_sh b) (ao_sh b) i j then f a c else 0).
Proof. exact finite_nucleus. Qed.
Print Assumptions C109_finite.
(** ... whatever the off-centre charges are ... *)
Theorem C109_charges_ignored : forall b Zl Zr oL o oL' o', ao_point b = false ->
  ao_nuclear (with_charges b Zl Zr) oL o = ao_nuclear b oL' o'.
Proof. exact finite_ignores. Qed.
Print Assumptions C109_charges_ignored.
(** ... so it is not the attraction of all nuclei. *)
Theorem C109_refuted : exists b Rh rad okr E f oL o, aone_ok b /\ NoDup (ao_sh b) /\
  one_electron_integrals (ao_eval b) (ao_sh b) (ao_sh b) (ao_N b) (ao_N b) okr rad E /\ atomic_radial b Rh okr rad /\ orders_ok b oL o /\
  ao_point b = false /\ okr f /\ adds_up (ao_lay b) (ao_nuc b) (fun a c => rad a c f) /\
  forall k, (2 * lmax_of (ao_sh b) <= Z.of_nat k)%Z ->
  ~ is_shell_matrix (ao_nuclear b oL o) (ao_n b) (ao_N b) (fun i a j c => E i a j c (fun r x => f r + atomic_attraction 0 (ao_Zl b) (ao_Zr b) Rh k r x)).
Proof. exact finite_nucleus_refuted. Qed.
Print Assumptions C109_refuted.

(* ---------- C110: electric moments ---------- *)

Theorem C110_atomic_dipole : forall b, aone_ok b -> forall Rh okr rad E,
  one_electron_integrals (ao_eval b) (ao_sh b) (ao_sh b) (ao_N b) (ao_N b) okr rad E -> atomic_radial b Rh okr rad ->
  is_shell_matrix (ao_dipole_z b) (ao_n b) (ao_N b) (fun i a j c => E i a j c (fun r x => r * x)).
Proof. exact dipole_at_ok. Qed.
Print Assumptions C110_atomic_dipole.
Theorem C110_atomic_quadrupole : forall b, aone_ok b -> forall Rh okr rad E,
  one_electron_integrals (ao_eval b) (ao_sh b) (ao_sh b) (ao_N b) (ao_N b) okr rad E -> atomic_radial b Rh okr rad ->
  is_shell_matrix (ao_quadrupole_zz b) (ao_n b) (ao_N b) (fun i a j c => E i a j c (fun r x => r ^ 2 * ((3 * x ^ 2 - 1) / 2))).
Proof. exact quadrupole_at_ok. Qed.
Print Assumptions C110_atomic_quadrupole.
Theorem C110_diatomic_dipole : forall b okr rad E, done_ok b ->
  one_electron_integrals (db_eval (do_b b)) (do_sh b) (do_sh b) (do_N b) (do_N b) okr rad E -> diatomic_radial b okr rad ->
  let Rh := db_Rhalf (do_b b) in
  is_operator b E (do_dipole_z b) (fun _ mu x => volume Rh mu x * z_coord Rh mu x).
Proof. exact dipole_ok. Qed.
Print Assumptions C110_diatomic_dipole.
Theorem C110_diatomic_quadrupole : forall b okr rad E, done_ok b ->
  one_electron_integrals (db_eval (do_b b)) (do_sh b) (do_sh b) (do_N b) (do_N b) okr rad E -> diatomic_radial b okr rad ->
  let Rh := db_Rhalf (do_b b) in
  is_operator b E (do_quadrupole_zz b) (fun _ mu x => volume Rh mu x * ((3 * z_coord Rh mu x ^ 2 - dist2 Rh mu x) / 2)).
Proof. exact quadrupole_ok. Qed.
Print Assumptions C110_diatomic_quadrupole.

(* ---------- C111: magnetic field ---------- *)

Theorem C111_atomic : forall b, aone_ok b -> forall Rh okr rad E,
  one_electron_integrals (ao_eval b) (ao_sh b) (ao_sh b) (ao_N b) (ao_N b) okr rad E -> atomic_radial b Rh okr rad -> forall B,
  is_shell_matrix (ao_Bz_field b B) (ao_n b) (ao_N b) (fun i a j c =>
    E i a j c (fun r x => B ^ 2 / 8 * (r ^ 2 * (1 - x ^ 2)) - B * IZR (m_of (ao_sh b) j) / 2)).
Proof. exact Bz_at_ok. Qed.
Print Assumptions C111_atomic.
Theorem C111_diatomic : forall b okr rad E, done_ok b ->
  one_electron_integrals (db_eval (do_b b)) (do_sh b) (do_sh b) (do_N b) (do_N b) okr rad E -> diatomic_radial b okr rad ->
  let Rh := db_Rhalf (do_b b) in forall B,
  is_operator b E (do_Bz_field b B) (fun mj mu x => volume Rh mu x * (B ^ 2 / 8 * rho2 Rh mu x - B * IZR mj / 2)).
Proof. exact Bz_ok. Qed.
Print Assumptions C111_diatomic.

(* ---------- C112: radial potentials ---------- *)

Theorem C112_model_potential : forall b, aone_ok b -> forall acc f, NoDup (ao_sh b) -> adds_up (ao_lay b) acc f ->
  is_shell_matrix (ao_model_potential b acc) (ao_n b) (ao_N b) (fun i a j c => if same_shell (ao_sh b) (ao_sh b) i j then f a c else 0).
Proof. exact model_potential_ok. Qed.
Print Assumptions C112_model_potential.
Theorem C112_confinement : forall b, aone_ok b -> forall iconf acc f, NoDup (ao_sh b) -> (iconf <> 0%Z -> adds_up (ao_lay b) acc f) ->
  is_shell_matrix (ao_confinement b iconf acc) (ao_n b) (ao_N b)
    (fun i a j c => if (negb (iconf =? 0)%Z && same_shell (ao_sh b) (ao_sh b) i j)%bool then f a c else 0).
Proof. exact confinement_ok. Qed.
Print Assumptions C112_confinement.

(* ---------- examples: s, p_z and p_+1 shells with their exact angular integrals ---------- *)

Example C106_atomic_ex :
  (aone_ok (oe_b true) /\ NoDup (ao_sh (oe_b true)) /\ ao_point (oe_b true) = true) /\
  one_electron_integrals (ao_eval (oe_b true)) (ao_sh (oe_b true)) (ao_sh (oe_b true)) (ao_N (oe_b true)) (ao_N (oe_b true)) (fun _ => True) oe_rad oe_E /\
  atomic_radial (oe_b true) 3 (fun _ => True) oe_rad /\
  orders_ok (oe_b true) (rev (seq 0 3)) (rev (list_prod (seq 0 3) (seq 0 3))) /\ (2 * lmax_of (ao_sh (oe_b true)) <= Z.of_nat 2)%Z.
Proof.
  split; [split; [apply oe_b_ok|split; [apply oe_nodup|reflexivity]]|]. split; [apply oe_integrals|]. split; [apply oe_radial|]. split; [apply oe_orders|].
  apply Z.le_refl.
Qed.
Example C106_atomic_pair_ex : is_dmat (Ok (mkD 2 2 (fun a c => INR (a + 2 * c)))) (ao_N (oe_b true)) (ao_N oe_rh) (fun a c => INR (a + 2 * c)) /\
  same_shell (ao_sh (oe_b true)) (ao_sh oe_rh) 2 0 = true /\ same_shell (ao_sh (oe_b true)) (ao_sh oe_rh) 2 1 = false.
Proof. split; [|split; reflexivity]. eexists. split; [reflexivity|]. repeat split; auto. Qed.
Example C106_diatomic_ex : done_ok oe_db /\ NoDup (do_sh oe_db) /\ 0 < db_Rhalf (do_b oe_db) /\ dia_size (do_b oe_db) = 5%nat /\
  one_electron_integrals (db_eval (do_b oe_db)) (do_sh oe_db) (do_sh oe_db) (do_N oe_db) (do_N oe_db) (fun _ => True) oe_rad oe_E /\
  diatomic_radial oe_db (fun _ => True) oe_rad /\ is_dmat (do_kin oe_db) (do_N oe_db) (do_N oe_db) (fun a c => INR (a + c)).
Proof.
  split; [apply oe_db_ok|]. split; [apply oe_nodup|]. split; [apply Rlt_0_2|]. split; [reflexivity|]. split; [apply oe_integrals|]. split; [apply oe_db_radial|].
  eexists. split; [reflexivity|]. repeat split; auto.
Qed.
Example C106_diatomic_pair_ex : forall q, q = 0%nat \/ q = 2%nat -> True /\
  is_dmat (do_int oe_db 1 q) (do_N oe_db) (do_N oe_db) (fun a c => oe_rad a c (sinh_cosh 1 q)).
Proof. intros q _. split; [exact I|]. eexists. split; [reflexivity|]. repeat split; auto. Qed.
Example C107_atomic_ex : adds_up (ao_lay (oe_b true)) (ao_kin (oe_b true)) (fun a c => INR (a + c)) /\
  adds_up (ao_lay (oe_b true)) (ao_kinl (oe_b true)) (fun a c => INR (a * c)) /\ l_of (ao_sh (oe_b true)) 1 = 1%Z.
Proof. split; [apply oe_adds|]. split; [apply oe_adds|reflexivity]. Qed.
(** A charge inside an element. *)
Definition oe_inside : aone := mkAO oe_sh oe_lay oe_eval 2 0 1 true
  (fun n => oe_acc (fun a c => oe_rad a c (fun r => powerRZ r n))) (oe_acc mzero) (oe_acc mzero) (fun _ _ => Throw LogicError) (oe_acc mzero).
Example C108_stops_ex : aone_ok oe_inside /\ ao_point oe_inside = true /\ (ao_Zl oe_inside <> 0 \/ ao_Zr oe_inside <> 0)%Z /\
  adds_up (ao_lay oe_inside) (ao_int oe_inside (-1)) (fun a c => oe_rad a c (fun r => powerRZ r (-1))) /\ In 1%nat [0; 1; 2]%nat /\
  assemble_radial_diagonal (ao_lay oe_inside) (ao_off oe_inside 1) = Throw LogicError.
Proof.
  split; [exact (oe_b_ok true)|]. split; [reflexivity|]. split; [right; discriminate|]. split; [apply oe_adds|]. split; [right; left; reflexivity|reflexivity].
Qed.
Example C109_finite_ex : aone_ok (oe_b false) /\ NoDup (ao_sh (oe_b false)) /\ ao_point (oe_b false) = false /\
  adds_up (ao_lay (oe_b false)) (ao_nuc (oe_b false)) (fun a c => oe_rad a c (fun r => - 2 / (r + 1))) /\ ao_Zr (oe_b false) = 3%Z.
Proof. split; [apply oe_b_ok|]. split; [apply oe_nodup|]. split; [reflexivity|]. split; [apply oe_adds|reflexivity]. Qed.
Example C112_confinement_ex : adds_up (ao_lay (oe_b true)) (oe_acc (fun a c => oe_rad a c (fun r => r ^ 4))) (fun a c => oe_rad a c (fun r => r ^ 4)) /\ (2 <> 0)%Z.
Proof. split; [apply oe_adds|discriminate]. Qed.
