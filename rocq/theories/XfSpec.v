(** Vocabulary for the choice of functionals. *)
Require Import Reals ZArith List Bool Ascii String.
Require Import Verif.Prelude Verif.TabModel Verif.XfModel.
Import ListNotations.
Open Scope R_scope.

(** An identifier that the rest of the program can work with: nothing, Hartree-Fock, or
    a functional of libxc that is not a kinetic energy. *)
Definition usable (lib : xlib) (id : Z) : Prop :=
  id = 0%Z \/ id = (-1)%Z \/ ((0 < id)%Z /\ exists i, x_init lib id = Some i /\ i_kind i <> Kinetic).
(** Identifiers that libxc may be asked about. *)
Definition known (lib : xlib) (id : Z) : Prop := (id <= 0)%Z \/ exists i, x_init lib id = Some i.
(** libxc numbers functionals from one on and answers -1 for an unknown name. *)
Definition numbers_ok (lib : xlib) : Prop := forall s, x_number lib s = (-1)%Z \/ (0 < x_number lib s)%Z.
(** No dash in a string. *)
Fixpoint dashless (s : string) : Prop :=
  match s with EmptyString => True | String c t => c <> "-"%char /\ dashless t end.
(** A libxc with one exchange functional, lda_x = 1, one correlation functional,
    lda_c_pw = 12, a range-separated one, 433, a kinetic one, 50, and an unusual one. *)
Definition toy_info (k : xkind) (h : xhyb) : xinfo := mkXI k false false false h (1 / 4) (1 / 3, 1 / 5, 1 / 2) false (0, 0).
Definition toy (v8 : bool) : xlib := mkXL
  (fun id => if (id =? 1)%Z then Some (toy_info Exchange Semilocal) else if (id =? 12)%Z then Some (toy_info Correlation Semilocal)
             else if (id =? 433)%Z then Some (toy_info ExchangeCorrelation Cam) else if (id =? 50)%Z then Some (toy_info Kinetic Semilocal)
             else if (id =? 406)%Z then Some (toy_info ExchangeCorrelation Hybrid)
             else if (id =? 900)%Z then Some (toy_info ExchangeCorrelation OtherHyb) else None)
  (fun s => if String.eqb s "lda_x" then 1%Z else if String.eqb s "lda_c_pw" then 12%Z else if String.eqb s "lda_k_tf" then 50%Z else (-1)%Z)
  (fun id => if (id =? 50)%Z then Some "lda_k_tf"%string else None) v8.
(** The same libxc seen through the interface of version 7 or of version 8. *)
Definition with_v8 (v8 : bool) (lib : xlib) : xlib := mkXL (x_init lib) (x_number lib) (x_name lib) v8.
(** The families and flags of version 7 say the same as the hybrid type of version 8, and
    a global hybrid has the coefficients (0, exx, 0). *)
Definition coherent (i : xinfo) : Prop :=
  match i_hyb i with
  | Semilocal => i_hybfam i = false /\ i_erf i = false /\ i_yuk i = false
  | Hybrid => i_hybfam i = true /\ i_erf i = false /\ i_yuk i = false /\ i_cam i = (0, i_exx i, 0)
  | Cam => i_hybfam i = true /\ i_erf i = true /\ i_yuk i = false
  | Camy => i_hybfam i = true /\ i_erf i = false /\ i_yuk i = true
  | OtherHyb => False
  end.
