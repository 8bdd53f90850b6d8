(** Model of the choice of density functionals, /repo/src/general/dftfuncs.cpp 30-330
    and 394-601.  Printing and the texts of exceptions are left out. *)
Require Import Reals ZArith List Bool Ascii String.
Require Import Verif.Prelude Verif.TabModel.
Import ListNotations.
Open Scope R_scope.

(* ------------------------------------------------------------------ *)
(** * libxc *)

(** func.info->kind *)
Inductive xkind := Exchange | Correlation | ExchangeCorrelation | Kinetic | OtherKind.
(** xc_hyb_type of libxc 8 *)
Inductive xhyb := Semilocal | Hybrid | Cam | Camy | OtherHyb.
(** What libxc says about one functional: its kind; whether its family is one of
    XC_FAMILY_HYB_*; whether one of the flags XC_FLAGS_HYB_CAM, XC_FLAGS_HYB_LC is set;
    whether one of XC_FLAGS_HYB_CAMY, XC_FLAGS_HYB_LCY is; xc_hyb_type; xc_hyb_exx_coef;
    xc_hyb_cam_coef (omega, alpha, beta); XC_FLAGS_VV10; xc_nlc_coef (b, C). *)
Record xinfo := mkXI { i_kind : xkind; i_hybfam : bool; i_erf : bool; i_yuk : bool; i_hyb : xhyb;
  i_exx : R; i_cam : R * R * R; i_vv10 : bool; i_nlc : R * R }.
(** libxc as an argument: xc_func_init, xc_functional_get_number, xc_functional_get_name,
    and whether XC_MAJOR_VERSION > 7. *)
Record xlib := mkXL { x_init : Z -> option xinfo; x_number : string -> Z; x_name : Z -> option string; x_v8 : bool }.

(** dftfuncs.cpp 30-31 *)
Definition ID_NONE : Z := 0.
Definition ID_HF : Z := -1.
(** dftfuncs.cpp 32-33 *)
Definition KW_NONE : string := "none"%string.
Definition KW_HF : string := "hyb_x_hf"%string.

(** The pattern of all functions: libxc is asked for positive identifiers only. *)
Definition ask {A} (lib : xlib) (id : Z) (default : A) (f : xinfo -> res A) : res A :=
  if (0 <? id)%Z then match x_init lib id with Some i => f i | None => Throw RuntimeError end else Ok default.

(* ------------------------------------------------------------------ *)
(** * Names *)

(** dftfuncs.cpp 36-60: get_keyword. *)
Definition get_keyword (lib : xlib) (id : Z) : res string :=
  if (id =? ID_NONE)%Z then Ok KW_NONE
  else if (id =? ID_HF)%Z then Ok "HF"%string
  else match x_name lib id with Some s => Ok s | None => Throw RuntimeError end.

(** dftfuncs.cpp 63-92: find_func.  name[0] of an empty string is NUL; isdigit of a
    negative char other than EOF is undefined. *)
Definition find_func (lib : xlib) (name : string) : res Z :=
  let first := match name with EmptyString => Ascii.zero | String c _ => c end in
  if (char_int first <? -1)%Z then UB
  else if isdigit first then atoi (c_str name)
  else if (stricmp name KW_NONE =? 0)%Z then Ok ID_NONE
  else if (stricmp name KW_HF =? 0)%Z then Ok ID_HF
  else if (stricmp name "HF"%string =? 0)%Z then Ok ID_HF
  else
    let funcid := x_number lib (c_str name) in
    if (funcid =? -1)%Z then Throw RuntimeError else Ok funcid.

(** xc.find('-', 0) with the two substrings around it. *)
Fixpoint split_dash (s : string) : option (string * string) :=
  match s with
  | EmptyString => None
  | String c t =>
      if (code c =? 45)%Z then Some (EmptyString, t)
      else match split_dash t with Some (a, b) => Some (String c a, b) | None => None end
  end.

(* ------------------------------------------------------------------ *)
(** * Classification *)

(** dftfuncs.cpp 204-238 *)
Definition is_exchange (lib : xlib) (id : Z) : res bool :=
  ask lib id (id =? ID_HF)%Z (fun i => Ok match i_kind i with Exchange | ExchangeCorrelation => true | _ => false end).
(** dftfuncs.cpp 240-269 *)
Definition is_exchange_correlation (lib : xlib) (id : Z) : res bool :=
  ask lib id false (fun i => Ok match i_kind i with ExchangeCorrelation => true | _ => false end).
(** dftfuncs.cpp 271-300 *)
Definition is_correlation (lib : xlib) (id : Z) : res bool :=
  ask lib id false (fun i => Ok match i_kind i with Correlation => true | _ => false end).
(** dftfuncs.cpp 302-331 *)
Definition is_kinetic (lib : xlib) (id : Z) : res bool :=
  ask lib id false (fun i => Ok match i_kind i with Kinetic => true | _ => false end).

(** dftfuncs.cpp 94-141: parse_xc_func; the pair (x_func, c_func). *)
Definition parse_xc_func (lib : xlib) (xc : string) : res (Z * Z) :=
  let check id := bind (is_kinetic lib id) (fun k => if k : bool then bind (get_keyword lib id) (fun _ => Throw RuntimeError) else Ok tt) in
  bind (match split_dash xc with
        | Some (x, c) => bind (find_func lib x) (fun xf => bind (find_func lib c) (fun cf => Ok (xf, cf)))
        | None => bind (find_func lib xc) (fun xf => Ok (xf, 0%Z))
        end) (fun p =>
  bind (check (fst p)) (fun _ => bind (check (snd p)) (fun _ => Ok p))).

(* ------------------------------------------------------------------ *)
(** * Exact exchange *)

(** dftfuncs.cpp 394-436 *)
Definition exact_exchange (lib : xlib) (id : Z) : res R :=
  ask lib id (if (id =? ID_HF)%Z then 1 else 0) (fun i =>
    Ok (if x_v8 lib then match i_hyb i with Hybrid => i_exx i | _ => 0 end
        else if i_hybfam i then i_exx i else 0)).

(** dftfuncs.cpp 438-468 *)
Definition is_supported (lib : xlib) (id : Z) : res bool :=
  ask lib id true (fun i => Ok (if x_v8 lib then match i_hyb i with OtherHyb => false | _ => true end else true)).

(** dftfuncs.cpp 470-490: the flags (erf, yukawa) without the check. *)
Definition rs_flags (lib : xlib) (id : Z) : res (bool * bool) :=
  ask lib id (false, false) (fun i =>
    Ok (if x_v8 lib then (match i_hyb i with Cam => true | _ => false end, match i_hyb i with Camy => true | _ => false end)
        else (i_erf i, i_yuk i))).

(** dftfuncs.cpp 511-576: range_separation; (omega, alpha, beta).  The warnings of
    [check] go to stderr and are left out. *)
Definition range_separation (lib : xlib) (id : Z) : res (R * R * R) :=
  bind (ask lib id (if (id =? ID_HF)%Z then (0, 1, 0) else (0, 0, 0)) (fun i =>
          if x_v8 lib then
            match i_hyb i with
            | Semilocal => Ok (0, 0, 0)
            | Hybrid => Ok (0, i_exx i, 0)
            | Cam | Camy => Ok (i_cam i)
            | OtherHyb => Throw LogicError
            end
          else if i_hybfam i then Ok (i_cam i) else Ok (0, 0, 0))) (fun wab =>
  bind (rs_flags lib id) (fun f =>
  let '(w, a, b) := wab in
  if (fst f || snd f)%bool then Ok (w, a, b) else Ok (0, a, 0))).

(** dftfuncs.cpp 470-503: is_range_separated; the check calls range_separation. *)
Definition is_range_separated (lib : xlib) (id : Z) (check : bool) : res (bool * bool) :=
  bind (rs_flags lib id) (fun f =>
  if check then bind (range_separation lib id) (fun _ => Ok f) else Ok f).

(** dftfuncs.cpp 578-601: needs_VV10; the answer, b and C. *)
Definition needs_VV10 (lib : xlib) (id : Z) : res (bool * R * R) :=
  ask lib id (false, 0, 0) (fun i => Ok (if i_vv10 i then (true, fst (i_nlc i), snd (i_nlc i)) else (false, 0, 0))).
