(** Model of the checkpoint file: /repo/src/general/checkpoint.cpp and
    /repo/src/general/checkpoint.h.

    HDF5 is modelled by what its calls are documented to do on one file: a map
    from link names to datasets (datatype, dataspace, data).  Every H5 call that
    changes the file is one step; the content after each step is recorded, so
    that a crash between two calls can be described.  A floating point number is
    represented by an integer code; conversions between floating point types are
    an argument.  Names that HDF5 would interpret as paths ("/", ".", empty) are
    not modelled: calls with them have outcome [UB]. *)
Require Import String Ascii List Bool Arith ZArith.
Require Import Verif.Prelude.
Import ListNotations.

(* ------------------------------------------------------------------ *)
(** * HDF5 *)

(** checkpoint.cpp 50-71: the native types of T; the integer types used. *)
Inductive ftype := FDouble | FLongDouble | FQuad.
Inductive itype := IInt | IHsize | IHbool | IChar.
Inductive dtype := TFloat (t : ftype) | TInt (t : itype).

(** H5S_SCALAR, or H5Screate_simple with these dimensions. *)
Inductive space := Scalar | Simple (dims : list nat).

Record dataset := mkDs { ds_type : dtype; ds_space : space; ds_data : list Z }.

Definition content := string -> option dataset.

Fixpoint product (l : list nat) : nat :=
  match l with [] => 1%nat | x :: r => (x * product r)%nat end.
Definition npoints (s : space) : nat := match s with Scalar => 1%nat | Simple d => product d end.

(** H5Dcreate without H5Dwrite leaves the default fill value, zero. *)
Definition blank (d : dataset) : dataset := mkDs (ds_type d) (ds_space d) (repeat 0%Z (npoints (ds_space d))).

(** Value range of the integer types; H5Dread clips to it. *)
Definition imin (t : itype) : Z :=
  match t with IInt => - 2 ^ 31 | IHsize => 0 | IHbool => 0 | IChar => - 2 ^ 7 end%Z.
Definition imax (t : itype) : Z :=
  match t with IInt => 2 ^ 31 - 1 | IHsize => 2 ^ 64 - 1 | IHbool => 2 ^ 8 - 1 | IChar => 2 ^ 7 - 1 end%Z.
Definition clip (t : itype) (z : Z) : Z := Z.max (imin t) (Z.min (imax t) z).

(** Conversions of floating point codes: to another floating point type and to
    an integer. *)
Record conv := mkConv { c_ff : ftype -> ftype -> Z -> Z; c_fi : ftype -> Z -> Z }.

(** H5Dread into memory of a floating point or integer type. *)
Definition read_float (cv : conv) (t : ftype) (d : dataset) : list Z :=
  match ds_type d with TFloat s => map (c_ff cv s t) (ds_data d) | TInt _ => ds_data d end.
Definition read_int (cv : conv) (t : itype) (d : dataset) : list Z :=
  match ds_type d with TInt _ => map (clip t) (ds_data d) | TFloat s => map (fun x => clip t (c_fi cv s x)) (ds_data d) end.

(** Link names that are not paths. *)
Fixpoint has_slash (s : string) : bool :=
  match s with EmptyString => false | String c r => (Ascii.eqb c "/" || has_slash r)%bool end.
Definition simple (s : string) : bool :=
  (negb (has_slash s) && negb (String.eqb s "") && negb (String.eqb s "."))%bool.

(* ------------------------------------------------------------------ *)
(** * The object *)

(** What a file name denotes. *)
Inductive fsentry := Absent | Garbage | H5 (c : content).

(** Members writemode and opend, the file behind filename, and the contents the
    file has had, newest first.  A checkpoint object uses one file only. *)
Record chk := mkChk { k_write : bool; k_open : bool; k_file : fsentry; k_trace : list content }.

(** Statements with exceptions: the state survives a throw. *)
Definition M (A : Type) : Type := chk -> res A * chk.
Definition ret {A} (a : A) : M A := fun s => (Ok a, s).
Definition throw {A} (e : exn) : M A := fun s => (Throw e, s).
Definition undefined {A} : M A := fun s => (UB, s).
Definition mbind {A B} (m : M A) (k : A -> M B) : M B := fun s =>
  match m s with
  | (Ok a, s') => k a s'
  | (Throw e, s') => (Throw e, s')
  | (UB, s') => (UB, s')
  | (OutOfFuel, s') => (OutOfFuel, s')
  end.

Definition set_open (b : bool) : M unit := fun s => (Ok tt, mkChk (k_write s) b (k_file s) (k_trace s)).
(** One H5 call that changes the file. *)
Definition mutate (f : content -> content) : M unit := fun s =>
  match k_file s with
  | H5 c => (Ok tt, mkChk (k_write s) (k_open s) (H5 (f c)) (f c :: k_trace s))
  | _ => (UB, s)
  end.
Definition lookup (name : string) : M (option dataset) := fun s =>
  match k_file s with H5 c => (Ok (c name), s) | _ => (UB, s) end.

Definition upd (name : string) (d : option dataset) (c : content) : content := fun n =>
  if String.eqb n name then d else c n.

(** checkpoint.cpp 99-118: Checkpoint::open; H5Fopen fails on a file that is not
    HDF5. *)
Definition open_ : M unit := fun s =>
  match k_file s with
  | Absent => (Throw RuntimeError, s)
  | Garbage => (Throw RuntimeError, s)
  | H5 _ => if k_open s then (Throw RuntimeError, s) else set_open true s
  end.
(** 120-126: Checkpoint::close *)
Definition close_ : M unit := fun s =>
  if k_open s then set_open false s else (Throw RuntimeError, s).
(** 128-131: Checkpoint::flush changes nothing that is modelled. *)
Definition flush_ : M unit := ret tt.
(** CHECK_WRITE *)
Definition check_write : M unit := fun s => if k_write s then (Ok tt, s) else (Throw RuntimeError, s).

(** The idiom [bool cl=false; if(!opend) {open(); cl=true;} ... if(cl) close();].
    An exception in between skips the close. *)
Definition opened {A} (body : M A) : M A := fun s =>
  if k_open s then body s
  else mbind open_ (fun _ => mbind body (fun a => mbind close_ (fun _ => ret a))) s.

(** 137-149: Checkpoint::exist *)
Definition exist (name : string) : M bool :=
  opened (if simple name then mbind (lookup name) (fun d => ret (match d with Some _ => true | None => false end))
          else undefined).

(** 151-166: Checkpoint::remove *)
Definition remove (name : string) : M unit :=
  mbind check_write (fun _ =>
  opened (mbind (exist name) (fun e => if (e : bool) then mutate (upd name None) else ret tt))).

(** The body shared by all write overloads (168-203, 283-318, 365-398, 453-486,
    ...): remove, H5Dcreate, H5Dwrite.  H5Dcreate fails if the link exists. *)
Definition h5_create (name : string) (d : dataset) : M unit :=
  mbind (lookup name) (fun o => match o with
    | Some _ => throw RuntimeError
    | None => mutate (upd name (Some (blank d)))
    end).
Definition write_ds (name : string) (d : dataset) : M unit :=
  mbind check_write (fun _ =>
  opened (mbind (remove name) (fun _ =>
  mbind (h5_create name d) (fun _ => mutate (upd name (Some d)))))).

(** The body shared by all read overloads: CHECK_EXIST, H5Dopen, checks, H5Dread. *)
Definition read_ds {A} (name : string) (decode : dataset -> res A) : M A :=
  opened (mbind (exist name) (fun e =>
    if (e : bool) then mbind (lookup name) (fun o => match o with
      | Some d => fun s => (decode d, s)
      | None => throw RuntimeError
      end)
    else throw RuntimeError)).

(* ------------------------------------------------------------------ *)
(** * Values *)

(** Matrices are given by rows, columns and the column-major buffer. *)
Inductive value :=
| VMat (t : ftype) (rows cols : nat) (buf : list Z)
| VVec (t : ftype) (buf : list Z)
| VIMat (rows cols : nat) (buf : list Z)
| VList (t : ftype) (l : list Z)
| VHList (l : list Z)
| VFloat (t : ftype) (x : Z)
| VInt (x : Z)
| VHsize (x : Z)
| VBool (b : bool)
| VString (s : string).

(** A type to read as. *)
Inductive kind := KMat (t : ftype) | KVec (t : ftype) | KIMat | KList (t : ftype) | KHList
| KFloat (t : ftype) | KInt | KHsize | KBool | KString.

(** val.c_str(): the characters and a NUL, as signed char *)
Definition char_code (c : ascii) : Z :=
  let n := Z.of_nat (nat_of_ascii c) in if (n <? 128)%Z then n else (n - 256)%Z.
Fixpoint char_codes (s : string) : list Z :=
  match s with EmptyString => [0%Z] | String c r => char_code c :: char_codes r end.
Definition code_char (z : Z) : ascii := ascii_of_nat (Z.to_nat (z mod 256)).
(** std::string(wrk): up to the first NUL; without one the read runs past the
    buffer. *)
Fixpoint from_codes (l : list Z) : res string :=
  match l with
  | [] => UB
  | z :: r => if (z =? 0)%Z then Ok EmptyString else bind (from_codes r) (fun s => Ok (String (code_char z) s))
  end.

(** 168-203 Mat, 258-261 Vec, 283-318 MatrixXi, 365-398 vector<T>, 453-486
    vector<hsize_t>, 690-720 T, 767-795 int, 837-865 hsize_t, 906-947 bool,
    981-1012 string. *)
Definition encode (v : value) : dataset :=
  match v with
  | VMat t rows cols buf => mkDs (TFloat t) (Simple [cols; rows]) buf
  | VVec t buf => mkDs (TFloat t) (Simple [1%nat; length buf]) buf
  | VIMat rows cols buf => mkDs (TInt IInt) (Simple [rows; cols]) buf
  | VList t l => mkDs (TFloat t) (Simple [length l]) l
  | VHList l => mkDs (TInt IHsize) (Simple [length l]) l
  | VFloat t x => mkDs (TFloat t) Scalar [x]
  | VInt x => mkDs (TInt IInt) Scalar [x]
  | VHsize x => mkDs (TInt IHsize) Scalar [x]
  | VBool b => mkDs (TInt IHbool) Scalar [if b then 1%Z else 0%Z]
  | VString s => mkDs (TInt IChar) (Simple [(String.length s + 1)%nat]) (char_codes s)
  end.

Definition is_float (d : dataset) : bool := match ds_type d with TFloat _ => true | _ => false end.
Definition is_int (d : dataset) : bool := match ds_type d with TInt _ => true | _ => false end.

Definition decode (cv : conv) (k : kind) (d : dataset) : res value :=
  match k with
  | KMat t => (* 205-256 *)
      if negb (is_float d) then Throw RuntimeError else
      match ds_space d with
      | Simple [d0; d1] => Ok (VMat t d1 d0 (read_float cv t d))
      | _ => Throw RuntimeError
      end
  | KVec t => (* 263-281: see read *) UB
  | KIMat => (* 319-362: no check of the class *)
      match ds_space d with
      | Simple [d0; d1] => Ok (VIMat d0 d1 (read_int cv IInt d))
      | _ => Throw RuntimeError
      end
  | KList t => (* 400-451 *)
      if negb (is_float d) then Throw RuntimeError else
      match ds_space d with Simple [_] => Ok (VList t (read_float cv t d)) | _ => Throw RuntimeError end
  | KHList => (* 487-537 *)
      if negb (is_int d) then Throw RuntimeError else
      match ds_space d with Simple [_] => Ok (VHList (read_int cv IHsize d)) | _ => Throw RuntimeError end
  | KFloat t => (* 722-764 *)
      if negb (is_float d) then Throw RuntimeError else
      match ds_space d with Scalar => Ok (VFloat t (hd 0%Z (read_float cv t d))) | _ => Throw RuntimeError end
  | KInt => (* 797-835 *)
      if negb (is_int d) then Throw RuntimeError else
      match ds_space d with Scalar => Ok (VInt (hd 0%Z (read_int cv IInt d))) | _ => Throw RuntimeError end
  | KHsize => (* 867-904 *)
      if negb (is_int d) then Throw RuntimeError else
      match ds_space d with Scalar => Ok (VHsize (hd 0%Z (read_int cv IHsize d))) | _ => Throw RuntimeError end
  | KBool => (* 912-916, 949-979: no check of the class *)
      match ds_space d with Scalar => Ok (VBool (negb (hd 0 (read_int cv IHbool d) =? 0)%Z)) | _ => Throw RuntimeError end
  | KString => (* 1014-1060 *)
      if negb (is_int d) then Throw RuntimeError else
      match ds_space d with
      | Simple [_] => bind (from_codes (read_int cv IChar d)) (fun s => Ok (VString s))
      | _ => Throw RuntimeError
      end
  end.

(** The write overloads. *)
Definition write (name : string) (v : value) : M unit := write_ds name (encode v).

(** The read overloads; a Vec is read as a Mat (263-281) and checked after the
    file has been closed again. *)
Definition read (cv : conv) (name : string) (k : kind) : M value :=
  match k with
  | KVec t => mbind (read_ds name (decode cv (KMat t))) (fun v =>
      match v with VMat _ _ 1 buf => ret (VVec t buf) | _ => throw RuntimeError end)
  | _ => read_ds name (decode cv k)
  end.

(** 73-92: the constructor.  H5Fcreate with H5F_ACC_TRUNC may fail. *)
Definition construct (can_create write trunc : bool) (f : fsentry) : res unit * chk :=
  let s0 := mkChk write false f [] in
  if (write && (trunc || match f with Absent => true | _ => false end))%bool then
    if can_create then mbind (set_open true) (fun _ => close_) (mkChk write false (H5 (fun _ => None)) [fun _ => None])
    else (Throw RuntimeError, s0)
  else open_ s0.

(** The public operations. *)
Inductive op := OOpen | OClose | OFlush | OExist (n : string) | ORemove (n : string)
| OWrite (n : string) (v : value) | ORead (n : string) (k : kind).
Inductive answer := AUnit | ABool (b : bool) | AValue (v : value).
Definition step (cv : conv) (o : op) : M answer :=
  match o with
  | OOpen => mbind open_ (fun _ => ret AUnit)
  | OClose => mbind close_ (fun _ => ret AUnit)
  | OFlush => mbind flush_ (fun _ => ret AUnit)
  | OExist n => mbind (exist n) (fun b => ret (ABool b))
  | ORemove n => mbind (remove n) (fun _ => ret AUnit)
  | OWrite n v => mbind (write n v) (fun _ => ret AUnit)
  | ORead n k => mbind (read cv n k) (fun v => ret (AValue v))
  end.
(** A history; exceptions are caught by the caller, who goes on. *)
Fixpoint run (cv : conv) (ops : list op) (s : chk) : list (res answer) * chk :=
  match ops with
  | [] => ([], s)
  | o :: r => let '(a, s1) := step cv o s in let '(l, s2) := run cv r s1 in (a :: l, s2)
  end.

(* ------------------------------------------------------------------ *)
(** * Basis sets *)

(** What write(basis) stores of an atomic basis (540-569): floating point values
    are doubles. *)
Record atomic_pars := mkAP {
  a_Z : Z; a_Zl : Z; a_Zr : Z; a_Rhalf : Z; a_bval : list Z; a_finitenuc : Z; a_Rrms : Z;
  a_nquad : Z; a_poly : Z; a_nnodes : Z; a_zeroder : Z; a_lval : list Z; a_mval : list Z }.
Record diatomic_pars := mkDP {
  d_Z1 : Z; d_Z2 : Z; d_Rhalf : Z; d_bval : list Z;
  d_nquad : Z; d_poly : Z; d_nnodes : Z; d_lval : list Z; d_mval : list Z }.

Definition column (l : list Z) : value := VIMat (length l) 1 l.

Open Scope string_scope.
Definition atomic_entries (p : atomic_pars) : list (string * value) :=
  [("HelFEM_ID", VInt 1); ("Z", VInt (a_Z p)); ("Zl", VInt (a_Zl p)); ("Zr", VInt (a_Zr p));
   ("Rhalf", VFloat FDouble (a_Rhalf p)); ("bval", VVec FDouble (a_bval p));
   ("finitenuc", VInt (a_finitenuc p)); ("Rrms", VFloat FDouble (a_Rrms p));
   ("n_quad", VInt (a_nquad p)); ("poly_id", VInt (a_poly p)); ("poly_nnodes", VInt (a_nnodes p));
   ("zeroder", VInt (a_zeroder p)); ("lval", column (a_lval p)); ("mval", column (a_mval p))].
Definition diatomic_entries (p : diatomic_pars) : list (string * value) :=
  [("HelFEM_ID", VInt 2); ("Z1", VInt (d_Z1 p)); ("Z2", VInt (d_Z2 p));
   ("Rhalf", VFloat FDouble (d_Rhalf p)); ("bval", VVec FDouble (d_bval p));
   ("n_quad", VInt (d_nquad p)); ("poly_id", VInt (d_poly p)); ("poly_nnodes", VInt (d_nnodes p));
   ("lval", column (d_lval p)); ("mval", column (d_mval p))].

Fixpoint write_all (l : list (string * value)) : M unit :=
  match l with [] => ret tt | (n, v) :: r => mbind (write n v) (fun _ => write_all r) end.
(** 540-569 and 622-647 *)
Definition write_atomic (p : atomic_pars) : M unit :=
  mbind check_write (fun _ => opened (write_all (atomic_entries p))).
Definition write_diatomic (p : diatomic_pars) : M unit :=
  mbind check_write (fun _ => opened (write_all (diatomic_entries p))).

Definition get_int (cv : conv) (n : string) : M Z := mbind (read cv n KInt) (fun v =>
  match v with VInt x => ret x | _ => undefined end).
Definition get_double (cv : conv) (n : string) : M Z := mbind (read cv n (KFloat FDouble)) (fun v =>
  match v with VFloat _ x => ret x | _ => undefined end).
Definition get_vector (cv : conv) (n : string) : M (list Z) := mbind (read cv n (KVec FDouble)) (fun v =>
  match v with VVec _ l => ret l | _ => undefined end).
Definition get_imat (cv : conv) (n : string) : M (nat * nat * list Z) := mbind (read cv n KIMat) (fun v =>
  match v with VIMat r c l => ret (r, c, l) | _ => undefined end).
(** m.col(0): out of bounds if there are no columns *)
Definition col0 (m : nat * nat * list Z) : M (list Z) :=
  let '(r, c, l) := m in if Nat.eqb c 0 then undefined else ret (firstn r l).

Local Notation "'do' x <- m ; k" := (mbind m (fun x => k)) (at level 200, x name, m at level 100, k at level 200).

(** 572-619: the arguments the new basis is constructed from *)
Definition read_atomic (cv : conv) : M atomic_pars :=
  opened (
  do id <- get_int cv "HelFEM_ID";
  if negb (id =? 1)%Z then throw LogicError else
  do Z_ <- get_int cv "Z"; do Zl <- get_int cv "Zl"; do Zr <- get_int cv "Zr";
  do fn <- get_int cv "finitenuc"; do Rrms <- get_double cv "Rrms"; do Rhalf <- get_double cv "Rhalf";
  do bval <- get_vector cv "bval";
  do nq <- get_int cv "n_quad"; do pid <- get_int cv "poly_id"; do nn <- get_int cv "poly_nnodes";
  do zd <- get_int cv "zeroder";
  do lm <- get_imat cv "lval"; do mm <- get_imat cv "mval";
  do lval <- col0 lm; do mval <- col0 mm;
  ret (mkAP Z_ Zl Zr Rhalf bval fn Rrms nq pid nn zd lval mval)).

(** 650-688 *)
Definition read_diatomic (cv : conv) : M diatomic_pars :=
  opened (
  do id <- get_int cv "HelFEM_ID";
  if negb (id =? 2)%Z then throw LogicError else
  do Z1 <- get_int cv "Z1"; do Z2 <- get_int cv "Z2"; do Rhalf <- get_double cv "Rhalf";
  do bval <- get_vector cv "bval";
  do nq <- get_int cv "n_quad"; do pid <- get_int cv "poly_id"; do nn <- get_int cv "poly_nnodes";
  do lm <- get_imat cv "lval"; do mm <- get_imat cv "mval";
  do lval <- col0 lm; do mval <- col0 mm;
  ret (mkDP Z1 Z2 Rhalf bval nq pid nn lval mval)).
