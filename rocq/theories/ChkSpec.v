(** Vocabulary for the checkpoint properties. *)
Require Import String Ascii List Bool Arith ZArith.
Require Import Verif.Prelude Verif.ChkModel.
Import ListNotations.

(** The type a value is read back as. *)
Definition kind_of (v : value) : kind :=
  match v with
  | VMat t _ _ _ => KMat t | VVec t _ => KVec t | VIMat _ _ _ => KIMat | VList t _ => KList t
  | VHList _ => KHList | VFloat t _ => KFloat t | VInt _ => KInt | VHsize _ => KHsize
  | VBool _ => KBool | VString _ => KString
  end.

(** The ranges of int, hsize_t (64 bits, unsigned), hbool_t (one byte) and char. *)
Definition in_itype (t : itype) (z : Z) : Prop :=
  match t with
  | IInt => - 2 ^ 31 <= z < 2 ^ 31
  | IHsize => 0 <= z < 2 ^ 64
  | IHbool => 0 <= z < 2 ^ 8
  | IChar => - 2 ^ 7 <= z < 2 ^ 7
  end%Z.
Fixpoint nul_free (s : string) : Prop :=
  match s with EmptyString => True | String c r => c <> zero /\ nul_free r end.

(** Values a caller can have: buffers of the right size, integers of the C++
    type; strings without NUL. *)
Definition value_ok (v : value) : Prop :=
  match v with
  | VMat _ r c buf => length buf = (r * c)%nat
  | VIMat r c buf => length buf = (r * c)%nat /\ Forall (in_itype IInt) buf
  | VHList l => Forall (in_itype IHsize) l
  | VInt x => in_itype IInt x
  | VHsize x => in_itype IHsize x
  | VString s => nul_free s
  | _ => True
  end.

(** Reading with the type on disk converts nothing. *)
Definition conv_ok (cv : conv) : Prop := forall t x, c_ff cv t t x = x.

(** The abstract store: a map from names to values. *)
Definition smap := string -> option value.
Definition put (m : smap) (n : string) (v : option value) : smap := fun n' =>
  if String.eqb n' n then v else m n'.
Definition effect (m : smap) (o : op) : smap :=
  match o with OWrite n v => put m n (Some v) | ORemove n => put m n None | _ => m end.

(** The file contains exactly the entries of the map. *)
Definition represents (f : fsentry) (m : smap) : Prop :=
  (forall n v, m n = Some v -> value_ok v) /\
  exists c, f = H5 c /\ forall n, c n = option_map encode (m n).

(** What a caller of each operation must see. *)
Definition expected (writable : bool) (m : smap) (o : op) (a : res answer) : Prop :=
  match o with
  | OExist n => a = Ok (ABool (match m n with Some _ => true | None => false end))
  | OWrite _ _ | ORemove _ => a = if writable then Ok AUnit else Throw RuntimeError
  | ORead n k => match m n with
                 | None => a = Throw RuntimeError
                 | Some v => k = kind_of v -> a = Ok (AValue v)
                 end
  | OFlush => a = Ok AUnit
  | OOpen | OClose => True
  end.

(** The answers to a history, and the map at its end. *)
Fixpoint follows (writable : bool) (m : smap) (ops : list op) (l : list (res answer)) : Prop :=
  match ops, l with
  | [], [] => True
  | o :: r, a :: l' => expected writable m o a /\ follows writable (if writable then effect m o else m) r l'
  | _, _ => False
  end.
Definition final (writable : bool) (m : smap) (ops : list op) : smap :=
  if writable then fold_left effect ops m else m.

(** Names that are not paths, values of the C++ types. *)
Definition op_ok (o : op) : Prop :=
  match o with
  | OExist n | ORemove n | ORead n _ => simple n = true
  | OWrite n v => simple n = true /\ value_ok v
  | _ => True
  end.

(** Numeric class and rank of what a value is stored as. *)
Inductive class := Floats | Integers.
Definition class_of (v : value) : class :=
  match v with VMat _ _ _ _ | VVec _ _ | VList _ _ | VFloat _ _ => Floats | _ => Integers end.
Definition rank_of (v : value) : nat :=
  match v with VMat _ _ _ _ | VVec _ _ | VIMat _ _ _ => 2 | VList _ _ | VHList _ | VString _ => 1 | _ => 0 end.
Definition kind_class (k : kind) : class :=
  match k with KMat _ | KVec _ | KList _ | KFloat _ => Floats | _ => Integers end.
Definition kind_rank (k : kind) : nat :=
  match k with KMat _ | KVec _ | KIMat => 2 | KList _ | KHList | KString => 1 | _ => 0 end.

(** Integer parameters of a basis are C++ ints. *)
Definition atomic_ok (p : atomic_pars) : Prop :=
  Forall (fun e => value_ok (snd e)) (atomic_entries p).
Definition diatomic_ok (p : diatomic_pars) : Prop :=
  Forall (fun e => value_ok (snd e)) (diatomic_entries p).
Definition touches (o : op) (n : string) : Prop :=
  match o with OWrite n' _ | ORemove n' => n' = n | _ => False end.

(** What a crash during an operation on a store with map [m] can leave in the
    file: all other entries as before, and the entry of the operation old, gone,
    with a value of zeros, or new. *)
Definition crash_state (m : smap) (o : op) (c : content) : Prop :=
  (forall n, ~ touches o n -> c n = option_map encode (m n)) /\
  match o with
  | OWrite n v => c n = option_map encode (m n) \/ c n = None \/ c n = Some (blank (encode v)) \/ c n = Some (encode v)
  | ORemove n => c n = option_map encode (m n) \/ c n = None
  | _ => True
  end.

Definition smap_empty : smap := fun _ => None.

(** What a new object sees. *)
Definition initial (f : fsentry) (writem trunc : bool) (m : smap) : smap :=
  if (writem && (trunc || match f with Absent => true | _ => false end))%bool then smap_empty else m.

Definition with_open (b : bool) (s : chk) : chk := mkChk (k_write s) b (k_file s) (k_trace s).

Definition chk_empty (writem : bool) : chk := mkChk writem false (H5 (fun _ => None)) [].

Definition conv0 : conv := mkConv (fun _ _ x => x) (fun _ x => x).
