(** C27-C31: the checkpoint file. *)
Require Import String Ascii List Bool Arith ZArith.
Require Import Verif.Prelude Verif.ChkModel Verif.ChkSpec Verif.ChkProofs.
Import ListNotations.
Open Scope string_scope.

(* ------------------------------- C27 -------------------------------- *)

(** Open a checkpoint on a file that is absent or holds some map, run any history,
    drop the object, open another one on the same file without truncation and run
    any other history.  All answers are those of a finite map, and the file holds
    that map at the end. *)
Theorem checkpoint_is_key_value_store : forall cv can_create f m writem trunc ops writem2 ops2, conv_ok cv ->
  (f = Absent \/ represents f m) -> Forall op_ok ops -> Forall op_ok ops2 ->
  let o1 := construct can_create writem trunc f in
  fst o1 = Ok tt ->
  let r1 := run cv ops (snd o1) in
  let m1 := final writem (initial f writem trunc m) ops in
  follows writem (initial f writem trunc m) ops (fst r1) /\
  represents (k_file (snd r1)) m1 /\
  let o2 := construct can_create writem2 false (k_file (snd r1)) in
  fst o2 = Ok tt /\
  let r2 := run cv ops2 (snd o2) in
  follows writem2 m1 ops2 (fst r2) /\ represents (k_file (snd r2)) (final writem2 m1 ops2).
Proof. exact kv_store. Qed.
Print Assumptions checkpoint_is_key_value_store.
Example key_value_store_example : (Forall op_ok demo_ops /\ conv_ok conv0) /\
  fst (construct true true true Absent) = Ok tt.
Proof. exact (conj demo_ok eq_refl). Qed.
Example key_value_store_answers : fst (run conv0 demo_ops (snd (construct true true true Absent))) =
  [Ok AUnit; Throw RuntimeError; Ok (ABool true); Ok AUnit; Ok AUnit; Ok AUnit; Ok (AValue (VMat FDouble 1 2 [5; 6]%Z));
   Ok AUnit; Throw RuntimeError].
Proof. exact demo_answers. Qed.

(** The constructor succeeds exactly when it may create the file or the file is
    an HDF5 file; otherwise it throws. *)
Theorem checkpoint_constructor : forall can_create writem trunc f, can_create = true ->
  (fst (construct can_create writem trunc f) = Ok tt <->
   (writem = true /\ (trunc = true \/ f = Absent)) \/ exists c, f = H5 c) /\
  (fst (construct can_create writem trunc f) = Ok tt \/ fst (construct can_create writem trunc f) = Throw RuntimeError).
Proof. exact construct_fails. Qed.
Print Assumptions checkpoint_constructor.

(* ------------------------------- C28 -------------------------------- *)

(** Whatever the file is, every call but open and close that succeeds leaves an
    open file open and a closed file closed.  Missing: calls that fail. *)
Theorem checkpoint_state_restored_partial : forall cv o s a s', o <> OOpen -> o <> OClose ->
  step cv o s = (Ok a, s') -> k_open s' = k_open s.
Proof. exact step_restores. Qed.
Print Assumptions checkpoint_state_restored_partial.

(** On an HDF5 file all calls but reads restore the state even if they fail, and
    open and close throw without effect if there is nothing to do. *)
Theorem checkpoint_open_state_partial : forall cv o s c, op_ok o -> k_file s = H5 c ->
  match o with
  | OOpen => step cv o s = if k_open s then (Throw RuntimeError, s) else (Ok AUnit, with_open true s)
  | OClose => step cv o s = if k_open s then (Ok AUnit, with_open false s) else (Throw RuntimeError, s)
  | ORead _ _ => (forall a, fst (step cv o s) = Ok a -> snd (step cv o s) = s)
  | _ => k_open (snd (step cv o s)) = k_open s
  end.
Proof. exact step_open_state. Qed.
Print Assumptions checkpoint_open_state_partial.
Example open_state_example : op_ok (ORead "E" (KFloat FDouble)) /\ k_file (chk_empty true) = H5 (fun _ => None).
Proof. exact (conj eq_refl eq_refl). Qed.

(** The full claim is false: a read that fails on a closed file leaves it open,
    and the next call to open throws. *)
Theorem checkpoint_state_restored_refuted : ~ (forall cv o s, op_ok o -> (exists c, k_file s = H5 c) ->
  o <> OOpen -> o <> OClose -> k_open (snd (step cv o s)) = k_open s).
Proof. exact restores_refuted_ok. Qed.
Print Assumptions checkpoint_state_restored_refuted.
Theorem checkpoint_reopen_refuted : forall cv, let s := chk_empty false in
  step cv (ORead "Etot" (KFloat FDouble)) s = (Throw RuntimeError, with_open true s) /\
  fst (step cv OOpen (snd (step cv (ORead "Etot" (KFloat FDouble)) s))) = Throw RuntimeError.
Proof. exact failing_read. Qed.
Print Assumptions checkpoint_reopen_refuted.

(* ------------------------------- C29 -------------------------------- *)

(** Every value is read back as it was written. *)
Theorem checkpoint_roundtrip : forall cv n v s c, conv_ok cv -> value_ok v -> simple n = true ->
  k_write s = true -> k_file s = H5 c ->
  fst (write n v s) = Ok tt /\ fst (read cv n (kind_of v) (snd (write n v s))) = Ok v.
Proof. exact roundtrip_ok. Qed.
Print Assumptions checkpoint_roundtrip.
Example roundtrip_example : value_ok (VMat FDouble 0 3 []) /\ value_ok (VString "H2") /\ simple "S" = true.
Proof. exact roundtrip_example_ok. Qed.

(** A matrix read in another precision has the same shape and converted entries. *)
Theorem checkpoint_other_precision : forall cv n t t' r cols buf s c, simple n = true -> k_write s = true -> k_file s = H5 c ->
  fst (read cv n (KMat t') (snd (write n (VMat t r cols buf) s))) = Ok (VMat t' r cols (map (c_ff cv t t') buf)).
Proof. exact precision_ok. Qed.
Print Assumptions checkpoint_other_precision.

(** A read of another rank throws, and so does one of another class except for
    integer matrices and booleans.  Missing: those two. *)
Theorem checkpoint_mismatch_throws_partial : forall cv n v k s c, simple n = true -> k_write s = true -> k_file s = H5 c ->
  (kind_rank k <> rank_of v \/ (kind_class k <> class_of v /\ k <> KIMat /\ k <> KBool)) ->
  fst (read cv n k (snd (write n v s))) = Throw RuntimeError.
Proof. exact mismatch_ok. Qed.
Print Assumptions checkpoint_mismatch_throws_partial.
Example mismatch_example : kind_rank (KMat FDouble) <> rank_of (VInt 3).
Proof. exact mismatch_example_ok. Qed.

(** The full claim is false.  A float matrix is read as an integer matrix of
    transposed shape, a float as a boolean, and a list of integers that has no zero
    is read as a string past its end. *)
Theorem checkpoint_class_check_refuted : let s := chk_empty true in
  fst (read conv0 "S" KIMat (snd (write "S" (VMat FDouble 1 2 [11; 22]%Z) s))) = Ok (VIMat 2 1 [11; 22]%Z) /\
  fst (read conv0 "E" KBool (snd (write "E" (VFloat FDouble 7%Z) s))) = Ok (VBool true) /\
  fst (read conv0 "v" KString (snd (write "v" (VHList [65; 66]%Z) s))) = UB.
Proof. exact class_refuted. Qed.
Print Assumptions checkpoint_class_check_refuted.

(** A string with an embedded NUL comes back cut. *)
Theorem checkpoint_embedded_nul_refuted : let s := chk_empty true in let v := VString (String "a" (String zero "b")) in
  fst (read conv0 "s" KString (snd (write "s" v s))) = Ok (VString "a") /\ VString "a" <> v.
Proof. exact nul_refuted. Qed.
Print Assumptions checkpoint_embedded_nul_refuted.

(* ------------------------------- C30 -------------------------------- *)

(** Every content the file goes through during a history is one that a crash in
    some operation of the history may leave: all other entries are as before that
    operation.  Missing: the entry being written may be gone or blank. *)
Theorem checkpoint_crash_partial : forall cv ops, conv_ok cv -> forall s m c, Forall op_ok ops ->
  represents (k_file s) m -> In c (k_trace (snd (run cv ops s))) ->
  In c (k_trace s) \/
  exists before o after, ops = (before ++ o :: after)%list /\
    crash_state (final (k_write s) m before) o c.
Proof. exact crash_ok. Qed.
Print Assumptions checkpoint_crash_partial.

(** A crash while an entry is replaced can leave neither the old nor the new
    value: first the entry is gone, then it holds zeros. *)
Theorem checkpoint_crash_refuted : let s := snd (run conv0 [OWrite "P" (VFloat FDouble 5)] (chk_empty true)) in
  let s' := snd (step conv0 (OWrite "P" (VFloat FDouble 6)) s) in
  exists c, In c (k_trace s') /\ ~ In c (k_trace s) /\ c "P" = None /\
  exists c2, In c2 (k_trace s') /\ c2 "P" = Some (mkDs (TFloat FDouble) Scalar [0%Z]).
Proof. exact crash_refuted_ok. Qed.
Print Assumptions checkpoint_crash_refuted.

(* ------------------------------- C31 -------------------------------- *)

(** A basis written to a checkpoint is read back with the same parameters after
    any operations on other entries, and cannot be read as a basis of the other
    program. *)
Theorem atomic_basis_roundtrip : forall cv p ops s c, conv_ok cv -> atomic_ok p -> k_write s = true -> k_file s = H5 c ->
  Forall op_ok ops -> (forall o e, In o ops -> In e (atomic_entries p) -> ~ touches o (fst e)) ->
  fst (write_atomic p s) = Ok tt /\
  let s' := snd (run cv ops (snd (write_atomic p s))) in
  fst (read_atomic cv s') = Ok p /\ fst (read_diatomic cv s') = Throw LogicError.
Proof. exact atomic_roundtrip_ok. Qed.
Print Assumptions atomic_basis_roundtrip.
Example atomic_basis_example : atomic_ok he_basis.
Proof. exact he_ok. Qed.

Theorem diatomic_basis_roundtrip : forall cv p ops s c, conv_ok cv -> diatomic_ok p -> k_write s = true -> k_file s = H5 c ->
  Forall op_ok ops -> (forall o e, In o ops -> In e (diatomic_entries p) -> ~ touches o (fst e)) ->
  fst (write_diatomic p s) = Ok tt /\
  let s' := snd (run cv ops (snd (write_diatomic p s))) in
  fst (read_diatomic cv s') = Ok p /\ fst (read_atomic cv s') = Throw LogicError.
Proof. exact diatomic_roundtrip_ok. Qed.
Print Assumptions diatomic_basis_roundtrip.
Example diatomic_basis_example : diatomic_ok h2_basis.
Proof. exact h2_ok. Qed.
