(** C48: the command line. *)
Require Import String Ascii List Bool Permutation.
Require Import Verif.Prelude Verif.CmdModel Verif.CmdSpec Verif.CmdProofs.
Import ListNotations.
Open Scope string_scope.

(** Every list of arguments has exactly one reading. *)
Theorem C48_reading {V} (os : list (opt V)) (t : list string) :
  exists items, reading os items t /\ forall items', reading os items' t -> items' = items.
Proof. exact (reading_all os t). Qed.
Example C48_reading_case : reading (options demo) demo_items demo_args.
Proof. exact (proj2 (proj2 demo_ok)). Qed.
Print Assumptions C48_reading.

(** Parsing never reads outside the arguments and always ends. *)
Theorem C48_bounds {V} (p : parser V) (argv : list string) :
  NoDup (names (options p)) ->
  exists b p', parse argv p = Ok (b, p') /\ names (options p') = names (options p) /\ shorts (options p') = shorts (options p).
Proof. exact (parse_total p argv). Qed.
Example C48_bounds_case : NoDup (names (options demo)).
Proof. exact (proj1 demo_ok). Qed.
Print Assumptions C48_bounds.

(** The options, plain arguments and errors that parsing gives. *)
Theorem C48_parse {V} (p : parser V) (a0 : string) (t : list string) (items : list item) :
  NoDup (names (options p)) -> NoDup (shorts (options p)) -> reading (options p) items t ->
  exists b p', parse (a0 :: t) p = Ok (b, p') /\
    options p' = map (after (settings (options p) items)) (options p) /\
    others p' = plains items /\
    errors p' = (flat_map (complaint (options p)) (settings (options p) items) ++ needs (options p'))%list /\
    (b = true <-> errors p' = []).
Proof. exact (parse_ok p a0 t items). Qed.
Example C48_parse_case : NoDup (names (options demo)) /\ NoDup (shorts (options demo)) /\ reading (options demo) demo_items demo_args.
Proof. exact demo_ok. Qed.
Print Assumptions C48_parse.

(** The line is accepted exactly if every option on it is obeyed and every needed option is set. *)
Theorem C48_accepts {V} (p : parser V) (a0 : string) (t : list string) (items : list item) :
  NoDup (names (options p)) -> NoDup (shorts (options p)) -> reading (options p) items t ->
  (exists p', parse (a0 :: t) p = Ok (true, p')) <->
  (forall s, In s (settings (options p) items) -> good (options p) s) /\
  (forall o, In o (options p) -> missing o = true -> exists s, In s (settings (options p) items) /\ gives o s).
Proof. exact (accepts p a0 t items). Qed.
Example C48_accepts_case : exists p', parse ("prog" :: demo_args) demo = Ok (true, p') /\
  get 0 "Z" p' = Ok 1 /\ get 0 "lmax" p' = Ok 2 /\ exist "verbose" p' = Ok true /\ others p' = ["in.dat"].
Proof. exact demo_accepted. Qed.
Example C48_rejects_case : exists p', parse ("prog" :: demo_bad) demo = Ok (false, p') /\
  errors p' = ["option value is invalid: --Z=9"; "undefined option: --nope"; "undefined short option: -x";
               "option value is invalid: --verbose=1"; "option needs value: --lmax"; "need option: --Z"].
Proof. exact demo_rejected. Qed.
Print Assumptions C48_accepts.

(** The last readable value given to an option is its value; without one it keeps its value. *)
Theorem C48_value {V} (p : parser V) (a0 : string) (t : list string) (items : list item) (b : bool) (p' : parser V)
    (n : string) (o : opt V) (need : bool) (ty : nat) (rd : string -> option V) (v : V) :
  NoDup (names (options p)) -> NoDup (shorts (options p)) -> reading (options p) items t ->
  parse (a0 :: t) p = Ok (b, p') -> declared (options p) n = Some o -> o_kind o = Val need ty rd v ->
  exists v', get ty n p' = Ok v' /\ final_value n rd v v' (settings (options p) items).
Proof. exact (value p a0 t items b p' n o need ty rd v). Qed.
Example C48_value_case : exists p', parse ("prog" :: demo_args) demo = Ok (true, p') /\
  get 0 "Z" p' = Ok 1 /\ get 0 "lmax" p' = Ok 2 /\ exist "verbose" p' = Ok true /\ others p' = ["in.dat"].
Proof. exact demo_accepted. Qed.
Print Assumptions C48_value.

(** An option is reported as given exactly if it was given, now or before. *)
Theorem C48_exist {V} (p : parser V) (a0 : string) (t : list string) (items : list item) (b : bool) (p' : parser V) (n : string) (o : opt V) :
  NoDup (names (options p)) -> NoDup (shorts (options p)) -> reading (options p) items t ->
  parse (a0 :: t) p = Ok (b, p') -> declared (options p) n = Some o ->
  exists h, exist n p' = Ok h /\ (h = true <-> o_has o = true \/ exists s, In s (settings (options p) items) /\ gives o s).
Proof. exact (given_flag p a0 t items b p' n o). Qed.
Example C48_exist_case : exists p', parse ("prog" :: demo_args) demo = Ok (true, p') /\
  get 0 "Z" p' = Ok 1 /\ get 0 "lmax" p' = Ok 2 /\ exist "verbose" p' = Ok true /\ others p' = ["in.dat"].
Proof. exact demo_accepted. Qed.
Print Assumptions C48_exist.

(** Two options with one letter: nothing is parsed. *)
Theorem C48_ambiguous {V} (p : parser V) (a0 : string) (t : list string) :
  ~ NoDup (shorts (options p)) ->
  exists c p', parse (a0 :: t) p = Ok (false, p') /\ options p' = options p /\ others p' = [] /\ In c (shorts (options p)) /\
    errors p' = ["short option '" ++ String c "' is ambiguous"].
Proof. exact (parse_ambiguous p a0 t). Qed.
Example C48_ambiguous_case : ~ NoDup (shorts (options demo2)).
Proof. exact demo2_ambiguous. Qed.
Print Assumptions C48_ambiguous.

(** Without a program name there is nothing to parse. *)
Theorem C48_empty {V} (p : parser V) :
  exists p', parse [] p = Ok (false, p') /\ options p' = options p /\ others p' = [] /\ errors p' = ["argument number must be longer than 0"].
Proof. exact (parse_empty p). Qed.
Print Assumptions C48_empty.

(** Parsing the same arguments again changes nothing. *)
Theorem C48_twice {V} (p : parser V) (a0 : string) (t : list string) (b : bool) (p' : parser V) :
  NoDup (names (options p)) -> parse (a0 :: t) p = Ok (b, p') ->
  exists p2, parse (a0 :: t) p' = Ok (b, p2) /\ options p2 = options p' /\ others p2 = others p' /\ errors p2 = errors p'.
Proof. exact (twice p a0 t b p'). Qed.
Example C48_twice_case : exists p', parse ("prog" :: demo_args) demo = Ok (true, p') /\
  get 0 "Z" p' = Ok 1 /\ get 0 "lmax" p' = Ok 2 /\ exist "verbose" p' = Ok true /\ others p' = ["in.dat"].
Proof. exact demo_accepted. Qed.
Print Assumptions C48_twice.

(** Declaring an option twice is refused; a new one is added and the others stay. *)
Theorem C48_add {V} (name : string) (short : option ascii) (k : kind V) (p : parser V) :
  (In name (names (options p)) -> add name short k p = Throw RuntimeError) /\
  (~ In name (names (options p)) ->
   exists p', add name short k p = Ok p' /\ Permutation (names (options p')) (name :: names (options p)) /\
     declared (options p') name = Some {| o_name := name; o_short := short; o_kind := k; o_has := false |} /\
     (forall m, m <> name -> declared (options p') m = declared (options p) m)).
Proof. exact (add_ok name short k p). Qed.
Theorem C48_add_distinct {V} (name : string) (short : option ascii) (k : kind V) (p p' : parser V) :
  NoDup (names (options p)) -> add name short k p = Ok p' -> NoDup (names (options p')).
Proof. exact (add_nodup name short k p p'). Qed.
Example C48_add_case : ~ In "Q" (names (options demo)) /\ In "Z" (names (options demo)).
Proof. exact demo_add. Qed.
Print Assumptions C48_add.
Print Assumptions C48_add_distinct.

(** parse_check lets the program go on exactly if the line is accepted and help is not asked for;
    the exit code is one exactly if the line is wrong, is not empty, and help is not asked for. *)
Theorem C48_check {V} (argv : list string) (p : parser V) :
  NoDup (names (options p)) ->
  exists p1 b p' h e,
    (In "help" (names (options p)) /\ p1 = p \/ ~ In "help" (names (options p)) /\ add "help" (Some "?"%char) Flag p = Ok p1) /\
    parse argv p1 = Ok (b, p') /\ exist "help" p' = Ok h /\ parse_check argv p = Ok (e, p') /\
    (e = None <-> b = true /\ h = false) /\
    (e = Some 1 <-> b = false /\ h = false /\ length argv <> 1) /\
    (e = Some 0 <-> h = true \/ b = false /\ length argv = 1).
Proof. exact (check_ok argv p). Qed.
Example C48_check_case : NoDup (names (options demo)).
Proof. exact (proj1 demo_ok). Qed.
Print Assumptions C48_check.

(** The arguments written in a string: separated by spaces, with quotes and escapes. *)
Theorem C48_tokens (s : string) (args : list string) : split_args s "" false [] = inl args <-> tokens s args.
Proof. exact (tokens_ok s args). Qed.
Example C48_tokens_case : tokens demo_text ["prog"; "--a=x y"; "b c"].
Proof. exact demo_tokens. Qed.
Print Assumptions C48_tokens.

(** Parsing a string is parsing its arguments; a string that stands for none is refused. *)
Theorem C48_string {V} (s : string) (p : parser V) :
  (forall a args, tokens s (a :: args) -> parse_string s p = parse (a :: args) p) /\
  ((forall args, ~ tokens s args) ->
   exists e, (e = "quote is not closed" \/ e = "unexpected occurrence of '\' at end of string") /\
     parse_string s p = Ok (false, push_error e p)).
Proof. exact (string_ok s p). Qed.
Example C48_string_case : forall args, ~ tokens "a ""b" args.
Proof. exact demo_unclosed. Qed.
Print Assumptions C48_string.

(** The empty string stands for the empty list, whose first element does not exist. *)
Theorem C48_string_refuted {V} (p : parser V) : tokens "" [] /\ parse_string "" p = UB.
Proof. exact (empty_string p). Qed.
Print Assumptions C48_string_refuted.
