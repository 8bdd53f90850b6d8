(** Model of /repo/src/general/cmdline.h: the command line parser.  The value types are one
    type [V]; the conversion of a string to a value is part of the declaration of the option,
    None being an exception.  Strings hold no NUL.  The usage text is not modelled. *)
Require Import String Ascii List Bool Arith.
Require Import Verif.Prelude.
Import ListNotations.
Open Scope string_scope.

Section Cmd.
Context {V : Type}.

(** cmdline.h:640-777: option_without_value and option_with_value.  [type] stands for the C++
    type, [actual] is the current value. *)
Inductive kind := Flag | Val (need : bool) (type : nat) (reader : string -> option V) (actual : V).
Record opt := { o_name : string; o_short : option ascii; o_kind : kind; o_has : bool }.
(** cmdline.h:799-807: the members; [options] is the map, in the order of its keys. *)
Record parser := { options : list opt; others : list string; errors : list string; prog_name : string }.
(** cmdline.h:312: the constructor. *)
Definition new_parser : parser := {| options := []; others := []; errors := []; prog_name := "" |}.

(** options.count and options.find. *)
Definition find_opt (name : string) (os : list opt) : option opt := find (fun o => o_name o =? name) os.
Definition count (name : string) (os : list opt) : bool := match find_opt name os with Some _ => true | None => false end.
(** Insertion into the map, which is ordered by the keys. *)
Fixpoint insert (o : opt) (os : list opt) : list opt :=
  match os with
  | [] => [o]
  | a :: r => if String.ltb (o_name o) (o_name a) then o :: os else a :: insert o r
  end.
Definition set_options (p : parser) (os : list opt) : parser :=
  {| options := os; others := others p; errors := errors p; prog_name := prog_name p |}.
Definition push_error (e : string) (p : parser) : parser :=
  {| options := options p; others := others p; errors := (errors p ++ [e])%list; prog_name := prog_name p |}.
Definition push_other (s : string) (p : parser) : parser :=
  {| options := options p; others := (others p ++ [s])%list; errors := errors p; prog_name := prog_name p |}.

(** cmdline.h:320-346: add, without and with a value.  A cmdline_error is a RuntimeError. *)
Definition add (name : string) (short : option ascii) (k : kind) (p : parser) : res parser :=
  if count name (options p) then Throw RuntimeError
  else Ok (set_options p (insert {| o_name := name; o_short := short; o_kind := k; o_has := false |} (options p))).
(** cmdline.h:356-359: exist. *)
Definition exist (name : string) (p : parser) : res bool :=
  match find_opt name (options p) with None => Throw RuntimeError | Some o => Ok (o_has o) end.
(** cmdline.h:361-367: get. *)
Definition get (type : nat) (name : string) (p : parser) : res V :=
  match find_opt name (options p) with
  | None => Throw RuntimeError
  | Some o => match o_kind o with
              | Val _ t _ v => if (t =? type)%nat then Ok v else Throw RuntimeError
              | Flag => Throw RuntimeError
              end
  end.

(** cmdline.h:648, 711: has_value. *)
Definition has_value (o : opt) : bool := match o_kind o with Flag => false | Val _ _ _ _ => true end.
(** cmdline.h:650-653, 713-715: set(). *)
Definition set0 (o : opt) : option opt :=
  match o_kind o with
  | Flag => Some {| o_name := o_name o; o_short := o_short o; o_kind := Flag; o_has := true |}
  | Val _ _ _ _ => None
  end.
(** cmdline.h:655-657, 717-726: set(value). *)
Definition set1 (value : string) (o : opt) : option opt :=
  match o_kind o with
  | Flag => None
  | Val need t reader _ =>
      match reader value with
      | None => None
      | Some v => Some {| o_name := o_name o; o_short := o_short o; o_kind := Val need t reader v; o_has := true |}
      end
  end.
(** cmdline.h:663-665, 732-735: valid. *)
Definition valid (o : opt) : bool := match o_kind o with Flag => true | Val need _ _ _ => negb (need && negb (o_has o)) end.
(** Writing through the pointer stored in the map. *)
Definition store (name : string) (o : opt) (os : list opt) : list opt := map (fun a => if o_name a =? name then o else a) os.

(** cmdline.h:601-610: set_option(name). *)
Definition set_option0 (name : string) (p : parser) : parser :=
  match find_opt name (options p) with
  | None => push_error ("undefined option: --" ++ name) p
  | Some o => match set0 o with
              | None => push_error ("option needs value: --" ++ name) p
              | Some o' => set_options p (store name o' (options p))
              end
  end.
(** cmdline.h:612-621: set_option(name, value). *)
Definition set_option1 (name value : string) (p : parser) : parser :=
  match find_opt name (options p) with
  | None => push_error ("undefined option: --" ++ name) p
  | Some o => match set1 value o with
              | None => push_error ("option value is invalid: --" ++ name ++ "=" ++ value) p
              | Some o' => set_options p (store name o' (options p))
              end
  end.

(** cmdline.h:437-450: the map from short names to names, or the ambiguous short name. *)
Definition lookup_t := list (ascii * string).
Definition look (c : ascii) (lk : lookup_t) : option string :=
  match find (fun e => Ascii.eqb (fst e) c) lk with Some e => Some (snd e) | None => None end.
Fixpoint build (os : list opt) (lk : lookup_t) : lookup_t + ascii :=
  match os with
  | [] => inl lk
  | o :: r =>
      if o_name o =? "" then build r lk
      else match o_short o with
           | None => build r lk
           | Some c => match look c lk with
                       | Some _ => inr c
                       | None => build r (lk ++ [(c, o_name o)])%list
                       end
           end
  end.

(** The three forms of an argument: "--...", "-..." and others. *)
Inductive form := LongForm (rest : string) | ShortForm (rest : string) | Word.
Definition classify (a : string) : form :=
  match a with
  | EmptyString => Word
  | String c a' =>
      if Ascii.eqb c "-" then
        match a' with
        | String d r => if Ascii.eqb d "-" then LongForm r else ShortForm a'
        | EmptyString => ShortForm ""
        end
      else Word
  end.
(** cmdline.h:454: strchr for '='. *)
Fixpoint split_eq (s : string) : option (string * string) :=
  match s with
  | EmptyString => None
  | String c r => if Ascii.eqb c "=" then Some ("", r)
                  else match split_eq r with Some (n, v) => Some (String c n, v) | None => None end
  end.

(** cmdline.h:486-494: one letter of a cluster that is not the last. *)
Definition letter (lk : lookup_t) (c : ascii) (p : parser) : parser :=
  match look c lk with
  | None => push_error ("undefined short option: -" ++ String c "") p
  | Some n => if n =? "" then push_error ("ambiguous short option: -" ++ String c "") p else set_option0 n p
  end.
(** cmdline.h:483-495: the loop over the letters; the last letter is returned. *)
Fixpoint cluster (lk : lookup_t) (last : ascii) (cs : string) (p : parser) : ascii * parser :=
  match cs with
  | EmptyString => (last, p)
  | String d r => cluster lk d r (letter lk last p)
  end.

(** cmdline.h:452-517: the loop over the arguments.  Reading an argument that does not exist
    is undefined. *)
Fixpoint loop (fuel : nat) (argv : list string) (lk : lookup_t) (i : nat) (p : parser) : res parser :=
  if (i <? length argv)%nat then
    match fuel with
    | O => OutOfFuel
    | S f =>
        match nth_error argv i with
        | None => UB
        | Some a =>
            match classify a with
            | LongForm rest =>
                match split_eq rest with
                | Some (name, val) => loop f argv lk (i + 1) (set_option1 name val p)
                | None =>
                    match find_opt rest (options p) with
                    | None => loop f argv lk (i + 1) (push_error ("undefined option: --" ++ rest) p)
                    | Some o =>
                        if has_value o then
                          if (length argv <=? i + 1)%nat then loop f argv lk (i + 1) (push_error ("option needs value: --" ++ rest) p)
                          else match nth_error argv (i + 1) with
                               | None => UB
                               | Some v => loop f argv lk (i + 1 + 1) (set_option1 rest v p)
                               end
                        else loop f argv lk (i + 1) (set_option0 rest p)
                    end
                end
            | ShortForm EmptyString => loop f argv lk (i + 1) p
            | ShortForm (String c cs) =>
                let '(last, p) := cluster lk c cs p in
                match look last lk with
                | None => loop f argv lk (i + 1) (push_error ("undefined short option: -" ++ String last "") p)
                | Some n =>
                    if n =? "" then loop f argv lk (i + 1) (push_error ("ambiguous short option: -" ++ String last "") p)
                    else
                      if (i + 1 <? length argv)%nat && match find_opt n (options p) with Some o => has_value o | None => false end then
                        match nth_error argv (i + 1) with
                        | None => UB
                        | Some v => loop f argv lk (i + 1 + 1) (set_option1 n v p)
                        end
                      else loop f argv lk (i + 1) (set_option0 n p)
                end
            | Word => loop f argv lk (i + 1) (push_other a p)
            end
        end
    end
  else Ok p.

(** cmdline.h:519-524: the options that are needed. *)
Definition needed (p : parser) : parser :=
  fold_left (fun p o => if valid o then p else push_error ("need option: --" ++ o_name o) p) (options p) p.
Definition no_errors (p : parser) : bool := match errors p with [] => true | _ => false end.

(** cmdline.h:426-525: parse. *)
Definition parse (argv : list string) (p : parser) : res (bool * parser) :=
  let p := {| options := options p; others := []; errors := []; prog_name := prog_name p |} in
  match argv with
  | [] => Ok (false, push_error "argument number must be longer than 0" p)
  | a0 :: _ =>
      let p := {| options := options p; others := others p; errors := errors p; prog_name := if prog_name p =? "" then a0 else prog_name p |} in
      match build (options p) [] with
      | inr c => Ok (false, push_error ("short option '" ++ String c "' is ambiguous") p)
      | inl lk =>
          bind (loop (length argv) argv lk 1 p) (fun p =>
          let p := needed p in
          Ok (no_errors p, p))
      end
  end.

(** cmdline.h:546-548: error. *)
Definition error (p : parser) : string := match errors p with [] => "" | e :: _ => e end.

(** cmdline.h:587-599: check, as the exit code of the program, None if it goes on. *)
Definition check (argc : nat) (ok : bool) (p : parser) : res (option nat) :=
  if ((argc =? 1)%nat && negb ok)%bool then Ok (Some 0%nat)
  else bind (exist "help" p) (fun h =>
       if h then Ok (Some 0%nat) else if negb ok then Ok (Some 1%nat) else Ok None).
(** cmdline.h:539-543: parse_check. *)
Definition parse_check (argv : list string) (p : parser) : res (option nat * parser) :=
  bind (if count "help" (options p) then Ok p else add "help" (Some "?"%char) Flag p) (fun p =>
  bind (parse argv p) (fun '(ok, p) =>
  bind (check (length argv) ok p) (fun e => Ok (e, p)))).
End Cmd.
Arguments kind : clear implicits.
Arguments opt : clear implicits.
Arguments parser : clear implicits.

(** cmdline.h:374-408: splitting of a string into arguments.  The result is the list of
    arguments or the error. *)
Fixpoint split_args (s : string) (buf : string) (in_quote : bool) (args : list string) : list string + string :=
  match s with
  | EmptyString =>
      if in_quote then inr "quote is not closed"
      else inl (if (0 <? String.length buf)%nat then (args ++ [buf])%list else args)
  | String c r =>
      if Ascii.eqb c """" then split_args r buf (negb in_quote) args
      else if (Ascii.eqb c " " && negb in_quote)%bool then split_args r "" in_quote (args ++ [buf])%list
      else if Ascii.eqb c "\" then
        match r with
        | EmptyString => inr "unexpected occurrence of '\' at end of string"
        | String d r' => split_args r' (buf ++ String d "") in_quote args
        end
      else split_args r (buf ++ String c "") in_quote args
  end.
(** cmdline.h:415-424: parse of a vector; the address of the first element of an empty vector
    is undefined. *)
Definition parse_vector {V} (args : list string) (p : parser V) : res (bool * parser V) :=
  match args with [] => UB | _ => parse args p end.
(** cmdline.h:374-413: parse of a string.  The printing of the arguments is not modelled. *)
Definition parse_string {V} (arg : string) (p : parser V) : res (bool * parser V) :=
  match split_args arg "" false [] with
  | inr e => Ok (false, push_error e p)
  | inl args => parse_vector args p
  end.
