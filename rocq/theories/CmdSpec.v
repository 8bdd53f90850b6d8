(** Vocabulary for the command line. *)
Require Import String Ascii List Bool.
Require Import Verif.Prelude Verif.CmdModel.
Import ListNotations.
Open Scope string_scope.

(** What can stand on a command line: --name=val, --name val, --name, -abc with a value for the
    last letter or without, a lone dash, and plain arguments. *)
Inductive item :=
| Equal (name val : string) | Next (name val : string) | Bare (name : string)
| Letters (cs : string) (c : ascii) (val : option string) | Dash | Plain (s : string).
Definition render (it : item) : list string :=
  match it with
  | Equal n v => ["--" ++ n ++ "=" ++ v]
  | Next n v => ["--" ++ n; v]
  | Bare n => ["--" ++ n]
  | Letters cs c ov => String "-" (cs ++ String c "") :: match ov with Some v => [v] | None => [] end
  | Dash => ["-"]
  | Plain s => [s]
  end.
Definition no_equal (s : string) : Prop := ~ In "="%char (list_ascii_of_string s).
Definition no_dash (s : string) : Prop := forall r, s <> String "-" r.

(** Something given to an option: a name, with or without a value, or an unknown letter. *)
Inductive setting := Set_ (name : string) (val : option string) | Unknown (c : ascii).

Section Spec.
Context {V : Type}.
Implicit Types (os : list (opt V)) (o : opt V).

(** Declarations. *)
Definition names os : list string := map o_name os.
Definition shorts os : list ascii :=
  flat_map (fun o => if o_name o =? "" then [] else match o_short o with Some c => [c] | None => [] end) os.
Definition declared os (name : string) : option (opt V) := find (fun o => o_name o =? name) os.
Definition long_name os (c : ascii) : option string :=
  match find (fun o => negb (o_name o =? "") && match o_short o with Some d => Ascii.eqb c d | None => false end) os with
  | Some o => Some (o_name o)
  | None => None
  end.
Definition is_flag o : Prop := o_kind o = Flag.
Definition takes_value os (name : string) : Prop := exists o, declared os name = Some o /\ ~ is_flag o.

(** The reading of the arguments: an option that takes a value takes the following argument,
    unless there is none. *)
Definition fits os (it : item) (rest : list item) : Prop :=
  match it with
  | Equal n v => no_equal n
  | Next n v => no_equal n /\ takes_value os n
  | Bare n => no_equal n /\ (takes_value os n -> rest = [])
  | Letters cs c ov =>
      no_dash (cs ++ String c "") /\
      match ov with
      | Some v => exists n, long_name os c = Some n /\ takes_value os n
      | None => forall n, long_name os c = Some n -> takes_value os n -> rest = []
      end
  | Dash => True
  | Plain s => no_dash s
  end.
Inductive reading os : list item -> list string -> Prop :=
| read_nil : reading os [] []
| read_cons it items args : fits os it items -> reading os items args -> reading os (it :: items) (render it ++ args).

(** What the items give to the options, in order. *)
Definition letter_setting os (c : ascii) (val : option string) : setting :=
  match long_name os c with Some n => Set_ n val | None => Unknown c end.
Definition settings1 os (it : item) : list setting :=
  match it with
  | Equal n v | Next n v => [Set_ n (Some v)]
  | Bare n => [Set_ n None]
  | Letters cs c ov => (map (fun d => letter_setting os d None) (list_ascii_of_string cs) ++ [letter_setting os c ov])%list
  | Dash | Plain _ => []
  end.
Definition settings os (items : list item) : list setting := flat_map (settings1 os) items.
Definition plains (items : list item) : list string := flat_map (fun it => match it with Plain s => [s] | _ => [] end) items.

(** The effect of a setting on an option, and the error it gives. *)
Definition given o (s : setting) : opt V :=
  match s with
  | Set_ n ov =>
      if o_name o =? n then
        match o_kind o, ov with
        | Flag, None => {| o_name := o_name o; o_short := o_short o; o_kind := Flag; o_has := true |}
        | Val need t reader v, Some x =>
            match reader x with
            | Some v' => {| o_name := o_name o; o_short := o_short o; o_kind := Val need t reader v'; o_has := true |}
            | None => o
            end
        | _, _ => o
        end
      else o
  | Unknown _ => o
  end.
Definition after (ss : list setting) o : opt V := fold_left given ss o.
Definition complaint os (s : setting) : list string :=
  match s with
  | Unknown c => ["undefined short option: -" ++ String c ""]
  | Set_ n ov =>
      match declared os n with
      | None => ["undefined option: --" ++ n]
      | Some o =>
          match o_kind o, ov with
          | Flag, None => []
          | Flag, Some x => ["option value is invalid: --" ++ n ++ "=" ++ x]
          | Val _ _ _ _, None => ["option needs value: --" ++ n]
          | Val _ _ reader _, Some x => match reader x with Some _ => [] | None => ["option value is invalid: --" ++ n ++ "=" ++ x] end
          end
      end
  end.
Definition missing o : bool := match o_kind o with Val true _ _ _ => negb (o_has o) | _ => false end.
Definition needs os : list string := map (fun o => "need option: --" ++ o_name o) (filter missing os).
(** A setting that is obeyed. *)
Definition good os (s : setting) : Prop :=
  exists n ov o, s = Set_ n ov /\ declared os n = Some o /\
  match o_kind o, ov with
  | Flag, None => True
  | Val _ _ reader _, Some x => reader x <> None
  | _, _ => False
  end.
(** [v'] is the value of an option read by [reader] after the settings, [v] before. *)
Definition final_value (n : string) (reader : string -> option V) (v v' : V) (ss : list setting) : Prop :=
  (exists s1 x s2, ss = (s1 ++ Set_ n (Some x) :: s2)%list /\ reader x = Some v' /\ forall y, In (Set_ n (Some y)) s2 -> reader y = None) \/
  (v' = v /\ forall y, In (Set_ n (Some y)) ss -> reader y = None).
(** [s] sets [o]: a flag is given, or a value that can be read. *)
Definition gives (o : opt V) (s : setting) : Prop :=
  match o_kind o with
  | Flag => s = Set_ (o_name o) None
  | Val _ _ reader _ => exists x, s = Set_ (o_name o) (Some x) /\ reader x <> None
  end.
End Spec.

(** Ways to write an argument in a string: characters, escaped characters and quoted parts. *)
Inductive written : bool -> string -> string -> Prop :=
| w_end : written false "" ""
| w_plain c t s : c <> """"%char -> c <> "\"%char -> c <> " "%char -> written false t s -> written false (String c t) (String c s)
| w_inner c t s : c <> """"%char -> c <> "\"%char -> written true t s -> written true (String c t) (String c s)
| w_escape q c t s : written q t s -> written q (String "\" (String c t)) (String c s)
| w_quote q t s : written (negb q) t s -> written q (String """" t) s.
Fixpoint spaced (l : list string) : string := match l with [] => "" | [a] => a | a :: r => a ++ String " " (spaced r) end.
(** An empty last argument is lost. *)
Definition kept (args : list string) : list string := if (last args "" =? "") then removelast args else args.
(** The text [s] stands for the arguments [args]. *)
Definition tokens (s : string) (args : list string) : Prop :=
  exists ts full, ts <> [] /\ Forall2 (written false) ts full /\ s = spaced ts /\ args = kept full.
