(** Properties C133-C134: the choice of density functionals. *)
Require Import Reals ZArith List Bool Ascii String Lia Lra.
Require Import Verif.Prelude Verif.TabModel Verif.TabSpec Verif.XfModel Verif.XfSpec Verif.XfProofs.
Import ListNotations.
Open Scope R_scope.

(** * C133: names *)
Theorem C133_usable : forall lib xc x c, numbers_ok lib -> parse_xc_func lib xc = Ok (x, c) -> usable lib x /\ usable lib c.
Proof. exact parse_usable. Qed.
Theorem C133_throw : forall lib xc e, parse_xc_func lib xc = Throw e -> e = RuntimeError.
Proof. exact parse_throw. Qed.
Theorem C133_pair : forall lib a b x c, dashless a -> dashless b ->
  (parse_xc_func lib (a ++ String "-" b)%string = Ok (x, c) <->
   parse_xc_func lib a = Ok (x, 0%Z) /\ parse_xc_func lib b = Ok (c, 0%Z)).
Proof. exact parse_pair. Qed.
Theorem C133_reserved : forall lib s,
  (same_name s "none" -> parse_xc_func lib s = Ok (0%Z, 0%Z)) /\ (same_name s "hf" \/ same_name s "hyb_x_hf" -> parse_xc_func lib s = Ok ((-1)%Z, 0%Z)).
Proof. exact parse_reserved. Qed.
Theorem C133_name : forall lib c s, letter c -> no_nul (String c s) -> dashless (String c s) ->
  ~ same_name (String c s) "none" -> ~ same_name (String c s) "hyb_x_hf" -> ~ same_name (String c s) "hf" ->
  (forall i, x_init lib (x_number lib (String c s)) = Some i -> x_number lib (String c s) <> (-1)%Z -> i_kind i <> Kinetic ->
     parse_xc_func lib (String c s) = Ok (x_number lib (String c s), 0%Z)) /\
  (x_number lib (String c s) = (-1)%Z -> parse_xc_func lib (String c s) = Throw RuntimeError).
Proof. exact parse_name. Qed.
Theorem C133_number : forall lib ds rest, all_of digit ds -> ds <> EmptyString -> head_not digit rest -> dashless rest -> (value ds < 2 ^ 31)%Z ->
  (value ds = 0%Z \/ exists i, x_init lib (value ds) = Some i /\ i_kind i <> Kinetic) ->
  parse_xc_func lib (ds ++ rest) = Ok (value ds, 0%Z).
Proof. exact parse_number. Qed.
(** The two places are not checked: correlation as exchange, exchange or Hartree-Fock as
    correlation are accepted. *)
Theorem C133_roles_refuted : ~ (forall lib xc x c, numbers_ok lib -> parse_xc_func lib xc = Ok (x, c) ->
  is_correlation lib x <> Ok true /\ is_exchange lib c <> Ok true).
Proof. exact roles_refuted. Qed.
Example C133_ex : forall v8, parse_xc_func (toy v8) "lda_x-lda_c_pw" = Ok (1%Z, 12%Z) /\ parse_xc_func (toy v8) "LDA_X-None" = Throw RuntimeError /\
  parse_xc_func (toy v8) "lda_x-None" = Ok (1%Z, 0%Z) /\ parse_xc_func (toy v8) "433" = Ok (433%Z, 0%Z) /\
  parse_xc_func (toy v8) "1nonsense-12pw" = Ok (1%Z, 12%Z) /\ parse_xc_func (toy v8) "lda_k_tf" = Throw RuntimeError /\
  parse_xc_func (toy v8) "" = Throw RuntimeError /\ parse_xc_func (toy v8) "77" = Throw RuntimeError /\
  parse_xc_func (toy v8) "99999999999" = UB /\ parse_xc_func (toy v8) "none-hf" = Ok (0%Z, (-1)%Z).
Proof. intros v8. repeat split. Qed.
Example C133_name_ex : letter "l" /\ no_nul "lda_x" /\ dashless "lda_x" /\ ~ same_name "lda_x" "none" /\ ~ same_name "lda_x" "hyb_x_hf" /\ ~ same_name "lda_x" "hf" /\
  all_of digit "433" /\ head_not digit "x" /\ value "433" = 433%Z.
Proof.
  split; [right; unfold lower; cbn; lia|]. split; [repeat split; discriminate|]. split; [repeat split; discriminate|].
  split; [|split; [|split; [|split; [unfold all_of, digit; cbn; lia | split; [unfold head_not, digit; cbn; lia | reflexivity]]]]];
    cbn [same_name]; intros [[A|[[A _]|[A _]]] _]; try discriminate; unfold upper in A; cbn in A; lia.
Qed.

(** * C134: classification *)
Theorem C134_kinds : forall lib id, known lib id -> exists x xc c k,
  is_exchange lib id = Ok x /\ is_exchange_correlation lib id = Ok xc /\ is_correlation lib id = Ok c /\ is_kinetic lib id = Ok k /\
  (xc = true -> x = true) /\ (c = true -> x = false /\ xc = false) /\ (k = true -> x = false /\ xc = false /\ c = false) /\
  (id = (-1)%Z -> x = true).
Proof. exact kinds_exclusive. Qed.
Theorem C134_unknown : forall lib id, (0 < id)%Z -> x_init lib id = None ->
  is_exchange lib id = Throw RuntimeError /\ is_exchange_correlation lib id = Throw RuntimeError /\
  is_correlation lib id = Throw RuntimeError /\ is_kinetic lib id = Throw RuntimeError /\
  exact_exchange lib id = Throw RuntimeError /\ is_supported lib id = Throw RuntimeError /\
  range_separation lib id = Throw RuntimeError /\ (forall check, is_range_separated lib id check = Throw RuntimeError) /\ needs_VV10 lib id = Throw RuntimeError.
Proof. exact unknown_throws. Qed.
Theorem C134_supported : forall lib id, known lib id ->
  (is_supported lib id = Ok true -> exists r, range_separation lib id = Ok r) /\
  (is_supported lib id = Ok false -> range_separation lib id = Throw LogicError /\ is_range_separated lib id true = Throw LogicError).
Proof. exact supported_iff. Qed.
Theorem C134_range_separation : forall lib id w a b, range_separation lib id = Ok (w, a, b) ->
  exists erf yuk, (forall check, is_range_separated lib id check = Ok (erf, yuk)) /\
    (erf = false -> yuk = false -> w = 0 /\ b = 0) /\ (x_v8 lib = true -> (erf && yuk)%bool = false) /\
    (x_v8 lib = true -> erf = false -> yuk = false -> exact_exchange lib id = Ok a) /\
    ((id <= 0)%Z -> w = 0 /\ b = 0 /\ a = (if (id =? -1)%Z then 1 else 0)).
Proof. exact rs_consistent. Qed.
Theorem C134_vv10 : forall lib id v b C, needs_VV10 lib id = Ok (v, b, C) ->
  (v = true <-> (0 < id)%Z /\ exists i, x_init lib id = Some i /\ i_vv10 i = true /\ i_nlc i = (b, C)) /\ (v = false -> b = 0 /\ C = 0).
Proof. exact vv10_clean. Qed.
Theorem C134_versions : forall lib id, (forall i, x_init lib id = Some i -> coherent i) ->
  range_separation (with_v8 false lib) id = range_separation (with_v8 true lib) id /\
  (forall check, is_range_separated (with_v8 false lib) id check = is_range_separated (with_v8 true lib) id check) /\
  (is_range_separated (with_v8 true lib) id false = Ok (false, false) ->
     exact_exchange (with_v8 false lib) id = exact_exchange (with_v8 true lib) id).
Proof. exact versions. Qed.
Example C134_versions_ex : coherent (mkXI ExchangeCorrelation true true false Cam (1 / 5) (1 / 3, 1 / 5, 1 / 2) false (0, 0)) /\
  coherent (mkXI ExchangeCorrelation true false false Hybrid (1 / 4) (0, 1 / 4, 0) false (0, 0)).
Proof. repeat split. Qed.
Example C134_ex : let lib := toy true in
  known lib 433 /\ is_exchange lib 433 = Ok true /\ is_exchange_correlation lib 433 = Ok true /\ is_correlation lib 433 = Ok false /\
  range_separation lib 433 = Ok (1 / 3, 1 / 5, 1 / 2) /\ is_range_separated lib 433 true = Ok (true, false) /\ exact_exchange lib 433 = Ok 0 /\
  range_separation lib 406 = Ok (0, 1 / 4, 0) /\ exact_exchange lib 406 = Ok (1 / 4) /\
  is_supported lib 900 = Ok false /\ range_separation lib 900 = Throw LogicError /\ range_separation lib (-1) = Ok (0, 1, 0).
Proof. repeat split. right. eexists. reflexivity. Qed.

Print Assumptions C133_usable.
Print Assumptions C133_throw.
Print Assumptions C133_pair.
Print Assumptions C133_reserved.
Print Assumptions C133_name.
Print Assumptions C133_number.
Print Assumptions C133_roles_refuted.
Print Assumptions C134_kinds.
Print Assumptions C134_unknown.
Print Assumptions C134_supported.
Print Assumptions C134_range_separation.
Print Assumptions C134_vv10.
Print Assumptions C134_versions.
