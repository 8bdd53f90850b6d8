(** Proofs: the choice of functionals. *)
Require Import Reals ZArith List Bool Ascii String Lia Lra.
Require Import Verif.Prelude Verif.TabModel Verif.XfModel Verif.XfSpec.
Import ListNotations.
Open Scope R_scope.

Lemma code_inj c d : code c = code d -> c = d.
Proof.
  unfold code. intros H. apply Nat2Z.inj in H. rewrite <- (ascii_nat_embedding c), <- (ascii_nat_embedding d), H. reflexivity.
Qed.
Lemma split_none s : dashless s -> split_dash s = None.
Proof.
  induction s as [|c t IH]; cbn [split_dash dashless]; [reflexivity|]. intros [A B].
  destruct (Z.eqb_spec (code c) 45) as [E|_]; [exfalso; apply A; apply code_inj; exact E|]. rewrite IH by exact B. reflexivity.
Qed.
Lemma split_some a b : dashless a -> split_dash (a ++ String "-" b)%string = Some (a, b).
Proof.
  induction a as [|c t IH]; cbn [split_dash dashless append]; intros H; [reflexivity|]. destruct H as [A B].
  destruct (Z.eqb_spec (code c) 45) as [E|_]; [exfalso; apply A; apply code_inj; exact E|]. rewrite IH by exact B. reflexivity.
Qed.

Lemma digits_ge s : forall acc, (0 <= acc)%Z -> (0 <= digits acc s)%Z.
Proof.
  induction s as [|c t IH]; intros acc H; cbn [digits]; [exact H|]. destruct (isdigit c) eqn:D; [|exact H]. apply IH.
  unfold isdigit in D. apply andb_true_iff in D. destruct D as [D _]. apply Z.leb_le in D. lia.
Qed.
Lemma atoi_digit c t z : isdigit c = true -> atoi (c_str (String c t)) = Ok z -> (0 <= z)%Z.
Proof.
  intros D H. assert (C : (48 <= code c <= 57)%Z).
  { unfold isdigit in D. apply andb_true_iff in D. destruct D as [A B]. apply Z.leb_le in A. apply Z.leb_le in B. lia. }
  cbn [c_str] in H. destruct (Z.eqb_spec (code c) 0); [lia|].
  unfold atoi in H. cbn [skip_space] in H.
  assert (Sp : isspace c = false).
  { unfold isspace. destruct (Z.eqb_spec (code c) 32); [lia|]. destruct (Z.leb_spec 9 (code c)), (Z.leb_spec (code c) 13); try reflexivity; lia. }
  rewrite Sp in H. destruct (Z.eqb_spec (code c) 45); [lia|]. destruct (Z.eqb_spec (code c) 43); [lia|].
  destruct (_ && _)%bool eqn:G in H; [|discriminate]. injection H as <-. apply (digits_ge (String c (c_str t)) 0). lia.
Qed.
Lemma find_range lib s id : numbers_ok lib -> find_func lib s = Ok id -> (id = -1 \/ 0 <= id)%Z.
Proof.
  intros N H. unfold find_func in H.
  destruct (char_int _ <? -1)%Z; [discriminate|].
  destruct (isdigit _) eqn:D in H.
  - destruct s as [|c t]; [discriminate|]. right. apply (atoi_digit c t); assumption.
  - destruct (_ =? 0)%Z in H; [injection H as <-; right; unfold ID_NONE; lia|].
    destruct (_ =? 0)%Z in H; [injection H as <-; left; reflexivity|].
    destruct (_ =? 0)%Z in H; [injection H as <-; left; reflexivity|].
    destruct (Z.eqb_spec (x_number lib (c_str s)) (-1)) as [|E]; [discriminate|]. injection H as <-.
    destruct (N (c_str s)) as [A|A]; [contradiction | right; lia].
Qed.

(** The check of one identifier. *)
Definition kin_check (lib : xlib) (id : Z) : res unit :=
  bind (is_kinetic lib id) (fun k => if k : bool then bind (get_keyword lib id) (fun _ => Throw RuntimeError) else Ok tt).
Lemma kin_check_ok lib id : kin_check lib id = Ok tt <-> (id <= 0)%Z \/ exists i, x_init lib id = Some i /\ i_kind i <> Kinetic.
Proof.
  unfold kin_check, is_kinetic, ask. destruct (Z.ltb_spec 0 id) as [P|P]; cbn [bind]; [|split; [left; exact P | reflexivity]].
  destruct (x_init lib id) as [i|] eqn:E; cbn [bind].
  - split.
    + intros H. right. exists i. split; [reflexivity|]. intros K. rewrite K in H. destruct (get_keyword lib id); cbn [bind] in H; discriminate.
    + intros [H|(j & Ej & K)]; [lia|]. injection Ej as <-. destruct (i_kind i); try reflexivity. contradiction.
  - split; [discriminate|]. intros [H|(j & Ej & _)]; [lia | discriminate].
Qed.
Lemma kin_check_cases lib id : kin_check lib id = Ok tt \/ kin_check lib id = Throw RuntimeError.
Proof.
  unfold kin_check, is_kinetic, ask. destruct (0 <? id)%Z; cbn [bind]; [|left; reflexivity].
  destruct (x_init lib id) as [i|]; cbn [bind]; [|right; reflexivity].
  destruct (i_kind i); try (left; reflexivity). right.
  unfold get_keyword. destruct (id =? ID_NONE)%Z; [reflexivity|]. destruct (id =? ID_HF)%Z; [reflexivity|].
  destruct (x_name lib id); reflexivity.
Qed.
Lemma parse_form lib xc : parse_xc_func lib xc =
  bind (match split_dash xc with
        | Some (x, c) => bind (find_func lib x) (fun xf => bind (find_func lib c) (fun cf => Ok (xf, cf)))
        | None => bind (find_func lib xc) (fun xf => Ok (xf, 0%Z))
        end) (fun p => bind (kin_check lib (fst p)) (fun _ => bind (kin_check lib (snd p)) (fun _ => Ok p))).
Proof. reflexivity. Qed.
Lemma kin_0 lib : kin_check lib 0 = Ok tt.
Proof. reflexivity. Qed.
Lemma single lib s id c : dashless s -> (parse_xc_func lib s = Ok (id, c) <-> find_func lib s = Ok id /\ kin_check lib id = Ok tt /\ c = 0%Z).
Proof.
  intros D. rewrite parse_form, (split_none s D).
  destruct (find_func lib s) as [x| | |]; cbn [bind fst snd]; try (split; [discriminate | intros (A & _); discriminate]).
  rewrite kin_0. cbn [bind]. split.
  - intros H. destruct (kin_check lib x) as [[]| | |] eqn:K; cbn [bind] in H; try discriminate. injection H as <- <-. auto.
  - intros (A & B & ->). injection A as ->. rewrite B. reflexivity.
Qed.
Theorem parse_pair lib a b x c : dashless a -> dashless b ->
  (parse_xc_func lib (a ++ String "-" b)%string = Ok (x, c) <->
   parse_xc_func lib a = Ok (x, 0%Z) /\ parse_xc_func lib b = Ok (c, 0%Z)).
Proof.
  intros Da Db. rewrite (single lib a x 0 Da), (single lib b c 0 Db). rewrite parse_form, (split_some a b Da).
  destruct (find_func lib a) as [u| | |]; cbn [bind]; try (split; [discriminate | intros ((A & _) & _); discriminate]).
  destruct (find_func lib b) as [v| | |]; cbn [bind fst snd]; try (split; [discriminate | intros (_ & (A & _)); discriminate]).
  split.
  - intros H. destruct (kin_check lib u) as [[]| | |] eqn:K; cbn [bind] in H; try discriminate.
    destruct (kin_check lib v) as [[]| | |] eqn:K'; cbn [bind] in H; try discriminate. injection H as <- <-. auto.
  - intros ((A & B & _) & (C & D & _)). injection A as ->. injection C as ->. rewrite B, D. reflexivity.
Qed.
Lemma single_c lib s x c : dashless s -> parse_xc_func lib s = Ok (x, c) -> c = 0%Z.
Proof. intros D H. apply (single lib s x c D) in H. apply H. Qed.
Theorem parse_usable lib xc x c : numbers_ok lib -> parse_xc_func lib xc = Ok (x, c) -> usable lib x /\ usable lib c.
Proof.
  intros N H. rewrite parse_form in H.
  assert (U : forall s id, find_func lib s = Ok id -> kin_check lib id = Ok tt -> usable lib id).
  { intros s id F K. apply kin_check_ok in K. destruct (find_range lib s id N F) as [->|P]; [right; left; reflexivity|].
    destruct K as [K|K]; [left; lia|]. destruct (Z.eq_dec id 0) as [->|Z0]; [left; reflexivity|]. right. right. split; [lia | exact K]. }
  destruct (split_dash xc) as [[p q]|].
  - destruct (find_func lib p) as [u| | |] eqn:E; cbn [bind] in H; try discriminate.
    destruct (find_func lib q) as [v| | |] eqn:E'; cbn [bind fst snd] in H; try discriminate.
    destruct (kin_check lib u) as [[]| | |] eqn:K; cbn [bind] in H; try discriminate.
    destruct (kin_check lib v) as [[]| | |] eqn:K'; cbn [bind] in H; try discriminate. injection H as <- <-.
    split; [apply (U p) | apply (U q)]; assumption.
  - destruct (find_func lib xc) as [u| | |] eqn:E; cbn [bind fst snd] in H; try discriminate. rewrite kin_0 in H.
    destruct (kin_check lib u) as [[]| | |] eqn:K; cbn [bind] in H; try discriminate. injection H as <- <-.
    split; [apply (U xc); assumption | left; reflexivity].
Qed.
(** Only runtime errors are thrown. *)
Lemma find_throw lib s e : find_func lib s = Throw e -> e = RuntimeError.
Proof.
  unfold find_func. destruct (_ <? -1)%Z; [discriminate|]. destruct (isdigit _).
  - unfold atoi. destruct (_ && _)%bool; discriminate.
  - repeat (destruct (_ =? 0)%Z; [discriminate|]). destruct (_ =? -1)%Z; [intros H; injection H as <-; reflexivity | discriminate].
Qed.
Theorem parse_throw lib xc e : parse_xc_func lib xc = Throw e -> e = RuntimeError.
Proof.
  rewrite parse_form.
  assert (K : forall id (r : Z * Z), forall f, (forall e, f = @Throw (Z * Z) e -> e = RuntimeError) -> bind (kin_check lib id) (fun _ => f) = Throw e -> e = RuntimeError).
  { intros id r f Hf. destruct (kin_check_cases lib id) as [->| ->]; cbn [bind]; [apply Hf | intros H; injection H as <-; reflexivity]. }
  assert (G : forall p : Z * Z, bind (kin_check lib (fst p)) (fun _ => bind (kin_check lib (snd p)) (fun _ => Ok p)) = Throw e -> e = RuntimeError).
  { intros p H. apply (K (fst p) p _) in H; [exact H|]. intros e'. destruct (kin_check_cases lib (snd p)) as [->| ->]; cbn [bind]; [discriminate | intros H'; injection H' as <-; reflexivity]. }
  destruct (split_dash xc) as [[p q]|].
  - destruct (find_func lib p) as [u|e'| |] eqn:E; cbn [bind]; try discriminate; [|intros H; injection H as <-; apply (find_throw lib p); exact E].
    destruct (find_func lib q) as [v|e'| |] eqn:E'; cbn [bind]; try discriminate; [apply G | intros H; injection H as <-; apply (find_throw lib q); exact E'].
  - destruct (find_func lib xc) as [u|e'| |] eqn:E; cbn [bind]; try discriminate; [apply G | intros H; injection H as <-; apply (find_throw lib xc); exact E].
Qed.

(** * Classification *)
Theorem kinds_exclusive lib id : known lib id -> exists x xc c k,
  is_exchange lib id = Ok x /\ is_exchange_correlation lib id = Ok xc /\ is_correlation lib id = Ok c /\ is_kinetic lib id = Ok k /\
  (xc = true -> x = true) /\ (c = true -> x = false /\ xc = false) /\ (k = true -> x = false /\ xc = false /\ c = false) /\
  (id = (-1)%Z -> x = true).
Proof.
  intros K. unfold is_exchange, is_exchange_correlation, is_correlation, is_kinetic, ask.
  destruct (Z.ltb_spec 0 id) as [P|P].
  - destruct K as [K|(i & ->)]; [lia|]. exists (match i_kind i with Exchange | ExchangeCorrelation => true | _ => false end),
      (match i_kind i with ExchangeCorrelation => true | _ => false end), (match i_kind i with Correlation => true | _ => false end),
      (match i_kind i with Kinetic => true | _ => false end).
    repeat split; destruct (i_kind i); try reflexivity; try discriminate; intros; lia.
  - exists (id =? ID_HF)%Z, false, false, false. repeat split; try discriminate. intros ->. reflexivity.
Qed.
Theorem unknown_throws lib id : (0 < id)%Z -> x_init lib id = None ->
  is_exchange lib id = Throw RuntimeError /\ is_exchange_correlation lib id = Throw RuntimeError /\
  is_correlation lib id = Throw RuntimeError /\ is_kinetic lib id = Throw RuntimeError /\
  exact_exchange lib id = Throw RuntimeError /\ is_supported lib id = Throw RuntimeError /\
  range_separation lib id = Throw RuntimeError /\ (forall check, is_range_separated lib id check = Throw RuntimeError) /\ needs_VV10 lib id = Throw RuntimeError.
Proof.
  intros P E. unfold is_exchange, is_exchange_correlation, is_correlation, is_kinetic, exact_exchange, is_supported, range_separation, is_range_separated, rs_flags, needs_VV10, ask.
  destruct (Z.ltb_spec 0 id); [|lia]. rewrite E. repeat split.
Qed.

(** * Exact exchange *)
Theorem supported_iff lib id : known lib id ->
  (is_supported lib id = Ok true -> exists r, range_separation lib id = Ok r) /\
  (is_supported lib id = Ok false -> range_separation lib id = Throw LogicError /\ is_range_separated lib id true = Throw LogicError).
Proof.
  intros K. unfold is_supported, range_separation, is_range_separated, range_separation, rs_flags, ask.
  destruct (Z.ltb_spec 0 id) as [P|P].
  - destruct K as [K|(i & ->)]; [lia|]. destruct (x_v8 lib).
    + destruct (i_hyb i); cbn [bind fst snd orb]; (split; [discriminate || intros _ | intros H; try discriminate; split; reflexivity]);
        try (eexists; reflexivity); destruct (i_cam i) as [[w a] b]; eexists; reflexivity.
    + split; [intros _ | discriminate]. destruct (i_hybfam i); cbn [bind]; [destruct (i_cam i) as [[w a] b]|]; cbn [fst snd];
        destruct (i_erf i || i_yuk i)%bool; eexists; reflexivity.
  - split; [intros _ | discriminate]. destruct (id =? ID_HF)%Z; cbn; eexists; reflexivity.
Qed.
Theorem rs_consistent lib id w a b : range_separation lib id = Ok (w, a, b) ->
  exists erf yuk, (forall check, is_range_separated lib id check = Ok (erf, yuk)) /\
    (erf = false -> yuk = false -> w = 0 /\ b = 0) /\ (x_v8 lib = true -> (erf && yuk)%bool = false) /\
    (x_v8 lib = true -> erf = false -> yuk = false -> exact_exchange lib id = Ok a) /\
    ((id <= 0)%Z -> w = 0 /\ b = 0 /\ a = (if (id =? -1)%Z then 1 else 0)).
Proof.
  intros H.
  assert (C : exists erf yuk, rs_flags lib id = Ok (erf, yuk)).
  { unfold range_separation in H. destruct (ask lib id _ _); cbn [bind] in H; try discriminate.
    destruct (rs_flags lib id) as [[e y]| | |]; cbn [bind] in H; try discriminate. exists e, y. reflexivity. }
  destruct C as (erf & yuk & F). exists erf, yuk. split.
  { intros check. unfold is_range_separated. rewrite F. cbn [bind]. destruct check; [rewrite H|]; reflexivity. }
  unfold range_separation in H. rewrite F in H. unfold rs_flags, ask in F. unfold ask in H. unfold exact_exchange, ask.
  destruct (Z.ltb_spec 0 id) as [P|P].
  - destruct (x_init lib id) as [i|]; [|discriminate]. injection F as F. destruct (x_v8 lib).
    + injection F as <- <-. destruct (i_hyb i); cbn [bind fst snd orb] in H; try discriminate.
      * injection H as <- <- <-. repeat split; try reflexivity; try discriminate; lia.
      * injection H as <- <- <-. repeat split; try reflexivity; try discriminate; lia.
      * repeat split; try reflexivity; try discriminate; lia.
      * repeat split; try reflexivity; try discriminate; lia.
    + injection F as <- <-. repeat split; try discriminate; try lia.
      * intros. rewrite H0, H1 in H. cbn [fst snd orb] in H.
        destruct (i_hybfam i); cbn [bind] in H; [destruct (i_cam i) as [[p q] r]|]; injection H as <- <- <-; reflexivity.
      * intros. rewrite H0, H1 in H. cbn [fst snd orb] in H.
        destruct (i_hybfam i); cbn [bind] in H; [destruct (i_cam i) as [[p q] r]|]; injection H as <- <- <-; reflexivity.
  - injection F as <- <-. unfold ID_HF in *. destruct (id =? -1)%Z; cbn [bind fst snd orb] in H; injection H as <- <- <-; repeat split; try reflexivity; discriminate.
Qed.
Theorem vv10_clean : forall lib id v b C, needs_VV10 lib id = Ok (v, b, C) ->
  (v = true <-> (0 < id)%Z /\ exists i, x_init lib id = Some i /\ i_vv10 i = true /\ i_nlc i = (b, C)) /\ (v = false -> b = 0 /\ C = 0).
Proof.
  intros lib id v b C. unfold needs_VV10, ask. destruct (Z.ltb_spec 0 id) as [P|P].
  - destruct (x_init lib id) as [i|]; [|discriminate]. destruct (i_vv10 i) eqn:E; intros H; injection H as <- <- <-.
    + split; [|discriminate]. split; [|reflexivity]. intros _. split; [exact P|]. exists i. destruct (i_nlc i). auto.
    + split; [|auto]. split; [discriminate|]. intros (_ & j & Ej & Fj & _). injection Ej as <-. congruence.
  - intros H. injection H as <- <- <-. split; [|auto]. split; [discriminate|]. intros (Q & _). lia.
Qed.

(** * Numbers and names *)
Require Import Verif.TabSpec Verif.TabName.
Lemma digit_isdigit c : digit c -> isdigit c = true.
Proof. unfold digit, isdigit, code. intros H. apply andb_true_intro. split; apply Z.leb_le; lia. Qed.
Lemma find_number lib ds rest : all_of digit ds -> ds <> EmptyString -> head_not digit rest -> (value ds < 2 ^ 31)%Z -> (0 <= value ds)%Z ->
  find_func lib (ds ++ rest)%string = Ok (value ds).
Proof.
  intros Hd Hne Hr Hv H0.
  assert (Hd0 : no_nul ds) by (apply (all_no_nul digit); [|exact Hd]; intros c Hc ->; unfold digit in Hc; cbn in Hc; lia).
  assert (E : atoi (c_str (ds ++ rest)) = Ok (value ds)).
  { rewrite (c_str_app ds) by exact Hd0. apply (atoi_ok EmptyString NoSign ds (c_str rest)); try assumption; [exact I | apply c_str_head; exact Hr |].
    cbn [signed]. split; [|exact Hv]. apply Z.le_trans with 0%Z; [|exact H0]. apply Z.opp_nonpos_nonneg. apply Z.pow_nonneg. lia. }
  destruct ds as [|c t]; [congruence|]. destruct Hd as [Hc _]. cbn [append] in *. unfold find_func.
  destruct (Z.ltb_spec (char_int c) (-1)) as [L|_].
  { exfalso. unfold char_int, code, digit in *. destruct (Z.of_nat (nat_of_ascii c) <? 128)%Z eqn:Q in L; [|apply Z.ltb_ge in Q]; lia. }
  rewrite (digit_isdigit c Hc). exact E.
Qed.
Lemma value_pos s : all_of digit s -> (0 <= value s)%Z.
Proof.
  intros H. pose proof (digits_ok s EmptyString H I 0) as E. rewrite Z.mul_0_l, Z.add_0_l in E. rewrite <- E. apply digits_ge. lia.
Qed.
Lemma digits_dashless s : all_of digit s -> dashless s.
Proof.
  induction s as [|c t IH]; [intros; exact I|]. intros [A B]. split; [|apply IH; exact B]. intros ->. unfold digit in A. cbn in A. lia.
Qed.
Lemma dashless_app a b : dashless a -> dashless b -> dashless (a ++ b).
Proof. induction a as [|c t IH]; cbn [append dashless]; [auto|]. intros [A B] C. auto. Qed.
(** A numeral is taken as the identifier, whatever follows it. *)
Theorem parse_number lib ds rest : all_of digit ds -> ds <> EmptyString -> head_not digit rest -> dashless rest -> (value ds < 2 ^ 31)%Z ->
  (value ds = 0%Z \/ exists i, x_init lib (value ds) = Some i /\ i_kind i <> Kinetic) ->
  parse_xc_func lib (ds ++ rest) = Ok (value ds, 0%Z).
Proof.
  intros Hd Hne Hr Hl Hv K. apply single; [apply dashless_app; [apply digits_dashless|]; assumption|].
  split; [apply find_number; try assumption; apply value_pos; exact Hd|]. split; [|reflexivity]. apply kin_check_ok.
  destruct K as [->|K]; [left; lia | right; exact K].
Qed.
(** Other names are looked up in libxc. *)
Lemma HF_hf : same_name "HF" "hf".
Proof. cbn [same_name]. repeat split; right; left; split; try (unfold upper; cbn; lia); reflexivity. Qed.
Lemma find_letter lib c s : letter c -> no_nul (String c s) -> find_func lib (String c s) =
  if (strcasecmp (String c s) "none" =? 0)%Z then Ok 0%Z else if (strcasecmp (String c s) "hyb_x_hf" =? 0)%Z then Ok (-1)%Z
  else if (strcasecmp (String c s) "HF" =? 0)%Z then Ok (-1)%Z
  else if (x_number lib (String c s) =? -1)%Z then Throw RuntimeError else Ok (x_number lib (String c s)).
Proof.
  intros L N. unfold find_func.
  destruct (Z.ltb_spec (char_int c) (-1)) as [B|_].
  { exfalso. unfold char_int, code, letter, upper, lower in *. destruct (Z.of_nat (nat_of_ascii c) <? 128)%Z eqn:Q in B; [|apply Z.ltb_ge in Q]; lia. }
  assert (D : isdigit c = false).
  { unfold isdigit, code, letter, upper, lower in *. apply andb_false_iff. right. apply Z.leb_gt. lia. }
  rewrite D. unfold stricmp. rewrite (c_str_no_nul _ N). reflexivity.
Qed.
Lemma cmp_ne a b : no_nul a -> no_nul b -> ~ same_name a b -> (strcasecmp a b =? 0)%Z = false.
Proof. intros A B H. apply Z.eqb_neq. intros E. apply H. apply casecmp_same; assumption. Qed.
Lemma cmp_eq a b : no_nul a -> no_nul b -> same_name a b -> (strcasecmp a b =? 0)%Z = true.
Proof. intros A B H. apply Z.eqb_eq. apply casecmp_same; assumption. Qed.
Lemma kw_clean : no_nul "none" /\ no_nul "hyb_x_hf" /\ no_nul "HF" /\ no_nul "hf".
Proof. repeat split; discriminate. Qed.
Lemma find_name lib c s : letter c -> no_nul (String c s) -> ~ same_name (String c s) "none" -> ~ same_name (String c s) "hyb_x_hf" ->
  ~ same_name (String c s) "hf" ->
  find_func lib (String c s) = if (x_number lib (String c s) =? -1)%Z then Throw RuntimeError else Ok (x_number lib (String c s)).
Proof.
  intros L N N1 N2 N3. destruct kw_clean as (K1 & K2 & K3 & K4). rewrite (find_letter lib c s L N).
  rewrite (cmp_ne _ "none"%string N K1 N1), (cmp_ne _ "hyb_x_hf"%string N K2 N2), (cmp_ne _ "HF"%string N K3); [reflexivity|].
  intros E. apply N3. apply (same_trans _ "HF"%string); [exact E | exact HF_hf].
Qed.
Theorem parse_name lib c s : letter c -> no_nul (String c s) -> dashless (String c s) ->
  ~ same_name (String c s) "none" -> ~ same_name (String c s) "hyb_x_hf" -> ~ same_name (String c s) "hf" ->
  (forall i, x_init lib (x_number lib (String c s)) = Some i -> x_number lib (String c s) <> (-1)%Z -> i_kind i <> Kinetic ->
     parse_xc_func lib (String c s) = Ok (x_number lib (String c s), 0%Z)) /\
  (x_number lib (String c s) = (-1)%Z -> parse_xc_func lib (String c s) = Throw RuntimeError).
Proof.
  intros L N D N1 N2 N3. pose proof (find_name lib c s L N N1 N2 N3) as F. split.
  - intros i E P K. apply (single lib _ _ _ D). split; [rewrite F; destruct (Z.eqb_spec (x_number lib (String c s)) (-1)); [contradiction | reflexivity]|].
    split; [|reflexivity]. apply kin_check_ok. right. exists i. split; assumption.
  - intros E. rewrite parse_form, (split_none _ D), F, E. reflexivity.
Qed.
Lemma same_dashless : forall a b, same_name a b -> dashless b -> dashless a.
Proof.
  induction a as [|c s IH]; intros [|d t]; cbn [same_name dashless]; try tauto. intros [H1 H2] [H3 H4]. split; [|apply (IH t); assumption].
  intros ->. destruct H1 as [E|[[A _]|[A B]]]; [apply H3; symmetry; exact E| |]; unfold upper in A.
  - change (nat_of_ascii "-") with 45%nat in A. lia.
  - change (nat_of_ascii "-") with 45%nat in B. lia.
Qed.
Lemma same_letter_letter c d : same_letter c d -> letter d -> letter c.
Proof. unfold same_letter, letter, upper, lower. intros [->|H] L; lia. Qed.
Theorem parse_reserved lib s :
  (same_name s "none" -> parse_xc_func lib s = Ok (0%Z, 0%Z)) /\ (same_name s "hf" \/ same_name s "hyb_x_hf" -> parse_xc_func lib s = Ok ((-1)%Z, 0%Z)).
Proof.
  destruct kw_clean as (K1 & K2 & K3 & K4).
  assert (NE : ~ same_name "hf" "none" /\ ~ same_name "hyb_x_hf" "none").
  { cbn [same_name]. split; intros [[A|[[A _]|[A _]]] _]; try discriminate; unfold upper in A; cbn in A; lia. }
  split.
  - intros H. apply single; [apply (same_dashless _ _ H); cbn; repeat split; discriminate|]. split; [|split; [reflexivity|reflexivity]].
    pose proof (same_no_nul _ _ H K1) as N. destruct s as [|c t]; [destruct H|].
    rewrite find_letter; [rewrite (cmp_eq _ _ N K1 H); reflexivity | apply (same_letter_letter c "n"); [apply H | right; unfold lower; cbn; lia] | exact N].
  - intros H.
    assert (G : dashless s /\ no_nul s /\ ~ same_name s "none" /\ exists c t, s = String c t /\ letter c).
    { destruct H as [H|H]; (split; [apply (same_dashless _ _ H); cbn; repeat split; discriminate|]);
        (split; [apply (same_no_nul _ _ H); assumption|]);
        (split; [intros Q; apply same_sym in H; pose proof (same_trans _ _ _ H Q); tauto|]);
        (destruct s as [|c t]; [destruct H|]); exists c, t; (split; [reflexivity|]);
        apply (same_letter_letter c "h"); try apply H; right; unfold lower; cbn; lia. }
    destruct G as (D & N & Nn & c & t & -> & L). apply single; [exact D|]. split; [|split; reflexivity].
    rewrite find_letter by assumption. rewrite (cmp_ne _ _ N K1 Nn).
    destruct (strcasecmp (String c t) "hyb_x_hf" =? 0)%Z eqn:E2; [reflexivity|].
    destruct H as [H|H].
    + rewrite (cmp_eq _ "HF"%string N K3); [reflexivity|]. apply (same_trans _ "hf"%string); [exact H | apply same_sym; exact HF_hf].
    + rewrite (cmp_eq _ _ N K2 H) in E2. discriminate.
Qed.

(** * Versions of libxc *)
Theorem versions lib id : (forall i, x_init lib id = Some i -> coherent i) ->
  range_separation (with_v8 false lib) id = range_separation (with_v8 true lib) id /\
  (forall check, is_range_separated (with_v8 false lib) id check = is_range_separated (with_v8 true lib) id check) /\
  (is_range_separated (with_v8 true lib) id false = Ok (false, false) ->
     exact_exchange (with_v8 false lib) id = exact_exchange (with_v8 true lib) id).
Proof.
  intros H.
  assert (F : rs_flags (with_v8 false lib) id = rs_flags (with_v8 true lib) id).
  { unfold rs_flags, ask. cbn. destruct (0 <? id)%Z; [|reflexivity]. destruct (x_init lib id) as [i|]; [|reflexivity]. specialize (H i eq_refl). unfold coherent in H.
    destruct (i_hyb i).
    - destruct H as (_ & -> & ->). reflexivity.
    - destruct H as (_ & -> & -> & _). reflexivity.
    - destruct H as (_ & -> & ->). reflexivity.
    - destruct H as (_ & -> & ->). reflexivity.
    - destruct H. }
  assert (R : range_separation (with_v8 false lib) id = range_separation (with_v8 true lib) id).
  { unfold range_separation. rewrite F. f_equal. unfold ask. cbn. destruct (0 <? id)%Z; [|reflexivity].
    destruct (x_init lib id) as [i|]; [|reflexivity]. specialize (H i eq_refl). unfold coherent in H.
    destruct (i_hyb i).
    - destruct H as (-> & _). reflexivity.
    - destruct H as (-> & _ & _ & ->). reflexivity.
    - destruct H as (-> & _). reflexivity.
    - destruct H as (-> & _). reflexivity.
    - destruct H. }
  split; [exact R|]. split; [intros check; unfold is_range_separated; rewrite F, R; reflexivity|].
  intros E. unfold is_range_separated, rs_flags, ask in E. unfold exact_exchange, ask. cbn in *. destruct (0 <? id)%Z; [|reflexivity].
  destruct (x_init lib id) as [i|]; [|reflexivity]. specialize (H i eq_refl). unfold coherent in H.
  destruct (i_hyb i); cbn in E; try discriminate; try contradiction; destruct H as (-> & _); reflexivity.
Qed.
Lemma toy_numbers v8 : numbers_ok (toy v8).
Proof.
  intros s. cbn. destruct (String.eqb s "lda_x"); [right; lia|]. destruct (String.eqb s "lda_c_pw"); [right; lia|].
  destruct (String.eqb s "lda_k_tf"); [right; lia | left; reflexivity].
Qed.
Theorem roles_refuted : ~ (forall lib xc x c, numbers_ok lib -> parse_xc_func lib xc = Ok (x, c) ->
  is_correlation lib x <> Ok true /\ is_exchange lib c <> Ok true).
Proof. intros H. destruct (H (toy true) "lda_c_pw-lda_x"%string 12%Z 1%Z (toy_numbers true) eq_refl) as [A _]. apply A. reflexivity. Qed.
