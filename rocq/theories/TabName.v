Require Import Reals Lra Lia List Arith Bool ZArith Ascii String.
Require Import Verif.Prelude Verif.TabData Verif.TabModel Verif.TabSpec Verif.TabProofs.
Import ListNotations.
Open Scope R_scope.

(* ---- names ---- *)
Lemma code_low c d : tolower c = tolower d <-> same_letter c d.
Proof.
  unfold same_letter, upper, tolower, code.
  assert (I : nat_of_ascii c = nat_of_ascii d <-> c = d).
  { split; [|congruence]. intros H. rewrite <- (ascii_nat_embedding c), <- (ascii_nat_embedding d), H. reflexivity. }
  rewrite <- I.
  destruct (Z.leb_spec 65 (Z.of_nat (nat_of_ascii c))), (Z.leb_spec (Z.of_nat (nat_of_ascii c)) 90); cbn [andb];
  destruct (Z.leb_spec 65 (Z.of_nat (nat_of_ascii d))), (Z.leb_spec (Z.of_nat (nat_of_ascii d)) 90); cbn [andb]; lia.
Qed.
Lemma tolower_nonneg c : (0 <= tolower c)%Z.
Proof. unfold tolower, code. destruct (_ && _)%bool; lia. Qed.
Lemma tolower_nul c : c <> NUL -> (0 < tolower c)%Z.
Proof.
  intros H. assert (nat_of_ascii c <> 0)%nat.
  { intros E. apply H. rewrite <- (ascii_nat_embedding c), E. reflexivity. }
  unfold tolower, code. destruct (_ && _)%bool; lia.
Qed.
Lemma casecmp_same : forall a b, no_nul a -> no_nul b -> (strcasecmp a b = 0%Z <-> same_name a b).
Proof.
  induction a as [|c s IH]; intros [|d t]; cbn [strcasecmp same_name no_nul]; intros Ha Hb; [tauto| | |].
  - pose proof (tolower_nul d (proj1 Hb)). split; [lia|tauto].
  - pose proof (tolower_nul c (proj1 Ha)). split; [lia|tauto].
  - destruct (Z.eqb_spec (tolower c) (tolower d)) as [E|E].
    + rewrite (IH t (proj2 Ha) (proj2 Hb)). apply code_low in E. tauto.
    + rewrite <- code_low. split; [lia|tauto].
Qed.
Lemma c_str_no_nul s : no_nul s -> c_str s = s.
Proof.
  induction s as [|c t IH]; [reflexivity|]. cbn [no_nul c_str]. intros [H1 H2]. unfold code.
  destruct (Z.eqb_spec (Z.of_nat (nat_of_ascii c)) 0) as [E|_]; [|rewrite (IH H2); reflexivity].
  exfalso. apply H1. rewrite <- (ascii_nat_embedding c). replace (nat_of_ascii c) with 0%nat by lia. reflexivity.
Qed.
Lemma c_str_clean s : no_nul (c_str s).
Proof.
  induction s as [|c t IH]; [exact I|]. cbn [c_str]. destruct (Z.eqb_spec (code c) 0) as [E|E]; [exact I|].
  cbn [no_nul]. split; [|exact IH]. intros ->. apply E. reflexivity.
Qed.
Lemma same_no_nul : forall a b, same_name a b -> no_nul b -> no_nul a.
Proof.
  induction a as [|c s IH]; intros [|d t]; cbn [same_name no_nul]; try tauto. intros [H1 H2] [H3 H4]. split; [|apply (IH t); assumption].
  intros ->. apply H3. assert (E0 : nat_of_ascii NUL = 0%nat) by reflexivity.
  unfold same_letter, upper in H1. rewrite E0 in H1. destruct H1 as [H|[[H _]|[H1 H]]]; [congruence|lia|lia].
Qed.
Lemma same_refl a : same_name a a.
Proof. induction a as [|c s IH]; [exact I|]. split; [left; reflexivity|exact IH]. Qed.

Fixpoint clean (s : string) : bool := match s with EmptyString => true | String c t => negb (code c =? 0)%Z && clean t end.
Lemma clean_ok s : clean s = true -> no_nul s.
Proof.
  induction s as [|c t IH]; [intros _; exact I|]. cbn [clean no_nul]. intros H. apply andb_prop in H. destruct H as [H1 H2].
  split; [|apply IH; exact H2]. intros ->. discriminate H1.
Qed.
Lemma symbols_clean i : no_nul (nth i element_symbols ""%string).
Proof.
  apply clean_ok. destruct (Nat.lt_ge_cases i (List.length element_symbols)) as [H|H].
  - assert (A : forallb clean element_symbols = true) by (vm_compute; reflexivity).
    rewrite forallb_forall in A. apply A. apply nth_In. exact H.
  - rewrite nth_overflow by exact H. reflexivity.
Qed.
(** No two symbols agree up to case. *)
Lemma symbols_distinct i j : (1 <= i < 119)%nat -> (1 <= j < 119)%nat ->
  strcasecmp (nth i element_symbols ""%string) (nth j element_symbols ""%string) = 0%Z -> i = j.
Proof.
  intros Hi Hj E.
  assert (A : forallb (fun i => forallb (fun j => (negb (strcasecmp (nth i element_symbols ""%string) (nth j element_symbols ""%string) =? 0)%Z || (i =? j)%nat)%bool)
                        (seq 1 118)) (seq 1 118) = true) by (vm_compute; reflexivity).
  rewrite forallb_forall in A. specialize (A i ltac:(apply in_seq; lia)). rewrite forallb_forall in A. specialize (A j ltac:(apply in_seq; lia)).
  rewrite E in A. cbn [Z.eqb negb orb] in A. apply Nat.eqb_eq. exact A.
Qed.

Lemma find_ok el : forall l z, match find_symbol el z l with
  | Some Z => exists k, (k < List.length l)%nat /\ Z = (z + Z.of_nat k)%Z /\ same_name (c_str el) (c_str (nth k l ""%string))
  | None => forall k, (k < List.length l)%nat -> ~ same_name (c_str el) (c_str (nth k l ""%string))
  end.
Proof.
  induction l as [|s t IH]; intros z; cbn [find_symbol].
  - intros k H. cbn in H. lia.
  - unfold stricmp at 1. destruct (Z.eqb_spec (strcasecmp (c_str el) (c_str s)) 0) as [E|E].
    + exists 0%nat. split; [cbn; lia|]. split; [lia|]. cbn [nth]. apply casecmp_same; [apply c_str_clean|apply c_str_clean|exact E].
    + specialize (IH (z + 1)%Z). destruct (find_symbol el (z + 1) t) as [Z|].
      * destruct IH as (k & H1 & H2 & H3). exists (S k). split; [cbn; lia|]. split; [lia|exact H3].
      * intros [|k] Hk; [|apply IH; cbn in Hk; lia]. cbn [nth]. intros H. apply E. apply casecmp_same; [apply c_str_clean|apply c_str_clean|exact H].
Qed.

Lemma same_sym : forall a b, same_name a b -> same_name b a.
Proof.
  induction a as [|c s IH]; intros [|d t]; cbn [same_name]; try tauto. intros [H1 H2]. split; [|apply IH; exact H2].
  unfold same_letter in *. intuition.
Qed.
Lemma same_trans : forall a b c, same_name a b -> same_name b c -> same_name a c.
Proof.
  induction a as [|x s IH]; intros [|y t] [|z u]; cbn [same_name]; try tauto. intros [H1 H2] [H3 H4].
  split; [|apply (IH t); assumption]. apply code_low in H1. apply code_low in H3. apply code_low. congruence.
Qed.

Lemma isalpha_letter c : seven_bit c -> exists b, isalpha c = Ok b /\ (b = true <-> letter c).
Proof.
  intros H. unfold seven_bit in H. unfold isalpha, char_int, code, letter, upper, lower.
  destruct (Z.ltb_spec (Z.of_nat (nat_of_ascii c)) 128); [|lia]. destruct (Z.ltb_spec (Z.of_nat (nat_of_ascii c)) (-1)); [lia|].
  eexists. split; [reflexivity|].
  destruct (Z.leb_spec 65 (Z.of_nat (nat_of_ascii c))), (Z.leb_spec (Z.of_nat (nat_of_ascii c)) 90); cbn [andb orb];
  destruct (Z.leb_spec 97 (Z.of_nat (nat_of_ascii c))), (Z.leb_spec (Z.of_nat (nat_of_ascii c)) 122); cbn [andb orb]; split; intros; try discriminate; try reflexivity; lia.
Qed.
Lemma isalpha_high c : (128 <= nat_of_ascii c < 255)%nat -> isalpha c = UB.
Proof.
  intros H. unfold isalpha, char_int, code. destruct (Z.ltb_spec (Z.of_nat (nat_of_ascii c)) 128); [lia|].
  destruct (Z.ltb_spec (Z.of_nat (nat_of_ascii c) - 256) (-1)); [reflexivity|lia].
Qed.

(** A name starting with a letter: exactly the symbols. *)
Lemma get_Z_letter c s : letter c -> forall Z,
  get_Z (String c s) = Ok Z <-> (1 <= Z <= 118)%Z /\ same_name (c_str (String c s)) (nth (Z.to_nat Z) element_symbols ""%string).
Proof.
  intros Hc Z. assert (H7 : seven_bit c) by (unfold letter, upper, lower, seven_bit in *; lia).
  destruct (isalpha_letter c H7) as (b & Eb & Hb). unfold get_Z. rewrite Eb. cbn [bind]. rewrite (proj2 Hb Hc). cbn [negb].
  pose proof (find_ok (String c s) (tl element_symbols) 1) as F. set (el := String c s) in *.
  assert (N : forall k, nth k (tl element_symbols) ""%string = nth (S k) element_symbols ""%string) by reflexivity.
  assert (L : List.length (tl element_symbols) = 118%nat) by reflexivity. rewrite L in F.
  destruct (find_symbol el 1 (tl element_symbols)) as [z|].
  - destruct F as (k & Hk & Ez & Hs). rewrite N, (c_str_no_nul _ (symbols_clean (S k))) in Hs.
    split.
    + intros E. injection E as <-. split; [lia|]. replace (Z.to_nat z) with (S k) by lia. exact Hs.
    + intros [HZ Hs']. f_equal. assert (S k = Z.to_nat Z); [|lia]. apply symbols_distinct; [lia|lia|].
      apply casecmp_same; [apply symbols_clean|apply symbols_clean|]. apply same_trans with (c_str el); [apply same_sym; exact Hs|exact Hs'].
  - split; [discriminate|]. intros [HZ Hs]. exfalso. apply (F (Z.to_nat Z - 1)%nat); [lia|].
    rewrite N, (c_str_no_nul _ (symbols_clean _)). replace (S (Z.to_nat Z - 1)) with (Z.to_nat Z) by lia. exact Hs.
Qed.
Lemma get_Z_throws c s : letter c -> (forall Z, (1 <= Z <= 118)%nat -> ~ same_name (c_str (String c s)) (nth Z element_symbols ""%string)) ->
  get_Z (String c s) = Throw RuntimeError.
Proof.
  intros Hc H. destruct (isalpha_letter c) as (b & Eb & Hb); [unfold letter, upper, lower, seven_bit in *; lia|].
  unfold get_Z. rewrite Eb. cbn [bind]. rewrite (proj2 Hb Hc). cbn [negb].
  pose proof (find_ok (String c s) (tl element_symbols) 1) as F. set (el := String c s) in *.
  assert (N : forall k, nth k (tl element_symbols) ""%string = nth (S k) element_symbols ""%string) by reflexivity.
  assert (L : List.length (tl element_symbols) = 118%nat) by reflexivity. rewrite L in F.
  destruct (find_symbol el 1 (tl element_symbols)) as [z|]; [|reflexivity].
  destruct F as (k & Hk & Ez & Hs). rewrite N, (c_str_no_nul _ (symbols_clean (S k))) in Hs. exfalso. apply (H (S k)); [lia|exact Hs].
Qed.
(** The symbol itself, in any mixture of cases. *)
Lemma get_Z_symbol el Z : (1 <= Z <= 118)%nat -> same_name el (nth Z element_symbols ""%string) -> get_Z el = Ok (Z.of_nat Z).
Proof.
  intros HZ Hs. pose proof (same_no_nul _ _ Hs (symbols_clean Z)) as Hn.
  destruct el as [|c s].
  { assert (A : forallb (fun s => negb (String.length s =? 0)%nat) (tl element_symbols) = true) by (vm_compute; reflexivity).
    rewrite forallb_forall in A. specialize (A (nth (Z - 1) (tl element_symbols) ""%string)).
    replace (nth Z element_symbols ""%string) with (nth (Z - 1) (tl element_symbols) ""%string) in Hs.
    2: { change (nth (Z - 1) (tl element_symbols) ""%string) with (nth (S (Z - 1)) element_symbols ""%string). f_equal. lia. }
    assert (Hin : In (nth (Z - 1) (tl element_symbols) ""%string) (tl element_symbols)) by (apply nth_In; cbn; lia).
    specialize (A Hin). destruct (nth (Z - 1) (tl element_symbols) ""%string); [discriminate A|destruct Hs]. }
  assert (Hl : letter c).
  { assert (A : forallb (fun s => match s with String c _ => ((65 <=? code c) && (code c <=? 90))%Z%bool | _ => false end) (tl element_symbols) = true) by (vm_compute; reflexivity).
    rewrite forallb_forall in A. specialize (A (nth (Z - 1) (tl element_symbols) ""%string)).
    replace (nth Z element_symbols ""%string) with (nth (Z - 1) (tl element_symbols) ""%string) in Hs.
    2: { change (nth (Z - 1) (tl element_symbols) ""%string) with (nth (S (Z - 1)) element_symbols ""%string). f_equal. lia. }
    assert (Hin : In (nth (Z - 1) (tl element_symbols) ""%string) (tl element_symbols)) by (apply nth_In; cbn; lia).
    specialize (A Hin). destruct (nth (Z - 1) (tl element_symbols) ""%string) as [|d t]; [destruct Hs|].
    apply andb_prop in A. destruct A as [A1 A2]. apply Z.leb_le in A1. apply Z.leb_le in A2. unfold code in *.
    destruct Hs as [[E|[[H1 H2]|[H1 H2]]] _]; unfold letter, upper, lower in *; [subst|lia|lia]. left. lia. }
  apply get_Z_letter; [exact Hl|]. split; [lia|]. rewrite (c_str_no_nul _ Hn), Nat2Z.id. exact Hs.
Qed.

(* ---- numbers ---- *)
Lemma isdigit_ok c : isdigit c = true <-> digit c.
Proof. unfold isdigit, digit, code. rewrite andb_true_iff, !Z.leb_le. lia. Qed.
Lemma isspace_ok c : isspace c = true <-> blank c.
Proof. unfold isspace, blank, code. rewrite orb_true_iff, andb_true_iff, Z.eqb_eq, !Z.leb_le. lia. Qed.
Lemma digits_ok ds rest : all_of digit ds -> head_not digit rest -> forall acc,
  digits acc (ds ++ rest) = (acc * 10 ^ Z.of_nat (String.length ds) + value ds)%Z.
Proof.
  intros Hd Hr. induction ds as [|c t IH]; intros acc.
  - cbn [append String.length value]. destruct rest as [|c t]; cbn [digits]; [cbn; lia|]. destruct (isdigit c) eqn:E; [|cbn; lia].
    apply isdigit_ok in E. destruct (Hr E).
  - destruct Hd as [H1 H2]. cbn [append digits value String.length]. rewrite (proj2 (isdigit_ok c) H1). rewrite (IH H2).
    rewrite Nat2Z.inj_succ, Z.pow_succ_r by lia. unfold code. ring.
Qed.
Lemma skip_ok bs t : all_of blank bs -> head_not blank t -> skip_space (bs ++ t) = t.
Proof.
  intros Hb Ht. induction bs as [|c bs IH].
  - cbn [append]. destruct t as [|c t]; [reflexivity|]. cbn [skip_space]. destruct (isspace c) eqn:E; [|reflexivity].
    apply isspace_ok in E. destruct (Ht E).
  - destruct Hb as [H1 H2]. cbn [append skip_space]. rewrite (proj2 (isspace_ok c) H1). apply IH. exact H2.
Qed.
Lemma no_nul_app a b : no_nul (a ++ b) <-> no_nul a /\ no_nul b.
Proof. induction a as [|c a IH]; cbn [append no_nul]; [tauto|]. rewrite IH. tauto. Qed.
Lemma all_no_nul (P : ascii -> Prop) s : (forall c, P c -> c <> NUL) -> all_of P s -> no_nul s.
Proof. intros H. induction s as [|c t IH]; [intros; exact I|]. cbn [all_of no_nul]. intros [H1 H2]. split; [apply H; exact H1|apply IH; exact H2]. Qed.
Lemma c_str_app a b : no_nul a -> c_str (a ++ b) = (a ++ c_str b)%string.
Proof.
  induction a as [|c a IH]; [reflexivity|]. intros [H1 H2]. cbn [append c_str].
  destruct (Z.eqb_spec (code c) 0) as [E|_]; [|rewrite (IH H2); reflexivity].
  exfalso. apply H1. rewrite <- (ascii_nat_embedding c). unfold code in E. replace (nat_of_ascii c) with 0%nat by lia. reflexivity.
Qed.
Lemma c_str_head (P : ascii -> Prop) s : head_not P s -> head_not P (c_str s).
Proof. destruct s as [|c t]; [intros; exact I|]. cbn [c_str]. destruct (Z.eqb_spec (code c) 0); [intros; exact I|]. intros H. exact H. Qed.
Lemma app_assoc_s (a b c : string) : ((a ++ b) ++ c = a ++ b ++ c)%string.
Proof. induction a as [|x a IH]; [reflexivity|]. cbn [append]. rewrite IH. reflexivity. Qed.

Lemma atoi_ok bs sg ds rest : all_of blank bs -> all_of digit ds -> ds <> EmptyString -> head_not digit rest ->
  (- 2 ^ 31 <= signed sg (value ds) < 2 ^ 31)%Z -> atoi (bs ++ sign_text sg ++ ds ++ rest) = Ok (signed sg (value ds)).
Proof.
  intros Hb Hd Hne Hr Hv. unfold atoi. rewrite skip_ok; [|exact Hb|].
  - destruct sg; cbn [sign_text append signed] in *.
    + cbn [code]. change (code "+" =? 45)%Z with false. change (code "+" =? 43)%Z with true. cbn [andb].
      rewrite (digits_ok _ _ Hd Hr). rewrite Z.mul_0_l, Z.add_0_l. destruct (Z.leb_spec (- 2 ^ 31) (value ds)); [|lia]. destruct (Z.ltb_spec (value ds) (2 ^ 31)); [reflexivity|lia].
    + change (code "-" =? 45)%Z with true. cbv iota.
      rewrite (digits_ok _ _ Hd Hr). rewrite Z.mul_0_l, Z.add_0_l. destruct (Z.leb_spec (- 2 ^ 31) (- value ds)); [|lia]. destruct (Z.ltb_spec (- value ds) (2 ^ 31)); [reflexivity|lia].
    + destruct ds as [|c t]; [congruence|]. pose proof Hd as Hd0. destruct Hd as [H1 H2]. cbn [append].
      assert (A : (code c =? 45)%Z = false) by (unfold digit, code in *; apply Z.eqb_neq; lia).
      assert (B : (code c =? 43)%Z = false) by (unfold digit, code in *; apply Z.eqb_neq; lia). rewrite A, B.
      change (String c (t ++ rest)) with (String c t ++ rest)%string. rewrite (digits_ok _ _ Hd0 Hr), Z.mul_0_l, Z.add_0_l.
      destruct (Z.leb_spec (- 2 ^ 31) (value (String c t))); [|lia]. destruct (Z.ltb_spec (value (String c t)) (2 ^ 31)); [reflexivity|lia].
  - destruct sg; cbn [sign_text append head_not]; try (unfold blank; cbn; lia).
    destruct ds as [|c t]; [congruence|]. cbn [append head_not]. destruct Hd as [H1 _]. unfold digit, blank in *. lia.
Qed.
Lemma sign_no_nul sg : no_nul (sign_text sg).
Proof. destruct sg; cbn; repeat split; discriminate. Qed.
Lemma get_Z_not_letter c s : seven_bit c -> ~ letter c -> get_Z (String c s) = atoi (c_str (String c s)).
Proof.
  intros H7 Hl. destruct (isalpha_letter c H7) as (b & Eb & Hb). unfold get_Z. rewrite Eb. cbn [bind].
  destruct b; [destruct Hl; apply Hb; reflexivity|]. reflexivity.
Qed.
Lemma get_Z_number bs sg ds rest : all_of blank bs -> all_of digit ds -> ds <> EmptyString -> head_not digit rest ->
  (- 2 ^ 31 <= signed sg (value ds) < 2 ^ 31)%Z -> get_Z (bs ++ sign_text sg ++ ds ++ rest) = Ok (signed sg (value ds)).
Proof.
  intros Hb Hd Hne Hr Hv.
  assert (Hb0 : no_nul bs) by (apply (all_no_nul blank); [|exact Hb]; intros c Hc ->; unfold blank in Hc; cbn in Hc; lia).
  assert (Hd0 : no_nul ds) by (apply (all_no_nul digit); [|exact Hd]; intros c Hc ->; unfold digit in Hc; cbn in Hc; lia).
  assert (E : c_str (bs ++ sign_text sg ++ ds ++ rest) = (bs ++ sign_text sg ++ ds ++ c_str rest)%string).
  { rewrite (c_str_app bs) by exact Hb0. rewrite (c_str_app (sign_text sg)) by apply sign_no_nul. rewrite (c_str_app ds) by exact Hd0. reflexivity. }
  assert (H : exists c t, (bs ++ sign_text sg ++ ds ++ rest = String c t)%string /\ seven_bit c /\ ~ letter c).
  { destruct bs as [|c t].
    - destruct sg; cbn [sign_text append].
      + exists "+"%char, (ds ++ rest)%string. split; [reflexivity|]. unfold seven_bit, letter, upper, lower. cbn. lia.
      + exists "-"%char, (ds ++ rest)%string. split; [reflexivity|]. unfold seven_bit, letter, upper, lower. cbn. lia.
      + destruct ds as [|c t]; [congruence|]. exists c, (t ++ rest)%string. split; [reflexivity|]. destruct Hd as [H1 _]. unfold digit, seven_bit, letter, upper, lower in *. lia.
    - exists c, (t ++ sign_text sg ++ ds ++ rest)%string. split; [reflexivity|]. destruct Hb as [H1 _]. unfold blank, seven_bit, letter, upper, lower in *. lia. }
  destruct H as (c & t & Ec & H7 & Hl). rewrite Ec, (get_Z_not_letter c t H7 Hl), <- Ec, E.
  apply atoi_ok; try assumption. apply c_str_head. exact Hr.
Qed.
(** Anything else that does not start with a letter is read as 0. *)
Lemma get_Z_other bs sg rest : all_of blank bs -> head_not digit rest ->
  (bs <> EmptyString \/ sg <> NoSign \/ match rest with EmptyString => False | String c _ => seven_bit c /\ ~ letter c end) ->
  match sg with NoSign => head_not (fun c => blank c \/ c = "+"%char \/ c = "-"%char) rest | _ => True end ->
  get_Z (bs ++ sign_text sg ++ rest) = Ok 0%Z.
Proof.
  intros Hb Hr Hn Hs.
  assert (Hb0 : no_nul bs) by (apply (all_no_nul blank); [|exact Hb]; intros c Hc ->; unfold blank in Hc; cbn in Hc; lia).
  assert (E : c_str (bs ++ sign_text sg ++ rest) = (bs ++ sign_text sg ++ c_str rest)%string).
  { rewrite (c_str_app bs) by exact Hb0. rewrite (c_str_app (sign_text sg)) by apply sign_no_nul. reflexivity. }
  assert (H : exists c t, (bs ++ sign_text sg ++ rest = String c t)%string /\ seven_bit c /\ ~ letter c).
  { destruct bs as [|c t].
    - destruct sg; cbn [sign_text append].
      + exists "+"%char, rest. split; [reflexivity|]. unfold seven_bit, letter, upper, lower. cbn. lia.
      + exists "-"%char, rest. split; [reflexivity|]. unfold seven_bit, letter, upper, lower. cbn. lia.
      + destruct rest as [|c t]; [tauto|]. exists c, t. split; [reflexivity|]. tauto.
    - exists c, (t ++ sign_text sg ++ rest)%string. split; [reflexivity|]. destruct Hb as [H1 _]. unfold blank, seven_bit, letter, upper, lower in *. lia. }
  destruct H as (c & t & Ec & H7 & Hl). rewrite Ec, (get_Z_not_letter c t H7 Hl), <- Ec, E. clear - Hb Hr Hs.
  unfold atoi. rewrite skip_ok; [|exact Hb|].
  - pose proof (c_str_head _ _ Hr) as Hr'. assert (D : digits 0 (c_str rest) = 0%Z).
    { destruct (c_str rest) as [|c t]; [reflexivity|]. cbn [digits]. destruct (isdigit c) eqn:Ed; [|reflexivity]. apply isdigit_ok in Ed. destruct (Hr' Ed). }
    destruct sg; cbn [sign_text append].
    + change (code "+" =? 45)%Z with false. change (code "+" =? 43)%Z with true. cbv iota. rewrite D. reflexivity.
    + change (code "-" =? 45)%Z with true. cbv iota. rewrite D. reflexivity.
    + pose proof (c_str_head _ _ Hs) as Hs'. destruct (c_str rest) as [|c t]; [reflexivity|]. cbn [head_not] in Hs'.
      destruct (Z.eqb_spec (code c) 45) as [Ec|Ec].
      { exfalso. apply Hs'. right. right. rewrite <- (ascii_nat_embedding c). unfold code in Ec. replace (nat_of_ascii c) with 45%nat by lia. reflexivity. }
      destruct (Z.eqb_spec (code c) 43) as [Ed|Ed].
      { exfalso. apply Hs'. right. left. rewrite <- (ascii_nat_embedding c). unfold code in Ed. replace (nat_of_ascii c) with 43%nat by lia. reflexivity. }
      rewrite D. reflexivity.
  - destruct sg; cbn [sign_text append head_not]; try (unfold blank; cbn; lia).
    pose proof (c_str_head _ _ Hs) as Hs'. destruct (c_str rest) as [|c t]; [exact I|]. cbn [head_not] in *. tauto.
Qed.

(* ---- orbital counts ---- *)
Definition plus4 (a b : orbs) : orbs :=
  let '(s, p, d, f) := a in let '(s', p', d', f') := b in (s + s', p + p', d + d', f + f')%Z.
Definition orb_step z (r : res orbs) (i : nat) : res orbs :=
  bind r (fun n => bind (at_ shellZ (Z.of_nat i)) (fun y => if (y <=? z)%Z then bind (at_ shellL (Z.of_nat i)) (fun l => add_shell l n) else Ok n)).
Lemma add_shell_plus l a n r : add_shell l a = Ok r -> add_shell l (plus4 n a) = Ok (plus4 n r).
Proof.
  destruct a as [[[s p] d] f], n as [[[s' p'] d'] f']. unfold add_shell, plus4.
  destruct l as [|l|l]; [| |discriminate]; [|repeat (destruct l as [l|l|]; try discriminate)];
  intros E; injection E as <-; rewrite !Z.add_assoc; reflexivity.
Qed.
Lemma fold_bad z : forall l r, (forall n, r <> Ok n) -> forall n, fold_left (orb_step z) l r <> Ok n.
Proof.
  induction l as [|i l IH]; intros r Hr n; [apply Hr|]. cbn [fold_left]. apply IH. intros m. destruct r as [o| | |]; try discriminate. destruct (Hr o eq_refl).
Qed.
Lemma fold_plus z n : forall l a r, fold_left (orb_step z) l (Ok a) = Ok r -> fold_left (orb_step z) l (Ok (plus4 n a)) = Ok (plus4 n r).
Proof.
  induction l as [|i l IH]; intros a r; cbn [fold_left]; [intros E; injection E as <-; reflexivity|].
  destruct (orb_step z (Ok a) i) as [b| | |] eqn:Eb; try (intros E; exfalso; refine (fold_bad z l _ _ r E); intros m; discriminate).
  intros E. assert (S : orb_step z (Ok (plus4 n a)) i = Ok (plus4 n b)).
  { unfold orb_step in *. cbn [bind] in *. destruct (at_ shellZ (Z.of_nat i)) as [y| | |]; cbn [bind] in *; try discriminate.
    destruct (y <=? z)%Z; [|injection Eb as <-; reflexivity].
    destruct (at_ shellL (Z.of_nat i)) as [k| | |]; cbn [bind] in *; try discriminate. apply add_shell_plus. exact Eb. }
  rewrite S. apply IH. exact E.
Qed.
Definition counts (z : Z) : orbs := (occupied 0 z, occupied 1 z, occupied 2 z, occupied 3 z).
Lemma num_orbs_tab z : (0 <= z <= 118)%Z -> num_orbs1 z (0, 0, 0, 0)%Z = Ok (counts z).
Proof.
  intros Hz.
  assert (A : forallb (fun k => match num_orbs1 (Z.of_nat k) (0, 0, 0, 0)%Z with
     | Ok (a, b, c, d) => ((a =? occupied 0 (Z.of_nat k)) && (b =? occupied 1 (Z.of_nat k)) && (c =? occupied 2 (Z.of_nat k)) && (d =? occupied 3 (Z.of_nat k)))%Z%bool
     | _ => false end) (seq 0 119) = true) by (vm_compute; reflexivity).
  rewrite forallb_forall in A. specialize (A (Z.to_nat z) ltac:(apply in_seq; lia)). rewrite Z2Nat.id in A by lia.
  destruct (num_orbs1 z (0, 0, 0, 0)%Z) as [[[[a b] c] d]| | |]; try discriminate A.
  rewrite !andb_true_iff, !Z.eqb_eq in A. destruct A as [[[A1 A2] A3] A4]. subst. reflexivity.
Qed.
Lemma occupied_neg m z : (z <= 0)%Z -> occupied m z = 0%Z.
Proof.
  intros H. unfold occupied. generalize shells. intros l.
  replace (filter (fun s => ((m <=? snd s)%nat && (Z.of_nat (below s) <? z)%Z)%bool) l) with (@nil (nat * nat)); [reflexivity|].
  induction l as [|s l IH]; [reflexivity|]. cbn [filter]. destruct (Z.ltb_spec (Z.of_nat (below s)) z); [lia|]. rewrite andb_false_r. exact IH.
Qed.
Lemma shellZ_pos i : (i < 19)%nat -> exists y, at_ shellZ (Z.of_nat i) = Ok y /\ (1 <= y)%Z.
Proof.
  intros Hi. do 19 (destruct i as [|i]; [eexists; split; [reflexivity|lia]|]). lia.
Qed.
Lemma num_orbs_neg z : (z <= 0)%Z -> num_orbs1 z (0, 0, 0, 0)%Z = Ok (counts z).
Proof.
  intros H. unfold counts. rewrite !occupied_neg by exact H. change (num_orbs1 z (0, 0, 0, 0)%Z) with (fold_left (orb_step z) (seq 0 19) (Ok (0, 0, 0, 0)%Z)).
  assert (G : forall (l : list nat) n, (forall i, In i l -> (i < 19)%nat) -> fold_left (orb_step z) l (Ok n) = Ok n).
  { induction l as [|i l IH]; intros n Hl; [reflexivity|]. cbn [fold_left].
    destruct (shellZ_pos i (Hl i (or_introl eq_refl))) as (y & Ey & Hy).
    unfold orb_step at 2. cbn [bind]. rewrite Ey. cbn [bind]. destruct (Z.leb_spec y z); [lia|]. apply IH. intros k Hk. apply Hl. right. exact Hk. }
  apply G. intros i Hi. apply in_seq in Hi. lia.
Qed.
Lemma num_orbs_ok z1 z2 : (z1 <= 118)%Z -> (z2 <= 118)%Z ->
  num_orbs z1 z2 = Ok (occupied 0 z1 + occupied 0 z2, occupied 1 z1 + occupied 1 z2, occupied 2 z1 + occupied 2 z2, occupied 3 z1 + occupied 3 z2)%Z.
Proof.
  intros H1 H2. assert (A : forall z, (z <= 118)%Z -> num_orbs1 z (0, 0, 0, 0)%Z = Ok (counts z)).
  { intros z Hz. destruct (Z.le_gt_cases z 0); [apply num_orbs_neg; exact H|apply num_orbs_tab; lia]. }
  unfold num_orbs. rewrite (A z1 H1). cbn [bind].
  pose proof (fold_plus z2 (counts z1) (seq 0 19) (0, 0, 0, 0)%Z (counts z2) (A z2 H2)) as F.
  unfold counts, plus4 in F. rewrite !Z.add_0_r in F. exact F.
Qed.

(* ---- against the periodic table ---- *)
Lemma symbols_ok Z : (1 <= Z <= 118)%nat -> nth Z element_symbols ""%string = symbol Z.
Proof.
  intros H. destruct Z as [|Z]; [lia|]. unfold symbol. replace (S Z - 1)%nat with Z by lia.
  change (nth (S Z) element_symbols ""%string) with (nth Z (tl element_symbols) ""%string). reflexivity.
Qed.
Lemma upto_ok s : upto_nul s = c_str s.
Proof.
  induction s as [|c t IH]; [reflexivity|]. cbn [upto_nul c_str]. rewrite IH. destruct (Ascii.eqb_spec c NUL) as [E|E].
  - rewrite E. reflexivity.
  - destruct (Z.eqb_spec (code c) 0) as [Ec|_]; [|reflexivity]. exfalso. apply E. rewrite <- (ascii_nat_embedding c). unfold code in Ec. replace (nat_of_ascii c) with 0%nat by lia. reflexivity.
Qed.
Lemma name_symbol el Z : (1 <= Z <= 118)%nat -> same_name el (symbol Z) -> get_Z el = Ok (Z.of_nat Z).
Proof. intros H. rewrite <- symbols_ok by exact H. apply get_Z_symbol. exact H. Qed.
Lemma name_iff c s Z : letter c ->
  (get_Z (String c s) = Ok Z <-> (1 <= Z <= 118)%Z /\ same_name (upto_nul (String c s)) (symbol (Z.to_nat Z))).
Proof.
  intros Hc. rewrite (get_Z_letter c s Hc Z), upto_ok. split; intros [H1 H2]; (split; [exact H1|]); [rewrite <- symbols_ok by lia|rewrite symbols_ok by lia]; exact H2.
Qed.
Lemma name_throws c s : letter c -> (forall Z, (1 <= Z <= 118)%nat -> ~ same_name (upto_nul (String c s)) (symbol Z)) ->
  get_Z (String c s) = Throw RuntimeError.
Proof.
  intros Hc H. apply get_Z_throws; [exact Hc|]. intros Z HZ. rewrite symbols_ok by exact HZ. rewrite <- upto_ok. apply H. exact HZ.
Qed.
Lemma name_empty : get_Z "" = Ok 0%Z.
Proof. reflexivity. Qed.
Lemma name_high c s : (128 <= nat_of_ascii c < 255)%nat -> get_Z (String c s) = UB.
Proof. intros H. unfold get_Z. rewrite (isalpha_high c H). reflexivity. Qed.
Lemma name_cases : get_Z "he" = Ok 2%Z /\ get_Z "HE" = Ok 2%Z /\ get_Z "Og" = Ok 118%Z /\ get_Z "Xx" = Throw RuntimeError /\
  same_name "hE" (symbol 2) /\ get_Z "  -12abc" = Ok (-12)%Z /\ value "0118" = 118%Z /\ all_of digit "0118" /\ get_Z "+" = Ok 0%Z.
Proof.
  split; [reflexivity|]. split; [reflexivity|]. split; [reflexivity|]. split; [reflexivity|]. split.
  - cbn. unfold same_letter, upper. cbn. split; [right; right; lia|]. split; [right; left; lia|exact I].
  - split; [reflexivity|]. split; [reflexivity|]. split; [|reflexivity]. cbn. unfold digit. cbn. repeat split; lia.
Qed.
Lemma orbs_case : num_orbs 26 8 = Ok (10, 4, 1, 0)%Z /\ num_orbs 118 0 = Ok (19, 12, 6, 2)%Z.
Proof. split; reflexivity. Qed.
