(** Proofs about the command line parser. *)
Require Import String Ascii List Bool Arith Lia Permutation.
Require Import Verif.Prelude Verif.CmdModel Verif.CmdSpec.
Import ListNotations.
Open Scope string_scope.

Lemma app_empty s : s ++ "" = s.
Proof. induction s; cbn; congruence. Qed.
Lemma app_assoc_s (a b c : string) : (a ++ b) ++ c = a ++ (b ++ c).
Proof. induction a; cbn; congruence. Qed.

Section Proofs.
Context {V : Type}.
Implicit Types (os : list (opt V)) (o : opt V) (p : parser V).

(* ---- the reading as a function ---- *)
Definition valued os n : bool := match declared os n with Some o => has_value o | None => false end.
Definition svalued os c : bool := match long_name os c with Some n => valued os n | None => false end.
Fixpoint unsnoc (c : ascii) (s : string) : string * ascii :=
  match s with EmptyString => ("", c) | String d r => let '(cs, l) := unsnoc d r in (String c cs, l) end.
Lemma unsnoc_ok c s cs l : unsnoc c s = (cs, l) -> String c s = cs ++ String l "".
Proof.
  revert c cs. induction s as [|d r IH]; intros c cs H; cbn in H; [injection H as <- <-; reflexivity|].
  destruct (unsnoc d r) as [cs' l'] eqn:E. injection H as <- <-. cbn. rewrite <- (IH _ _ E). reflexivity.
Qed.
Lemma unsnoc_inv cs l c s : String c s = cs ++ String l "" -> unsnoc c s = (cs, l).
Proof.
  revert c s. induction cs as [|d cs IH]; intros c s H; cbn in H.
  - injection H as -> ->. reflexivity.
  - injection H as -> H. destruct s as [|e s]; [destruct cs; discriminate|]. cbn. rewrite (IH e s H). reflexivity.
Qed.

Fixpoint items_of os (t : list string) : list item :=
  match t with
  | [] => []
  | a :: r =>
      match classify a with
      | LongForm n =>
          match split_eq n with
          | Some (n, v) => Equal n v :: items_of os r
          | None => if valued os n then match r with v :: r' => Next n v :: items_of os r' | [] => [Bare n] end
                    else Bare n :: items_of os r
          end
      | ShortForm EmptyString => Dash :: items_of os r
      | ShortForm (String c s) =>
          let '(cs, l) := unsnoc c s in
          if svalued os l then match r with v :: r' => Letters cs l (Some v) :: items_of os r' | [] => [Letters cs l None] end
          else Letters cs l None :: items_of os r
      | Word => Plain a :: items_of os r
      end
  end.

Lemma takes_valued os n : takes_value os n <-> valued os n = true.
Proof.
  unfold takes_value, valued, is_flag, has_value. split.
  - intros [o [-> H]]. destruct (o_kind o); [destruct H; reflexivity|reflexivity].
  - destruct (declared os n) as [o|]; [|discriminate]. intros H. exists o. split; [reflexivity|]. destruct (o_kind o); [discriminate|discriminate].
Qed.
Lemma split_none s : split_eq s = None <-> no_equal s.
Proof.
  unfold no_equal. induction s as [|c s IH]; cbn; [split; [tauto|reflexivity]|]. destruct (Ascii.eqb_spec c "=") as [->|H].
  - split; [discriminate|]. intros H. destruct H. left; reflexivity.
  - destruct (split_eq s) as [[n v]|]; split; try discriminate; try reflexivity.
    + intros N. assert (Some (n, v) = None) by (apply IH; tauto). discriminate.
    + intros _ [E|I]; [congruence|]. revert I. apply IH. reflexivity.
Qed.
Lemma split_some s n v : split_eq s = Some (n, v) <-> no_equal n /\ s = n ++ "=" ++ v.
Proof.
  unfold no_equal. revert n v. induction s as [|c s IH]; intros n v; cbn.
  - split; [discriminate|]. intros [_ H]. destruct n; discriminate.
  - destruct (Ascii.eqb_spec c "=") as [->|H].
    + split.
      * intros E. injection E as <- <-. split; [tauto|reflexivity].
      * intros [N E]. destruct n as [|d n]; cbn in E; [injection E as <-; reflexivity|]. injection E as <- E. destruct N. left. reflexivity.
    + destruct (split_eq s) as [[n' v']|] eqn:Es.
      * destruct (proj1 (IH n' v')) as [N E]; [reflexivity|]. split.
        -- intros E2. injection E2 as <- <-. split; [intros [I|I]; [congruence|tauto]|]. cbn. rewrite E. reflexivity.
        -- intros [N2 E2]. destruct n as [|d n]; cbn in E2; [congruence|]. injection E2 as <- E2.
           assert (Hs : Some (n', v') = Some (n, v)) by (apply IH; split; [intros I; apply N2; right; exact I|exact E2]). injection Hs as <- <-. reflexivity.
      * split; [discriminate|]. intros [N2 E2]. destruct n as [|d n]; cbn in E2; [congruence|]. injection E2 as <- E2.
        assert (Hs : None = Some (n, v)) by (apply IH; split; [intros I; apply N2; right; exact I|exact E2]). discriminate.
Qed.
Lemma classify_long n : classify ("--" ++ n) = LongForm n. Proof. reflexivity. Qed.
Lemma classify_plain s : no_dash s -> classify s = Word.
Proof. intros H. destruct s as [|c s]; [reflexivity|]. cbn. destruct (Ascii.eqb_spec c "-") as [->|]; [|reflexivity]. destruct (H s). reflexivity. Qed.
Lemma classify_short c s : no_dash (String c s) -> classify (String "-" (String c s)) = ShortForm (String c s).
Proof. intros H. cbn. destruct (Ascii.eqb_spec c "-") as [->|]; [|reflexivity]. destruct (H s). reflexivity. Qed.
Lemma classify_inv a : match classify a with LongForm n => a = "--" ++ n | ShortForm s => a = String "-" s /\ no_dash s | Word => no_dash a end.
Proof.
  destruct a as [|c a]; cbn; [intros r; discriminate|]. destruct (Ascii.eqb_spec c "-") as [->|H].
  - destruct a as [|d a]; [split; [reflexivity|intros r; discriminate]|]. destruct (Ascii.eqb_spec d "-") as [->|H]; [reflexivity|].
    split; [reflexivity|]. intros r E. congruence.
  - intros r E. congruence.
Qed.

Lemma reading_unique os items t : reading os items t -> items = items_of os t.
Proof.
  induction 1 as [|it items args F R IH]; [reflexivity|]. destruct it as [n v|n v|n|cs c ov| |s]; cbn [render fits] in *.
  - cbn [app]. cbn [items_of]. rewrite classify_long. replace (split_eq (n ++ "=" ++ v)) with (Some (n, v)) by (symmetry; apply split_some; split; [exact F|reflexivity]). rewrite IH. reflexivity.
  - destruct F as [N T]. cbn [app items_of]. rewrite classify_long. rewrite (proj2 (split_none n) N). rewrite (proj1 (takes_valued os n) T), IH. reflexivity.
  - destruct F as [N T]. cbn [app items_of]. rewrite classify_long. rewrite (proj2 (split_none n) N). destruct (valued os n) eqn:E.
    + rewrite (T (proj2 (takes_valued os n) E)) in *. inversion R. reflexivity.
    + rewrite IH. reflexivity.
  - destruct F as [N T]. destruct (cs ++ String c "") as [|d s] eqn:E; [destruct cs; discriminate|].
    cbn [app items_of]. rewrite (classify_short d s N). rewrite (unsnoc_inv cs c d s (eq_sym E)). destruct ov as [v|].
    + destruct T as [n [L T]]. unfold svalued. rewrite L, (proj1 (takes_valued os n) T). cbn [app]. rewrite IH. reflexivity.
    + destruct (svalued os c) eqn:Es; [|cbn [app]; rewrite IH; reflexivity]. unfold svalued in Es. destruct (long_name os c) as [n|]; [|discriminate].
      rewrite (T n eq_refl (proj2 (takes_valued os n) Es)) in *. inversion R. reflexivity.
  - cbn [app items_of classify Ascii.eqb]. cbn. rewrite IH. reflexivity.
  - cbn [app items_of]. rewrite (classify_plain s F), IH. reflexivity.
Qed.
Lemma reading_exists os : forall k t, length t <= k -> reading os (items_of os t) t.
Proof.
  induction k as [|k IH]; intros t H; (destruct t as [|a t]; [constructor|]); cbn [length] in H; [lia|].
  cbn [items_of]. pose proof (classify_inv a) as C. destruct (classify a) as [n|s|].
  - subst a. destruct (split_eq n) as [[n' v]|] eqn:E.
    + apply split_some in E. destruct E as [N ->]. apply (read_cons os (Equal n' v)); [exact N|apply IH; lia].
    + apply split_none in E. destruct (valued os n) eqn:T.
      * destruct t as [|v t].
        -- apply (read_cons os (Bare n) [] []); [split; [exact E|reflexivity]|constructor].
        -- apply (read_cons os (Next n v)); [split; [exact E|apply takes_valued, T]|apply IH; cbn in H; lia].
      * apply (read_cons os (Bare n)); [split; [exact E|]|apply IH; lia]. intros T'. apply takes_valued in T'. congruence.
  - destruct C as [-> N]. destruct s as [|c s].
    + apply (read_cons os Dash); [exact I|apply IH; lia].
    + destruct (unsnoc c s) as [cs l] eqn:E. apply unsnoc_ok in E. rewrite E in *. destruct (svalued os l) eqn:T.
      * destruct t as [|v t].
        -- apply (read_cons os (Letters cs l None) [] []); [split; [exact N|reflexivity]|constructor].
        -- apply (read_cons os (Letters cs l (Some v))); [split; [exact N|]|apply IH; cbn in H; lia].
           unfold svalued in T. destruct (long_name os l) as [n|]; [|discriminate]. exists n. split; [reflexivity|apply takes_valued, T].
      * apply (read_cons os (Letters cs l None)); [split; [exact N|]|apply IH; lia]. intros n L T'. apply takes_valued in T'. unfold svalued in T. rewrite L in T. congruence.
  - apply (read_cons os (Plain a)); [exact C|apply IH; lia].
Qed.
Lemma reading_iff os items t : reading os items t <-> items = items_of os t.
Proof. split; [apply reading_unique|intros ->; apply (reading_exists os (length t)); lia]. Qed.

(* ---- the state ---- *)
Lemma given_name o s : o_name (given o s) = o_name o.
Proof. destruct s as [n ov|c]; [|reflexivity]. cbn. destruct (o_name o =? n); [|reflexivity]. destruct (o_kind o) as [|need t rd v], ov as [x|]; try reflexivity. destruct (rd x); reflexivity. Qed.
Lemma given_short o s : o_short (given o s) = o_short o.
Proof. destruct s as [n ov|c]; [|reflexivity]. cbn. destruct (o_name o =? n); [|reflexivity]. destruct (o_kind o) as [|need t rd v], ov as [x|]; try reflexivity. destruct (rd x); reflexivity. Qed.
(** Everything about an option but its value and whether it was set. *)
Definition sig o : string * option ascii * option (bool * nat * (string -> option V)) :=
  (o_name o, o_short o, match o_kind o with Flag => None | Val need t rd _ => Some (need, t, rd) end).
Lemma given_sig o s : sig (given o s) = sig o.
Proof.
  destruct s as [n ov|c]; [|reflexivity]. unfold sig. cbn. destruct (o_name o =? n); [|reflexivity].
  destruct (o_kind o) as [|need t rd v] eqn:E, ov as [x|]; try (rewrite E; reflexivity); try reflexivity. destruct (rd x); [reflexivity|rewrite E; reflexivity].
Qed.
Lemma after_sig ss o : sig (after ss o) = sig o.
Proof. revert o. induction ss as [|s ss IH]; intros o; [reflexivity|]. cbn [after fold_left]. fold (after ss (given o s)). rewrite IH. apply given_sig. Qed.
Lemma after_app s1 s2 o : after (s1 ++ s2) o = after s2 (after s1 o).
Proof. apply fold_left_app. Qed.
Lemma sig_name o o' : sig o = sig o' -> o_name o = o_name o'. Proof. unfold sig. congruence. Qed.
Lemma after_name ss o : o_name (after ss o) = o_name o. Proof. apply sig_name, after_sig. Qed.
Lemma sig_value o o' : sig o = sig o' -> has_value o = has_value o'.
Proof. unfold sig, has_value. destruct (o_kind o), (o_kind o'); congruence. Qed.
Lemma find_after n ss os : find_opt n (map (after ss) os) = option_map (after ss) (find_opt n os).
Proof.
  unfold find_opt. induction os as [|o os IH]; [reflexivity|]. cbn [map find]. rewrite after_name. destruct (o_name o =? n); [reflexivity|exact IH].
Qed.
Lemma find_declared n os : find_opt n os = declared os n. Proof. reflexivity. Qed.
Lemma find_name n os o : declared os n = Some o -> o_name o = n /\ In o os.
Proof. intros H. apply find_some in H. destruct H as [I E]. apply String.eqb_eq in E. split; assumption. Qed.

(** The state after some settings. *)
Definition state_is p os ss errs oths : Prop := options p = map (after ss) os /\ errors p = errs /\ others p = oths.

Lemma store_given os ss n ov o o' : NoDup (names os) -> declared os n = Some o -> o' = given (after ss o) (Set_ n ov) ->
  store n o' (map (after ss) os) = map (after (ss ++ [Set_ n ov])) os.
Proof.
  intros ND D E. destruct (find_name n os o D) as [En Io]. unfold store. rewrite map_map. apply map_ext_in. intros a Ia. rewrite after_name, after_app. cbn [after fold_left].
  destruct (String.eqb_spec (o_name a) n) as [Ea|Ea].
  - assert (a = o).
    { clear - ND Ia Io Ea En. revert ND. unfold names. induction os as [|b os IH]; [destruct Ia|]. cbn. intros ND. inversion ND; subst.
      destruct Ia as [->|Ia], Io as [->|Io]; auto; exfalso; [apply H1|apply H1]; (match goal with H : In ?y os |- _ => rewrite in_map_iff; exists y; split; [congruence|assumption] end). }
    subst a. exact E.
  - symmetry. cbn [given]. rewrite after_name. apply String.eqb_neq in Ea. rewrite Ea. reflexivity.
Qed.
Lemma no_effect os ss n ov : declared os n = None -> map (after (ss ++ [Set_ n ov])) os = map (after ss) os.
Proof.
  intros D. apply map_ext_in. intros a Ia. rewrite after_app. cbn [after fold_left given]. rewrite after_name.
  pose proof (find_none _ _ D a Ia) as E. cbv beta in E. rewrite E. reflexivity.
Qed.
Lemma unchanged os ss n ov o : NoDup (names os) -> declared os n = Some o -> given (after ss o) (Set_ n ov) = after ss o ->
  map (after (ss ++ [Set_ n ov])) os = map (after ss) os.
Proof.
  intros ND D E. rewrite <- (store_given os ss n ov o (after ss o) ND D (eq_sym E)). unfold store. rewrite map_map. apply map_ext_in. intros a Ia. rewrite after_name.
  destruct (String.eqb_spec (o_name a) n) as [Ea|Ea]; [|reflexivity]. destruct (find_name n os o D) as [En Io]. f_equal.
  clear - ND Ia Io Ea En. revert ND. unfold names. induction os as [|b os IH]; [destruct Ia|]. cbn. intros ND. inversion ND; subst.
  destruct Ia as [->|Ia], Io as [->|Io]; auto; exfalso; apply H1; (match goal with H : In ?y os |- _ => rewrite in_map_iff; exists y; split; [congruence|assumption] end).
Qed.

Lemma set_option_ok os p ss errs oths n ov : NoDup (names os) -> state_is p os ss errs oths ->
  state_is (match ov with Some v => set_option1 n v p | None => set_option0 n p end) os (ss ++ [Set_ n ov]) (errs ++ complaint os (Set_ n ov)) oths.
Proof.
  intros ND [S1 [S2 S3]].
  assert (Hf : find_opt n (options p) = option_map (after ss) (declared os n)) by (rewrite S1, find_after, find_declared; reflexivity).
  cbn [complaint]. destruct (declared os n) as [o|] eqn:D; cbn [option_map] in Hf.
  - pose proof (after_sig ss o) as Sg. destruct (find_name n os o D) as [En Io]. pose proof (after_name ss o) as An. rewrite En in An.
    assert (En2 : (o_name (after ss o) =? n) = true) by (apply String.eqb_eq, An).
    destruct ov as [v|].
    + unfold set_option1. rewrite Hf. unfold set1.
      assert (Ek : match o_kind o, o_kind (after ss o) with Flag, Flag => True | Val a b c _, Val a' b' c' _ => a = a' /\ b = b' /\ c = c' | _, _ => False end).
      { unfold sig in Sg. destruct (o_kind o), (o_kind (after ss o)); try congruence; try exact I. injection Sg. auto. }
      destruct (o_kind o) as [|need t rd w] eqn:K, (o_kind (after ss o)) as [|need' t' rd' w'] eqn:K'; try contradiction.
      * split; [|split]; cbn; [|congruence|exact S3]. rewrite S1. symmetry. apply (unchanged os ss n (Some v) o ND D). cbn [given]. rewrite En2, K'. reflexivity.
      * destruct Ek as [<- [<- <-]]. destruct (rd v) as [x|] eqn:R.
        -- split; [|split]; cbn; [|rewrite app_nil_r; exact S2|exact S3]. rewrite S1. apply (store_given os ss n (Some v) o); [exact ND|exact D|].
           cbn [given]. rewrite En2, K', R. reflexivity.
        -- split; [|split]; cbn; [|congruence|exact S3]. rewrite S1. symmetry. apply (unchanged os ss n (Some v) o ND D). cbn [given]. rewrite En2, K', R. reflexivity.
    + unfold set_option0. rewrite Hf. unfold set0.
      assert (Ek : match o_kind o, o_kind (after ss o) with Flag, Flag => True | Val a b c _, Val a' b' c' _ => True | _, _ => False end).
      { unfold sig in Sg. destruct (o_kind o), (o_kind (after ss o)); try congruence; exact I. }
      destruct (o_kind o) as [|need t rd w] eqn:K, (o_kind (after ss o)) as [|need' t' rd' w'] eqn:K'; try contradiction.
      * split; [|split]; cbn; [|rewrite app_nil_r; exact S2|exact S3]. rewrite S1. apply (store_given os ss n None o); [exact ND|exact D|].
        cbn [given]. rewrite En2, K'. reflexivity.
      * split; [|split]; cbn; [|congruence|exact S3]. rewrite S1. symmetry. apply (unchanged os ss n None o ND D). cbn [given]. rewrite En2, K'. reflexivity.
  - destruct ov as [v|]; [unfold set_option1|unfold set_option0]; rewrite Hf; (split; [|split]; cbn; [rewrite S1; symmetry; apply no_effect, D|congruence|exact S3]).
Qed.

(* ---- the short names ---- *)
Lemma nodup_snoc {A} (l : list A) a : NoDup l -> ~ In a l -> NoDup (l ++ [a])%list.
Proof.
  intros N I. apply NoDup_rev in N. rewrite <- (rev_involutive (l ++ [a])). apply NoDup_rev. rewrite rev_app_distr. cbn. constructor; [|exact N].
  rewrite <- in_rev. exact I.
Qed.
Definition entries os : lookup_t := flat_map (fun o => if o_name o =? "" then [] else match o_short o with Some c => [(c, o_name o)] | None => [] end) os.
Lemma look_app c l1 l2 : look c (l1 ++ l2)%list = match look c l1 with Some n => Some n | None => look c l2 end.
Proof. unfold look. induction l1 as [|e l1 IH]; [reflexivity|]. cbn. destruct (Ascii.eqb (fst e) c); [reflexivity|exact IH]. Qed.
Lemma look_none c lk : look c lk = None <-> ~ In c (map fst lk).
Proof.
  unfold look. destruct (find _ lk) as [e|] eqn:E.
  - split; [discriminate|]. intros H. apply find_some in E. destruct E as [I E]. apply Ascii.eqb_eq in E. destruct H. rewrite <- E. apply in_map, I.
  - split; [|reflexivity]. intros _ I. apply in_map_iff in I. destruct I as [e [Ee I]]. pose proof (find_none _ _ E e I) as N. cbv beta in N. rewrite Ee, Ascii.eqb_refl in N. discriminate.
Qed.
Lemma build_ok os : forall lk, NoDup (map fst lk ++ shorts os)%list -> build os lk = inl (lk ++ entries os)%list.
Proof.
  induction os as [|o os IH]; intros lk ND; cbn [build entries flat_map shorts] in *; [rewrite app_nil_r; reflexivity|].
  destruct (o_name o =? ""); cbn [app] in *; [apply IH, ND|]. destruct (o_short o) as [c|]; cbn [app] in *; [|apply IH, ND].
  rewrite (proj2 (look_none c lk)).
  - rewrite IH; [rewrite <- app_assoc; reflexivity|]. rewrite map_app. cbn. rewrite <- app_assoc. exact ND.
  - intros I. apply NoDup_remove_2 in ND. apply ND. apply in_or_app. left. exact I.
Qed.
Lemma build_bad os : forall lk, NoDup (map fst lk) -> ~ NoDup (map fst lk ++ shorts os)%list -> exists c, build os lk = inr c /\ In c (shorts os).
Proof.
  induction os as [|o os IH]; intros lk N0 ND; cbn [build shorts flat_map] in *; [rewrite app_nil_r in ND; contradiction|].
  destruct (o_name o =? ""); cbn [app] in *; [apply IH; assumption|]. destruct (o_short o) as [c|]; cbn [app] in *; [|apply IH; assumption].
  destruct (look c lk) as [n|] eqn:L; [exists c; split; [reflexivity|left; reflexivity]|].
  apply look_none in L. destruct (IH (lk ++ [(c, o_name o)])%list) as [d [E I]].
  - rewrite map_app. cbn. apply nodup_snoc; assumption.
  - rewrite map_app. cbn. rewrite <- app_assoc. exact ND.
  - exists d. split; [exact E|right; exact I].
Qed.
Lemma entries_shorts os : map fst (entries os) = shorts os.
Proof. induction os as [|o os IH]; [reflexivity|]. cbn. destruct (o_name o =? ""); [exact IH|]. destruct (o_short o); cbn; [f_equal|]; exact IH. Qed.
Lemma look_entries os c : look c (entries os) = long_name os c.
Proof.
  unfold long_name. induction os as [|o os IH]; [reflexivity|]. cbn [entries flat_map find]. rewrite look_app. destruct (o_name o =? ""); cbn [negb andb]; [exact IH|].
  destruct (o_short o) as [d|]; [|exact IH]. unfold look at 1. cbn [find fst]. rewrite (Ascii.eqb_sym d c). destruct (Ascii.eqb c d); [reflexivity|exact IH].
Qed.
Lemma long_name_nonempty os c n : long_name os c = Some n -> (n =? "") = false.
Proof.
  unfold long_name. destruct (find _ os) as [o|] eqn:E; [|discriminate]. apply find_some in E. destruct E as [_ E]. intros H. injection H as <-.
  apply andb_prop in E. destruct E as [E _]. apply negb_true_iff, E.
Qed.
Lemma long_name_declared os c n : long_name os c = Some n -> exists o, declared os n = Some o.
Proof.
  unfold long_name. destruct (find _ os) as [o|] eqn:E; [|discriminate]. intros H. injection H as <-. apply find_some in E. destruct E as [I _].
  destruct (declared os (o_name o)) as [o'|] eqn:D; [exists o'; reflexivity|]. pose proof (find_none _ _ D o I) as N. cbv beta in N. rewrite String.eqb_refl in N. discriminate.
Qed.

Lemma letter_ok os p ss errs oths c : NoDup (names os) -> state_is p os ss errs oths ->
  state_is (letter (entries os) c p) os (ss ++ [letter_setting os c None])%list (errs ++ complaint os (letter_setting os c None))%list oths.
Proof.
  intros ND S. unfold letter. rewrite look_entries. unfold letter_setting. destruct (long_name os c) as [n|] eqn:L.
  - rewrite (long_name_nonempty os c n L). apply (set_option_ok os p ss errs oths n None ND S).
  - destruct S as [S1 [S2 S3]]. split; [|split]; cbn; [|congruence|exact S3]. rewrite S1. apply map_ext. intros o. rewrite after_app. reflexivity.
Qed.
Lemma cluster_ok os oths : NoDup (names os) -> forall s c cs l p ss errs, unsnoc c s = (cs, l) -> state_is p os ss errs oths ->
  let ls := map (fun d => letter_setting os d None) (list_ascii_of_string cs) in
  exists p', cluster (entries os) c s p = (l, p') /\ state_is p' os (ss ++ ls)%list (errs ++ flat_map (complaint os) ls)%list oths.
Proof.
  intros ND. induction s as [|d s IH]; intros c cs l p ss errs E S; cbn [unsnoc] in E.
  - injection E as <- <-. exists p. cbn. rewrite !app_nil_r. split; [reflexivity|exact S].
  - destruct (unsnoc d s) as [cs' l'] eqn:E'. injection E as <- <-. cbn [cluster].
    destruct (IH d cs' l' _ _ _ E' (letter_ok os p ss errs oths c ND S)) as [p' [C S']]. exists p'. split; [exact C|].
    cbn [list_ascii_of_string map flat_map]. rewrite <- !app_assoc in S'. exact S'.
Qed.

Lemma valued_find os p ss errs oths n : state_is p os ss errs oths ->
  match find_opt n (options p) with Some o => has_value o | None => false end = valued os n.
Proof.
  intros [S1 _]. rewrite S1, find_after. unfold valued. rewrite find_declared. destruct (declared os n) as [o|]; [|reflexivity]. cbn. apply sig_value, after_sig.
Qed.

Lemma settings_app os a b : settings os (a ++ b) = (settings os a ++ settings os b)%list.
Proof. apply flat_map_app. Qed.

Lemma nth_mid {A} (pre : list A) a t : nth_error (pre ++ a :: t) (length pre) = Some a.
Proof. rewrite nth_error_app2, Nat.sub_diag by lia. reflexivity. Qed.
Lemma nth_mid1 {A} (pre : list A) a b t : nth_error (pre ++ a :: b :: t) (length pre + 1) = Some b.
Proof. rewrite nth_error_app2 by lia. replace (length pre + 1 - length pre) with 1 by lia. reflexivity. Qed.

Ltac fin S := unfold settings, plains in *; cbn [flat_map settings1 items_of app] in *; rewrite ?flat_map_app in *; cbn [flat_map app] in *;
  rewrite ?app_nil_r in *; rewrite <- ?app_assoc in *; exact S.
Ltac fin2 L S := unfold settings, plains in *; cbn [flat_map settings1 items_of] in *; unfold letter_setting at 2 4; rewrite L; fin S.
Lemma loop_ok os : NoDup (names os) -> forall fuel t pre p ss errs oths, length t <= fuel -> state_is p os ss errs oths ->
  exists p', loop fuel (pre ++ t) (entries os) (length pre) p = Ok p' /\
    state_is p' os (ss ++ settings os (items_of os t))%list (errs ++ flat_map (complaint os) (settings os (items_of os t)))%list (oths ++ plains (items_of os t))%list.
Proof.
  intros ND. induction fuel as [|fuel IH]; intros t pre p ss errs oths Hf S.
  { destruct t; [|cbn in Hf; lia]. exists p. cbn [loop]. rewrite app_nil_r, Nat.ltb_irrefl. cbn. rewrite !app_nil_r. split; [reflexivity|exact S]. }
  destruct t as [|a t].
  { exists p. cbn [loop]. rewrite app_nil_r, Nat.ltb_irrefl. cbn. rewrite !app_nil_r. split; [reflexivity|exact S]. }
  cbn [length] in Hf.
  assert (step : forall p' ss' errs' oths', state_is p' os (ss ++ ss')%list (errs ++ errs')%list (oths ++ oths')%list ->
    exists p'', loop fuel (pre ++ a :: t) (entries os) (length pre + 1) p' = Ok p'' /\
      state_is p'' os (ss ++ ss' ++ settings os (items_of os t))%list (errs ++ errs' ++ flat_map (complaint os) (settings os (items_of os t)))%list (oths ++ oths' ++ plains (items_of os t))%list).
  { intros p' ss' errs' oths' S'. destruct (IH t (pre ++ [a])%list p' _ _ _ ltac:(lia) S') as [p'' [L S'']]. exists p''.
    rewrite <- app_assoc in L. rewrite app_length in L. cbn [app length] in L. split; [exact L|]. rewrite <- !app_assoc in S''. exact S''. }
  assert (step2 : forall v r p' ss' errs' oths', t = v :: r -> state_is p' os (ss ++ ss')%list (errs ++ errs')%list (oths ++ oths')%list ->
    exists p'', loop fuel (pre ++ a :: t) (entries os) (length pre + 1 + 1) p' = Ok p'' /\
      state_is p'' os (ss ++ ss' ++ settings os (items_of os r))%list (errs ++ errs' ++ flat_map (complaint os) (settings os (items_of os r)))%list (oths ++ oths' ++ plains (items_of os r))%list).
  { intros v r p' ss' errs' oths' -> S'. cbn [length] in Hf. destruct (IH r (pre ++ [a; v])%list p' _ _ _ ltac:(lia) S') as [p'' [L S'']]. exists p''.
    rewrite <- app_assoc in L. rewrite app_length in L. cbn [app length] in L. replace (length pre + 1 + 1) with (length pre + 2) by lia. split; [exact L|]. rewrite <- !app_assoc in S''. exact S''. }
  cbn [loop]. replace (length pre <? length (pre ++ a :: t))%nat with true by (symmetry; apply Nat.ltb_lt; rewrite app_length; cbn; lia).
  rewrite nth_mid. cbn [items_of].
  assert (Hlen : length (pre ++ a :: t) = length pre + 1 + length t) by (rewrite app_length; cbn; lia). rewrite Hlen.
  destruct (classify a) as [n|s|].
  - destruct (split_eq n) as [[n' v]|] eqn:Es.
    + pose proof (set_option_ok os p ss errs oths n' (Some v) ND S) as S'. rewrite <- (app_nil_r oths) in S'. destruct (step _ _ _ _ S') as [p'' [L S'']].
      exists p''. split; [exact L|]. fin S''.
    + pose proof (valued_find os p ss errs oths n S) as Hv. destruct (find_opt n (options p)) as [o|] eqn:F.
      * rewrite Hv. destruct (valued os n) eqn:T.
        -- destruct t as [|v r].
           ++ replace (length pre + 1 + length (@nil string) <=? length pre + 1)%nat with true by (symmetry; apply Nat.leb_le; cbn; lia).
              assert (C : complaint os (Set_ n None) = ["option needs value: --" ++ n]).
              { unfold valued, has_value in T. cbn. destruct (declared os n) as [o'|]; [|discriminate]. destruct (o_kind o'); [discriminate|reflexivity]. }
              pose proof (set_option_ok os p ss errs oths n None ND S) as S'. cbv iota in S'. unfold set_option0 in S'. rewrite F in S'.
              unfold has_value in Hv. unfold set0 in S'. destruct (o_kind o); [discriminate|].
              rewrite <- (app_nil_r oths) in S'. destruct (step _ _ _ _ S') as [p'' [L S'']]. exists p''. split; [exact L|]. fin S''.
           ++ replace (length pre + 1 + length (v :: r) <=? length pre + 1)%nat with false by (symmetry; apply Nat.leb_gt; cbn; lia).
              rewrite nth_mid1. pose proof (set_option_ok os p ss errs oths n (Some v) ND S) as S'. rewrite <- (app_nil_r oths) in S'.
              destruct (step2 v r _ _ _ _ eq_refl S') as [p'' [L S'']]. exists p''. split; [exact L|]. fin S''.
        -- pose proof (set_option_ok os p ss errs oths n None ND S) as S'. rewrite <- (app_nil_r oths) in S'. destruct (step _ _ _ _ S') as [p'' [L S'']].
           exists p''. split; [exact L|]. fin S''.
      * rewrite <- Hv. pose proof (set_option_ok os p ss errs oths n None ND S) as S'. cbv iota in S'. unfold set_option0 in S'. rewrite F in S'.
        rewrite <- (app_nil_r oths) in S'. destruct (step _ _ _ _ S') as [p'' [L S'']]. exists p''. split; [exact L|]. fin S''.
  - destruct s as [|c s].
    + destruct (step p [] [] []) as [p'' [L S'']]; [rewrite !app_nil_r; exact S|]. exists p''. split; [exact L|]. fin S''.
    + destruct (unsnoc c s) as [cs l] eqn:E. destruct (cluster_ok os oths ND s c cs l p ss errs E S) as [p1 [C S1]]. rewrite C.
      set (ls := map (fun d => letter_setting os d None) (list_ascii_of_string cs)) in *. rewrite look_entries. unfold svalued.
      destruct (long_name os l) as [n|] eqn:L.
      * rewrite (long_name_nonempty os l n L). rewrite (valued_find os p1 _ _ _ n S1). destruct (valued os n) eqn:T.
        -- destruct t as [|v r].
           ++ replace (length pre + 1 <? length pre + 1 + length (@nil string))%nat with false by (symmetry; apply Nat.ltb_ge; cbn; lia). cbn [andb].
              pose proof (set_option_ok os p1 _ _ _ n None ND S1) as S'. rewrite <- !app_assoc in S'. rewrite <- (app_nil_r oths) in S'.
              destruct (step _ _ _ _ S') as [p'' [Lp S'']]. exists p''. split; [exact Lp|]. fin2 L S''.
           ++ replace (length pre + 1 <? length pre + 1 + length (v :: r))%nat with true by (symmetry; apply Nat.ltb_lt; cbn; lia). cbn [andb]. rewrite nth_mid1.
              pose proof (set_option_ok os p1 _ _ _ n (Some v) ND S1) as S'. rewrite <- !app_assoc in S'. rewrite <- (app_nil_r oths) in S'.
              destruct (step2 v r _ _ _ _ eq_refl S') as [p'' [Lp S'']]. exists p''. split; [exact Lp|]. fin2 L S''.
        -- rewrite andb_false_r. pose proof (set_option_ok os p1 _ _ _ n None ND S1) as S'. rewrite <- !app_assoc in S'. rewrite <- (app_nil_r oths) in S'.
           destruct (step _ _ _ _ S') as [p'' [Lp S'']]. exists p''. split; [exact Lp|]. fin2 L S''.
      * assert (S' : state_is (push_error ("undefined short option: -" ++ String l "") p1) os (ss ++ (ls ++ [Unknown l]))%list (errs ++ (flat_map (complaint os) ls ++ complaint os (Unknown l)))%list (oths ++ [])%list).
        { destruct S1 as [A [B D]]. split; [|split]; cbn; [|rewrite B, <- app_assoc; reflexivity|rewrite app_nil_r; exact D]. rewrite A. apply map_ext. intros o. rewrite !after_app. reflexivity. }
        destruct (step _ _ _ _ S') as [p'' [Lp S'']]. exists p''. split; [exact Lp|]. fin2 L S''.
  - assert (S' : state_is (push_other a p) os (ss ++ [])%list (errs ++ [])%list (oths ++ [a])%list).
    { destruct S as [A [B D]]. rewrite !app_nil_r. split; [|split]; cbn; [exact A|exact B|congruence]. }
    destruct (step _ _ _ _ S') as [p'' [L S'']]. exists p''. split; [exact L|]. fin S''.
Qed.

(* ---- parse ---- *)
Lemma needed_fold (os : list (opt V)) : forall p, let p' := fold_left (fun p o => if valid o then p else push_error ("need option: --" ++ o_name o) p) os p in
  options p' = options p /\ others p' = others p /\ errors p' = (errors p ++ needs os)%list.
Proof.
  unfold needs. induction os as [|o os IH]; intros p; cbn [fold_left filter map].
  - rewrite app_nil_r. auto.
  - assert (E : missing o = negb (valid o)) by (unfold missing, valid; destruct (o_kind o) as [|[|] t rd v]; cbn; try reflexivity; rewrite negb_involutive; reflexivity).
    rewrite E. destruct (valid o); cbn [negb]; [apply IH|]. destruct (IH (push_error ("need option: --" ++ o_name o) p)) as [A [B C]].
    split; [exact A|split; [exact B|]]. rewrite C. cbn. rewrite <- app_assoc. reflexivity.
Qed.

Lemma parse_ok p a0 t items : NoDup (names (options p)) -> NoDup (shorts (options p)) -> reading (options p) items t ->
  exists b p', parse (a0 :: t) p = Ok (b, p') /\
    options p' = map (after (settings (options p) items)) (options p) /\ others p' = plains items /\
    errors p' = (flat_map (complaint (options p)) (settings (options p) items) ++ needs (options p'))%list /\ (b = true <-> errors p' = []).
Proof.
  intros ND NS R. apply reading_iff in R. subst items. unfold parse. cbn [options others errors prog_name].
  rewrite (build_ok (options p) []) by exact NS. cbn [app].
  destruct (loop_ok (options p) ND (length (a0 :: t)) t [a0]
    {| options := options p; others := []; errors := []; prog_name := if prog_name p =? "" then a0 else prog_name p |} [] [] []) as [p1 [L S]].
  { cbn. lia. }
  { split; [|split; reflexivity]. cbn. symmetry. apply map_id. }
  cbn [length app] in L. cbn [length]. rewrite L. cbn [bind]. destruct S as [S1 [S2 S3]]. destruct (needed_fold (options p1) p1) as [A [B C]].
  exists (no_errors (needed p1)), (needed p1). split; [reflexivity|]. unfold no_errors, needed. rewrite A, B, C, S1, S2, S3. cbn [app].
  split; [reflexivity|split; [reflexivity|split; [reflexivity|]]]. destruct (flat_map _ _ ++ needs _)%list; split; congruence.
Qed.
Lemma parse_ambiguous p a0 t : ~ NoDup (shorts (options p)) ->
  exists c p', parse (a0 :: t) p = Ok (false, p') /\ options p' = options p /\ others p' = [] /\ In c (shorts (options p)) /\
    errors p' = ["short option '" ++ String c "' is ambiguous"].
Proof.
  intros NS. unfold parse. cbn [options others errors prog_name]. destruct (build_bad (options p) [] (NoDup_nil _) NS) as [c [E I]]. rewrite E.
  exists c. eexists. split; [reflexivity|]. cbn. auto.
Qed.
Lemma parse_empty p : exists p', parse [] p = Ok (false, p') /\ options p' = options p /\ others p' = [] /\ errors p' = ["argument number must be longer than 0"].
Proof. eexists. split; [reflexivity|]. cbn. auto. Qed.

Lemma nodup_dec (l : list ascii) : NoDup l \/ ~ NoDup l.
Proof.
  induction l as [|a l [IH|IH]]; [left; constructor| |right; intros H; inversion H; contradiction].
  destruct (in_dec ascii_dec a l) as [I|I]; [right; intros H; inversion H; contradiction|left; constructor; assumption].
Qed.
Lemma parse_total p argv : NoDup (names (options p)) -> exists b p', parse argv p = Ok (b, p') /\ names (options p') = names (options p) /\ shorts (options p') = shorts (options p).
Proof.
  intros ND. destruct argv as [|a0 t]; [destruct (parse_empty p) as [p' [E [O _]]]; exists false, p'; rewrite O; auto|].
  destruct (nodup_dec (shorts (options p))) as [NS|NS].
  - destruct (parse_ok p a0 t _ ND NS (proj2 (reading_iff _ _ _) eq_refl)) as [b [p' [E [O _]]]]. exists b, p'. split; [exact E|]. rewrite O. split.
    + unfold names. rewrite map_map. apply map_ext. intros o. apply after_name.
    + unfold shorts. clear. set (ss := settings _ _). clearbody ss. induction (options p) as [|o os IH]; [reflexivity|]. cbn. rewrite IH, after_name.
      pose proof (after_sig ss o) as Sg. unfold sig in Sg. injection Sg as _ -> _. reflexivity.
  - destruct (parse_ambiguous p a0 t NS) as [c [p' [E [O _]]]]. exists false, p'. rewrite O. auto.
Qed.

(* ---- values ---- *)
Definition eff o (s : setting) : option (kind V) :=
  match s with
  | Set_ n ov => if o_name o =? n then
      match o_kind o, ov with
      | Flag, None => Some Flag
      | Val need t rd v, Some x => match rd x with Some v' => Some (Val need t rd v') | None => None end
      | _, _ => None
      end else None
  | Unknown _ => None
  end.
Definition put o (k : option (kind V)) : opt V := match k with None => o | Some k => {| o_name := o_name o; o_short := o_short o; o_kind := k; o_has := true |} end.
Lemma given_eff o s : given o s = put o (eff o s).
Proof.
  destruct s as [n ov|c]; [|reflexivity]. cbn. destruct (o_name o =? n); [|reflexivity]. destruct (o_kind o) as [|need t rd v], ov as [x|]; try reflexivity. destruct (rd x); reflexivity.
Qed.
Lemma eff_sig o o' s : sig o = sig o' -> eff o s = eff o' s.
Proof.
  intros Sg. destruct s as [n ov|c]; [|reflexivity]. cbn. unfold sig in Sg. injection Sg as -> _ Sg. destruct (o_name o' =? n); [|reflexivity].
  destruct (o_kind o) as [|need t rd v], (o_kind o') as [|need' t' rd' v'], ov as [x|]; try congruence; try reflexivity. injection Sg as -> -> ->. reflexivity.
Qed.
Fixpoint last_eff o (ss : list setting) : option (kind V) :=
  match ss with [] => None | s :: r => match last_eff o r with Some k => Some k | None => eff o s end end.
Lemma put_put o a b : put (put o a) b = put o (match b with Some k => Some k | None => a end).
Proof. destruct a, b; reflexivity. Qed.
Lemma last_sig o o' ss : sig o = sig o' -> last_eff o ss = last_eff o' ss.
Proof. intros Sg. induction ss as [|s r IH]; [reflexivity|]. cbn. rewrite IH, (eff_sig o o' s Sg). reflexivity. Qed.
Lemma after_eff ss : forall o, after ss o = put o (last_eff o ss).
Proof.
  induction ss as [|s r IH]; intros o; [reflexivity|]. cbn [after fold_left]. fold (after r (given o s)). rewrite IH, (last_sig _ o r (given_sig o s)), given_eff, put_put. reflexivity.
Qed.
Lemma after_twice ss o : after ss (after ss o) = after ss o.
Proof. rewrite after_eff, (last_sig _ o ss (after_sig ss o)), after_eff, put_put. destruct (last_eff o ss); reflexivity. Qed.

Lemma last_val need t rd v : forall o ss, o_kind o = Val need t rd v ->
  match last_eff o ss with
  | Some k => exists v' s1 x s2, k = Val need t rd v' /\ ss = (s1 ++ Set_ (o_name o) (Some x) :: s2)%list /\ rd x = Some v' /\ forall y, In (Set_ (o_name o) (Some y)) s2 -> rd y = None
  | None => forall y, In (Set_ (o_name o) (Some y)) ss -> rd y = None
  end.
Proof.
  intros o ss K. induction ss as [|s r IH]; [cbn; intros y []|]. cbn [last_eff]. destruct (last_eff o r) as [k|].
  - destruct IH as [v' [s1 [x [s2 [A [B [C D]]]]]]]. exists v', (s :: s1), x, s2. rewrite B. auto.
  - destruct (eff o s) as [k|] eqn:E.
    + unfold eff in E. destruct s as [n ov|c]; [|discriminate]. destruct (String.eqb_spec (o_name o) n) as [<-|]; [|discriminate]. rewrite K in E.
      destruct ov as [x|]; [|discriminate]. destruct (rd x) as [v'|] eqn:R; [|discriminate]. injection E as <-. exists v', [], x, r. auto.
    + intros y [->|I]; [|apply IH, I]. unfold eff in E. rewrite String.eqb_refl, K in E. destruct (rd y); [discriminate|reflexivity].
Qed.
Lemma has_eff o ss : o_has (after ss o) = true <-> o_has o = true \/ exists s, In s ss /\ gives o s.
Proof.
  rewrite after_eff. assert (E : forall s, eff o s <> None <-> gives o s).
  { intros s. unfold eff, gives. destruct s as [n ov|c].
    - destruct (String.eqb_spec (o_name o) n) as [->|N].
      + destruct (o_kind o) as [|need t rd v], ov as [x|]; split; try congruence; try (intros [y [A B]]; congruence).
        * destruct (rd x) eqn:R; [|congruence]. intros _. exists x. split; [reflexivity|congruence].
        * intros [y [A B]]. injection A as ->. destruct (rd y); congruence.
      + split; [congruence|]. destruct (o_kind o); [congruence|]. intros [y [A _]]. congruence.
    - split; [congruence|]. destruct (o_kind o); [congruence|]. intros [y [A _]]. congruence. }
  assert (L : last_eff o ss <> None <-> exists s, In s ss /\ gives o s).
  { induction ss as [|s r IH]; cbn.
    - split; [congruence|]. intros [s [[] _]].
    - split.
      + destruct (last_eff o r) eqn:Lr.
        * intros _. destruct (proj1 IH) as [s' [I G]]; [congruence|]. exists s'. auto.
        * intros H. exists s. split; [left; reflexivity|apply E, H].
      + intros [s' [[->|I] G]].
        * destruct (last_eff o r); [congruence|]. apply E, G.
        * destruct (last_eff o r); [congruence|]. destruct (proj2 IH); [|reflexivity]. exists s'. auto. }
  destruct (last_eff o ss) as [k|]; cbn.
  - split; [|reflexivity]. intros _. right. apply L. congruence.
  - split; [auto|]. intros [H|H]; [exact H|]. exfalso. apply (proj2 L H). reflexivity.
Qed.

Lemma complaint_good os s : complaint os s = [] <-> good os s.
Proof.
  unfold good. destruct s as [n ov|c]; cbn.
  - destruct (declared os n) as [o|] eqn:D.
    + split.
      * intros H. exists n, ov, o. split; [reflexivity|split; [exact D|]]. destruct (o_kind o) as [|need t rd v], ov as [x|]; try discriminate; [exact I|]. destruct (rd x); [discriminate|discriminate].
      * intros [n' [ov' [o' [E [D' H]]]]]. injection E as <- <-. rewrite D in D'. injection D' as <-. destruct (o_kind o) as [|need t rd v], ov as [x|]; try contradiction; [reflexivity|]. destruct (rd x); [reflexivity|congruence].
    + split; [discriminate|]. intros [n' [ov' [o' [E [D' H]]]]]. injection E as <- <-. congruence.
  - split; [discriminate|]. intros [n' [ov' [o' [E _]]]]. discriminate.
Qed.
Lemma flat_nil {A B} (f : A -> list B) l : flat_map f l = [] <-> Forall (fun x => f x = []) l.
Proof.
  induction l as [|a l IH]; cbn; [split; auto|]. split.
  - intros H. apply app_eq_nil in H. destruct H as [H1 H2]. constructor; [exact H1|apply IH, H2].
  - intros H. inversion H; subst. rewrite H2. apply IH, H3.
Qed.
Lemma accepts p a0 t items : NoDup (names (options p)) -> NoDup (shorts (options p)) -> reading (options p) items t ->
  (exists p', parse (a0 :: t) p = Ok (true, p')) <->
  (forall s, In s (settings (options p) items) -> good (options p) s) /\
  (forall o, In o (options p) -> missing o = true -> exists s, In s (settings (options p) items) /\ gives o s).
Proof.
  intros ND NS R. destruct (parse_ok p a0 t items ND NS R) as [b [p' [E [O [_ [Er B]]]]]]. set (ss := settings (options p) items) in *.
  assert (H1 : flat_map (complaint (options p)) ss = [] <-> forall s, In s ss -> good (options p) s).
  { rewrite flat_nil, Forall_forall. split; intros H s I; apply complaint_good, H, I. }
  assert (H2 : needs (options p') = [] <-> forall o, In o (options p) -> missing o = true -> exists s, In s ss /\ gives o s).
  { rewrite O. unfold needs. clearbody ss. clear. induction (options p) as [|o os IH]; [cbn; split; [intros _ o []|reflexivity]|]. cbn [map filter].
    assert (M : missing (after ss o) = true <-> missing o = true /\ ~ exists s, In s ss /\ gives o s).
    { pose proof (after_sig ss o) as Sg. unfold missing. unfold sig in Sg. injection Sg as _ _ Sg. pose proof (has_eff o ss) as H.
      destruct (o_kind o) as [|[|] t rd v] eqn:K, (o_kind (after ss o)) as [|n' t' rd' v'] eqn:K'; try discriminate; try (split; [discriminate|intros [? _]; discriminate]); injection Sg as -> -> ->.
      - cbn [andb]. rewrite !negb_true_iff, <- !not_true_iff_false, H. tauto.
      - split; [discriminate|]. intros [X _]. discriminate. }
    split.
    - intros H o' [<-|I] Mo.
      + destruct (missing (after ss o)) eqn:Ma; [discriminate|]. destruct (last_eff o ss) as [k|] eqn:Le.
        * assert (Hh : o_has (after ss o) = true) by (rewrite after_eff, Le; reflexivity). apply has_eff in Hh. destruct Hh as [Hh|Hh]; [|exact Hh].
          unfold missing in Mo. rewrite Hh in Mo. destruct (o_kind o) as [|[|] ? ? ?]; discriminate.
        * rewrite after_eff, Le in Ma. cbn in Ma. congruence.
      + destruct (missing (after ss o)); [discriminate|]. apply IH; assumption.
    - intros H. destruct (missing (after ss o)) eqn:Ma.
      + exfalso. destruct (proj1 M eq_refl) as [Mo N]. apply N, H; [left; reflexivity|exact Mo].
      + apply IH. intros o' I. apply H. right. exact I. }
  rewrite <- H1, <- H2. split.
  - intros [p'' E']. rewrite E in E'. injection E' as -> _. apply app_eq_nil. rewrite <- Er. apply B. reflexivity.
  - intros [A1 A2]. exists p'. rewrite E. assert (b = true) by (apply B; rewrite Er, A1, A2; reflexivity). subst b. reflexivity.
Qed.

Lemma value p a0 t items b p' n o need ty rd v : NoDup (names (options p)) -> NoDup (shorts (options p)) -> reading (options p) items t ->
  parse (a0 :: t) p = Ok (b, p') -> declared (options p) n = Some o -> o_kind o = Val need ty rd v ->
  exists v', get ty n p' = Ok v' /\ final_value n rd v v' (settings (options p) items).
Proof.
  intros ND NS R E D K. destruct (parse_ok p a0 t items ND NS R) as [b1 [p1 [E1 [O _]]]]. rewrite E in E1. injection E1 as <- <-.
  set (ss := settings (options p) items) in *. unfold get. rewrite O, find_after, find_declared, D. cbn [option_map]. rewrite after_eff.
  destruct (find_name n _ o D) as [En _]. pose proof (last_val need ty rd v o ss K) as L. rewrite En in L. unfold final_value. destruct (last_eff o ss) as [k|]; cbn.
  - destruct L as [v' [s1 [x [s2 [-> [Es [Rx Ho]]]]]]]. rewrite Nat.eqb_refl. exists v'. split; [reflexivity|left; exists s1, x, s2; auto].
  - rewrite K, Nat.eqb_refl. exists v. split; [reflexivity|right; auto].
Qed.
Lemma given_flag p a0 t items b p' n o : NoDup (names (options p)) -> NoDup (shorts (options p)) -> reading (options p) items t ->
  parse (a0 :: t) p = Ok (b, p') -> declared (options p) n = Some o ->
  exists h, exist n p' = Ok h /\ (h = true <-> o_has o = true \/ exists s, In s (settings (options p) items) /\ gives o s).
Proof.
  intros ND NS R E D. destruct (parse_ok p a0 t items ND NS R) as [b1 [p1 [E1 [O _]]]]. rewrite E in E1. injection E1 as <- <-.
  unfold exist. rewrite O, find_after, find_declared, D. cbn [option_map]. eexists. split; [reflexivity|]. apply has_eff.
Qed.

(* ---- parsing twice ---- *)
Lemma declared_after ss os n : declared (map (after ss) os) n = option_map (after ss) (declared os n).
Proof. rewrite <- !find_declared. apply find_after. Qed.
Lemma long_name_after ss os c : long_name (map (after ss) os) c = long_name os c.
Proof.
  unfold long_name. induction os as [|o os IH]; [reflexivity|]. cbn [map find]. pose proof (after_sig ss o) as Sg. unfold sig in Sg. injection Sg as -> -> _.
  destruct (_ && _); [|exact IH]. rewrite after_name. reflexivity.
Qed.
Lemma valued_after ss os n : valued (map (after ss) os) n = valued os n.
Proof. unfold valued. rewrite declared_after. destruct (declared os n) as [o|]; [|reflexivity]. cbn. apply sig_value, after_sig. Qed.
Lemma items_after ss os : forall k t, length t <= k -> items_of (map (after ss) os) t = items_of os t.
Proof.
  induction k as [|k IH]; intros t H; (destruct t as [|a t]; [reflexivity|]); cbn [length] in H; [lia|]. cbn [items_of]. destruct (classify a) as [n|s|].
  - destruct (split_eq n) as [[n' v]|]; [rewrite IH by lia; reflexivity|]. rewrite valued_after. destruct (valued os n); [|rewrite IH by lia; reflexivity].
    destruct t as [|v r]; [reflexivity|]. rewrite IH by (cbn in H; lia). reflexivity.
  - destruct s as [|c s]; [rewrite IH by lia; reflexivity|]. destruct (unsnoc c s) as [cs l]. unfold svalued. rewrite long_name_after.
    destruct (long_name os l) as [n|]; [rewrite valued_after; destruct (valued os n)|]; try (rewrite IH by lia; reflexivity).
    destruct t as [|v r]; [reflexivity|]. rewrite IH by (cbn in H; lia). reflexivity.
  - rewrite IH by lia. reflexivity.
Qed.
Lemma settings_after ss os items : settings (map (after ss) os) items = settings os items.
Proof.
  unfold settings. apply flat_map_ext. intros [n v|n v|n|cs c ov| |s]; try reflexivity. cbn. unfold letter_setting. rewrite long_name_after. f_equal.
  apply map_ext. intros d. rewrite long_name_after. reflexivity.
Qed.
Lemma complaint_after ss os s : complaint (map (after ss) os) s = complaint os s.
Proof.
  destruct s as [n ov|c]; [|reflexivity]. cbn. rewrite declared_after. destruct (declared os n) as [o|]; [|reflexivity]. cbn [option_map].
  pose proof (after_sig ss o) as Sg. unfold sig in Sg. injection Sg as _ _ Sg. destruct (o_kind (after ss o)), (o_kind o); try discriminate; [reflexivity|]. injection Sg as -> -> ->. reflexivity.
Qed.
Lemma twice p a0 t b p' : NoDup (names (options p)) -> parse (a0 :: t) p = Ok (b, p') ->
  exists p2, parse (a0 :: t) p' = Ok (b, p2) /\ options p2 = options p' /\ others p2 = others p' /\ errors p2 = errors p'.
Proof.
  intros ND E. destruct (parse_total p (a0 :: t) ND) as [b0 [p0 [E0 [N0 S0]]]]. rewrite E in E0. injection E0 as <- <-.
  destruct (nodup_dec (shorts (options p))) as [NS|NS].
  - destruct (parse_ok p a0 t _ ND NS (proj2 (reading_iff _ _ _) eq_refl)) as [b1 [p1 [E1 [O1 [P1 [Er1 B1]]]]]]. rewrite E in E1. injection E1 as <- <-.
    destruct (parse_ok p' a0 t (items_of (options p') t)) as [b2 [p2 [E2 [O2 [P2 [Er2 B2]]]]]]; [rewrite N0; exact ND|rewrite S0; exact NS|apply reading_iff; reflexivity|].
    rewrite O1, (items_after _ _ (length t) t) in O2, P2, Er2 by lia. rewrite settings_after in O2, Er2. set (ss := settings (options p) (items_of (options p) t)) in *.
    assert (Oe : options p2 = options p').
    { rewrite O2, O1, map_map. apply map_ext. intros o. apply after_twice. }
    assert (Ee : errors p2 = errors p').
    { rewrite Er2, Er1, Oe. f_equal. apply flat_map_ext. intros s. apply complaint_after. }
    exists p2. split; [|rewrite P2, P1; auto]. rewrite E2. f_equal. f_equal. apply eq_true_iff_eq. rewrite B1, B2, Ee. reflexivity.
  - destruct (parse_ambiguous p a0 t NS) as [c [p1 [E1 [O1 [P1 [I1 Er1]]]]]]. rewrite E in E1. injection E1 as -> <-.
    unfold parse in *. cbn [options others errors prog_name] in *. rewrite O1. destruct (build (options p) []) as [lk|d] eqn:Bd.
    + exfalso. destruct (build_bad (options p) [] (NoDup_nil _) NS) as [d [X _]]. congruence.
    + injection E as <-. eexists. split; [reflexivity|]. cbn. auto.
Qed.

(* ---- add ---- *)
Lemma count_in n os : count n os = true <-> In n (names os).
Proof.
  unfold count. rewrite find_declared. destruct (declared os n) as [o|] eqn:D.
  - split; [|reflexivity]. intros _. destruct (find_name n os o D) as [<- I]. apply in_map, I.
  - split; [discriminate|]. intros I. apply in_map_iff in I. destruct I as [o [<- I]]. pose proof (find_none _ _ D o I) as N. cbv beta in N. rewrite String.eqb_refl in N. discriminate.
Qed.
Lemma insert_perm o os : Permutation (insert o os) (o :: os).
Proof.
  induction os as [|a os IH]; cbn; [apply Permutation_refl|]. destruct (String.ltb _ _); [apply Permutation_refl|].
  eapply Permutation_trans; [apply perm_skip, IH|apply perm_swap].
Qed.
Lemma declared_insert o os m : ~ In (o_name o) (names os) -> declared (insert o os) m = if o_name o =? m then Some o else declared os m.
Proof.
  unfold declared, names. induction os as [|a os IH]; intros N; cbn [insert find map] in *; [destruct (o_name o =? m); reflexivity|].
  destruct (String.ltb _ _); cbn [find]; [destruct (o_name o =? m); reflexivity|].
  destruct (String.eqb_spec (o_name a) m) as [Ea|Ea].
  - destruct (String.eqb_spec (o_name o) m) as [Eo|Eo]; [|reflexivity]. destruct N. left. congruence.
  - apply IH. intros I. apply N. right. exact I.
Qed.
Lemma add_ok name short k p :
  (In name (names (options p)) -> add name short k p = Throw RuntimeError) /\
  (~ In name (names (options p)) ->
   exists p', add name short k p = Ok p' /\ Permutation (names (options p')) (name :: names (options p)) /\
     declared (options p') name = Some {| o_name := name; o_short := short; o_kind := k; o_has := false |} /\
     (forall m, m <> name -> declared (options p') m = declared (options p) m)).
Proof.
  unfold add. split; intros H.
  - apply count_in in H. rewrite H. reflexivity.
  - destruct (count name (options p)) eqn:C; [apply count_in in C; contradiction|]. eexists. split; [reflexivity|]. cbn [set_options options]. split; [|split].
    + unfold names. apply (Permutation_map o_name (insert_perm {| o_name := name; o_short := short; o_kind := k; o_has := false |} (options p))).
    + rewrite declared_insert by exact H. cbn. rewrite String.eqb_refl. reflexivity.
    + intros m Hm. rewrite declared_insert by exact H. cbn. apply not_eq_sym in Hm. apply String.eqb_neq in Hm. rewrite Hm. reflexivity.
Qed.
Lemma add_nodup name short k p p' : NoDup (names (options p)) -> add name short k p = Ok p' -> NoDup (names (options p')).
Proof.
  intros N E. destruct (in_dec string_dec name (names (options p))) as [I|I].
  - rewrite (proj1 (add_ok name short k p) I) in E. discriminate.
  - destruct (proj2 (add_ok name short k p) I) as [p1 [E1 [P _]]]. rewrite E in E1. injection E1 as <-. apply (Permutation_NoDup (Permutation_sym P)). constructor; assumption.
Qed.

(* ---- parse_check ---- *)
Lemma check_ok argv p : NoDup (names (options p)) ->
  exists p1 b p' h e,
    (In "help" (names (options p)) /\ p1 = p \/ ~ In "help" (names (options p)) /\ add "help" (Some "?"%char) Flag p = Ok p1) /\
    parse argv p1 = Ok (b, p') /\ exist "help" p' = Ok h /\ parse_check argv p = Ok (e, p') /\
    (e = None <-> b = true /\ h = false) /\
    (e = Some 1 <-> b = false /\ h = false /\ length argv <> 1) /\
    (e = Some 0 <-> h = true \/ b = false /\ length argv = 1).
Proof.
  intros ND. unfold parse_check.
  assert (X : exists p1, (if count "help" (options p) then Ok p else add "help" (Some "?"%char) Flag p) = Ok p1 /\
    (In "help" (names (options p)) /\ p1 = p \/ ~ In "help" (names (options p)) /\ add "help" (Some "?"%char) Flag p = Ok p1) /\ NoDup (names (options p1)) /\ In "help" (names (options p1))).
  { destruct (count "help" (options p)) eqn:C.
    - apply count_in in C. exists p. auto.
    - assert (N : ~ In "help" (names (options p))) by (intros I; apply count_in in I; congruence).
      destruct (proj2 (add_ok "help" (Some "?"%char) Flag p) N) as [p1 [E [P _]]]. exists p1. split; [exact E|]. split; [right; auto|]. split.
      + apply (add_nodup _ _ _ _ _ ND E).
      + apply (Permutation_in _ (Permutation_sym P)). left. reflexivity. }
  destruct X as [p1 [E1 [H1 [N1 I1]]]]. rewrite E1. cbn [bind]. destruct (parse_total p1 argv N1) as [b [p' [E [Nm _]]]]. rewrite E. cbn [bind].
  assert (Hx : exists h, exist "help" p' = Ok h).
  { unfold exist. rewrite find_declared. destruct (declared (options p') "help") as [o|] eqn:D; [eexists; reflexivity|]. exfalso. rewrite <- Nm in I1. apply in_map_iff in I1.
    destruct I1 as [o [Eo I]]. pose proof (find_none _ _ D o I) as N. cbv beta in N. rewrite Eo, String.eqb_refl in N. discriminate. }
  destruct Hx as [h Hh]. unfold check. rewrite Hh. cbn [bind].
  exists p1, b, p', h. destruct (Nat.eqb_spec (length argv) 1) as [L|L]; destruct b, h; cbn; eexists; (split; [exact H1|split; [exact E|split; [exact Hh|split; [reflexivity|]]]]);
    repeat split; intros; try discriminate; try congruence; try tauto; intuition congruence.
Qed.
End Proofs.

(* ---- the splitting of a string ---- *)
Lemma string_snoc b c s : (b ++ String c "") ++ s = b ++ String c s.
Proof. rewrite app_assoc_s. reflexivity. Qed.
Lemma split_char c r buf q acc : c <> """"%char -> c <> "\"%char -> (c = " "%char -> q = true) ->
  split_args (String c r) buf q acc = split_args r (buf ++ String c "") q acc.
Proof.
  intros H1 H2 H3. cbn [split_args]. apply Ascii.eqb_neq in H1, H2. rewrite H1, H2. destruct (Ascii.eqb_spec c " ") as [->|]; [rewrite (H3 eq_refl)|]; reflexivity.
Qed.
Lemma written_run q t s : written q t s -> forall rest buf acc,
  split_args (t ++ rest) buf q acc = split_args rest (buf ++ s) false acc.
Proof.
  induction 1 as [|c t s H1 H2 H3 W IH|c t s H1 H2 W IH|q c t s W IH|q t s W IH]; intros rest buf acc; cbn [append].
  - rewrite app_empty. reflexivity.
  - rewrite split_char by tauto. rewrite IH, string_snoc. reflexivity.
  - rewrite split_char by tauto. rewrite IH, string_snoc. reflexivity.
  - cbn [split_args]. replace (Ascii.eqb "\" """") with false by reflexivity. replace (Ascii.eqb "\" " ") with false by reflexivity. replace (Ascii.eqb "\" "\") with true by reflexivity.
    cbn [andb]. rewrite IH, string_snoc. reflexivity.
  - cbn [split_args]. replace (Ascii.eqb """" """") with true by reflexivity. rewrite IH. reflexivity.
Qed.
Lemma kept_cons a b l : kept (a :: b :: l) = a :: kept (b :: l).
Proof.
  unfold kept. replace (last (a :: b :: l) "") with (last (b :: l) "") by reflexivity. destruct (last (b :: l) "" =? ""); reflexivity.
Qed.
Lemma kept_one b : kept [b] = if (0 <? String.length b)%nat then [b] else [].
Proof. destruct b; reflexivity. Qed.
Lemma spaced_run : forall ts args, Forall2 (written false) ts args -> ts <> [] -> forall acc, split_args (spaced ts) "" false acc = inl (acc ++ kept args)%list.
Proof.
  induction ts as [|t ts IH]; intros args F N acc; [congruence|]. inversion F as [|t' a ts' args' W F']; subst. destruct ts as [|t2 ts].
  - inversion F'; subst. cbn [spaced]. rewrite <- (app_empty t), (written_run false t a W). cbn [split_args append]. rewrite kept_one. destruct (0 <? String.length a)%nat; [reflexivity|rewrite app_nil_r; reflexivity].
  - inversion F' as [|t2' a2 ts2 args2 W2 F2]; subst. change (spaced (t :: t2 :: ts)) with (t ++ String " " (spaced (t2 :: ts))). rewrite (written_run false t a W).
    cbn [append]. change (split_args (String " " (spaced (t2 :: ts))) a false acc) with (split_args (spaced (t2 :: ts)) "" false (acc ++ [a])%list).
    rewrite (IH (a2 :: args2) F') by congruence. rewrite kept_cons, <- app_assoc. reflexivity.
Qed.
Lemma spaced_cons c t ts : spaced (String c t :: ts) = String c (spaced (t :: ts)).
Proof. destruct ts; reflexivity. Qed.
Lemma split_inv : forall k s buf q acc res, String.length s <= k -> split_args s buf q acc = inl res ->
  exists t ts a args, s = spaced (t :: ts) /\ written q t a /\ Forall2 (written false) ts args /\ res = (acc ++ kept ((buf ++ a)%string :: args))%list.
Proof.
  induction k as [|k IH]; intros s buf q acc res H E; (destruct s as [|c s]; [|cbn [String.length] in H]); try lia.
  1, 2: cbn [split_args] in E; destruct q; [discriminate|]; injection E as <-; exists "", [], "", []; split; [reflexivity|split; [constructor|split; [constructor|]]];
    rewrite app_empty, kept_one; destruct (0 <? String.length buf)%nat; [reflexivity|rewrite app_nil_r; reflexivity].
  destruct (Ascii.eqb_spec c """") as [->|Hq].
  { cbn [split_args] in E. replace (Ascii.eqb """" """") with true in E by reflexivity. destruct (IH s _ _ _ _ ltac:(lia) E) as [t [ts [a [args [E1 [W [F E2]]]]]]].
    exists (String """" t), ts, a, args. rewrite spaced_cons, <- E1. split; [reflexivity|split; [constructor; exact W|auto]]. }
  destruct (Ascii.eqb_spec c "\") as [->|Hb].
  { cbn [split_args] in E. replace (Ascii.eqb "\" """") with false in E by reflexivity. replace (Ascii.eqb "\" " ") with false in E by reflexivity. replace (Ascii.eqb "\" "\") with true in E by reflexivity.
    cbn [andb] in E. destruct s as [|d s]; [discriminate|]. cbn [String.length] in H. destruct (IH s _ _ _ _ ltac:(lia) E) as [t [ts [a [args [E1 [W [F E2]]]]]]].
    exists (String "\" (String d t)), ts, (String d a), args. rewrite !spaced_cons, <- E1. split; [reflexivity|split; [constructor; exact W|split; [exact F|]]]. rewrite <- string_snoc. exact E2. }
  destruct (Ascii.eqb_spec c " ") as [->|Hs].
  - destruct q.
    + rewrite split_char in E by (try congruence; auto). destruct (IH s _ _ _ _ ltac:(lia) E) as [t [ts [a [args [E1 [W [F E2]]]]]]].
      exists (String " " t), ts, (String " " a), args. rewrite spaced_cons, <- E1. split; [reflexivity|split; [constructor; [congruence|congruence|exact W]|split; [exact F|]]]. rewrite <- string_snoc. exact E2.
    + change (split_args s "" false (acc ++ [buf])%list = inl res) in E. destruct (IH s _ _ _ _ ltac:(lia) E) as [t [ts [a [args [E1 [W [F E2]]]]]]].
      exists "", (t :: ts), "", (a :: args). rewrite E1. split; [reflexivity|split; [constructor|split; [constructor; assumption|]]]. rewrite app_empty, kept_cons, E2, <- app_assoc. reflexivity.
  - rewrite split_char in E by (try congruence; auto). destruct (IH s _ _ _ _ ltac:(lia) E) as [t [ts [a [args [E1 [W [F E2]]]]]]].
    exists (String c t), ts, (String c a), args. rewrite spaced_cons, <- E1. split; [reflexivity|split; [|split; [exact F|rewrite <- string_snoc; exact E2]]].
    destruct q; constructor; assumption.
Qed.
Lemma tokens_ok s args : split_args s "" false [] = inl args <-> tokens s args.
Proof.
  unfold tokens. split.
  - intros E. destruct (split_inv (String.length s) s "" false [] args (le_n _) E) as [t [ts [a [l [E1 [W [F E2]]]]]]]. exists (t :: ts), (a :: l).
    split; [congruence|split; [constructor; assumption|split; [exact E1|exact E2]]].
  - intros [ts [full [N [F [-> ->]]]]]. apply (spaced_run ts full F N []).
Qed.
Lemma string_ok {V} (s : string) (p : parser V) :
  (forall a args, tokens s (a :: args) -> parse_string s p = parse (a :: args) p) /\
  ((forall args, ~ tokens s args) -> exists e, (e = "quote is not closed" \/ e = "unexpected occurrence of '\' at end of string") /\
     parse_string s p = Ok (false, push_error e p)).
Proof.
  unfold parse_string. split.
  - intros a args T. apply tokens_ok in T. rewrite T. reflexivity.
  - intros N. destruct (split_args s "" false []) as [args|e] eqn:E; [apply tokens_ok in E; destruct (N _ E)|]. exists e. split; [|reflexivity].
    assert (G : forall k s buf q acc e, String.length s <= k -> split_args s buf q acc = inr e -> e = "quote is not closed" \/ e = "unexpected occurrence of '\' at end of string").
    { clear. induction k as [|k IH]; intros s buf q acc e H E; (destruct s as [|c s]; [|cbn [String.length] in H]); try lia.
      1, 2: cbn [split_args] in E; destruct q; [injection E as <-; auto|discriminate].
      cbn [split_args] in E. destruct (Ascii.eqb c """"); [eapply IH; [|exact E]; lia|]. destruct (_ && _); [eapply IH; [|exact E]; lia|].
      destruct (Ascii.eqb c "\"); [|eapply IH; [|exact E]; lia]. destruct s as [|d s]; [injection E as <-; auto|]. cbn [String.length] in H. eapply IH; [|exact E]; lia. }
    apply (G _ _ _ _ _ _ (le_n _) E).
Qed.
Lemma empty_string {V} (p : parser V) : tokens "" [] /\ parse_string "" p = UB.
Proof. split; [apply tokens_ok; reflexivity|reflexivity]. Qed.
Lemma reading_all {V} (os : list (opt V)) t : exists items, reading os items t /\ forall items', reading os items' t -> items' = items.
Proof. exists (items_of os t). split; [apply reading_iff; reflexivity|]. intros i H. apply reading_iff, H. Qed.

(* ---- a case ---- *)
Definition digit (s : string) : option nat := if (s =? "1") then Some 1 else if (s =? "2") then Some 2 else None.
Definition demo : parser nat :=
  {| options := [ {| o_name := "Z"; o_short := Some "Z"%char; o_kind := Val true 0 digit 0; o_has := false |};
                  {| o_name := "lmax"; o_short := None; o_kind := Val false 0 digit 7; o_has := false |};
                  {| o_name := "verbose"; o_short := Some "v"%char; o_kind := Flag; o_has := false |} ];
     others := ["old"]; errors := ["old error"]; prog_name := "" |}.
Definition demo_args : list string := ["--Z=2"; "in.dat"; "--lmax"; "1"; "-vZ"; "1"; "-"; "--lmax=2"].
Definition demo_items : list item := [Equal "Z" "2"; Plain "in.dat"; Next "lmax" "1"; Letters "v" "Z" (Some "1"); Dash; Equal "lmax" "2"].
Lemma demo_ok : NoDup (names (options demo)) /\ NoDup (shorts (options demo)) /\ reading (options demo) demo_items demo_args.
Proof.
  split; [cbn; repeat constructor; cbn; intuition congruence|]. split; [cbn; repeat constructor; cbn; intuition congruence|].
  apply reading_iff. reflexivity.
Qed.
Lemma demo_accepted : exists p', parse ("prog" :: demo_args) demo = Ok (true, p') /\ get 0 "Z" p' = Ok 1 /\ get 0 "lmax" p' = Ok 2 /\ exist "verbose" p' = Ok true /\ others p' = ["in.dat"].
Proof. eexists. split; [vm_compute; reflexivity|]. vm_compute. auto. Qed.
Definition demo_bad : list string := ["--Z=9"; "--nope"; "-xv"; "--verbose=1"; "--lmax"].
Lemma demo_rejected : exists p', parse ("prog" :: demo_bad) demo = Ok (false, p') /\
  errors p' = ["option value is invalid: --Z=9"; "undefined option: --nope"; "undefined short option: -x"; "option value is invalid: --verbose=1"; "option needs value: --lmax"; "need option: --Z"].
Proof. eexists. split; [vm_compute; reflexivity|]. reflexivity. Qed.
Definition demo2 : parser nat :=
  {| options := [ {| o_name := "a"; o_short := Some "x"%char; o_kind := Flag; o_has := false |}; {| o_name := "b"; o_short := Some "x"%char; o_kind := Flag; o_has := false |} ];
     others := []; errors := []; prog_name := "" |}.
Lemma demo2_ambiguous : ~ NoDup (shorts (options demo2)).
Proof. intros H. cbn in H. inversion H; subst. apply H2. left. reflexivity. Qed.
Definition demo_text : string := "prog --a=""x y"" b\ c".
Lemma demo_tokens : tokens demo_text ["prog"; "--a=x y"; "b c"].
Proof. apply tokens_ok. reflexivity. Qed.
Lemma demo_unclosed : forall args, ~ tokens "a ""b" args.
Proof. intros args H. apply tokens_ok in H. discriminate. Qed.
Lemma demo_add : ~ In "Q" (names (options demo)) /\ In "Z" (names (options demo)).
Proof. cbn. intuition congruence. Qed.
