Require Import String Ascii List Bool Arith ZArith Lia.
Require Import Verif.Prelude Verif.ChkModel Verif.ChkSpec.
Import ListNotations.

(* ---------- primitives on an HDF5 file ---------- *)


Lemma opened_ok {A} (body : M A) s c : k_file s = H5 c ->
  opened body s = if k_open s then body s
    else match body (with_open true s) with
         | (Ok a, s') => if k_open s' then (Ok a, with_open false s') else (Throw RuntimeError, s')
         | r => r
         end.
Proof.
  intros H. unfold opened. destruct (k_open s) eqn:E; [reflexivity|].
  unfold mbind, open_, set_open. rewrite H, E. unfold with_open. rewrite H.
  destruct (body _) as [[a| | |] s']; try reflexivity.
  unfold close_, set_open. destruct (k_open s'); reflexivity.
Qed.

Lemma with_open_self s b : k_open s = b -> with_open b s = s.
Proof. intros <-. now destruct s. Qed.
Lemma with_open_twice s b b' : with_open b (with_open b' s) = with_open b s.
Proof. reflexivity. Qed.

Definition present (c : content) (n : string) : bool := match c n with Some _ => true | None => false end.

Lemma exist_ok n s c : simple n = true -> k_file s = H5 c -> exist n s = (Ok (present c n), s).
Proof.
  intros Hs H. unfold exist. rewrite (opened_ok _ _ c H), Hs.
  destruct (k_open s) eqn:E.
  - unfold mbind, lookup. rewrite H. reflexivity.
  - unfold mbind, lookup. cbn [with_open k_file]. rewrite H. cbn [ret k_open with_open].
    rewrite with_open_twice, with_open_self by exact E. reflexivity.
Qed.

(** The state after file changes. *)
Definition with_file (c : content) (tr : list content) (s : chk) : chk :=
  mkChk (k_write s) (k_open s) (H5 c) (tr ++ k_trace s).

Lemma remove_ok n s c : k_write s = true -> simple n = true -> k_file s = H5 c ->
  remove n s = (Ok tt, if present c n then with_file (upd n None c) [upd n None c] s else s).
Proof.
  intros Hw Hs H. unfold remove. unfold mbind at 1. unfold check_write. rewrite Hw.
  rewrite (opened_ok _ _ c H). destruct (k_open s) eqn:E.
  - unfold mbind. rewrite (exist_ok n s c) by auto. destruct (present c n); [|reflexivity].
    unfold mutate. rewrite H. unfold with_file. reflexivity.
  - unfold mbind. rewrite (exist_ok n (with_open true s) c) by auto. destruct (present c n).
    + unfold mutate. cbn [with_open k_file]. rewrite H. cbn [k_open].
      unfold with_file, with_open. cbn. rewrite E. reflexivity.
    + cbn [ret k_open with_open]. rewrite with_open_twice, with_open_self by exact E. reflexivity.
Qed.

(** The contents a write goes through, newest first. *)
Definition write_trace (n : string) (d : dataset) (c : content) : list content :=
  let c1 := if present c n then upd n None c else c in
  upd n (Some d) (upd n (Some (blank d)) c1) :: upd n (Some (blank d)) c1 ::
  (if present c n then [upd n None c] else []).

Lemma upd_eq n d c : upd n d c n = d.
Proof. unfold upd. now rewrite String.eqb_refl. Qed.
Lemma upd_neq n d c m : m <> n -> upd n d c m = c m.
Proof. intros H. unfold upd. destruct (String.eqb_spec m n); [contradiction|reflexivity]. Qed.

Definition written (n : string) (d : dataset) (c : content) : content :=
  upd n (Some d) (upd n (Some (blank d)) (if present c n then upd n None c else c)).

Lemma written_eq n d c m : written n d c m = upd n (Some d) c m.
Proof.
  unfold written, upd. destruct (String.eqb_spec m n); [reflexivity|].
  destruct (present c n); [|reflexivity]. destruct (String.eqb_spec m n); [contradiction|reflexivity].
Qed.

Lemma write_body n d s c : k_write s = true -> k_open s = true -> simple n = true -> k_file s = H5 c ->
  mbind (remove n) (fun _ => mbind (h5_create n d) (fun _ => mutate (upd n (Some d)))) s =
  (Ok tt, with_file (written n d c) (write_trace n d c) s).
Proof.
  intros Hw Ho Hs H. unfold mbind at 1. rewrite (remove_ok n s c) by auto.
  unfold written, write_trace. unfold mbind, h5_create, mbind, lookup.
  destruct (present c n) eqn:E.
  - cbn [with_file k_file]. rewrite upd_eq. unfold mutate. cbn [with_file k_file k_write k_open k_trace]. reflexivity.
  - rewrite H. unfold present in E. destruct (c n) eqn:En; [discriminate|]. unfold mutate. rewrite H.
    cbn [k_file]. unfold with_file. cbn [k_write k_open k_trace app]. reflexivity.
Qed.

Lemma write_ok n d s c : k_write s = true -> simple n = true -> k_file s = H5 c ->
  write_ds n d s = (Ok tt, with_file (written n d c) (write_trace n d c) s).
Proof.
  intros Hw Hs H. unfold write_ds. unfold mbind at 1. unfold check_write. rewrite Hw.
  rewrite (opened_ok _ _ c H). destruct (k_open s) eqn:E.
  - now apply write_body.
  - rewrite (write_body n d (with_open true s) c) by auto. cbn [k_open with_file with_open].
    unfold with_open, with_file. cbn. rewrite E. reflexivity.
Qed.

Lemma read_ok {A} n (dec : dataset -> res A) s c : simple n = true -> k_file s = H5 c ->
  read_ds n dec s = match c n with
    | None => (Throw RuntimeError, with_open true s)
    | Some d => (dec d, match dec d with Ok _ => s | _ => with_open true s end)
    end.
Proof.
  intros Hs H. unfold read_ds. rewrite (opened_ok _ _ c H). destruct (k_open s) eqn:E.
  - unfold mbind. rewrite (exist_ok n s c) by auto. unfold present, lookup.
    destruct (c n) as [d|] eqn:En.
    + rewrite H, En. rewrite (with_open_self s true E). destruct (dec d); reflexivity.
    + unfold throw. now rewrite (with_open_self s true E).
  - unfold mbind. rewrite (exist_ok n (with_open true s) c) by auto. unfold present, lookup.
    destruct (c n) as [d|] eqn:En.
    + cbn [with_open k_file]. rewrite H, En. destruct (dec d); try reflexivity. cbn [k_open with_open].
      now rewrite with_open_twice, with_open_self.
    + reflexivity.
Qed.

(* ---------- values ---------- *)

Lemma clip_id t z : in_itype t z -> clip t z = z.
Proof. unfold in_itype, clip. destruct t; cbn [imin imax]; lia. Qed.
Lemma map_clip t l : Forall (in_itype t) l -> map (clip t) l = l.
Proof. induction 1; [reflexivity|]. cbn [map]. rewrite IHForall, clip_id; auto. Qed.
Lemma map_ff cv t l : conv_ok cv -> map (c_ff cv t t) l = l.
Proof. intros H. induction l; [reflexivity|]. cbn [map]. now rewrite H, IHl. Qed.

Lemma char_code_range c : in_itype IChar (char_code c).
Proof.
  unfold in_itype, char_code, imin, imax. pose proof (nat_ascii_bounded c).
  destruct (Z.ltb_spec (Z.of_nat (nat_of_ascii c)) 128); lia.
Qed.
Lemma char_codes_range s : Forall (in_itype IChar) (char_codes s).
Proof.
  induction s; cbn [char_codes]; constructor; auto.
  - unfold in_itype, imin, imax; lia.
  - apply char_code_range.
Qed.
Lemma char_code_inv c : code_char (char_code c) = c.
Proof.
  unfold code_char, char_code. pose proof (nat_ascii_bounded c) as H.
  replace ((if (Z.of_nat (nat_of_ascii c) <? 128)%Z then Z.of_nat (nat_of_ascii c) else Z.of_nat (nat_of_ascii c) - 256) mod 256)%Z
    with (Z.of_nat (nat_of_ascii c)).
  - rewrite Nat2Z.id. apply ascii_nat_embedding.
  - destruct (Z.ltb_spec (Z.of_nat (nat_of_ascii c)) 128).
    + symmetry. apply Z.mod_small. lia.
    + apply Z.mod_unique_pos with (q := (-1)%Z); lia.
Qed.
Lemma char_code_zero c : char_code c = 0%Z -> c = zero.
Proof.
  intros H. rewrite <- (char_code_inv c), H. reflexivity.
Qed.
Lemma from_codes_ok s : nul_free s -> from_codes (char_codes s) = Ok s.
Proof.
  induction s as [|c s IH]; intros H; [reflexivity|]. destruct H as [H1 H2]. cbn [char_codes from_codes].
  destruct (Z.eqb_spec (char_code c) 0) as [E|_]; [now apply char_code_zero in E|].
  rewrite (IH H2). cbn [bind]. now rewrite char_code_inv.
Qed.

Lemma decode_encode cv v : conv_ok cv -> value_ok v ->
  match v with VVec _ _ => True | _ => decode cv (kind_of v) (encode v) = Ok v end.
Proof.
  intros Hc Hv. destruct v; cbn [value_ok] in Hv; auto; unfold decode, encode, kind_of, read_float, read_int, is_float, is_int;
    cbn [ds_type ds_space ds_data negb map hd]; rewrite ?map_ff by exact Hc; rewrite ?Hc; try reflexivity.
  - destruct Hv as [_ H]. now rewrite map_clip.
  - now rewrite map_clip.
  - now rewrite clip_id.
  - now rewrite clip_id.
  - destruct b; reflexivity.
  - rewrite map_clip by apply char_codes_range. now rewrite from_codes_ok.
Qed.

(** Reading a value under its own type. *)
Lemma read_value cv n v s c : conv_ok cv -> value_ok v -> simple n = true -> k_file s = H5 c -> c n = Some (encode v) ->
  read cv n (kind_of v) s = (Ok v, s).
Proof.
  intros Hc Hv Hs H Hn. pose proof (decode_encode cv v Hc Hv) as HD.
  destruct v as [t r cc buf|t buf|r cc buf|t l|l|t x|x|x|b|x]; cbn [kind_of read];
    try (rewrite (read_ok n _ s c) by auto; rewrite Hn; cbn [kind_of] in HD; rewrite HD; reflexivity).
  unfold mbind. rewrite (read_ok n _ s c) by auto. rewrite Hn.
  unfold decode, encode, read_float, is_float. cbn [ds_type ds_space ds_data negb].
  rewrite map_ff by exact Hc. reflexivity.
Qed.

Lemma read_missing cv n k s c : simple n = true -> k_file s = H5 c -> c n = None ->
  read cv n k s = (Throw RuntimeError, with_open true s).
Proof.
  intros Hs H Hn. destruct k; cbn [read]; unfold mbind; rewrite (read_ok n _ s c) by auto; now rewrite Hn.
Qed.

(** Reads do not change the file. *)
Lemma read_state cv n k s c : simple n = true -> k_file s = H5 c ->
  exists b, snd (read cv n k s) = with_open b s.
Proof.
  intros Hs H. 
  assert (HS : exists b, s = with_open b s) by (exists (k_open s); now destruct s).
  assert (G : forall dec : dataset -> res value, exists b, snd (read_ds n dec s) = with_open b s).
  { intros dec. rewrite (read_ok n _ s c) by auto. destruct (c n) as [d|]; [|now exists true].
    destruct (dec d); cbn [snd]; eauto. }
  destruct k; cbn [read]; auto.
  unfold mbind. specialize (G (decode cv (KMat t))). destruct (read_ds n _ s) as [[v| | |] s']; auto.
  destruct v as [t0 r cc buf| | | | | | | | |]; auto. destruct cc as [|[|cc]]; auto.
Qed.

(* ---------- refinement ---------- *)

Lemma present_map c m n : (forall n, c n = option_map encode (m n)) -> present c n = match m n with Some _ => true | None => false end.
Proof. intros H. unfold present. rewrite H. destruct (m n); reflexivity. Qed.

Lemma step_ok cv o s m : conv_ok cv -> op_ok o -> represents (k_file s) m ->
  expected (k_write s) m o (fst (step cv o s)) /\
  k_write (snd (step cv o s)) = k_write s /\
  represents (k_file (snd (step cv o s))) (if k_write s then effect m o else m).
Proof.
  intros Hc Ho HR. destruct HR as [Hv (c & Hf & Hm)].
  assert (Hself : represents (k_file s) m) by (split; [exact Hv|exists c; auto]).
  destruct o as [| | |n|n|n v|n k]; cbn [step op_ok expected effect] in *.
  - split; [exact I|]. unfold mbind, open_, set_open. rewrite Hf. destruct (k_open s).
    + split; [reflexivity|]. cbn [snd]. destruct (k_write s); exact Hself.
    + split; [reflexivity|]. cbn [snd ret k_file]. rewrite Hf in *. destruct (k_write s); exact Hself.
  - split; [exact I|]. unfold mbind, close_, set_open. destruct (k_open s).
    + split; [reflexivity|]. cbn [snd ret k_file]. destruct (k_write s); exact Hself.
    + split; [reflexivity|]. cbn [snd]. destruct (k_write s); exact Hself.
  - repeat split; try reflexivity; cbn; destruct (k_write s); apply Hself.
  - unfold mbind. rewrite (exist_ok n s c) by auto. cbn [fst snd ret]. rewrite (present_map c m n Hm).
    split; [reflexivity|]. split; [reflexivity|]. destruct (k_write s); exact Hself.
  - destruct (k_write s) eqn:Hw.
    + unfold mbind. rewrite (remove_ok n s c) by auto. cbn [fst snd ret]. split; [reflexivity|].
      assert (HP : represents (k_file (if present c n then with_file (upd n None c) [upd n None c] s else s)) (put m n None)).
      { split.
        - intros n' v' E. unfold put in E. destruct (String.eqb n' n); [discriminate|]. now apply (Hv n').
        - destruct (present c n) eqn:E.
          + exists (upd n None c). split; [reflexivity|]. intros n'. unfold upd, put. destruct (String.eqb n' n); [reflexivity|apply Hm].
          + exists c. split; [exact Hf|]. intros n'. unfold put. destruct (String.eqb_spec n' n) as [->|]; [|apply Hm].
            unfold present in E. destruct (c n); [discriminate|reflexivity]. }
      split; [|exact HP]. destruct (present c n); [exact Hw|exact Hw].
    + unfold remove, mbind, check_write. rewrite Hw. cbn [fst snd]. repeat split; auto. exists c; auto.
  - destruct Ho as [Hs Hvv]. destruct (k_write s) eqn:Hw.
    + unfold mbind, write. rewrite (write_ok n (encode v) s c) by auto. cbn [fst snd ret]. split; [reflexivity|].
      split; [exact Hw|]. split.
      * intros n' v' E. unfold put in E. destruct (String.eqb n' n); [injection E as <-; exact Hvv|]. now apply (Hv n').
      * exists (written n (encode v) c). split; [reflexivity|]. intros n'. rewrite written_eq. unfold upd, put.
        destruct (String.eqb n' n); [reflexivity|apply Hm].
    + unfold write, write_ds, mbind, check_write. rewrite Hw. cbn [fst snd]. repeat split; auto. exists c; auto.
  - assert (HS : k_write (snd (mbind (read cv n k) (fun v => ret (AValue v)) s)) = k_write s /\
                 k_file (snd (mbind (read cv n k) (fun v => ret (AValue v)) s)) = k_file s).
    { destruct (read_state cv n k s c Ho Hf) as (b & HB). unfold mbind. destruct (read cv n k s) as [[x| | |] s']; cbn [snd ret] in *; subst s'; split; reflexivity. }
    destruct HS as [HS1 HS2]. split; [|split; [exact HS1|]].
    + destruct (m n) as [v|] eqn:En.
      * intros ->. unfold mbind. rewrite (read_value cv n v s c); auto; [now apply (Hv n)|]. rewrite Hm, En. reflexivity.
      * unfold mbind. rewrite (read_missing cv n k s c); auto. rewrite Hm, En. reflexivity.
    + rewrite HS2. destruct (k_write s); exact Hself.
Qed.

Lemma run_ok cv ops : conv_ok cv -> forall s m, Forall op_ok ops -> represents (k_file s) m ->
  follows (k_write s) m ops (fst (run cv ops s)) /\
  k_write (snd (run cv ops s)) = k_write s /\
  represents (k_file (snd (run cv ops s))) (final (k_write s) m ops).
Proof.
  intros Hc. induction ops as [|o ops IH]; intros s m Ho HR.
  - cbn. repeat split; try apply HR. unfold final. cbn. destruct (k_write s); apply HR.
    unfold final. destruct (k_write s); apply HR.
  - inversion Ho as [|? ? Ho1 Ho2]; subst. cbn [run follows].
    destruct (step_ok cv o s m Hc Ho1 HR) as (S1 & S2 & S3). destruct (step cv o s) as [a s1]. cbn [fst snd] in *.
    specialize (IH s1 _ Ho2 S3). destruct (run cv ops s1) as [l s2]. cbn [fst snd] in *. rewrite S2 in IH.
    destruct IH as (I1 & I2 & I3). split; [split; assumption|]. split; [exact I2|].
    unfold final in *. cbn [fold_left]. destruct (k_write s); exact I3.
Qed.

Lemma construct_ok cc writem trunc f m : (f = Absent \/ represents f m) ->
  fst (construct cc writem trunc f) = Ok tt ->
  k_write (snd (construct cc writem trunc f)) = writem /\
  represents (k_file (snd (construct cc writem trunc f))) (initial f writem trunc m).
Proof.
  intros Hf E. unfold construct, initial in *. 
  destruct (writem && (trunc || match f with Absent => true | _ => false end))%bool eqn:G.
  - destruct cc; [|discriminate]. cbn. destruct writem; [|discriminate]. split; [reflexivity|]. split; [discriminate|].
    eexists. split; [reflexivity|]. reflexivity.
  - unfold open_ in *. cbn [k_file] in *. destruct f; try discriminate. cbn. split; [reflexivity|].
    destruct Hf as [Hf|Hf]; [discriminate|exact Hf].
Qed.

Lemma construct_fails cc writem trunc f : cc = true ->
  (fst (construct cc writem trunc f) = Ok tt <-> 
   (writem = true /\ (trunc = true \/ f = Absent)) \/ exists c, f = H5 c) /\
  (fst (construct cc writem trunc f) = Ok tt \/ fst (construct cc writem trunc f) = Throw RuntimeError).
Proof.
  intros ->. unfold construct. destruct writem, trunc, f; cbn; intuition (try congruence; eauto);
  try (match goal with H : exists _, _ |- _ => destruct H; discriminate end).
Qed.

(** The whole life of a checkpoint: an object is made, used, and another one is
    made on the same file without truncation and used. *)
Lemma kv_store cv cc f m writem trunc ops writem2 ops2 : conv_ok cv ->
  (f = Absent \/ represents f m) -> Forall op_ok ops -> Forall op_ok ops2 ->
  let o1 := construct cc writem trunc f in
  fst o1 = Ok tt ->
  let r1 := run cv ops (snd o1) in
  let m1 := final writem (initial f writem trunc m) ops in
  follows writem (initial f writem trunc m) ops (fst r1) /\
  represents (k_file (snd r1)) m1 /\
  let o2 := construct cc writem2 false (k_file (snd r1)) in
  fst o2 = Ok tt /\
  let r2 := run cv ops2 (snd o2) in
  follows writem2 m1 ops2 (fst r2) /\ represents (k_file (snd r2)) (final writem2 m1 ops2).
Proof.
  intros Hc Hf H1 H2 o1 E r1 m1.
  destruct (construct_ok cc writem trunc f m Hf E) as [Hw HR]. fold o1 in Hw, HR.
  destruct (run_ok cv ops Hc _ _ H1 HR) as (A1 & A2 & A3). rewrite Hw in A1, A3. fold r1 in A1, A2, A3.
  split; [exact A1|]. split; [exact A3|]. intros o2.
  assert (E2 : fst o2 = Ok tt).
  { unfold o2. destruct A3 as [_ (c & Hc' & _)]. rewrite Hc'. unfold construct. cbn. rewrite andb_false_r. reflexivity. }
  split; [exact E2|]. intros r2.
  destruct (construct_ok cc writem2 false _ m1 (or_intror A3) E2) as [Hw2 HR2]. fold o2 in Hw2, HR2.
  assert (EI : initial (k_file (snd r1)) writem2 false m1 = m1).
  { unfold initial. destruct A3 as [_ (c & Hc' & _)]. rewrite Hc'. cbn. now rewrite andb_false_r. }
  rewrite EI in HR2. destruct (run_ok cv ops2 Hc _ _ H2 HR2) as (B1 & _ & B3). rewrite Hw2 in B1, B3. auto.
Qed.

(* ---------- open and closed ---------- *)

Lemma opened_restores {A} (body : M A) s a s' :
  (forall s0 a0 s1, k_open s0 = true -> body s0 = (Ok a0, s1) -> k_open s1 = true) ->
  opened body s = (Ok a, s') -> k_open s' = k_open s.
Proof.
  intros Hb E. unfold opened in E. destruct (k_open s) eqn:Ho.
  - now apply (Hb s a s').
  - unfold mbind, open_, set_open in E. destruct (k_file s); try discriminate. rewrite Ho in E.
    destruct (body _) as [[x| | |] s1] eqn:EB; try discriminate.
    unfold close_, set_open in E. destruct (k_open s1); [|discriminate]. injection E as _ <-. reflexivity.
Qed.

Lemma exist_restores n s a s' : exist n s = (Ok a, s') -> k_open s' = k_open s.
Proof.
  apply opened_restores. intros s0 a0 s1 Ho. destruct (simple n); [|discriminate].
  unfold mbind, lookup. destruct (k_file s0); try discriminate. intros E. injection E as _ <-. exact Ho.
Qed.

Lemma remove_restores n s a s' : remove n s = (Ok a, s') -> k_open s' = k_open s.
Proof.
  unfold remove, mbind at 1, check_write. destruct (k_write s); [|discriminate]. apply opened_restores.
  intros s0 a0 s1 Ho. unfold mbind. destruct (exist n s0) as [[e| | |] s2] eqn:E; try discriminate.
  apply exist_restores in E. destruct e.
  - unfold mutate. destruct (k_file s2); try discriminate. intros E2. injection E2 as _ <-. cbn. congruence.
  - intros E2. injection E2 as _ <-. congruence.
Qed.

Lemma write_restores n v s a s' : write n v s = (Ok a, s') -> k_open s' = k_open s.
Proof.
  unfold write, write_ds, mbind at 1, check_write. destruct (k_write s); [|discriminate]. apply opened_restores.
  intros s0 a0 s1 Ho. unfold mbind at 1. destruct (remove n s0) as [[e| | |] s2] eqn:E; try discriminate.
  apply remove_restores in E. unfold mbind at 1, h5_create, mbind at 1, lookup.
  destruct (k_file s2) as [| |c] eqn:Ef; try discriminate. destruct (c n); [discriminate|].
  unfold mutate at 1. rewrite Ef. unfold mutate. cbn [k_file k_open k_write k_trace].
  intros E2. injection E2 as _ <-. cbn. congruence.
Qed.

Lemma read_ds_restores {A} n (dec : dataset -> res A) s a s' : read_ds n dec s = (Ok a, s') -> k_open s' = k_open s.
Proof.
  apply opened_restores. intros s0 a0 s1 Ho. unfold mbind. destruct (exist n s0) as [[e| | |] s2] eqn:E; try discriminate.
  apply exist_restores in E. destruct e; [|discriminate]. unfold lookup. destruct (k_file s2) as [| |c]; try discriminate.
  destruct (c n) as [d|]; [|discriminate]. intros E2. injection E2 as _ <-. congruence.
Qed.

Lemma read_restores cv n k s a s' : read cv n k s = (Ok a, s') -> k_open s' = k_open s.
Proof.
  destruct k; cbn [read]; try apply read_ds_restores.
  unfold mbind. destruct (read_ds n _ s) as [[v| | |] s1] eqn:E; try discriminate. apply read_ds_restores in E.
  destruct v as [t0 r cc buf| | | | | | | | |]; try discriminate. destruct cc as [|[|cc]]; try discriminate.
  intros E2. injection E2 as _ <-. exact E.
Qed.

Lemma step_restores cv o s a s' : o <> OOpen -> o <> OClose -> step cv o s = (Ok a, s') -> k_open s' = k_open s.
Proof.
  intros H1 H2. destruct o as [| | |n|n|n v|n k]; try contradiction; cbn [step]; unfold mbind.
  - intros E. injection E as _ <-. reflexivity.
  - destruct (exist n s) as [[x| | |] s1] eqn:E; try discriminate. intros E2. injection E2 as _ <-. eapply exist_restores; eauto.
  - destruct (remove n s) as [[x| | |] s1] eqn:E; try discriminate. intros E2. injection E2 as _ <-. eapply remove_restores; eauto.
  - destruct (write n v s) as [[x| | |] s1] eqn:E; try discriminate. intros E2. injection E2 as _ <-. eapply write_restores; eauto.
  - destruct (read cv n k s) as [[x| | |] s1] eqn:E; try discriminate. intros E2. injection E2 as _ <-. eapply read_restores; eauto.
Qed.

(** On an HDF5 file everything but a failing read restores the state, and open
    and close do what they say. *)
Lemma step_open_state cv o s c : op_ok o -> k_file s = H5 c ->
  match o with
  | OOpen => step cv o s = if k_open s then (Throw RuntimeError, s) else (Ok AUnit, with_open true s)
  | OClose => step cv o s = if k_open s then (Ok AUnit, with_open false s) else (Throw RuntimeError, s)
  | ORead _ _ => (forall a, fst (step cv o s) = Ok a -> snd (step cv o s) = s)
  | _ => k_open (snd (step cv o s)) = k_open s
  end.
Proof.
  intros Ho Hf. destruct o as [| | |n|n|n v|n k]; cbn [step op_ok] in *.
  - unfold mbind, open_, set_open. rewrite Hf. destruct (k_open s); [reflexivity|]. unfold with_open. rewrite Hf. reflexivity.
  - unfold mbind, close_, set_open. destruct (k_open s); reflexivity.
  - reflexivity.
  - unfold mbind. rewrite (exist_ok n s c) by auto. reflexivity.
  - destruct (k_write s) eqn:Hw.
    + unfold mbind. rewrite (remove_ok n s c) by auto. cbn. destruct (present c n); reflexivity.
    + unfold remove, mbind, check_write. rewrite Hw. reflexivity.
  - destruct Ho as [Ho _]. destruct (k_write s) eqn:Hw.
    + unfold mbind, write. rewrite (write_ok n (encode v) s c) by auto. reflexivity.
    + unfold write, write_ds, mbind, check_write. rewrite Hw. reflexivity.
  - intros a E. destruct (read_state cv n k s c Ho Hf) as (b & HB). unfold mbind in *.
    destruct (read cv n k s) as [[x| | |] s1] eqn:ER; try discriminate. cbn [snd ret] in *.
    apply read_restores in ER. rewrite HB in ER |- *. cbn in ER. now apply with_open_self.
Qed.

Open Scope string_scope.

Lemma failing_read cv : let s := chk_empty false in
  step cv (ORead "Etot" (KFloat FDouble)) s = (Throw RuntimeError, with_open true s) /\
  fst (step cv OOpen (snd (step cv (ORead "Etot" (KFloat FDouble)) s))) = Throw RuntimeError.
Proof. split; reflexivity. Qed.

Lemma restores_refuted_ok : ~ (forall cv o s, op_ok o -> (exists c, k_file s = H5 c) -> o <> OOpen -> o <> OClose ->
  k_open (snd (step cv o s)) = k_open s).
Proof.
  intros H. pose proof (failing_read (mkConv (fun _ _ x => x) (fun _ x => x))) as [E _]. cbv zeta in E.
  specialize (H (mkConv (fun _ _ x => x) (fun _ x => x)) (ORead "Etot" (KFloat FDouble)) (chk_empty false)).
  rewrite E in H. cbn in H. assert (true = false); [|discriminate]. apply H; [reflexivity|eexists; reflexivity|discriminate|discriminate].
Qed.

(* ---------- round trips ---------- *)

Lemma roundtrip_ok cv n v s c : conv_ok cv -> value_ok v -> simple n = true -> k_write s = true -> k_file s = H5 c ->
  fst (write n v s) = Ok tt /\ fst (read cv n (kind_of v) (snd (write n v s))) = Ok v.
Proof.
  intros Hc Hv Hs Hw Hf. unfold write. rewrite (write_ok n (encode v) s c) by auto. cbn [fst snd]. split; [reflexivity|].
  rewrite (read_value cv n v _ (written n (encode v) c)); auto. rewrite written_eq. apply upd_eq.
Qed.

(** Reading a matrix in another precision converts entry by entry. *)
Lemma precision_ok cv n t t' r cols buf s c : simple n = true -> k_write s = true -> k_file s = H5 c ->
  fst (read cv n (KMat t') (snd (write n (VMat t r cols buf) s))) = Ok (VMat t' r cols (map (c_ff cv t t') buf)).
Proof.
  intros Hs Hw Hf. unfold write. rewrite (write_ok n _ s c) by auto. cbn [snd read].
  rewrite (read_ok n _ _ (written n (encode (VMat t r cols buf)) c)) by auto.
  rewrite written_eq, upd_eq. reflexivity.
Qed.

Lemma mismatch_ok cv n v k s c : simple n = true -> k_write s = true -> k_file s = H5 c ->
  (kind_rank k <> rank_of v \/ (kind_class k <> class_of v /\ k <> KIMat /\ k <> KBool)) ->
  fst (read cv n k (snd (write n v s))) = Throw RuntimeError.
Proof.
  intros Hs Hw Hf Hm. unfold write. rewrite (write_ok n (encode v) s c) by auto. cbn [snd].
  assert (G : forall dec : dataset -> res value, dec (encode v) = Throw RuntimeError ->
    read_ds n dec (with_file (written n (encode v) c) (write_trace n (encode v) c) s) =
    (Throw RuntimeError, with_open true (with_file (written n (encode v) c) (write_trace n (encode v) c) s))).
  { intros dec E. rewrite (read_ok n _ _ (written n (encode v) c)) by auto. rewrite written_eq, upd_eq, E. reflexivity. }
  destruct k; cbn [read]; unfold mbind; rewrite G; try reflexivity;
    destruct v; cbn [kind_rank rank_of kind_class class_of] in Hm; unfold decode, encode, is_float, is_int;
    cbn [ds_type ds_space ds_data negb]; try reflexivity; exfalso; intuition congruence.
Qed.

(** The two reads without a class check return something else than was written. *)
Lemma class_refuted :
  let s := chk_empty true in
  fst (read conv0 "S" KIMat (snd (write "S" (VMat FDouble 1 2 [11; 22]%Z) s))) = Ok (VIMat 2 1 [11; 22]%Z) /\
  fst (read conv0 "E" KBool (snd (write "E" (VFloat FDouble 7%Z) s))) = Ok (VBool true) /\
  fst (read conv0 "v" KString (snd (write "v" (VHList [65; 66]%Z) s))) = UB.
Proof. repeat split. Qed.
Lemma nul_refuted : let s := chk_empty true in let v := VString (String "a" (String zero "b")) in
  fst (read conv0 "s" KString (snd (write "s" v s))) = Ok (VString "a") /\ VString "a" <> v.
Proof. split; [reflexivity|discriminate]. Qed.

(* ---------- crashes ---------- *)

Lemma write_trace_ok n d s c : k_write s = true -> simple n = true -> k_file s = H5 c ->
  exists tr, k_trace (snd (write_ds n d s)) = (tr ++ k_trace s)%list /\
    forall c', In c' tr -> (forall n', n' <> n -> c' n' = c n') /\
      (c' n = c n \/ c' n = None \/ c' n = Some (blank d) \/ c' n = Some d).
Proof.
  intros Hw Hs Hf. rewrite (write_ok n d s c) by auto. exists (write_trace n d c). split; [reflexivity|].
  unfold write_trace. intros c' [<-|[<-|H]].
  - split; [intros n' Hn; destruct (present c n); rewrite !upd_neq by auto; reflexivity|]. rewrite upd_eq. auto.
  - split; [intros n' Hn; destruct (present c n); rewrite !upd_neq by auto; reflexivity|]. rewrite upd_eq. auto.
  - destruct (present c n); [|contradiction]. destruct H as [<-|[]]. split; [intros n' Hn; now apply upd_neq|]. rewrite upd_eq. auto.
Qed.

Lemma step_trace cv o s m : conv_ok cv -> op_ok o -> represents (k_file s) m ->
  exists tr, k_trace (snd (step cv o s)) = (tr ++ k_trace s)%list /\
    forall c', In c' tr -> crash_state m o c'.
Proof.
  intros Hc Ho [Hv (c & Hf & Hm)]. destruct o as [| | |n|n|n v|n k]; cbn [step op_ok] in *.
  - exists []. split; [|intros ? []]. unfold mbind, open_, set_open. rewrite Hf. destruct (k_open s); reflexivity.
  - exists []. split; [|intros ? []]. unfold mbind, close_, set_open. destruct (k_open s); reflexivity.
  - exists []. split; [reflexivity|intros ? []].
  - exists []. split; [|intros ? []]. unfold mbind. rewrite (exist_ok n s c) by auto. reflexivity.
  - destruct (k_write s) eqn:Hw.
    + unfold mbind. rewrite (remove_ok n s c) by auto. cbn [snd ret]. destruct (present c n).
      * exists [upd n None c]. split; [reflexivity|]. intros c' [<-|[]]. split.
        -- intros n' Hn. rewrite upd_neq by (cbn in Hn; congruence). apply Hm.
        -- cbn. right. apply upd_eq.
      * exists []. split; [reflexivity|intros ? []].
    + exists []. split; [|intros ? []]. unfold remove, mbind, check_write. rewrite Hw. reflexivity.
  - destruct Ho as [Hs Hvv]. destruct (k_write s) eqn:Hw.
    + destruct (write_trace_ok n (encode v) s c Hw Hs Hf) as (tr & E & Ht). exists tr. split.
      * unfold mbind, write. rewrite <- E. rewrite (write_ok n (encode v) s c) by auto. reflexivity.
      * intros c' Hin. destruct (Ht c' Hin) as [H1 H2]. split.
        -- intros n' Hn. rewrite H1 by (cbn in Hn; congruence). apply Hm.
        -- cbn. now rewrite <- Hm.
    + exists []. split; [|intros ? []]. unfold write, write_ds, mbind, check_write. rewrite Hw. reflexivity.
  - exists []. split; [|intros ? []]. destruct (read_state cv n k s c Ho Hf) as (b & HB). unfold mbind.
    destruct (read cv n k s) as [[x| | |] s']; cbn [snd ret] in *; now subst s'.
Qed.

Lemma final_snoc w m ops o : final w m (ops ++ [o]) = if w then effect (final w m ops) o else final w m ops.
Proof. unfold final. destruct w; [|reflexivity]. now rewrite fold_left_app. Qed.

Lemma crash_ok cv ops : conv_ok cv -> forall s m c, Forall op_ok ops -> represents (k_file s) m ->
  In c (k_trace (snd (run cv ops s))) ->
  In c (k_trace s) \/
  exists before o after, ops = (before ++ o :: after)%list /\
    crash_state (final (k_write s) m before) o c.
Proof.
  intros Hc. induction ops as [|o ops IH]; intros s m c Ho HR Hin.
  - now left.
  - inversion Ho as [|? ? Ho1 Ho2]; subst. cbn [run] in Hin.
    destruct (step_ok cv o s m Hc Ho1 HR) as (_ & S2 & S3). destruct (step_trace cv o s m Hc Ho1 HR) as (tr & Et & Hn).
    destruct (step cv o s) as [a s1]. cbn [fst snd] in *. destruct (run cv ops s1) as [l s2] eqn:ER. cbn [snd] in Hin.
    specialize (IH s1 _ c Ho2 S3). rewrite ER in IH. cbn [snd] in IH. destruct (IH Hin) as [H|(bf & o' & af & E & H)].
    + rewrite Et in H. apply in_app_or in H. destruct H as [H|H]; [|now left].
      right. exists [], o, ops. split; [reflexivity|]. unfold final. cbn. destruct (k_write s); now apply Hn.
    + right. exists (o :: bf), o', af. split; [rewrite E; reflexivity|]. rewrite S2 in H.
      unfold final in *. cbn [fold_left]. destruct (k_write s); exact H.
Qed.

Lemma crash_refuted_ok : let s := snd (run conv0 [OWrite "P" (VFloat FDouble 5)] (chk_empty true)) in
  let s' := snd (step conv0 (OWrite "P" (VFloat FDouble 6)) s) in
  exists c, In c (k_trace s') /\ ~ In c (k_trace s) /\ c "P" = None /\
  exists c2, In c2 (k_trace s') /\ c2 "P" = Some (mkDs (TFloat FDouble) Scalar [0%Z]).
Proof.
  cbv zeta. set (s := snd (run _ _ _)). 
  exists (upd "P" None (upd "P" (Some (encode (VFloat FDouble 5))) (upd "P" (Some (blank (encode (VFloat FDouble 5)))) (fun _ => None)))).
  split; [|split; [|split]].
  - cbn. right. right. now left.
  - cbn. intros [H|[H|[]]]; apply (f_equal (fun c => c "P")) in H; discriminate.
  - reflexivity.
  - exists (upd "P" (Some (blank (encode (VFloat FDouble 6)))) (upd "P" None (upd "P" (Some (encode (VFloat FDouble 5))) (upd "P" (Some (blank (encode (VFloat FDouble 5)))) (fun _ => None))))).
    split; [|reflexivity]. cbn. right. now left.
Qed.

(* ---------- basis sets ---------- *)

Definition holds_all (c : content) (l : list (string * value)) : Prop :=
  forall n v, In (n, v) l -> c n = Some (encode v).

Lemma write_all_ok l : forall s c, k_write s = true -> k_file s = H5 c ->
  Forall (fun e => simple (fst e) = true) l ->
  exists c' tr, write_all l s = (Ok tt, with_file c' tr s) /\
    (forall n, ~ In n (map fst l) -> c' n = c n) /\
    (NoDup (map fst l) -> holds_all c' l).
Proof.
  induction l as [|[n v] l IH]; intros s c Hw Hf Hs.
  - exists c, []. cbn. split; [|split; auto; intros ? ? ? []]. unfold ret, with_file. cbn. rewrite <- Hf. now destruct s.
  - inversion Hs as [|? ? H1 H2]; subst. cbn [fst] in H1. cbn [write_all]. unfold mbind, write.
    rewrite (write_ok n (encode v) s c) by auto.
    destruct (IH (with_file (written n (encode v) c) (write_trace n (encode v) c) s) _ Hw eq_refl H2) as (c' & tr & E & O1 & O2).
    rewrite E. exists c', (tr ++ write_trace n (encode v) c)%list. split; [|split].
    + unfold with_file. cbn [k_write k_open k_trace]. now rewrite <- app_assoc.
    + intros n' Hn. cbn in Hn. rewrite O1 by tauto. rewrite written_eq. apply upd_neq. intuition.
    + intros Hnd. inversion Hnd as [|? ? N1 N2]; subst. intros n' v' [E'|Hin].
      * injection E' as <- <-. rewrite O1 by exact N1. rewrite written_eq. apply upd_eq.
      * now apply O2.
Qed.

Lemma opened_write_all l s c : k_write s = true -> k_file s = H5 c ->
  Forall (fun e => simple (fst e) = true) l -> NoDup (map fst l) ->
  exists c' tr, mbind check_write (fun _ => opened (write_all l)) s = (Ok tt, with_file c' tr s) /\
    (forall n, ~ In n (map fst l) -> c' n = c n) /\ holds_all c' l.
Proof.
  intros Hw Hf Hs Hnd. unfold mbind, check_write. rewrite Hw. rewrite (opened_ok _ _ c Hf).
  destruct (k_open s) eqn:Ho.
  - destruct (write_all_ok l s c Hw Hf Hs) as (c' & tr & E & O1 & O2). exists c', tr. rewrite E. auto.
  - destruct (write_all_ok l (with_open true s) c Hw Hf Hs) as (c' & tr & E & O1 & O2). exists c', tr. rewrite E.
    cbn [with_file with_open k_open]. split; [|auto]. unfold with_open, with_file. cbn. now rewrite Ho.
Qed.

Lemma names_atomic p : Forall (fun e => simple (fst e) = true) (atomic_entries p) /\ NoDup (map fst (atomic_entries p)).
Proof.
  split; [repeat constructor|]. cbn. repeat constructor; cbn; intuition discriminate.
Qed.
Lemma names_diatomic p : Forall (fun e => simple (fst e) = true) (diatomic_entries p) /\ NoDup (map fst (diatomic_entries p)).
Proof.
  split; [repeat constructor|]. cbn. repeat constructor; cbn; intuition discriminate.
Qed.

Section Reading.
Variables (cv : conv) (s : chk) (c : content) (l : list (string * value)).
Hypothesis Hc : conv_ok cv.
Hypothesis Hf : k_file s = H5 c.
Hypothesis Hh : holds_all c l.
Hypothesis Hv : Forall (fun e => value_ok (snd e)) l.
Hypothesis Hn : Forall (fun e => simple (fst e) = true) l.

Lemma rd n v : In (n, v) l -> read cv n (kind_of v) s = (Ok v, s).
Proof.
  intros Hin. rewrite Forall_forall in Hv, Hn. apply (read_value cv n v s c); auto.
  - apply (Hv _ Hin).
  - apply (Hn _ Hin).
Qed.
Lemma rd_int n x : In (n, VInt x) l -> get_int cv n s = (Ok x, s).
Proof. intros Hin. unfold get_int, mbind. change KInt with (kind_of (VInt x)). now rewrite (rd n (VInt x) Hin). Qed.
Lemma rd_double n x : In (n, VFloat FDouble x) l -> get_double cv n s = (Ok x, s).
Proof. intros Hin. unfold get_double, mbind. change (KFloat FDouble) with (kind_of (VFloat FDouble x)). now rewrite (rd n _ Hin). Qed.
Lemma rd_vector n x : In (n, VVec FDouble x) l -> get_vector cv n s = (Ok x, s).
Proof. intros Hin. unfold get_vector, mbind. change (KVec FDouble) with (kind_of (VVec FDouble x)). now rewrite (rd n _ Hin). Qed.
Lemma rd_column n x : In (n, column x) l -> get_imat cv n s = (Ok (length x, 1%nat, x), s).
Proof. intros Hin. unfold get_imat, mbind. change KIMat with (kind_of (column x)). now rewrite (rd n _ Hin). Qed.
End Reading.

Lemma col0_ok x s : col0 (length x, 1%nat, x) s = (Ok x, s).
Proof. unfold col0. cbn [Nat.eqb]. now rewrite firstn_all. Qed.

Lemma read_atomic_ok cv s c p : conv_ok cv -> k_file s = H5 c -> atomic_ok p -> holds_all c (atomic_entries p) ->
  read_atomic cv s = (Ok p, s) /\ fst (read_diatomic cv s) = Throw LogicError.
Proof.
  intros Hc Hf Hv Hh. destruct (names_atomic p) as [Hn _].
  assert (G : forall s0, k_file s0 = H5 c ->
    (forall n x, In (n, VInt x) (atomic_entries p) -> get_int cv n s0 = (Ok x, s0)) /\
    (forall n x, In (n, VFloat FDouble x) (atomic_entries p) -> get_double cv n s0 = (Ok x, s0)) /\
    (forall n x, In (n, VVec FDouble x) (atomic_entries p) -> get_vector cv n s0 = (Ok x, s0)) /\
    (forall n x, In (n, column x) (atomic_entries p) -> get_imat cv n s0 = (Ok (length x, 1%nat, x), s0))).
  { intros s0 Hf0. repeat split; intros.
    - eapply rd_int; eauto. - eapply rd_double; eauto. - eapply rd_vector; eauto. - eapply rd_column; eauto. }
  assert (HB : forall s0, k_file s0 = H5 c ->
     get_int cv "HelFEM_ID" s0 = (Ok 1%Z, s0)) by (intros s0 Hf0; apply G; [exact Hf0|now left]).
  split.
  - unfold read_atomic. rewrite (opened_ok _ _ c Hf).
    match goal with |- context [ (if k_open s then ?b s else _) ] => set (body := b) end.
    assert (E : forall s0, k_file s0 = H5 c -> body s0 = (Ok p, s0)).
    { intros s0 Hf0. destruct (G s0 Hf0) as (GI & GD & GV & GM). unfold body. unfold mbind.
      rewrite (HB s0 Hf0). cbn [Z.eqb Pos.eqb negb].
      rewrite (GI "Z" (a_Z p)) by (cbn; tauto). rewrite (GI "Zl" (a_Zl p)) by (cbn; tauto). rewrite (GI "Zr" (a_Zr p)) by (cbn; tauto).
      rewrite (GI "finitenuc" (a_finitenuc p)) by (cbn; tauto). rewrite (GD "Rrms" (a_Rrms p)) by (cbn; tauto).
      rewrite (GD "Rhalf" (a_Rhalf p)) by (cbn; tauto). rewrite (GV "bval" (a_bval p)) by (cbn; tauto).
      rewrite (GI "n_quad" (a_nquad p)) by (cbn; tauto). rewrite (GI "poly_id" (a_poly p)) by (cbn; tauto).
      rewrite (GI "poly_nnodes" (a_nnodes p)) by (cbn; tauto). rewrite (GI "zeroder" (a_zeroder p)) by (cbn; tauto).
      rewrite (GM "lval" (a_lval p)) by (cbn; tauto). rewrite (GM "mval" (a_mval p)) by (cbn; tauto).
      rewrite !col0_ok. destruct p. reflexivity. }
    rewrite (E s Hf). rewrite (E (with_open true s) Hf). cbn [k_open with_open].
    destruct (k_open s) eqn:Ho; [reflexivity|]. now rewrite with_open_twice, with_open_self.
  - unfold read_diatomic. rewrite (opened_ok _ _ c Hf). unfold mbind. rewrite (HB s Hf), (HB (with_open true s) Hf).
    cbn. destruct (k_open s); reflexivity.
Qed.

Lemma read_diatomic_ok cv s c p : conv_ok cv -> k_file s = H5 c -> diatomic_ok p -> holds_all c (diatomic_entries p) ->
  read_diatomic cv s = (Ok p, s) /\ fst (read_atomic cv s) = Throw LogicError.
Proof.
  intros Hc Hf Hv Hh. destruct (names_diatomic p) as [Hn _].
  assert (G : forall s0, k_file s0 = H5 c ->
    (forall n x, In (n, VInt x) (diatomic_entries p) -> get_int cv n s0 = (Ok x, s0)) /\
    (forall n x, In (n, VFloat FDouble x) (diatomic_entries p) -> get_double cv n s0 = (Ok x, s0)) /\
    (forall n x, In (n, VVec FDouble x) (diatomic_entries p) -> get_vector cv n s0 = (Ok x, s0)) /\
    (forall n x, In (n, column x) (diatomic_entries p) -> get_imat cv n s0 = (Ok (length x, 1%nat, x), s0))).
  { intros s0 Hf0. repeat split; intros.
    - eapply rd_int; eauto. - eapply rd_double; eauto. - eapply rd_vector; eauto. - eapply rd_column; eauto. }
  assert (HB : forall s0, k_file s0 = H5 c ->
     get_int cv "HelFEM_ID" s0 = (Ok 2%Z, s0)) by (intros s0 Hf0; apply G; [exact Hf0|now left]).
  split.
  - unfold read_diatomic. rewrite (opened_ok _ _ c Hf).
    match goal with |- context [ (if k_open s then ?b s else _) ] => set (body := b) end.
    assert (E : forall s0, k_file s0 = H5 c -> body s0 = (Ok p, s0)).
    { intros s0 Hf0. destruct (G s0 Hf0) as (GI & GD & GV & GM). unfold body. unfold mbind.
      rewrite (HB s0 Hf0). cbn [Z.eqb Pos.eqb negb].
      rewrite (GI "Z1" (d_Z1 p)) by (cbn; tauto). rewrite (GI "Z2" (d_Z2 p)) by (cbn; tauto).
      rewrite (GD "Rhalf" (d_Rhalf p)) by (cbn; tauto). rewrite (GV "bval" (d_bval p)) by (cbn; tauto).
      rewrite (GI "n_quad" (d_nquad p)) by (cbn; tauto). rewrite (GI "poly_id" (d_poly p)) by (cbn; tauto).
      rewrite (GI "poly_nnodes" (d_nnodes p)) by (cbn; tauto).
      rewrite (GM "lval" (d_lval p)) by (cbn; tauto). rewrite (GM "mval" (d_mval p)) by (cbn; tauto).
      rewrite !col0_ok. destruct p. reflexivity. }
    rewrite (E s Hf). rewrite (E (with_open true s) Hf). cbn [k_open with_open].
    destruct (k_open s) eqn:Ho; [reflexivity|]. now rewrite with_open_twice, with_open_self.
  - unfold read_atomic. rewrite (opened_ok _ _ c Hf). unfold mbind. rewrite (HB s Hf), (HB (with_open true s) Hf).
    cbn. destruct (k_open s); reflexivity.
Qed.

Lemma step_keeps cv o s c : op_ok o -> k_file s = H5 c ->
  exists c', k_file (snd (step cv o s)) = H5 c' /\ forall n, ~ touches o n -> c' n = c n.
Proof.
  intros Ho Hf. destruct o as [| | |n|n|n v|n k]; cbn [step op_ok touches] in *.
  - exists c. split; auto. unfold mbind, open_, set_open. rewrite Hf. destruct (k_open s); cbn; congruence.
  - exists c. split; auto. unfold mbind, close_, set_open. destruct (k_open s); cbn; congruence.
  - exists c. auto.
  - exists c. split; auto. unfold mbind. rewrite (exist_ok n s c) by auto. exact Hf.
  - destruct (k_write s) eqn:Hw.
    + unfold mbind. rewrite (remove_ok n s c) by auto. cbn [snd ret]. destruct (present c n).
      * exists (upd n None c). split; [reflexivity|]. intros n' Hn. apply upd_neq. congruence.
      * exists c. auto.
    + exists c. split; auto. unfold remove, mbind, check_write. rewrite Hw. exact Hf.
  - destruct Ho as [Hs Hvv]. destruct (k_write s) eqn:Hw.
    + unfold mbind, write. rewrite (write_ok n (encode v) s c) by auto. cbn [snd ret].
      exists (written n (encode v) c). split; [reflexivity|]. intros n' Hn. rewrite written_eq. apply upd_neq. congruence.
    + exists c. split; auto. unfold write, write_ds, mbind, check_write. rewrite Hw. exact Hf.
  - exists c. split; auto. destruct (read_state cv n k s c Ho Hf) as (b & HB). unfold mbind.
    destruct (read cv n k s) as [[x| | |] s']; cbn [snd ret] in *; now subst s'.
Qed.

Lemma run_keeps cv ops : forall s c, Forall op_ok ops -> k_file s = H5 c ->
  exists c', k_file (snd (run cv ops s)) = H5 c' /\ forall n, (forall o, In o ops -> ~ touches o n) -> c' n = c n.
Proof.
  induction ops as [|o ops IH]; intros s c Ho Hf.
  - exists c. auto.
  - inversion Ho as [|? ? H1 H2]; subst. destruct (step_keeps cv o s c H1 Hf) as (c1 & E1 & K1). cbn [run].
    destruct (step cv o s) as [a s1]. cbn [snd] in E1. destruct (IH s1 c1 H2 E1) as (c2 & E2 & K2).
    destruct (run cv ops s1) as [l s2]. cbn [snd] in *. exists c2. split; [exact E2|].
    intros n Hn. rewrite K2 by (intros o' Hin; apply Hn; now right). apply K1. apply Hn. now left.
Qed.

Lemma atomic_roundtrip_ok cv p ops s c : conv_ok cv -> atomic_ok p -> k_write s = true -> k_file s = H5 c ->
  Forall op_ok ops -> (forall o e, In o ops -> In e (atomic_entries p) -> ~ touches o (fst e)) ->
  fst (write_atomic p s) = Ok tt /\
  let s' := snd (run cv ops (snd (write_atomic p s))) in
  fst (read_atomic cv s') = Ok p /\ fst (read_diatomic cv s') = Throw LogicError.
Proof.
  intros Hc Hp Hw Hf Ho Ht. destruct (names_atomic p) as [Hn Hd].
  destruct (opened_write_all (atomic_entries p) s c Hw Hf Hn Hd) as (c' & tr & E & _ & Hh).
  unfold write_atomic. rewrite E. split; [reflexivity|]. cbn [snd].
  destruct (run_keeps cv ops (with_file c' tr s) c' Ho eq_refl) as (c2 & E2 & K2).
  destruct (read_atomic_ok cv (snd (run cv ops (with_file c' tr s))) c2 p Hc E2 Hp) as [R1 R2].
  - intros n v Hin. rewrite K2; [now apply Hh|]. intros o Hin'. exact (Ht o (n, v) Hin' Hin).
  - rewrite R1. auto.
Qed.

Lemma diatomic_roundtrip_ok cv p ops s c : conv_ok cv -> diatomic_ok p -> k_write s = true -> k_file s = H5 c ->
  Forall op_ok ops -> (forall o e, In o ops -> In e (diatomic_entries p) -> ~ touches o (fst e)) ->
  fst (write_diatomic p s) = Ok tt /\
  let s' := snd (run cv ops (snd (write_diatomic p s))) in
  fst (read_diatomic cv s') = Ok p /\ fst (read_atomic cv s') = Throw LogicError.
Proof.
  intros Hc Hp Hw Hf Ho Ht. destruct (names_diatomic p) as [Hn Hd].
  destruct (opened_write_all (diatomic_entries p) s c Hw Hf Hn Hd) as (c' & tr & E & _ & Hh).
  unfold write_diatomic. rewrite E. split; [reflexivity|]. cbn [snd].
  destruct (run_keeps cv ops (with_file c' tr s) c' Ho eq_refl) as (c2 & E2 & K2).
  destruct (read_diatomic_ok cv (snd (run cv ops (with_file c' tr s))) c2 p Hc E2 Hp) as [R1 R2].
  - intros n v Hin. rewrite K2; [now apply Hh|]. intros o Hin'. exact (Ht o (n, v) Hin' Hin).
  - rewrite R1. auto.
Qed.

(** A history used as an example. *)
Definition demo_ops : list op :=
  [OWrite "P" (VMat FDouble 2 1 [3; 4]%Z); OClose; OExist "P"; OOpen; OWrite "P" (VMat FDouble 1 2 [5; 6]%Z);
   OWrite "s" (VString "He"); ORead "P" (KMat FDouble); ORemove "s"; ORead "s" KString].
Lemma demo_ok : Forall op_ok demo_ops /\ conv_ok conv0.
Proof.
  split; [|intros t x; reflexivity]. repeat constructor; discriminate.
Qed.
Lemma demo_answers : fst (run conv0 demo_ops (snd (construct true true true Absent))) =
  [Ok AUnit; Throw RuntimeError; Ok (ABool true); Ok AUnit; Ok AUnit; Ok AUnit; Ok (AValue (VMat FDouble 1 2 [5; 6]%Z));
   Ok AUnit; Throw RuntimeError].
Proof. vm_compute. reflexivity. Qed.
Definition he_basis : atomic_pars := mkAP 2 0 0 0 [0; 7; 40]%Z 0 0 50 4 15 0 [0; 1; 1; 1]%Z [0; -1; 0; 1]%Z.
Lemma he_ok : atomic_ok he_basis.
Proof.
  unfold atomic_ok. repeat constructor; cbn; unfold in_itype, imin, imax; try lia; repeat constructor; lia.
Qed.
Definition h2_basis : diatomic_pars := mkDP 1 1 7 [0; 2; 4]%Z 50 4 15 [0; 1; 2]%Z [0; 0; 0]%Z.
Lemma h2_ok : diatomic_ok h2_basis.
Proof.
  unfold diatomic_ok. repeat constructor; cbn; unfold in_itype, imin, imax; try lia; repeat constructor; lia.
Qed.
Lemma roundtrip_example_ok : value_ok (VMat FDouble 0 3 []) /\ value_ok (VString "H2") /\ simple "S" = true.
Proof. repeat split; discriminate. Qed.
Lemma mismatch_example_ok : kind_rank (KMat FDouble) <> rank_of (VInt 3).
Proof. discriminate. Qed.
