(** * PropsText: C25, C26, C29 *)
From Verif Require Import Base PyStr PyInt Types ParseModel SerializeModel XmlReadModel SpecText TextFacts.

(** ** C25: integers survive writing and reading *)

(** the two ways the serializer writes an integer ([str(n)], [f"{n:#x}"]) are read back as the same integer *)
Theorem C25_written_read : forall n, to_int (str_of_Z n) = ret n /\ to_int (hex_of_Z n) = ret n.
Proof. intros n. split; [apply to_int_str|apply to_int_hex]. Qed.

(** a text without '#' is read as [n] exactly if it is a numeral with value [n] *)
Theorem C25_reads_numerals : forall s n, NoHash s -> (to_int s = ret n <-> Numeral s n).
Proof. intros s n H. rewrite to_int_iff, replace_hash_nohash by assumption. reflexivity. Qed.

(** '#' followed by binary digits is read as binary *)
Theorem C25_binary : forall s v, Digits 2 s v -> to_int (String "#" s) = ret v.
Proof.
  intros s v H. apply to_int_iff.
  assert (Hs : NoHash s).
  { apply word_no_hash. eapply sforallb_impl; [|apply (Digits_word 2 s v); [lia|exact H]]. intros c ->. reflexivity. }
  assert (Hr : replace "#" "0b" (String "#" s) = ("0b" ++ s)%string).
  { unfold replace. cbn [replace_aux startswith Ascii.eqb Bool.eqb andb]. rewrite <- (replace_hash_nohash s Hs) at 2.
    destruct s; reflexivity. }
  rewrite Hr. exists "", "", "", ("0b" ++ s)%string, v. repeat split.
  - cbn [append]. now rewrite sapp_nil_r.
  - intros c [].
  - intros c [].
  - left; auto.
  - right. exists "0b", 2, "", s. repeat split; auto. cbn; auto 10.
Qed.

(** what is not a numeral is rejected, when it contains no '#' *)
Theorem C25_rejects_partial : forall s, NoHash s -> (forall n, ~ Numeral s n) -> to_int s = raise NotImplementedError "_to_int".
Proof.
  intros s Hs Hn. destruct (to_int_shape s) as [[n H]|H]; [|exact H].
  exfalso. apply (Hn n). now apply C25_reads_numerals.
Qed.

(** missing: '#' is replaced wherever it stands, so "0x#1" is accepted, as 0x0b1 *)
Theorem C25_rejects_refuted :
  ~ (forall s n, to_int s = ret n -> Numeral s n \/ exists t, s = String "#" t /\ Digits 2 t n).
Proof.
  intros H. destruct (H "0x#1" 177 eq_refl) as [H1|(t & H1 & _)]; [|discriminate].
  destruct H1 as (w1 & w2 & sg & t & v & Hs & H1 & H2 & Hsg & Hu).
  assert (Hin : In "#"%char (list_ascii_of_string (w1 ++ sg ++ t ++ w2))) by (rewrite <- Hs; cbn; auto).
  assert (Happ : forall a b, list_ascii_of_string (a ++ b) = list_ascii_of_string a ++ list_ascii_of_string b).
  { induction a as [|c a IH]; intros b; cbn; [reflexivity|now rewrite IH]. }
  rewrite !Happ, !in_app_iff in Hin. destruct Hin as [Hin|[Hin|[Hin|Hin]]].
  - apply H1 in Hin. cbn in Hin. repeat (destruct Hin as [Hin|Hin]; [discriminate|]). destruct Hin.
  - destruct Hsg as [[-> _]|[[-> _]|[-> _]]]; cbn in Hin; intuition discriminate.
  - destruct (Unsigned_word _ _ Hu) as [Hw _]. rewrite sforallb_forall in Hw. apply Hw in Hin. discriminate.
  - apply H2 in Hin. cbn in Hin. repeat (destruct Hin as [Hin|Hin]; [discriminate|]). destruct Hin.
Qed.

(** non-vacuity: concrete numerals of each kind, and texts that are none *)
Example C25_numerals : Numeral "-0x1F" (-31) /\ Numeral " 007 " 7 /\ Numeral "0b_1_0" 2 /\ Digits 2 "1011" 11.
Proof.
  split; [|split; [|split]]; try (apply C25_reads_numerals; [intros H; cbn in H; intuition discriminate|reflexivity]).
  apply digits_go_Digits; [lia|reflexivity].
Qed.
Example C25_not_numerals : forall n, ~ Numeral "12a" n /\ ~ Numeral "" n /\ ~ Numeral "0x" n.
Proof.
  intros n. split; [|split]; intros H; (apply C25_reads_numerals in H; [discriminate|intros H'; cbn in H'; intuition discriminate]).
Qed.

(** ** C26: booleans and keywords *)

Lemma same_case_char a b : (a = b \/ exists k, (k < 26)%nat /\
     ((a = ascii_of_nat (65 + k) /\ b = ascii_of_nat (97 + k)) \/ (a = ascii_of_nat (97 + k) /\ b = ascii_of_nat (65 + k))))
   <-> lower_char a = lower_char b.
Proof.
  split.
  - intros [->|(k & Hk & H)]; [reflexivity|].
    assert (Hall : forallb (fun k => Ascii.eqb (lower_char (ascii_of_nat (65 + k))) (lower_char (ascii_of_nat (97 + k)))) (seq 0 26) = true)
      by (vm_compute; reflexivity).
    rewrite forallb_forall in Hall. specialize (Hall k). rewrite in_seq in Hall. specialize (Hall ltac:(lia)).
    apply Ascii.eqb_eq in Hall. destruct H as [[-> ->]|[-> ->]]; congruence.
  - intros H.
    assert (Hall : forall c, lower_char c = c \/ exists k, (k < 26)%nat /\ c = ascii_of_nat (65 + k) /\ lower_char c = ascii_of_nat (97 + k)).
    { intros c.
      pose proof (char_sweep (fun c => Ascii.eqb (lower_char c) c || existsb (fun k => Ascii.eqb c (ascii_of_nat (65 + k)) &&
         Ascii.eqb (lower_char c) (ascii_of_nat (97 + k))) (seq 0 26)) eq_refl c) as Hs.
      cbn beta in Hs. apply orb_true_iff in Hs as [Hs|Hs]; [left; now apply Ascii.eqb_eq|right].
      apply existsb_exists in Hs as (k & Hk & Hs). apply in_seq in Hk. apply andb_true_iff in Hs as [H1 H2].
      apply Ascii.eqb_eq in H1, H2. exists k. repeat split; auto; lia. }
    destruct (Hall a) as [Ha|(k & Hk & Ha & Ha')], (Hall b) as [Hb|(k' & Hk' & Hb & Hb')].
    + left; congruence.
    + right. exists k'. split; [auto|]. right. split; congruence.
    + right. exists k. split; [auto|]. left. split; congruence.
    + left. rewrite Ha' in H. rewrite Hb' in H.
      assert (Hinj : forall i j, (i < 26)%nat -> (j < 26)%nat -> ascii_of_nat (97 + i) = ascii_of_nat (97 + j) -> i = j).
      { clear. intros i j Hi Hj H. apply (f_equal nat_of_ascii) in H. rewrite !nat_ascii_embedding in H; lia. }
      rewrite (Hinj k k' Hk Hk' H) in Ha. congruence.
Qed.
Lemma same_case_lower s t : SameUpToCase s t <-> lower s = lower t.
Proof.
  unfold SameUpToCase. revert t. induction s as [|a s IH]; intros [|b t]; cbn [list_ascii_of_string lower smap].
  - split; auto.
  - split; [inversion 1|discriminate].
  - split; [inversion 1|discriminate].
  - split.
    + inversion 1; subst. apply same_case_char in H3. apply IH in H5. unfold lower in H5. f_equal; assumption.
    + intros H. injection H as H1 H2. constructor; [now apply same_case_char|]. now apply IH.
Qed.

(** every boolean is read back as itself; exactly "true"/"1" and "false"/"0" are accepted, the words in any case *)
Theorem C26_booleans :
  (forall b, to_bool (bool_text b) = ret b) /\
  (forall s, to_bool s = ret true <-> SameUpToCase s "true" \/ s = "1") /\
  (forall s, to_bool s = ret false <-> SameUpToCase s "false" \/ s = "0") /\
  (forall s, to_bool s <> ret true -> to_bool s <> ret false -> to_bool s = raise NotImplementedError "_to_bool").
Proof.
  split; [apply to_bool_text|].
  assert (Hcase : forall s, to_bool s = ret true /\ (SameUpToCase s "true" \/ s = "1") /\ ~ (SameUpToCase s "false" \/ s = "0")
     \/ to_bool s = ret false /\ (SameUpToCase s "false" \/ s = "0") /\ ~ (SameUpToCase s "true" \/ s = "1")
     \/ to_bool s = raise NotImplementedError "_to_bool" /\ ~ (SameUpToCase s "false" \/ s = "0") /\ ~ (SameUpToCase s "true" \/ s = "1")).
  { intros s. unfold to_bool. rewrite !same_case_lower. change (lower "true") with "true". change (lower "false") with "false".
    destruct (String.eqb_spec (lower s) "true") as [H1|H1].
    { left. repeat split; auto. intros [H|H]; [congruence|subst; discriminate]. }
    destruct (String.eqb_spec (lower s) "false") as [H2|H2].
    { right; left. repeat split; auto. intros [H|H]; [congruence|subst; discriminate]. }
    destruct (String.eqb_spec s "1") as [H3|H3].
    { left. repeat split; auto. intros [H|H]; [congruence|subst; discriminate]. }
    destruct (String.eqb_spec s "0") as [H4|H4].
    { right; left. repeat split; auto. intros [H|H]; [congruence|subst; discriminate]. }
    right; right. tauto. }
  split; [|split].
  - intros s. destruct (Hcase s) as [(-> & H1 & H2)|[(-> & H1 & H2)|(-> & H1 & H2)]]; split; intros H; auto; try discriminate; contradiction.
  - intros s. destruct (Hcase s) as [(-> & H1 & H2)|[(-> & H1 & H2)|(-> & H1 & H2)]]; split; intros H; auto; try discriminate; contradiction.
  - intros s Ht Hf. destruct (Hcase s) as [(H & _)|[(H & _)|(H & _)]]; auto; contradiction.
Qed.

(** the keyword attributes: the written text of a member reads as that member, and a text that reads as a member is that text *)
Definition exact_keyword {A} (value : A -> string) (from : string -> option A) : Prop :=
  forall s a, from s = Some a <-> s = value a.

Lemma enum_find_exact {A} (value : A -> string) all : (forall a, enum_find value all (value a) = Some a) ->
  exact_keyword value (enum_find value all).
Proof. intros H s a. split; [intros Hs; symmetry; eapply enum_find_sound; eauto|intros ->; auto]. Qed.

Theorem C26_keywords :
  exact_keyword endian_value endian_from_str /\ exact_keyword protection_value protection_from_str /\
  exact_keyword sau_access_value sau_access_from_str /\ exact_keyword ab_usage_value ab_usage_from_str /\
  exact_keyword data_type_value data_type_from_str /\ exact_keyword mwv_value mwv_from_str /\
  exact_keyword read_action_value read_action_from_str /\ exact_keyword enum_usage_value enum_usage_from_str.
Proof.
  repeat split; try (intros Hs; symmetry; eapply enum_find_sound; exact Hs); intros ->.
  - apply endian_value_rt. - apply protection_value_rt. - apply sau_access_value_rt. - apply ab_usage_value_rt.
  - apply data_type_value_rt. - apply mwv_value_rt. - apply read_action_value_rt. - apply enum_usage_value_rt.
Qed.
(** an unknown text raises NotImplementedError (the parser applies [from_str]) *)
Theorem C26_unknown_rejected {A} (value : A -> string) from : exact_keyword value from ->
  forall s, (forall a, s <> value a) -> from_str from s = raise NotImplementedError "from_str".
Proof.
  intros He s Hs. unfold from_str. destruct (from s) as [a|] eqn:Hf; [|reflexivity]. exfalso. apply (Hs a). now apply He.
Qed.

(** cpu names: the written text reads as itself; accepted texts are the member names in any case, and "CM0+" *)
Theorem C26_cpu :
  (forall c, cpu_from_str (cpu_value c) = Some c) /\
  (forall s c, cpu_from_str s = Some c -> SameUpToCase s (cpu_member c) \/ (s = "CM0+" /\ c = CM0_PLUS)) /\
  (forall s c, SameUpToCase s (cpu_member c) -> cpu_from_str s = Some c).
Proof.
  assert (Hul : forall s, lower (upper s) = lower s).
  { assert (Hc : forall c, lower_char (upper_char c) = lower_char c).
    { intros c. pose proof (char_sweep (fun c => Ascii.eqb (lower_char (upper_char c)) (lower_char c)) eq_refl c) as H. now apply Ascii.eqb_eq in H. }
    induction s as [|c s IH]; cbn; [reflexivity|]. unfold lower, upper in IH. f_equal; auto. }
  assert (Hlu : forall s, upper (lower s) = upper s).
  { assert (Hc : forall c, upper_char (lower_char c) = upper_char c).
    { intros c. pose proof (char_sweep (fun c => Ascii.eqb (upper_char (lower_char c)) (upper_char c)) eq_refl c) as H. now apply Ascii.eqb_eq in H. }
    induction s as [|c s IH]; cbn; [reflexivity|]. unfold lower, upper in IH. f_equal; auto. }
  split; [apply cpu_value_rt|]. split.
  - intros s c. unfold cpu_from_str. destruct (enum_find cpu_member cpu_all (upper s)) as [c'|] eqn:Hf.
    + intros H; injection H as <-. left. apply enum_find_sound in Hf. apply same_case_lower. now rewrite Hf, Hul.
    + destruct (String.eqb_spec s "CM0+"); [|discriminate]. intros H; injection H as <-. auto.
  - intros s c Hs. apply same_case_lower in Hs. unfold cpu_from_str.
    rewrite <- (Hlu s), Hs, Hlu. destruct c; reflexivity.
Qed.

(** access types: read case-insensitively; "read" and "write" are accepted; any other text is dropped with a warning *)
Theorem C26_access :
  (forall a, access_from_str (access_value a) = ret (Some a)) /\
  (forall s a, access_from_str s = ret (Some a) <->
     SameUpToCase s (access_value a) \/ (a = READ_ONLY /\ SameUpToCase s "read") \/ (a = WRITE_ONLY /\ SameUpToCase s "write")) /\
  (forall s, (forall a, access_from_str s <> ret (Some a)) -> access_from_str s = ([W_UnknownAccess s], Ok None)).
Proof.
  split; [apply access_value_rt|]. split.
  - intros s a. rewrite !same_case_lower. unfold access_from_str. split.
    + destruct (enum_find _ access_all (lower s)) as [a'|] eqn:Hf.
      * intros H; injection H as <-. left. apply enum_find_sound in Hf. congruence.
      * destruct (String.eqb_spec (lower s) "write"); [intros H; injection H as <-; auto|].
        destruct (String.eqb_spec (lower s) "read"); [intros H; injection H as <-; auto|]. discriminate.
    + intros [H|[[-> H]|[-> H]]]; rewrite H; [destruct a; reflexivity|reflexivity|reflexivity].
  - intros s H. unfold access_from_str in *.
    destruct (enum_find _ access_all (lower s)) as [a'|]; [exfalso; now apply (H a')|].
    destruct (String.eqb (lower s) "write"); [exfalso; now apply (H WRITE_ONLY)|].
    destruct (String.eqb (lower s) "read"); [exfalso; now apply (H READ_ONLY)|]. reflexivity.
Qed.

Example C26_some_texts : to_bool "TRUE" = ret true /\ access_from_str "Read-WriteONCE" = ret (Some READ_WRITE_ONCE)
  /\ cpu_from_str "cm4" = Some CM4 /\ protection_from_str "x" = None.
Proof. repeat split. Qed.

(** ** C29: fallback order *)
Section C29.
  Context {S T X : Type} (lib : S -> option string -> bool -> S * attempt T X).

  (** the documented order: no encoding and strict; the five encodings strict; the five encodings recovering *)
  Definition documented_order : list (option string * bool) :=
    [(None, false);
     (Some "utf-8", false); (Some "windows-1252", false); (Some "iso-8859-1", false); (Some "utf-16", false); (Some "ascii", false);
     (Some "utf-8", true); (Some "windows-1252", true); (Some "iso-8859-1", true); (Some "utf-16", true); (Some "ascii", true)].

  (** performing exactly these attempts, each ending with a syntax error, leads from [s] to [s'] *)
  Inductive AllSyntax : S -> list (option string * bool) -> S -> list X -> Prop :=
  | all_nil s : AllSyntax s [] s []
  | all_cons s enc r s1 e l s2 es : lib s enc r = (s1, Syntax e) -> AllSyntax s1 l s2 es ->
      AllSyntax s ((enc, r) :: l) s2 (e :: es).

  (** the warning for a fallback attempt *)
  Definition fallback_of (a : option string * bool) : option (string * bool) :=
    match fst a with None => None | Some enc => Some (enc, snd a) end.

  Inductive ReadSpec (s : S) : S -> read_result T X -> Prop :=
  | read_first_success pre a post s1 s2 t es : documented_order = pre ++ a :: post -> AllSyntax s pre s1 es ->
      lib s1 (fst a) (snd a) = (s2, Tree t) -> ReadSpec s s2 (Parsed t (fallback_of a))
  | read_other_error pre a post s1 s2 e es : documented_order = pre ++ a :: post -> AllSyntax s pre s1 es ->
      lib s1 (fst a) (snd a) = (s2, Fatal e) -> ReadSpec s s2 (Raised e)
  | read_all_fail s1 e es : AllSyntax s documented_order s1 (e :: es) -> ReadSpec s s1 (Raised e).

  Lemma AllSyntax_app s l1 s1 es1 l2 s2 es2 : AllSyntax s l1 s1 es1 -> AllSyntax s1 l2 s2 es2 -> AllSyntax s (l1 ++ l2) s2 (es1 ++ es2).
  Proof. induction 1; cbn [app]; [auto|]. intros H2. econstructor; eauto. Qed.

  Lemma try_encodings_spec r encs : forall s,
    match try_encodings lib r encs s with
    | inl s' => exists es, AllSyntax s (map (fun e => (Some e, r)) encs) s' es
    | inr (s', res) => exists pre enc post s1 es, encs = pre ++ enc :: post /\
        AllSyntax s (map (fun e => (Some e, r)) pre) s1 es /\
        ((exists t, lib s1 (Some enc) r = (s', Tree t) /\ res = Parsed t (Some (enc, r))) \/
         (exists e, lib s1 (Some enc) r = (s', Fatal e) /\ res = Raised e))
    end.
  Proof.
    induction encs as [|enc encs IH]; intros s; cbn [try_encodings]; [exists []; constructor|].
    destruct (lib s (Some enc) r) as [s1 [t|e|e]] eqn:Hl.
    - exists [], enc, encs, s, []. repeat split; [constructor|eauto].
    - specialize (IH s1). destruct (try_encodings lib r encs s1) as [s'|[s' res]].
      + destruct IH as (es & H). exists (e :: es). cbn [map]. econstructor; eauto.
      + destruct IH as (pre & enc' & post & s2 & es & -> & H1 & H2).
        exists (enc :: pre), enc', post, s2, (e :: es). repeat split; auto. cbn [map]. econstructor; eauto.
    - exists [], enc, encs, s, []. repeat split; [constructor|eauto].
  Qed.

  Theorem C29_fallback_order : forall s, ReadSpec s (fst (safe_parse lib s)) (snd (safe_parse lib s)).
  Proof.
    intros s. unfold safe_parse.
    destruct (lib s None false) as [s1 [t|e|e]] eqn:H0.
    - cbn [fst snd]. change (@None (string * bool)) with (fallback_of (None, false)).
      eapply (read_first_success s []); [reflexivity|constructor|exact H0].
    - pose proof (try_encodings_spec false common_encodings s1) as H1.
      destruct (try_encodings lib false common_encodings s1) as [s2|[s2 res]].
      + pose proof (try_encodings_spec true common_encodings s2) as H2.
        destruct H1 as (es1 & H1).
        assert (Ha : AllSyntax s ([(None, false)] ++ map (fun e => (Some e, false)) common_encodings) s2 (e :: es1))
          by (cbn [app]; econstructor; eauto).
        destruct (try_encodings lib true common_encodings s2) as [s3|[s3 res]].
        * destruct H2 as (es2 & H2). cbn [fst snd]. eapply read_all_fail.
          change documented_order with (([(None, false)] ++ map (fun e => (Some e, false)) common_encodings) ++ map (fun e => (Some e, true)) common_encodings).
          change (e :: es1) with ([e] ++ es1) in Ha.
          exact (AllSyntax_app _ _ _ _ _ _ _ Ha H2).
        * destruct H2 as (pre & enc & post & s4 & es2 & Henc & H2 & H3). cbn [fst snd].
          assert (Hd : documented_order = (([(None, false)] ++ map (fun e => (Some e, false)) common_encodings) ++ map (fun e => (Some e, true)) pre)
                    ++ (Some enc, true) :: map (fun e => (Some e, true)) post).
          { change documented_order with (([(None, false)] ++ map (fun e => (Some e, false)) common_encodings) ++ map (fun e => (Some e, true)) common_encodings).
            rewrite Henc at 2. rewrite map_app, <- !app_assoc. reflexivity. }
          destruct H3 as [(t & H3 & ->)|(e' & H3 & ->)].
          -- change (Some (enc, true)) with (fallback_of (Some enc, true)).
             eapply read_first_success; [exact Hd|exact (AllSyntax_app _ _ _ _ _ _ _ Ha H2)|exact H3].
          -- eapply read_other_error; [exact Hd|exact (AllSyntax_app _ _ _ _ _ _ _ Ha H2)|exact H3].
      + destruct H1 as (pre & enc & post & s4 & es2 & Henc & H2 & H3). cbn [fst snd].
        assert (Hd : documented_order = ((None, false) :: map (fun e => (Some e, false)) pre)
                    ++ (Some enc, false) :: (map (fun e => (Some e, false)) post ++ map (fun e => (Some e, true)) common_encodings)).
        { change documented_order with ([(None, false)] ++ map (fun e => (Some e, false)) common_encodings ++ map (fun e => (Some e, true)) common_encodings).
          rewrite Henc at 1. rewrite map_app, <- !app_assoc. reflexivity. }
        assert (Ha : AllSyntax s ((None, false) :: map (fun e => (Some e, false)) pre) s4 (e :: es2)) by (econstructor; eauto).
        destruct H3 as [(t & H3 & ->)|(e' & H3 & ->)].
        * change (Some (enc, false)) with (fallback_of (Some enc, false)).
          eapply read_first_success; [exact Hd|exact Ha|exact H3].
        * eapply read_other_error; [exact Hd|exact Ha|exact H3].
    - cbn [fst snd]. eapply (read_other_error s [] (None, false)); [reflexivity|constructor|exact H0].
  Qed.
End C29.

(** non-vacuity: a library that fails strictly and recovers only in iso-8859-1 *)
Example C29_sample :
  safe_parse (fun (n : nat) enc (r : bool) => (S n, match enc, r with
     | Some "iso-8859-1", true => Tree n | _, _ => Syntax n end)) 0%nat = (9%nat, Parsed 8%nat (Some ("iso-8859-1", true))).
Proof. reflexivity. Qed.

Print Assumptions C25_rejects_refuted.
Print Assumptions C26_cpu.
Print Assumptions C29_fallback_order.
