(** * SamplesParse: a document read by the parser (C28), and an executable check for legible documents used for it. *)
From Verif Require Import Base PyStr PyInt Types ParseModel SpecText TextFacts SpecParse PropsText EffectFacts PropsParse ReplicateFacts.

(** ** An example *)
(** an executable check, used only for the example below *)
Definition okb {A} (m : M A) : bool := match snd m with Ok _ => true | Err _ => false end.
Lemma okb_gives {A} (m : M A) : okb m = true -> exists a, gives m a.
Proof. destruct m as [ws [a|e]]; [|discriminate]. intros _. exists a, ws. reflexivity. Qed.
Definition inb n l := existsb (String.eqb n) l.
Lemma inb_true n l : In n l -> inb n l = true.
Proof. intros H. apply existsb_exists. exists n. split; [auto|apply String.eqb_refl]. Qed.
Definition kind_check (e : xml) (n t : string) : bool :=
  implb (inb n int_names || (has_tag "interrupt" e && String.eqb n "value")) (okb (to_int t)) &&
  implb (inb n bool_names) (okb (to_bool t)) &&
  implb (String.eqb n "protection") (okb (from_str protection_from_str t)) &&
  implb (String.eqb n "endian") (okb (from_str endian_from_str t)) &&
  implb (String.eqb n "modifiedWriteValues") (okb (from_str mwv_from_str t)) &&
  implb (String.eqb n "readAction") (okb (from_str read_action_from_str t)) &&
  implb (String.eqb n "dataType") (okb (from_str data_type_from_str t)) &&
  implb (has_tag "region" e && String.eqb n "access") (okb (from_str sau_access_from_str t)) &&
  implb (has_tag "addressBlock" e && String.eqb n "usage") (okb (from_str ab_usage_from_str t)) &&
  implb (has_tag "enumeratedValues" e && String.eqb n "usage") (okb (from_str enum_usage_from_str t)) &&
  implb (has_tag "cpu" e && String.eqb n "name") (okb (from_str cpu_from_str t)).
Lemma implb_elim a b : implb a b = true -> a = true -> b = true.
Proof. destruct a, b; cbn; congruence. Qed.
Lemma kind_check_ok e n t : kind_check e n t = true -> RightKind e n t.
Proof.
  unfold kind_check, RightKind. rewrite !andb_true_iff. intros H. decompose [and] H. clear H.
  repeat match goal with H : implb _ _ = true |- _ => pose proof (implb_elim _ _ H); clear H end.
  conj.
  all: try (intros ->; match goal with H : (String.eqb ?a ?a = true -> _) |- _ => specialize (H (String.eqb_refl _)); apply okb_gives in H; destruct H as [v H]; exists v; eapply key_text; [key|exact H] end).
  all: try (intros Hn ->; apply has_tag_iff in Hn;
    match goal with H : (has_tag ?k ?x && String.eqb ?a ?a = true -> _) |- _ =>
      match type of Hn with has_tag k x = true => specialize (H ltac:(rewrite Hn; apply String.eqb_refl)); apply okb_gives in H; destruct H as [v H]; exists v; first [apply cpu_text; exact H | eapply key_text; [key|exact H]] end end).
  - intros Hi. match goal with H : _ -> okb (to_int t) = true |- _ => apply okb_gives in H; [destruct H as [v H]; exists v; now apply int_text|] end.
    apply orb_true_iff. destruct Hi as [Hi|[Hi ->]]; [left; now apply inb_true|right]. apply has_tag_iff in Hi. now rewrite Hi.
  - intros Hi. match goal with H : _ -> okb (to_bool t) = true |- _ => apply okb_gives in H; [destruct H as [v H]; exists v; now apply bool_text_iff|now apply inb_true] end.
Qed.
Definition attr_check {A} (n : string) (f : string -> M A) (e : xml) : bool :=
  match snd (attr_of n e) with Ok (Some t) => okb (f t) | _ => true end.
Definition here_check (e : xml) : bool :=
  forallb (fun n => match snd (text_of n true e) with Ok (Some t) => kind_check e n t | Ok None => true | Err _ => false end) simple_names &&
  attr_check "enabled" to_bool e && attr_check "protectionWhenDisabled" (from_str protection_from_str) e.
Lemma here_check_ok e : here_check e = true ->
  (forall n t, In n simple_names -> Text n e (Some t) -> RightKind e n t) /\
  (forall n, In n simple_names -> exists o, Raw n e o) /\
  (forall t, Attr "enabled" e (Some t) -> exists b, BoolText t b) /\
  (forall t, Attr "protectionWhenDisabled" e (Some t) -> exists v, Key protection_value t v).
Proof.
  unfold here_check. rewrite !andb_true_iff, forallb_forall. intros [[H1 H2] H3]. conj.
  - intros n t Hn Ht. specialize (H1 n Hn). apply text_gives in Ht as [ws Ht]. rewrite Ht in H1. now apply kind_check_ok.
  - intros n Hn. specialize (H1 n Hn). destruct (text_of n true e) as [ws [o|x]] eqn:Ho; [|discriminate].
    assert (G : gives (text_of n true e) o) by (exists ws; exact Ho). apply text_gives in G as (r & Hr & _). eauto.
  - intros t Ht. apply attr_gives in Ht as [ws Ht]. unfold attr_check in H2. rewrite Ht in H2. apply okb_gives in H2 as [b Hb].
    exists b. now apply bool_text_iff.
  - intros t Ht. apply attr_gives in Ht as [ws Ht]. unfold attr_check in H3. rewrite Ht in H3. apply okb_gives in H3 as [b Hb].
    exists b. eapply key_text; [key|exact Hb].
Qed.
Fixpoint legible_check (fuel : nat) (e : xml) : bool :=
  match fuel with O => false | S k => here_check e && forallb (legible_check k) (xml_kids e) end.
Lemma legible_check_ok k : forall e, legible_check k e = true -> Legible e.
Proof.
  induction k as [|k IH]; intros e; cbn [legible_check]; [discriminate|]. rewrite andb_true_iff, forallb_forall. intros [H1 H2].
  assert (Hk : forall e', Within e e' -> e' = e \/ exists c, In c (xml_kids e) /\ Within c e').
  { intros e' Hw. induction Hw as [|e' c Hw [->|(c' & Hc' & Hw')] Hc]; [now left| |].
    - right. exists c. split; [exact Hc|apply within_root].
    - right. exists c'. split; [exact Hc'|]. eapply within_kid; eauto. }
  intros e' Hw. destruct (Hk e' Hw) as [->|(c & Hc & Hw')]; [now apply here_check_ok|]. exact (IH c (H2 c Hc) e' Hw').
Qed.

Definition leaf n t := Elem n [] (Some t) [].
Definition sample_periph := Elem "peripheral" [] None
  [leaf "name" "P"; leaf "baseAddress" "0x10"; Elem "addressBlock" [] None [leaf "size" "4"; leaf "usage" "registers"];
   Elem "registers" [] None [Elem "register" [] None [leaf "name" "A"; leaf "addressOffset" "0"]; Other];
   Elem "interrupt" [] None [leaf "name" "I"];
   Elem "registers" [] None [Elem "cluster" [("derivedFrom", " X ")] None [leaf "name" "C"; leaf "addressOffset" "4";
      Elem "register" [] None [leaf "name" "B"; leaf "addressOffset" "#100"; leaf "access" "READ"]]]].
Definition sample_doc (ps : list xml) := mk_doc [] (Elem "device" [("schemaVersion", "1.3")] None
  ([leaf "name" "first"; leaf "name" "  second "; leaf "version" "1"; leaf "description" " d "; leaf "addressUnitBits" "8"; leaf "width" "32";
   leaf "size" "0x20"; leaf "protection" "n"] ++ ps)).
Example C28_sample_legible : Legible (doc_root (sample_doc [Elem "peripherals" [] None [sample_periph]])).
Proof. apply (legible_check_ok 8). vm_compute. reflexivity. Qed.
(** the last name counts, without white space; the description keeps it; both register sections are read, in order;
    an interrupt without value is number 0, #100 is binary, READ means read-only *)
Example C28_sample : exists d p, reads_device (sample_doc [Elem "peripherals" [] None [sample_periph]]) d /\ sdv_periphs d = [p] /\
  sdv_name d = "second" /\ sdv_descr d = " d " /\ op_size (sdv_props d) = Some 32 /\ map int_value (sp_ints p) = [0] /\
  match sp_rcs p with
  | [SReg a; SClu c [SReg b]] => sr_name a = "A" /\ sc_derived c = Some "X" /\ sr_name b = "B" /\ sr_offset b = 4 /\ op_access (sr_props b) = Some READ_ONLY
  | _ => False
  end.
Proof.
  destruct (parse_device (sample_doc [Elem "peripherals" [] None [sample_periph]])) as [ws [d|x]] eqn:E; [|vm_compute in E; discriminate].
  exists d. destruct (sdv_periphs d) as [|p [|q l]] eqn:Ep; [vm_compute in E; injection E as <- <-; discriminate| |vm_compute in E; injection E as <- <-; discriminate].
  exists p. split; [apply C28_reads; eauto|]. vm_compute in E. injection E as <- <-. injection Ep as <-. vm_compute. repeat split; reflexivity.
Qed.
(** without <peripherals> the same document is rejected *)
Example C28_sample_missing : exists ws s, parse_device (sample_doc []) = (ws, Err (E ParserException s)).
Proof. do 2 eexists. vm_compute. reflexivity. Qed.
Example C28_sample_missing_legible : Legible (doc_root (sample_doc [])).
Proof. apply (legible_check_ok 8). vm_compute. reflexivity. Qed.
(** a repeated element one of whose occurrences has no text is neither read nor reported as missing *)
Example C28_empty_repeated : exists ws s, parse_device (sample_doc [Elem "series" [] None []; leaf "series" "s"]) = (ws, Err (E TypeError s)).
Proof. do 2 eexists. vm_compute. reflexivity. Qed.
Print Assumptions C28_reads.
Print Assumptions C28_missing.
