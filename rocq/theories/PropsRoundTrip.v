(** * PropsRoundTrip: C27 *)
From Verif Require Import Base PyStr PyInt Types ParseModel SerializeModel SpecText TextFacts SpecParse SpecRoundTrip RoundTrip.

(** ** [kept_* x = x] exactly for the faithful ones *)
Lemma kept_iff o : kept o = o <-> ok_text o.
Proof.
  unfold kept, ok_text, trimmed. destruct o as [s|]; [|split; [discriminate|auto]].
  destruct (String.eqb_spec s "") as [->|Hs].
  - split; [discriminate|]. intros H. destruct (H "" eq_refl). congruence.
  - split; [intros H t Ht; injection Ht as <-; split; [auto|congruence]|]. intros H. destruct (H s eq_refl) as [_ ->]. reflexivity.
Qed.
Lemma kept_raw_iff o : kept_raw o = o <-> ok_raw o.
Proof.
  unfold kept_raw, ok_raw. destruct o as [s|]; [|split; [discriminate|auto]].
  destruct (String.eqb_spec s "") as [->|Hs].
  - split; [discriminate|]. intros H. destruct (H "" eq_refl). reflexivity.
  - split; [intros H t Ht; injection Ht as <-; auto|auto].
Qed.
Lemma attr_iff o : option_map strip o = o <-> ok_attr o.
Proof.
  unfold ok_attr, trimmed. destruct o as [s|]; cbn; [|split; [discriminate|auto]].
  split; [intros H t Ht; injection Ht as <-; congruence|]. intros H. now rewrite (H s eq_refl).
Qed.
Lemma pair_iff a b : kept_pair a b = (a, b) <-> ok_pair a b.
Proof.
  unfold ok_pair. destruct a as [a|], b as [b|]; cbn; split; intros H; try reflexivity; try (exfalso; first [discriminate H | destruct H as [H1 H2]; first [discriminate (H1 eq_refl) | discriminate (H2 eq_refl)]]); try (split; congruence); auto.
Qed.
Lemma map_fix_iff {A} (f : A -> A) (P : A -> Prop) l : (forall a, In a l -> (f a = a <-> P a)) -> (map f l = l <-> Forall P l).
Proof.
  induction l as [|a l IH]; intros H; cbn [map]; [split; auto|].
  specialize (IH (fun b Hb => H b (or_intror Hb))). split.
  - intros E. injection E as E1 E2. constructor; [apply H; [left; auto|auto]|now apply IH].
  - intros F. inversion F; subst. f_equal; [apply H; [left; auto|auto]|now apply IH].
Qed.
Lemma opt_fix_iff {A} (f : A -> A) (P : A -> Prop) o : (forall a, f a = a <-> P a) -> (option_map f o = o <-> forall a, o = Some a -> P a).
Proof.
  intros H. destruct o as [a|]; cbn; [|split; [discriminate|auto]]. split.
  - intros E b Eb. injection Eb as <-. apply H. congruence.
  - intros E. f_equal. apply H, E. reflexivity.
Qed.
Lemma kept_ev_iff v : kept_ev v = v <-> faithful_ev v.
Proof.
  unfold faithful_ev, trimmed. rewrite <- kept_raw_iff, <- kept_iff. destruct v as [a b c d]; unfold kept_ev; cbn. split.
  - intros H; injection H; auto.
  - intros (-> & -> & ->). reflexivity.
Qed.
Lemma kept_dai_iff d : kept_dai d = d <-> ok_text (sdai_header d) /\ Forall faithful_ev (sdai_evs d).
Proof.
  rewrite <- kept_iff, <- (map_fix_iff kept_ev) by (intros; apply kept_ev_iff).
  destruct d as [a b]; unfold kept_dai; cbn. split; [intros H; injection H; auto|intros [-> ->]; reflexivity].
Qed.
Lemma kept_dim_iff d : kept_dim d = d <-> faithful_dim d.
Proof.
  unfold faithful_dim. rewrite <- !kept_iff, <- (opt_fix_iff kept_dai) by (intros; apply kept_dai_iff).
  destruct d as [a b c e f]; unfold kept_dim; cbn. split; [intros H; injection H; auto|intros (-> & -> & ->); reflexivity].
Qed.
Lemma kept_evc_iff c : kept_evc c = c <-> faithful_evc c.
Proof.
  unfold faithful_evc. rewrite <- !kept_iff, <- attr_iff, <- (map_fix_iff kept_ev) by (intros; apply kept_ev_iff).
  destruct c as [a b c e f]; unfold kept_evc; cbn. split; [intros H; injection H; auto|intros (-> & -> & -> & ->); reflexivity].
Qed.
Lemma kept_field_iff f : kept_field f = f <-> faithful_field f.
Proof.
  unfold faithful_field, trimmed. rewrite <- kept_dim_iff, <- kept_raw_iff, <- !pair_iff, <- kept_iff, <- attr_iff,
    <- (map_fix_iff kept_evc) by (intros; apply kept_evc_iff).
  destruct f; unfold kept_field; cbn.
  destruct (kept_pair sf_bit_offset sf_bit_width) as [p1 p2], (kept_pair sf_lsb sf_msb) as [q1 q2]; cbn. split.
  - intros H; injection H; clear H; intros. repeat split; solve [assumption | f_equal; assumption].
  - intros (-> & -> & -> & Hp & Hq & -> & -> & ->). injection Hp as -> ->. injection Hq as -> ->. reflexivity.
Qed.
Lemma kept_reg_iff r : kept_reg r = r <-> faithful_reg r.
Proof.
  unfold faithful_reg, trimmed. rewrite <- kept_dim_iff, <- kept_raw_iff, <- !kept_iff, <- attr_iff,
    <- (map_fix_iff kept_field) by (intros; apply kept_field_iff).
  destruct r; unfold kept_reg; cbn. split.
  - intros H; injection H; clear H; intros. repeat split; solve [assumption | f_equal; assumption].
  - intros (-> & -> & -> & -> & -> & -> & -> & ->). reflexivity.
Qed.
Lemma kept_clu_iff c : kept_clu c = c <-> faithful_clu c.
Proof.
  unfold faithful_clu, trimmed. rewrite <- kept_dim_iff, <- kept_raw_iff, <- !kept_iff, <- attr_iff.
  destruct c; unfold kept_clu; cbn. split.
  - intros H; injection H; clear H; intros. repeat split; solve [assumption | f_equal; assumption].
  - intros (-> & -> & -> & -> & -> & ->). reflexivity.
Qed.
Lemma kept_rc_iff x : kept_rc x = x <-> faithful_rc x.
Proof.
  induction x as [r|c l IH] using svd_rc_ind'; cbn [kept_rc].
  - split.
    + intros H. constructor. apply kept_reg_iff. congruence.
    + inversion 1; subst. f_equal. now apply kept_reg_iff.
  - rewrite Forall_forall in IH. pose proof (map_fix_iff kept_rc faithful_rc l IH) as Hm. split.
    + intros H. injection H as H1 H2. constructor; [now apply kept_clu_iff|now apply Hm].
    + inversion 1; subst. f_equal; [now apply kept_clu_iff|now apply Hm].
Qed.
Lemma kept_int_iff i : kept_int i = i <-> trimmed (int_name i) /\ ok_raw (int_descr i).
Proof.
  unfold trimmed. rewrite <- kept_raw_iff. destruct i; unfold kept_int; cbn. split; [intros H; injection H; auto|intros [-> ->]; reflexivity].
Qed.
Lemma kept_per_iff p : kept_per p = p <-> faithful_per p.
Proof.
  unfold faithful_per, trimmed. rewrite <- kept_dim_iff, <- !kept_raw_iff, <- !kept_iff, <- attr_iff.
  pose proof (map_fix_iff kept_rc faithful_rc (sp_rcs p) (fun a _ => kept_rc_iff a)) as H1.
  pose proof (map_fix_iff kept_int _ (sp_ints p) (fun a _ => kept_int_iff a)) as H2. unfold trimmed in H2. rewrite <- H1, <- H2.
  destruct p; unfold kept_per; cbn. split.
  - intros H; injection H; clear H; intros. repeat split; solve [assumption | f_equal; assumption].
  - intros (-> & -> & -> & -> & -> & -> & -> & -> & -> & -> & -> & -> & ->). reflexivity.
Qed.
Lemma kept_cpu_iff c : kept_cpu c = c <-> faithful_cpu c.
Proof.
  unfold faithful_cpu, trimmed.
  assert (Hr : forall r, kept_sau_region r = r <-> ok_attr (ssr_name r)).
  { intros r. rewrite <- attr_iff. destruct r; unfold kept_sau_region; cbn. split; [intros H; injection H; auto|intros ->; reflexivity]. }
  assert (Hs : forall s, kept_sau s = s <-> Forall (fun r => ok_attr (ssr_name r)) (ssc_regions s)).
  { intros s. rewrite <- (map_fix_iff kept_sau_region) by (intros; apply Hr).
    destruct s; unfold kept_sau; cbn. split; [intros H; injection H; auto|intros ->; reflexivity]. }
  rewrite <- (opt_fix_iff kept_sau) by (intros; apply Hs).
  destruct c; unfold kept_cpu; cbn. split; [intros H; injection H; auto|intros [-> ->]; reflexivity].
Qed.
Lemma kept_device_iff d : kept_device d = d <-> faithful_device d.
Proof.
  unfold faithful_device, trimmed. rewrite <- !kept_iff, <- !kept_raw_iff.
  rewrite <- (map_fix_iff kept_per) by (intros; apply kept_per_iff).
  rewrite <- (opt_fix_iff kept_cpu) by (intros; apply kept_cpu_iff).
  destruct d; unfold kept_device; cbn. split.
  - intros H; injection H; clear H; intros. repeat split; solve [assumption | f_equal; assumption].
  - intros (-> & -> & -> & -> & -> & -> & -> & -> & -> & -> & -> & ->). reflexivity.
Qed.

(** ** C27 *)

(** Whatever the device, provided it has peripherals and non-empty mandatory texts: reading what was written (plain or pretty
    printed) succeeds and gives exactly [kept_device d]. *)
Theorem C27_exactly_kept : forall d ws doc doc',
  named_device d -> serialize_device d = (ws, Ok doc) -> RereadDoc doc doc' ->
  exists ws', parse_device doc' = (ws', Ok (kept_device d)).
Proof.
  intros d ws doc doc' Hn Hs Hr. unfold serialize_device in Hs.
  destruct (xml_legal _); [|discriminate]. injection Hs as _ <-. now apply rt_device.
Qed.

(** The full property, for the devices that have nothing to lose; missing: the devices of the refutations below. *)
Theorem C27_round_trip_partial : forall d ws doc doc',
  named_device d -> faithful_device d -> serialize_device d = (ws, Ok doc) -> RereadDoc doc doc' ->
  exists ws', parse_device doc' = (ws', Ok d).
Proof.
  intros d ws doc doc' Hn Hf Hs Hr. destruct (C27_exactly_kept d ws doc doc' Hn Hs Hr) as [ws' H].
  exists ws'. now rewrite (proj2 (kept_device_iff d) Hf) in H.
Qed.

(** What is written holds no character that XML forbids: a device with such a text is refused with a ValueError. *)
Definition Writable (c : ascii) : Prop := (32 <= N_of_ascii c)%N \/ In (N_of_ascii c) [9; 10; 13]%N.
Definition WritableText (t : string) : Prop := forall c, In c (list_ascii_of_string t) -> Writable c.
Lemma xml_string_ok t : xml_string t = true -> WritableText t.
Proof.
  unfold xml_string, WritableText. induction t as [|c t IH]; cbn [sforallb list_ascii_of_string In]; [easy|].
  rewrite andb_true_iff. intros [Hc Ht] a [<-|Ha]; [|now apply IH]. unfold Writable, xml_char, code in *. cbn [In].
  rewrite !orb_true_iff, negb_true_iff, N.ltb_ge, !N.eqb_eq in Hc. destruct Hc as [[[H|H]|H]|H]; [now left|right; auto..].
Qed.
Lemma xml_string_bad t : xml_string t = false -> ~ WritableText t.
Proof.
  unfold xml_string, WritableText. induction t as [|c t IH]; cbn [sforallb list_ascii_of_string]; [discriminate|].
  rewrite andb_false_iff. intros [Hc|Ht] H; [|apply (IH Ht); intros a Ha; apply H; now right].
  specialize (H c (or_introl eq_refl)). unfold Writable, xml_char, code in *. rewrite !orb_false_iff, negb_false_iff, N.ltb_lt, !N.eqb_neq in Hc.
  cbn [In] in H. destruct H as [H|[H|[H|[H|[]]]]]; [lia| | |]; destruct Hc as [[[? ?] ?] ?]; congruence.
Qed.
(** every text and every attribute of the tree *)
Definition WritableTree (root : xml) : Prop :=
  forall e, Within root e -> (forall t, xml_text e = Some t -> WritableText t) /\ (forall n v, In (n, v) (xml_attrs e) -> WritableText v).
Lemma within_step r e : Within r e -> e = r \/ exists c, In c (xml_kids r) /\ Within c e.
Proof.
  induction 1 as [|e c _ [->|(d & Hd & Hw)] Hc]; [now left|right; exists c; split; [exact Hc|constructor]|].
  right. exists d. split; [exact Hd|]. econstructor; eassumption.
Qed.
Lemma within_trans r c e : In c (xml_kids r) -> Within c e -> Within r e.
Proof. intros Hc. induction 1 as [|e d _ IH Hd]; [econstructor; [constructor|exact Hc]|econstructor; eassumption]. Qed.
Lemma xml_legal_iff : forall e, xml_legal e = true <-> WritableTree e.
Proof.
  fix IH 1. intros [tag attrs text kids|].
  2:{ split; [|reflexivity]. intros _ e He. apply within_step in He as [->|(c & [] & _)]. split; [discriminate|intros n v []]. }
  cbn [xml_legal]. rewrite !andb_true_iff, forallb_forall.
  assert (HK : forallb xml_legal kids = true <-> Forall WritableTree kids).
  { induction kids as [|k kids IHk]; cbn [forallb]; [split; auto|]. rewrite andb_true_iff, IHk, IH. split.
    - intros [H1 H2]. now constructor.
    - intros H. inversion H; auto. }
  rewrite HK, Forall_forall. clear HK IH. split.
  - intros [[H1 H2] H3] e He. apply within_step in He as [->|(c & Hc & Hw)]; [|exact (H3 c Hc e Hw)]. cbn [xml_text xml_attrs]. split.
    + intros t ->. now apply xml_string_ok.
    + intros n v Hv. apply xml_string_ok. exact (H1 (n, v) Hv).
  - intros H. split; [split|].
    + intros [n v] Hv. cbn [snd]. destruct (xml_string v) eqn:Hx; [reflexivity|]. apply xml_string_bad in Hx. destruct Hx.
      exact (proj2 (H _ (within_root _)) n v Hv).
    + destruct text as [t|]; [|reflexivity]. destruct (xml_string t) eqn:Hx; [reflexivity|]. apply xml_string_bad in Hx. destruct Hx.
      exact (proj1 (H _ (within_root _)) t eq_refl).
    + intros c Hc e He. apply H. eapply within_trans; [exact Hc|exact He].
Qed.
Theorem C27_characters : forall d,
  (exists doc, serialize_device d = ret doc /\ doc = device_xml d /\ WritableTree (doc_root doc)) \/
  (exists ws e, serialize_device d = (ws, Err e) /\ ex_class e = ValueError /\ ~ WritableTree (doc_root (device_xml d))).
Proof.
  intros d. unfold serialize_device. destruct (xml_legal _) eqn:H.
  - left. exists (device_xml d). split; [reflexivity|]. split; [reflexivity|]. now apply xml_legal_iff.
  - right. do 2 eexists. split; [reflexivity|]. split; [reflexivity|]. intros HW. apply xml_legal_iff in HW. congruence.
Qed.


(** and only those survive unchanged, among the devices with non-empty mandatory texts *)
Theorem C27_only_faithful : forall d ws doc doc' ws',
  named_device d -> serialize_device d = (ws, Ok doc) -> RereadDoc doc doc' ->
  parse_device doc' = (ws', Ok d) -> faithful_device d.
Proof.
  intros d ws doc doc' ws' Hn Hs Hr Hp. destruct (C27_exactly_kept d ws doc doc' Hn Hs Hr) as [ws2 H].
  apply kept_device_iff. rewrite Hp in H. congruence.
Qed.

(** serializing fails (ValueError) only for control characters *)
Theorem C27_serialize_total : forall d, (exists doc, serialize_device d = ret doc) \/ serialize_device d = raise ValueError "lxml".
Proof. intros d. unfold serialize_device. destruct (xml_legal _); eauto. Qed.

(** ** A sample and the refutations *)
Fixpoint reread (e : xml) : xml :=
  match e with
  | Elem t a x [] => Elem t a (norm_text x) []
  | Elem t a x ks => Elem t a None (map reread ks)
  | Other => Other
  end.
Fixpoint no_other (e : xml) : bool := match e with Elem _ _ _ ks => forallb no_other ks | Other => false end.
Lemma xml_ind' (P : xml -> Prop) : (forall t a x ks, Forall P ks -> P (Elem t a x ks)) -> P Other -> forall e, P e.
Proof.
  intros H1 H2. fix IH 1. intros [t a x ks|]; [|exact H2]. apply H1.
  induction ks as [|k ks IHk]; constructor; [apply IH|exact IHk].
Qed.
Lemma reread_ok e : no_other e = true -> Reread e (reread e).
Proof.
  induction e as [t a x ks IH|] using xml_ind'; [|discriminate]. intros H. cbn [no_other] in H.
  destruct ks as [|k ks]; [constructor|]. cbn [reread map]. cbn [forallb] in H. apply andb_true_iff in H as [H1 H2].
  inversion IH; subst. constructor; [auto|].
  clear - H2 H4. induction ks as [|k ks IHk]; cbn [map]; [constructor|]. cbn [forallb] in H2. apply andb_true_iff in H2 as [H1 H2].
  inversion H4; subst. constructor; auto.
Qed.

Definition rt_prop0 := mk_oprops None None None None None.
Definition rt_dim0 := mk_sdim None None None None None.
Definition rt_field_full := mk_sfield rt_dim0 "EN" (Some " enable ") None None (Some 0) (Some 3) None (Some READ_WRITE_ONCE)
  (Some ZERO_TO_SET) (Some (mk_wc (Some true) None (Some (0, 7)))) (Some RA_MODIFY)
  [mk_sevc (Some "E") None (Some U_READ) [mk_sev "on" None (Some "0b1x") (Some false)] (Some "A.B")] None.
Definition rt_reg_full := mk_sreg (mk_sdim (Some 4) (Some 4) (Some "A,B,C,D") None (Some (mk_sdai None [])))
  (mk_oprops (Some 32) (Some READ_ONLY) (Some SECURE) (Some 255) None) "CR%s" None (Some "d") None None 16 (Some UINT8_T_PTR)
  None None None [rt_field_full] (Some "CR0").
Definition rt_per_full rcs := mk_sper rt_dim0 rt_prop0 "UART" (Some "1.0") None None (Some "U") None None None (Some "x < 1 ") 1073741824
  [mk_sab 0 1024 AB_REGISTERS None] [mk_int "IRQ" None (-1)] rcs None.
Definition rt_cpu_full := mk_scpu CM0_PLUS "r0p1" LITTLE (Some true) None None None None None None None None 3 false (Some 4) None
  (Some (mk_ssc (Some true) (Some ANY) [mk_ssr None (Some "R") 0 255 SAU_NSC])).
Definition rt_device0 rcs := mk_sdev rt_prop0 "CMSIS-SVD.xsd" "1.3" (Some "V") None "DEV" None "1.0" "" None (Some rt_cpu_full) None None 8 32
  [rt_per_full rcs].
Definition rt_sample := rt_device0 [SReg rt_reg_full; SClu (mk_sclu rt_dim0 rt_prop0 "C" None None None 64 None) [SReg rt_reg_full; SClu (mk_sclu rt_dim0 rt_prop0 "D" None None None 0 None) []]].

Example C27_sample : named_device rt_sample /\ faithful_device rt_sample /\
  serialize_device rt_sample = ret (device_xml rt_sample) /\
  RereadDoc (device_xml rt_sample) (mk_doc (doc_nsmap (device_xml rt_sample)) (reread (doc_root (device_xml rt_sample)))).
Proof.
  split; [|split; [|split]].
  - unfold named_device, rt_sample, rt_device0. cbn. split; [discriminate|]. split; [discriminate|].
    split; [intros c H; injection H as <-; discriminate|]. split; [discriminate|].
    assert (Hr : named_reg rt_reg_full).
    { unfold named_reg, named_field, named_dim. cbn. repeat split; try discriminate; repeat constructor; try discriminate. }
    constructor; [|constructor]. unfold named_per. cbn. repeat split; try discriminate.
    + constructor; [discriminate|constructor].
    + constructor; [constructor; exact Hr|]. constructor; [|constructor]. constructor; [discriminate|exact I|].
      constructor; [constructor; exact Hr|]. constructor; [|constructor]. constructor; [discriminate|exact I|constructor].
  - apply kept_device_iff. vm_compute. reflexivity.
  - vm_compute. reflexivity.
  - split; [reflexivity|]. apply reread_ok. vm_compute. reflexivity.
Qed.

(** the full property fails in each of these ways: *)
Definition round_trips (d : svd_device) : Prop :=
  forall ws doc doc' , serialize_device d = (ws, Ok doc) -> RereadDoc doc doc' -> exists ws', parse_device doc' = (ws', Ok d).

Ltac refute := intros H;
  match type of H with round_trips ?d =>
    destruct (H [] (device_xml d) (mk_doc (doc_nsmap (device_xml d)) (reread (doc_root (device_xml d))))) as [ws' Hp];
      [vm_compute; reflexivity|split; [reflexivity|apply reread_ok; vm_compute; reflexivity]|vm_compute in Hp; discriminate] end.

(** a field that gives bitOffset without bitWidth (allowed by the schema) loses it; so does lsb without msb *)
Definition rt_lone_offset := rt_device0 [SReg (mk_sreg rt_dim0 rt_prop0 "R" None None None None 0 None None None None
  [mk_sfield rt_dim0 "F" None (Some 3) None None None None None None None None [] None] None)].
(** a device without peripherals cannot be read again *)
Definition rt_no_peripherals := mk_sdev rt_prop0 "x" "1.3" None None "DEV" None "1.0" "d" None None None None 8 32 [].
(** an empty optional text becomes absent *)
Definition rt_empty_text := mk_sdev rt_prop0 "x" "1.3" (Some "") None "DEV" None "1.0" "d" None None None None 8 32 [rt_per_full []].
(** an empty mandatory text makes the file unreadable *)
Definition rt_empty_name := mk_sdev rt_prop0 "x" "1.3" None None "" None "1.0" "d" None None None None 8 32 [rt_per_full []].
Theorem C27_round_trip_refuted :
  ~ round_trips rt_lone_offset /\ ~ round_trips rt_no_peripherals /\ ~ round_trips rt_empty_text /\ ~ round_trips rt_empty_name.
Proof. split; [refute|split; [refute|split; [refute|refute]]]. Qed.

(** such an empty name is what the parser itself produces from a blank <name>, so even parsed devices need not survive *)
Example C27_blank_name_parsed :
  exists ws d, parse_device (mk_doc [] (Elem "device" [("schemaVersion", "1.3")] None
    [leaf "name" " "; leaf "version" "1"; leaf "addressUnitBits" "8"; leaf "width" "32"; Elem "peripherals" [] None []])) = (ws, Ok d)
    /\ sdv_name d = "".
Proof. vm_compute. eauto. Qed.

Print Assumptions C27_round_trip_partial.
Print Assumptions C27_only_faithful.
Print Assumptions C27_round_trip_refuted.
