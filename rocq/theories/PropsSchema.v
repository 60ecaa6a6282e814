(** * PropsSchema: C57 (valid documents are read), C58 (and written again as valid documents) *)
From Verif Require Import Base PyStr PyInt Types ElemModel FinalModel ParseModel SpecText SpecParse SpecSchema SpecConform SpecRoundTrip ConvertModel SerializeModel XmlReadModel
  ProcessModel SpecProcess SpecDevice TextFacts PropsText PropsParse PropsRoundTrip PropsDevice Samples SchemaFacts SchemaText SchemaRead SchemaMono SchemaWrite SchemaKept.

(** ** C57: every document that is valid against the packaged schema (with plain numbers, non-empty identifiers and single blanks) is read,
    and the result is what the document says *)
Theorem C57_valid_read : forall doc, ValidDoc Readable doc -> exists ws d, parse_device doc = (ws, Ok d) /\ reads_device doc d.
Proof.
  intros doc H. destruct (device_ex Readable doc ltac:(discriminate) H) as (d & Hd & _). pose proof Hd as Hp. apply C28_reads in Hp as [ws Hp]. eauto.
Qed.
(** the restricted schemas are restrictions of the packaged one *)
Theorem C57_scopes : forall doc, (ValidDoc Rewritable doc -> ValidDoc Readable doc) /\ (ValidDoc Readable doc -> ValidDoc Full doc).
Proof. intros doc. split; [apply doc_rewritable|apply doc_readable]. Qed.

(** ** C58: descriptions whose texts and numbers the schema allows are written as valid documents *)
Theorem C58_written : forall d, conform_device d -> ValidDoc Rewritable (device_xml d) /\ ValidDoc Full (device_xml d).
Proof. intros d H. pose proof (w_device d H) as Hv. split; [exact Hv|]. now apply doc_readable, doc_rewritable. Qed.
Lemma read_conform doc ws d : ValidDoc Rewritable doc -> parse_device doc = (ws, Ok d) -> conform_device d.
Proof.
  intros H Hp. destruct (device_ex Rewritable doc ltac:(discriminate) H) as (d' & Hd & Hc).
  assert (d = d') as -> by (eapply C28_unambiguous; [apply C28_reads; eauto|exact Hd]). now apply Hc.
Qed.
(** reading a valid document and writing the result gives a valid document again *)
Theorem C58_rewritten : forall doc ws d w doc', ValidDoc Rewritable doc -> parse_device doc = (ws, Ok d) -> serialize_device d = (w, Ok doc') ->
  ValidDoc Rewritable doc' /\ ValidDoc Full doc'.
Proof.
  intros doc ws d w doc' H Hp Hs. unfold serialize_device in Hs. destruct (xml_legal _); [|discriminate]. injection Hs as _ <-.
  apply C58_written. eapply read_conform; eauto.
Qed.
(** ... which is read as the same description *)
Theorem C58_survives : forall doc ws d w doc' doc'', ValidDoc Rewritable doc -> FromFile doc -> parse_device doc = (ws, Ok d) ->
  serialize_device d = (w, Ok doc') -> RereadDoc doc' doc'' -> exists w', parse_device doc'' = (w', Ok d).
Proof.
  intros doc ws d w doc' doc'' H Hf Hp Hs Hr. assert (Hrd : reads_device doc d) by (apply C28_reads; eauto).
  destruct (device_kept doc d Hf Hrd (read_conform _ _ _ H Hp)) as [HF HN]. eapply C27_round_trip_partial; eauto.
Qed.

(** ** The restrictions are needed *)
Notation el_ n t := (Elem n [] (Some t) []).
Definition tiny (name : option string) (width : string) (more : list xml) : xml_doc :=
  mk_doc [] (Elem "device" [("schemaVersion", "1.3")] None
    [Elem "name" [] name []; el_ "version" "1"; el_ "description" "d"; el_ "addressUnitBits" "8"; el_ "width" width;
     Elem "peripherals" [] None [Elem "peripheral" [] None ([el_ "name" "P"; el_ "baseAddress" "0"] ++ more)]]).
Definition tiny_with (x : xml) : xml_doc := tiny (Some "D") "32" [Elem "registers" [] None [x]].
Definition register_ (l : list xml) : xml := Elem "register" [] None l.

Lemma cm_one_g r p l : Children_match r p l -> Children_match r (Seq [p]) l.
Proof. intros H. rewrite <- (app_nil_r l). constructor; [exact H|constructor]. Qed.
Section Trees.
Variable r : scope.
Lemma g_el n ty a t ks : Valid r ty (Elem n a t ks) -> Children_match r (El n ty) [Elem n a t ks].
Proof. intros H. constructor; [exists a, t, ks; reflexivity|exact H]. Qed.
Lemma g_leaf n ty s : InSimple r ty s -> Children_match r (El n ty) [el_ n s].
Proof. intros H. apply g_el. now apply valid_simple. Qed.
Lemma g_cons p ps e l : Children_match r p [e] -> Children_match r (Seq ps) l -> Children_match r (Seq (p :: ps)) (e :: l).
Proof. intros H1 H2. change (e :: l) with ([e] ++ l). now constructor. Qed.
Lemma g_skip p max ps l : Children_match r (Seq ps) l -> Children_match r (Seq (Occurs p 0 max :: ps)) l.
Proof. intros H. change l with ([] ++ l). constructor; [constructor|exact H]. Qed.
Lemma g_take p max ps e l : max <> Some 0%nat -> Children_match r p [e] -> Children_match r (Seq ps) l -> Children_match r (Seq (Occurs p 0 max :: ps)) (e :: l).
Proof.
  intros Hm H1 H2. change (e :: l) with ([e] ++ l). constructor; [|exact H2]. change [e] with ([e] ++ []). constructor; [exact Hm|exact H1|constructor].
Qed.
Lemma g_node ty n a t ks : match complex_type r ty with
    | Some ct => AttrsValid r (ct_attrs ct) a /\ Matches (Many blank) (content t) /\ Children_match r (ct_content ct) (filter is_element ks)
    | None => False end -> Valid r ty (Elem n a t ks).
Proof. destruct (complex_type r ty) as [ct|] eqn:E; [|contradiction]. intros (H1 & H2 & H4). eapply valid_complex; eauto. Qed.
Lemma g_many p e : Children_match r p [e] -> Children_match r (Occurs p 1 None) [e].
Proof. intros H. change [e] with ([e] ++ []). constructor; [discriminate|exact H|constructor]. Qed.
Lemma g_no_attrs : AttrsValid r [] [].
Proof. split; [constructor|]. split; [intros n v []|intros n ty []]. Qed.
Lemma g_derived ty : AttrsValid r (derived_attr ty) [].
Proof. split; [constructor|]. split; [intros n v []|]. intros n t [Hq|[]]; discriminate. Qed.
End Trees.
Definition insimpleb (r : scope) (ty s : string) : bool :=
  match simple_type r ty with Some (false, p) => acceptsb p s | Some (true, p) => acceptsb p (collapse s) && String.eqb (collapse s) s | None => false end.
Lemma insimpleb_ok r ty s : insimpleb r ty s = true -> InSimple r ty s.
Proof.
  unfold insimpleb, InSimple. destruct (simple_type r ty) as [[[|] p]|]; [|apply accepts_sound|discriminate]. intros H. apply andb_true_iff in H as [H1 H2].
  apply String.eqb_eq in H2. split; [now apply accepts_sound|]. intros _. exists "", "". rewrite H2. split; [cbn; now rewrite sapp_nil_r|]. split; constructor.
Qed.
Ltac simp := apply insimpleb_ok; vm_compute; reflexivity.
Ltac gnode := apply g_node; cbv [complex_type String.eqb Ascii.eqb Bool.eqb ct_attrs ct_content]; cbn [app filter is_element];
  split; [first [apply g_no_attrs | apply g_derived | idtac]|split; [exact no_text|]].
Ltac gl := first [apply g_leaf; first [assumption | simp] | apply g_el, valid_simple; assumption].
Ltac gs := repeat first [apply cm_seq_nil | apply g_cons; [gl|] | apply g_take; [discriminate|gl|] | apply g_skip].

Lemma tiny_valid r name width more : InSimple r "identifierType" (content name) -> InSimple r "scaledNonNegativeInteger" width ->
  Children_match r (opt_el "registers" "registersType") more -> ValidDoc r (tiny name width more).
Proof.
  intros Hn Hw Hm. exists [("schemaVersion", "1.3")], None. eexists. split; [reflexivity|]. split; [repeat constructor; intros []|].
  change (filter (fun p => negb (String.eqb (fst p) location_attr)) [("schemaVersion", "1.3")]) with [("schemaVersion", "1.3")].
  assert (Hel : filter is_element more = more).
  { assert (Hd : forall e, In e more -> is_element e = true).
    { intros e He. destruct (cm_declared _ _ _ Hm eq_refl e He) as (n & ty & _ & Hnm & _). eapply named_element; eauto. }
    clear -Hd. induction more as [|e l IH]; [reflexivity|]. cbn. rewrite (Hd e (or_introl eq_refl)). f_equal. apply IH. intros x Hx. apply Hd. now right. }
  destruct r; gnode.
  all: try (split; [repeat constructor; intros []|]; split;
    [intros n v [Hq|[]]; injection Hq as <- <-; exists "xs:decimal", true; split; [now left|]; split; [now apply accepts_sound|intros _; exists "", ""; split; [reflexivity|split; constructor]]
    |intros n ty [Hq|[]]; injection Hq as <- <-; now left]).
  all: gs.
  all: apply g_cons; [|apply g_skip, cm_seq_nil]; apply g_el; gnode; apply cm_one_g, g_many, g_el; gnode; rewrite Hel;
    apply g_skip; (apply g_cons; [gl|]); do 8 apply g_skip; (apply g_cons; [gl|]); do 3 apply g_skip; apply cm_one_g; exact Hm.
Qed.

Lemma with_valid r n ty x : (n = "register" /\ ty = "registerType") \/ (n = "cluster" /\ ty = "clusterType") ->
  Named n x -> Valid r ty x -> ValidDoc r (tiny_with x).
Proof.
  intros Hn Hnm Hv. apply tiny_valid; [destruct r; simp|destruct r; simp|].
  change [Elem "registers" [] None [x]] with ([Elem "registers" [] None [x]] ++ []). constructor; [discriminate| |constructor]. apply g_el.
  assert (Hx : is_element x = true) by (eapply named_element; eauto).
  destruct r; apply g_node; cbv [complex_type String.eqb Ascii.eqb Bool.eqb ct_attrs ct_content]; cbn [filter]; rewrite Hx;
    (split; [apply g_no_attrs|]; split; [exact no_text|]); apply g_many;
    (destruct Hn as [[-> ->]|[-> ->]]; [eapply cm_alt; [right; now left|]|eapply cm_alt; [now left|]]); constructor; assumption.
Qed.
Ltac galt := match goal with |- Children_match ?r (Seq (Alt _ :: _)) ?l => change l with ([] ++ l); constructor; [eapply cm_alt; [now left|constructor]|] end.
Ltac gpair := match goal with |- Children_match ?r (Seq (Alt _ :: _)) (?a :: ?l) => change (a :: l) with ([a] ++ l); constructor end.

(** documents that are valid against the packaged schema and not read: a scale factor, hexadecimal digits without 0x, an empty identifier,
    two blanks in a token *)
Theorem C57_restrictions_needed :
  forall doc, In doc [tiny (Some "D") "1k" []; tiny (Some "D") "ff" []; tiny None "32" [];
                      tiny_with (register_ [el_ "name" "R"; el_ "addressOffset" "0"; el_ "dataType" "uint8_t  *"])] ->
  ValidDoc Full doc /\ exists ws e, parse_device doc = (ws, Err e).
Proof.
  intros doc [<-|[<-|[<-|[<-|[]]]]]; (split; [|eexists _, _; vm_compute; reflexivity]).
  1-3: apply tiny_valid; [simp|simp|constructor].
  apply (with_valid Full "register" "registerType"); [now left|now (do 3 eexists)|]. gnode. apply g_skip. apply g_cons; [gl|]. do 2 apply g_skip. galt.
  apply g_cons; [gl|]. apply g_skip. apply g_take; [discriminate| |].
  - apply g_leaf. split; [apply accepts_sound; vm_compute; reflexivity|congruence].
  - gs.
Qed.

(** documents that are valid, are read, and written as invalid ones: a string of blanks, a cluster with an empty description,
    a field with a bitOffset and no bitWidth *)
Lemma root_kid r doc c n tn : ValidDoc r doc -> In c (xml_kids (doc_root doc)) -> Named n c -> kid r "device" n tn = true -> Valid r tn c.
Proof.
  intros (a & t & ks & Hr & _ & Hv) Hi Hn Hk. rewrite Hr in Hi.
  assert (HB : Body r "device" (Elem "device" (filter (fun p => negb (String.eqb (fst p) location_attr)) a) t ks)) by (apply body_of; [exact Hv|destruct r; reflexivity]).
  exact (kid_typed r "device" n tn _ HB Hk c Hi Hn).
Qed.
Lemma kid_kid r ty tn n e c : Valid r ty e -> is_some_b (simple_type r ty) = false -> kid r ty n tn = true -> In c (xml_kids e) -> Named n c -> Valid r tn c.
Proof. intros Hv Hs Hk Hi Hn. exact (kid_typed r ty n tn e (body_of _ _ _ Hv Hs) Hk c Hi Hn). Qed.
Lemma named_elem n a t ks : Named n (Elem n a t ks). Proof. now exists a, t, ks. Qed.
Lemma peripheral_valid d p : ValidDoc Full (device_xml d) -> In p (sdv_periphs d) -> Valid Full "peripheralType" (per_xml p).
Proof.
  intros Hv Hp. assert (Hs : Valid Full "peripherals" (Elem "peripherals" [] None (map per_xml (sdv_periphs d)))).
  { apply (root_kid Full (device_xml d) _ "peripherals" "peripherals"); [exact Hv| |apply named_elem|reflexivity]. cbn [device_xml doc_root xml_kids]. repeat (apply in_app_iff; right).
    unfold section. destruct (sdv_periphs d); [destruct Hp|now left]. }
  eapply (kid_kid Full "peripherals" "peripheralType" "peripheral"); [exact Hs|reflexivity|reflexivity| |apply named_elem]. cbn. now apply in_map.
Qed.
Lemma registers_valid p : Valid Full "peripheralType" (per_xml p) -> sp_rcs p <> [] -> Valid Full "registersType" (Elem "registers" [] None (map rc_xml (sp_rcs p))).
Proof.
  intros Hv Hp. eapply (kid_kid Full "peripheralType" "registersType" "registers"); [exact Hv|reflexivity|reflexivity| |apply named_elem]. cbn [per_xml xml_kids]. repeat (apply in_app_iff; right).
  unfold section. destruct (sp_rcs p); [congruence|now left].
Qed.
Definition type_of (x : svd_rc) : string := match x with SReg _ => "registerType" | SClu _ _ => "clusterType" end.
Lemma rc_valid l x e : Valid Full "registersType" e -> xml_kids e = map rc_xml l -> In x l -> Valid Full (type_of x) (rc_xml x).
Proof.
  intros Hv Hk Hi. assert (Hx : In (rc_xml x) (xml_kids e)) by (rewrite Hk; now apply in_map). destruct x as [r|c ch].
  - apply (kid_kid Full "registersType" "registerType" "register" e); [exact Hv|reflexivity|reflexivity|exact Hx|apply named_elem].
  - apply (kid_kid Full "registersType" "clusterType" "cluster" e); [exact Hv|reflexivity|reflexivity|exact Hx|apply named_elem].
Qed.
Lemma nested_valid c l x : Valid Full "clusterType" (clu_xml c (map rc_xml l)) -> In x l -> Valid Full (type_of x) (rc_xml x).
Proof.
  intros Hv Hi. assert (Hk : In (rc_xml x) (xml_kids (clu_xml c (map rc_xml l)))).
  { cbn [clu_xml xml_kids]. repeat (apply in_app_iff; right). now apply in_map. }
  destruct x as [r|c' ch].
  - apply (kid_kid Full "clusterType" "registerType" "register" _ _ Hv); [reflexivity|reflexivity|exact Hk|apply named_elem].
  - apply (kid_kid Full "clusterType" "clusterType" "cluster" _ _ Hv); [reflexivity|reflexivity|exact Hk|apply named_elem].
Qed.
Lemma fields_valid r f : Valid Full "registerType" (reg_xml r) -> In f (sr_fields r) -> Valid Full "fieldType" (field_xml f).
Proof.
  intros Hv Hf. assert (Hs : Valid Full "fieldsType" (Elem "fields" [] None (map field_xml (sr_fields r)))).
  { apply (kid_kid Full "registerType" "fieldsType" "fields" _ _ Hv); [reflexivity|reflexivity| |apply named_elem]. cbn [reg_xml xml_kids]. repeat (apply in_app_iff; right).
    unfold section. destruct (sr_fields r); [destruct Hf|now left]. }
  apply (kid_kid Full "fieldsType" "fieldType" "field" _ _ Hs); [reflexivity|reflexivity| |apply named_elem]. cbn. now apply in_map.
Qed.
Lemma ev_valid f c v : Valid Full "fieldType" (field_xml f) -> In c (sf_evcs f) -> In v (sevc_evs c) -> Valid Full "enumeratedValueType" (ev_xml v).
Proof.
  intros Hv Hc Hi. assert (Hs : Valid Full "enumerationType" (evc_xml c)).
  { apply (kid_kid Full "fieldType" "enumerationType" "enumeratedValues" _ _ Hv); [reflexivity|reflexivity| |apply named_elem]. cbn [field_xml xml_kids]. repeat (apply in_app_iff; right). now apply in_map. }
  apply (kid_kid Full "enumerationType" "enumeratedValueType" "enumeratedValue" _ _ Hs); [reflexivity|reflexivity| |apply named_elem]. cbn [evc_xml xml_kids]. repeat (apply in_app_iff; right). now apply in_map.
Qed.

Definition blank_name := tiny_with (register_ [el_ "name" "R"; el_ "displayName" " "; el_ "addressOffset" "0"]).
Definition silent_cluster := tiny_with (Elem "cluster" [] None [el_ "name" "C"; Elem "description" [] None []; el_ "addressOffset" "0"]).
Definition lone_offset := tiny_with (register_ [el_ "name" "R"; el_ "addressOffset" "0";
  Elem "fields" [] None [Elem "field" [] None [el_ "name" "F"; el_ "bitOffset" "3"]]]).
(** no text of the tree is empty *)
Fixpoint no_empty (e : xml) : bool :=
  match e with Elem _ _ t ks => negb (match t with Some "" => true | _ => false end) && forallb no_empty ks | Other => true end.
Lemma no_empty_from doc : no_empty (doc_root doc) = true -> FromFile doc.
Proof.
  intros H. assert (Hw : forall e, Within (doc_root doc) e -> no_empty e = true).
  { intros e He. induction He as [|e c He IH Hc]; [exact H|]. destruct e as [n a t ks|]; [|destruct Hc]. cbn in IH. apply andb_true_iff in IH as [_ IH].
    rewrite forallb_forall in IH. now apply IH. }
  intros e He Ht. specialize (Hw e He). destruct e as [n a t ks|]; [|discriminate]. cbn in Ht. subst. discriminate.
Qed.
Theorem C58_restrictions_needed :
  forall doc, In doc [blank_name; silent_cluster; lone_offset] ->
  ValidDoc Readable doc /\ FromFile doc /\ exists ws d w doc', parse_device doc = (ws, Ok d) /\ serialize_device d = (w, Ok doc') /\ ~ ValidDoc Full doc'.
Proof.
  intros doc [<-|[<-|[<-|[]]]]; (split; [|split; [apply no_empty_from; vm_compute; reflexivity|]]).
  - apply (with_valid Readable "register" "registerType"); [now left|now (do 3 eexists)|]. gnode. apply g_skip. apply g_cons; [gl|].
    apply g_take; [discriminate|gl|]. apply g_skip. galt. apply g_cons; [gl|]. gs.
  - destruct (parse_device blank_name) as [ws o] eqn:E. vm_compute in E. injection E as <- <-. eexists _, _, _, _. split; [reflexivity|].
    split; [cbv delta [serialize_device]; cbv beta; match goal with |- context [if ?b then _ else _] => change b with true end; reflexivity|].
    intros Hv. eapply peripheral_valid in Hv; [|now left]. apply registers_valid in Hv; [|discriminate]. eapply rc_valid in Hv; [|reflexivity|now left].
    assert (Hd : Valid Full "stringType" (leaf "displayName" "")).
    { apply (kid_kid Full "registerType" "stringType" "displayName" _ _ Hv); [reflexivity|reflexivity|now (right; left)|apply named_elem]. }
    apply (simple_child Full) in Hd as (n & t & Hq & Hd); [|reflexivity]. injection Hq as <- <-. cbn [content] in Hd. eapply simple_nonempty in Hd; [now apply Hd|reflexivity].
  - apply (with_valid Readable "cluster" "clusterType"); [now right|now (do 3 eexists)|]. gnode. apply g_skip. apply g_cons; [gl|].
    apply g_cons; [apply g_el, valid_simple; simp|]. do 2 apply g_skip. apply g_cons; [gl|]. apply g_skip. apply cm_one_g, cm_one_g.
    change (@nil xml) with (@nil xml ++ []). constructor; [discriminate| |constructor]. eapply cm_alt; [now left|constructor].
  - destruct (parse_device silent_cluster) as [ws o] eqn:E. vm_compute in E. injection E as <- <-. eexists _, _, _, _. split; [reflexivity|].
    split; [cbv delta [serialize_device]; cbv beta; match goal with |- context [if ?b then _ else _] => change b with true end; reflexivity|].
    intros Hv. eapply peripheral_valid in Hv; [|now left]. apply registers_valid in Hv; [|discriminate]. eapply rc_valid in Hv; [|reflexivity|now left].
    apply body_of in Hv; [|reflexivity]. apply (least Full _ "description") in Hv; [|reflexivity]. rewrite cnt_length in Hv. vm_compute in Hv. now apply Hv.
  - apply (with_valid Readable "register" "registerType"); [now left|now (do 3 eexists)|]. gnode. apply g_skip. apply g_cons; [gl|]. do 2 apply g_skip. galt.
    apply g_cons; [gl|]. do 5 apply g_skip. apply g_take; [discriminate| |apply cm_seq_nil].
    apply g_el. gnode. apply cm_one_g, g_many, g_el. gnode. apply g_skip. apply g_cons; [gl|]. apply g_skip. gpair; [|gs].
    eapply cm_alt; [right; now left|]. gs.
  - destruct (parse_device lone_offset) as [ws o] eqn:E. vm_compute in E. injection E as <- <-. eexists _, _, _, _. split; [reflexivity|].
    split; [cbv delta [serialize_device]; cbv beta; match goal with |- context [if ?b then _ else _] => change b with true end; reflexivity|].
    intros Hv. eapply peripheral_valid in Hv; [|now left]. apply registers_valid in Hv; [|discriminate]. eapply rc_valid in Hv; [|reflexivity|now left].
    eapply fields_valid in Hv; [|now left]. apply body_of in Hv; [|reflexivity]. apply (three Full _ "lsb" "bitOffset" "bitRange") in Hv; [|reflexivity].
    rewrite !cnt_length in Hv. vm_compute in Hv. discriminate.
Qed.

(** ** Exported devices: documents made from processed devices are not valid in general *)
Lemma export_no_enum dev : ValidDoc Full (device_xml (conv_device dev)) ->
  forall p o r f c, In p (dv_periphs dev) -> Below (pr_rcs p) o (Reg r) -> In f (r_fields r) -> In c (f_evcs f) -> evc_evs c = [].
Proof.
  intros Hv p o r f c Hp Hb Hf Hc. assert (Hp' : In (conv_per p) (sdv_periphs (conv_device dev))) by (cbn; now apply in_map).
  pose proof (peripheral_valid _ _ Hv Hp') as HP.
  assert (Hr : Valid Full "registerType" (reg_xml (conv_reg r))).
  { assert (Hl : forall l o x, Below l o x -> (forall y, In y l -> Valid Full (type_of (conv_rc y)) (rc_xml (conv_rc y))) -> Valid Full (type_of (conv_rc x)) (rc_xml (conv_rc x))).
    { intros l o' x H. induction H as [l x Hx|l x ch Hx|l c0 ch o' x Hx H IH]; intros Hy; [now apply Hy..|]. apply IH. intros y Hi.
      apply (nested_valid (conv_clu c0) (map conv_rc ch) (conv_rc y)); [exact (Hy _ Hx)|now apply in_map]. }
    apply (Hl _ _ _ Hb). intros y Hy. apply (rc_valid (map conv_rc (pr_rcs p)) _ (Elem "registers" [] None (map rc_xml (map conv_rc (pr_rcs p))))); [|reflexivity|apply in_map; exact Hy].
    apply (registers_valid (conv_per p) HP). cbn. destruct (pr_rcs p); [destruct Hy|discriminate]. }
  destruct (evc_evs c) as [|v l] eqn:El; [reflexivity|exfalso].
  assert (Hfv : Valid Full "fieldType" (field_xml (conv_field f))) by (eapply fields_valid; [exact Hr|cbn; now apply in_map]).
  assert (Hev : Valid Full "enumeratedValueType" (ev_xml (conv_ev v))).
  { apply (ev_valid (conv_field f) (conv_evc c)); [exact Hfv|cbn; now apply in_map|cbn; rewrite El; now left]. }
  apply body_of in Hev; [|reflexivity]. apply (two Full _ "value" "isDefault") in Hev; [|reflexivity]. rewrite !cnt_length in Hev.
  cbn [ev_xml conv_ev xml_kids sev_name sev_descr sev_value sev_default] in Hev. destruct (ev_descr v); vm_compute in Hev; discriminate.
Qed.
Lemma any_not_protection : ~ InSimple Full "protectionStringType" "any".
Proof. intros H. unfold InSimple in H. cbv [simple_type packaged String.eqb Ascii.eqb Bool.eqb] in H. inversion H. Qed.
Lemma export_protected dev : ValidDoc Full (device_xml (conv_device dev)) -> p_prot (db_props (dv_b dev)) <> ANY.
Proof.
  intros Hv Ha.
  assert (Hd : Valid Full "protectionStringType" (leaf "protection" "any")).
  { apply (root_kid Full (device_xml (conv_device dev)) _ "protection" "protectionStringType"); [exact Hv| |apply named_elem|reflexivity].
    cbn [device_xml doc_root xml_kids]. do 10 (apply in_app_iff; right). apply in_app_iff. left. unfold props_xml. do 2 (apply in_app_iff; right). apply in_app_iff. left.
    cbn [conv_device sdv_props conv_props op_prot]. rewrite Ha. now left. }
  apply (simple_child Full) in Hd as (n & t & Hq & Hd); [|reflexivity]. injection Hq as <- <-. cbn [content] in Hd.
  apply any_not_protection, Hd.
Qed.
Lemma export_blocks dev : ValidDoc Full (device_xml (conv_device dev)) -> forall p b, In p (dv_periphs dev) -> In b (pb_abs (pr_b p)) -> ab_prot b <> Some ANY.
Proof.
  intros Hv p b Hp Hb Ha. assert (Hp' : In (conv_per p) (sdv_periphs (conv_device dev))) by (cbn; now apply in_map).
  pose proof (peripheral_valid _ _ Hv Hp') as HP.
  assert (HA : Valid Full "addressBlockType" (ab_xml (conv_ab b))).
  { apply (kid_kid Full "peripheralType" "addressBlockType" "addressBlock" _ _ HP); [reflexivity|reflexivity| |apply named_elem].
    cbn [per_xml xml_kids]. do 12 (apply in_app_iff; right). apply in_app_iff. left. cbn [conv_per sp_abs]. rewrite map_map. apply in_map_iff. now exists b. }
  assert (Hd : Valid Full "protectionStringType" (leaf "protection" "any")).
  { apply (kid_kid Full "addressBlockType" "protectionStringType" "protection" _ _ HA); [reflexivity|reflexivity| |apply named_elem].
    cbn [ab_xml conv_ab xml_kids sab_prot]. rewrite Ha. right. right. right. now left. }
  apply (simple_child Full) in Hd as (n & t & Hq & Hd); [|reflexivity]. injection Hq as <- <-. cbn [content] in Hd. apply any_not_protection, Hd.
Qed.
(** a document exported from a processed device is valid only if the description gives the device and all address blocks a protection,
    and no field has enumerated values *)
Theorem C58_export_refuted : forall d ws dev w doc, Processes d ws dev -> serialize_device (conv_device dev) = (w, Ok doc) -> ValidDoc Full doc ->
  op_prot (sdv_props d) <> None /\
  (forall p b, In p (dv_periphs dev) -> In b (pb_abs (pr_b p)) -> ab_prot b <> Some ANY) /\
  (forall p o r f c, In p (dv_periphs dev) -> Below (pr_rcs p) o (Reg r) -> In f (r_fields r) -> In c (f_evcs f) -> evc_evs c = []).
Proof.
  intros d ws dev w doc HP Hs Hv. unfold serialize_device in Hs. destruct (xml_legal _); [|discriminate]. injection Hs as _ <-.
  split; [|split; [now apply export_blocks|now apply export_no_enum]]. intros Hn. apply (export_protected _ Hv).
  destruct (processes_good _ _ _ HP) as [_ ->]. unfold process_device_base. cbn. now rewrite Hn.
Qed.

(** ** Concrete descriptions *)
Definition secured := mk_oprops (Some 32) (Some READ_WRITE) (Some SECURE) (Some 0) (Some 4294967295).
(** a device with a processor, a SAU configuration, nested clusters, dim elements, all three notations of the bits, enumerated values,
    a write constraint and a derived peripheral; [evcs] are the enumerated values of its first field *)
Definition rich (evcs : list svd_evc) : svd_device :=
  mk_sdev secured "CMSIS-SVD.xsd" "1.3" (Some "A vendor") (Some "V1") "D" None "1.0" "A device" (Some "free")
    (Some (mk_scpu CM33 "r0p1" LITTLE (Some true) None None None None None None None None 4 false (Some 100) (Some 1)
       (Some (mk_ssc (Some true) (Some NON_SECURE) [mk_ssr None (Some "a region") 0 4095 SAU_NS]))))
    None (Some "D_") 8 32
    [mk_sper nodim noprops "P" (Some "2") (Some "A peripheral") None (Some "G:x") None None (Some "P_s") None 1073741824
       [mk_sab 0 256 AB_REGISTERS (Some SECURE)] [mk_int "I" (Some "interrupt") 3]
       [SReg (mk_sreg nodim noprops "R" (Some "R!") (Some "A register") None None 0 (Some UINT32_T) (Some ONE_TO_CLEAR)
          (Some (mk_wc None None (Some (0, 255)))) (Some RA_CLEAR)
          [mk_sfield nodim "F" (Some "A field") None None (Some 0) (Some 1) None None None None None evcs None;
           mk_sfield nodim "G" None (Some 4) (Some 2) None None None (Some READ_ONLY) None None None [] None;
           mk_sfield nodim "H" None None None None None (Some "[12:8]") None None (Some (mk_wc (Some true) None None)) None [] None] None);
        SReg (mk_sreg (mk_sdim (Some 2) (Some 4) (Some "A,B") None None) noprops "T%s" None None None None 16 None None None None [] None);
        SClu (mk_sclu nodim noprops "C" (Some "A cluster") None (Some "C_s") 32 None)
          [SClu (mk_sclu nodim noprops "N" (Some "nested") None None 0 None)
             [SReg (mk_sreg nodim noprops "X" None None None None 0 None None None None [] None)]]] None;
     mk_sper nodim noprops "Q" None None None None None None None None 1073745920 [] [] [] (Some "P")].
Definition values : list svd_evc :=
  [mk_sevc (Some "E") None (Some U_READ_WRITE) [mk_sev "on" (Some "is on") (Some "0x1") None; mk_sev "rest" None None (Some true)] None].
#[local] Arguments txt : simpl never.
Ltac some_ := let H := fresh in intros ? H; first [discriminate H | injection H as <-].
Ltac cf := lazymatch goal with
  | |- txt _ _ => simp
  | |- otxt _ _ => some_; simp
  | |- nonneg _ => some_; lia
  | |- noany _ => discriminate
  | |- given _ => discriminate
  | |- holds _ _ => some_; cf
  | |- Forall _ [] => apply Forall_nil
  | |- Forall _ (_ :: _) => apply Forall_cons; [cf|cf]
  | |- conform_rc (SReg _) => apply conform_SReg; cf
  | |- conform_rc (SClu _ _) => apply conform_SClu; [cf|cf]
  | |- _ /\ _ => split; [cf|cf]
  | |- _ <-> _ => split; intros X; first [reflexivity | discriminate | exfalso; now apply X]
  | |- _ \/ _ => first [left; reflexivity | right; reflexivity]
  | |- given _ \/ _ -> _ => intros X; first [discriminate | exfalso; destruct X as [X|[X|X]]; now apply X]
  | |- (_ <= _)%nat => cbn; lia
  | |- _ <= _ => cbn; lia
  | |- _ <> [] => discriminate
  | |- Forall ?P ?l => let v := eval hnf in l in change (Forall P v); cf
  | |- True => exact Logic.I
  | |- ?g => let h := head_of g in unfold h; cbn; cf
  end
with head_of t := match t with ?f _ => head_of f | _ => constr:(t) end.
Example rich_conform : conform_device (rich values).
Proof. cf. Qed.
(** its document is valid, is read, and rewriting it gives a valid document *)
Example C58_nonvacuous : let doc := device_xml (rich values) in
  ValidDoc Rewritable doc /\ FromFile doc /\ exists ws d w doc', parse_device doc = (ws, Ok d) /\ serialize_device d = (w, Ok doc') /\ ValidDoc Full doc'.
Proof.
  intros doc. assert (Hv : ValidDoc Rewritable doc) by apply (C58_written _ rich_conform).
  assert (HF : FromFile doc) by (apply no_empty_from; vm_compute; reflexivity).
  destruct (C57_valid_read doc (proj1 (C57_scopes doc) Hv)) as (ws & d & Hp & _). split; [exact Hv|]. split; [exact HF|].
  assert (Hd : d = rich values).
  { assert (E : snd (parse_device doc) = Ok (rich values)) by (vm_compute; reflexivity). rewrite Hp in E. now injection E. }
  subst d. exists ws, (rich values), [], doc. split; [exact Hp|]. split; [unfold serialize_device; replace (xml_legal (doc_root doc)) with true by (vm_compute; reflexivity); reflexivity|].
  apply (C58_written _ rich_conform).
Qed.
(** without the enumerated values even the exported device is a valid document ... *)
Definition processed (d : svd_device) : device := match process_device 30 d with (_, Ok x) => x | _ => mk_dev (process_device_base d) [] end.
Example C58_export_nonvacuous : (exists ws, Processes (rich []) ws (processed (rich []))) /\ ValidDoc Full (device_xml (conv_device (processed (rich [])))).
Proof.
  split.
  - exists (fst (process_device 30 (rich []))). exists 30%nat. vm_compute. reflexivity.
  - apply C58_written. set (d := conv_device (processed (rich []))). vm_compute in d. subst d. cf.
Qed.
(** ... but not with them, although the description is valid and accepted *)
Theorem C58_export_values_refuted : ValidDoc Rewritable (device_xml (rich values)) /\
  exists ws dev w doc, Processes (rich values) ws dev /\ serialize_device (conv_device dev) = (w, Ok doc) /\ ~ ValidDoc Full doc.
Proof.
  split; [apply (C58_written _ rich_conform)|].
  assert (HP : exists ws, Processes (rich values) ws (processed (rich values))).
  { exists (fst (process_device 30 (rich values))). exists 30%nat. vm_compute. reflexivity. }
  destruct HP as [ws HP]. exists ws, (processed (rich values)). eexists _, _. split; [exact HP|].
  assert (Hs : serialize_device (conv_device (processed (rich values))) = ([], Ok (device_xml (conv_device (processed (rich values)))))).
  { unfold serialize_device. replace (xml_legal _) with true by (vm_compute; reflexivity). reflexivity. }
  split; [exact Hs|]. intros Hv. destruct (C58_export_refuted _ _ _ _ _ HP Hs Hv) as (_ & _ & H).
  remember (processed (rich values)) as dev eqn:Ed. vm_compute in Ed. subst dev. cbn [dv_periphs] in H.
  eassert (X : evc_evs _ = []).
  { eapply H; [left; reflexivity|cbn [pr_rcs]; eapply Below_reg; left; reflexivity|cbn [r_fields]; left; reflexivity|cbn [f_evcs]; left; reflexivity]. }
  discriminate X.
Qed.

Print Assumptions C57_valid_read.
Print Assumptions C57_scopes.
Print Assumptions C57_restrictions_needed.
Print Assumptions C58_written.
Print Assumptions C58_rewritten.
Print Assumptions C58_survives.
Print Assumptions C58_restrictions_needed.
Print Assumptions C58_export_refuted.
Print Assumptions C58_export_values_refuted.
