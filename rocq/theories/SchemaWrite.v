(** * SchemaWrite: what the serializer writes is valid (for C58) *)
From Verif Require Import Base PyStr PyInt Types ParseModel SpecText SpecParse SpecSchema SpecConform SerializeModel TextFacts SchemaFacts SchemaText.

(** ** Texts *)
Lemma many_class l s : sforallb (fun c => existsb (in_range c) l) s = true -> Matches (Many (Class l)) s.
Proof.
  induction s as [|c s IH]; cbn [sforallb]; intros H; [constructor|]. apply andb_true_iff in H as [H1 H2].
  change (String c s) with (String c "" ++ s)%string. constructor; [|now apply IH].
  apply existsb_exists in H1 as ([lo hi] & Hi & H1). unfold in_range in H1. cbn in H1. apply andb_true_iff in H1 as [Ha Hb].
  eapply m_class; [exact Hi|]. split; now apply N.leb_le.
Qed.
Lemma plus_class l s : s <> "" -> sforallb (fun c => existsb (in_range c) l) s = true -> Matches (Plus (Class l)) s.
Proof.
  intros Hn H. destruct s as [|c s]; [congruence|]. cbn [sforallb] in H. apply andb_true_iff in H as [H1 H2].
  change (String c s) with (String c "" ++ s)%string. constructor; [|now apply many_class].
  apply existsb_exists in H1 as ([lo hi] & Hi & H1). unfold in_range in H1. cbn in H1. apply andb_true_iff in H1 as [Ha Hb].
  eapply m_class; [exact Hi|]. split; now apply N.leb_le.
Qed.
Lemma digits_of b l n : good_base b -> 0 <= n -> (forall d, 0 <= d < b -> existsb (in_range (digit_char d)) l = true) ->
  Matches (Plus (Class l)) (nat_str b n).
Proof.
  intros Hb Hn Hd. apply plus_class; [now apply nat_str_nonempty|]. apply (nat_str_chars b n (fun c => existsb (in_range c) l) Hb Hn). exact Hd.
Qed.
Lemma dec_digit d : 0 <= d < 10 -> existsb (in_range (digit_char d)) [("0", "9")]%char = true.
Proof. intros H. assert (Hc : d = 0 \/ d = 1 \/ d = 2 \/ d = 3 \/ d = 4 \/ d = 5 \/ d = 6 \/ d = 7 \/ d = 8 \/ d = 9) by lia.
  repeat (destruct Hc as [-> | Hc]; [reflexivity|]). subst. reflexivity. Qed.
Lemma hex_digit d : 0 <= d < 16 -> existsb (in_range (digit_char d)) [("0", "9"); ("a", "f"); ("A", "F")]%char = true.
Proof.
  intros H. destruct (Z_lt_dec d 10) as [Hl|Hl].
  - pose proof (dec_digit d ltac:(lia)) as Hd. cbn [existsb] in *. apply orb_true_iff in Hd as [-> | Hd]; [reflexivity|discriminate].
  - assert (Hc : d = 10 \/ d = 11 \/ d = 12 \/ d = 13 \/ d = 14 \/ d = 15) by lia.
    repeat (destruct Hc as [-> | Hc]; [reflexivity|]). subst. reflexivity.
Qed.
Definition int : string := "scaledNonNegativeInteger".
Lemma int_dec n : 0 <= n -> InSimple Rewritable int (str_of_Z n).
Proof.
  intros Hn. change (Matches plain_number (str_of_Z n)). unfold str_of_Z. destruct (n <? 0) eqn:E; [lia|].
  change (nat_str 10 n) with ("" ++ nat_str 10 n)%string. constructor; [apply m_left; constructor|]. apply m_left.
  apply (digits_of 10); [red; lia|exact Hn|apply dec_digit].
Qed.
Lemma int_hex n : 0 <= n -> InSimple Rewritable int (hex_of_Z n).
Proof.
  intros Hn. change (Matches plain_number (hex_of_Z n)). unfold hex_of_Z. destruct (n <? 0) eqn:E; [lia|].
  change ("0x" ++ nat_str 16 n)%string with ("" ++ ("0x" ++ nat_str 16 n))%string. constructor; [apply m_left; constructor|]. apply m_right, m_left.
  constructor; [apply m_left; constructor|]. apply (digits_of 16); [red; lia|exact Hn|apply hex_digit].
Qed.
Lemma word_solid s : sforallb (fun c => is_word c || Ascii.eqb c "-") s = true -> sforallb (fun c => negb (is_blank c)) s = true.
Proof.
  induction s as [|c s IH]; cbn [sforallb]; [reflexivity|]. intros H. apply andb_true_iff in H as [H1 H2]. rewrite (IH H2), andb_true_r.
  destruct c as [[|] [|] [|] [|] [|] [|] [|] [|]]; vm_compute in H1 |- *; congruence.
Qed.
Lemma integer_text n : InSimple Rewritable "xs:integer" (str_of_Z n).
Proof.
  apply simple_intro; [|intros _; apply word_solid, str_of_Z_word]. cbn. unfold str_of_Z. destruct (n <? 0) eqn:E.
  - change (String "-" (nat_str 10 (- n))) with ("-" ++ nat_str 10 (- n))%string. constructor; [apply m_right|].
    + apply accepts_sound. reflexivity.
    + apply (digits_of 10); [red; lia|lia|apply dec_digit].
  - change (nat_str 10 n) with ("" ++ nat_str 10 n)%string. constructor; [apply m_left; constructor|].
    apply (digits_of 10); [red; lia|lia|apply dec_digit].
Qed.
Lemma token_intro ty s : collapses Rewritable ty = true -> acceptsb (language Rewritable ty) s = true -> collapse s = s -> InSimple Rewritable ty s.
Proof.
  unfold InSimple, collapses, language. destruct (simple_type Rewritable ty) as [[[|] p]|]; intros H1 H2 H3; try discriminate.
  rewrite H3. split; [now apply accepts_sound|]. intros _. exists "", "". split; [cbn; now rewrite sapp_nil_r|]. split; constructor.
Qed.
Ltac token := intros []; apply token_intro; vm_compute; reflexivity.
Lemma t_bool : forall b, InSimple Rewritable "xs:boolean" (bool_text b). Proof. token. Qed.
Lemma t_endian : forall b, InSimple Rewritable "endianType" (endian_value b). Proof. token. Qed.
Lemma t_dtype : forall b, InSimple Rewritable "dataTypeType" (data_type_value b). Proof. token. Qed.
Lemma t_mwv : forall b, InSimple Rewritable "modifiedWriteValuesType" (mwv_value b). Proof. token. Qed.
Lemma t_ra : forall b, InSimple Rewritable "readActionType" (read_action_value b). Proof. token. Qed.
Lemma t_usage : forall b, InSimple Rewritable "enumUsageType" (enum_usage_value b). Proof. token. Qed.
Lemma t_ab : forall b, InSimple Rewritable "addressBlockType usage" (ab_usage_value b). Proof. token. Qed.
Lemma t_access : forall b, InSimple Rewritable "accessType" (access_value b). Proof. token. Qed.
Lemma t_cpu : forall b, InSimple Rewritable "cpuNameType" (cpu_value b). Proof. token. Qed.
Lemma t_sau : forall b, InSimple Rewritable "sauAccessType" (sau_access_value b).
Proof. intros []; apply accepts_sound; vm_compute; reflexivity. Qed.
Lemma t_prot : forall b, b <> ANY -> InSimple Rewritable "protectionStringType" (protection_value b).
Proof. intros [] H; try congruence; apply accepts_sound; vm_compute; reflexivity. Qed.
Lemma t_any s : InSimple Rewritable "xs:string" s.
Proof.
  change (Matches (Many anychar) s). apply many_class. induction s as [|c s IH]; cbn [sforallb]; [reflexivity|]. rewrite IH, andb_true_r.
  destruct c as [[|] [|] [|] [|] [|] [|] [|] [|]]; reflexivity.
Qed.

(** ** Lists of children *)
Notation CM := (Children_match Rewritable).
Notation V := (Valid Rewritable).
Lemma cm_once p l : CM p l -> CM (Occurs p 0 (Some 1%nat)) l.
Proof. intros H. rewrite <- (app_nil_r l). apply cm_again; [discriminate|exact H|]. constructor. Qed.
Lemma cm_one p l : CM p l -> CM (Seq [p]) l.
Proof. intros H. rewrite <- (app_nil_r l). constructor; [exact H|constructor]. Qed.
Lemma cm_cons p ps e l : CM p [e] -> CM (Seq ps) l -> CM (Seq (p :: ps)) (e :: l).
Proof. intros H1 H2. change (e :: l) with ([e] ++ l). now constructor. Qed.
Lemma cm_skip p max ps l : CM (Seq ps) l -> CM (Seq (Occurs p 0 max :: ps)) l.
Proof. intros H. change l with ([] ++ l). constructor; [constructor|exact H]. Qed.
Lemma occ0 p l : (forall e, In e l -> CM p [e]) -> CM (Occurs p 0 None) l.
Proof.
  induction l as [|e l IH]; intros H; [constructor|]. change (e :: l) with ([e] ++ l). apply cm_again; [discriminate|apply H; now left|].
  apply IH. intros x Hx. apply H. now right.
Qed.
Lemma occ1 p l : l <> [] -> (forall e, In e l -> CM p [e]) -> CM (Occurs p 1 None) l.
Proof.
  destruct l as [|e l]; intros Hn H; [congruence|]. change (e :: l) with ([e] ++ l). apply cm_again; [discriminate|apply H; now left|].
  apply occ0. intros x Hx. apply H. now right.
Qed.
Lemma occ_upto p : forall k l, (length l <= k)%nat -> (forall e, In e l -> CM p [e]) -> CM (Occurs p 0 (Some k)) l.
Proof.
  induction k as [|k IH]; intros [|e l] Hl H; try constructor; cbn in Hl; [lia|]. change (e :: l) with ([e] ++ l).
  apply cm_again; [discriminate|apply H; now left|]. apply IH; [lia|]. intros x Hx. apply H. now right.
Qed.
Lemma el n ty a t ks : V ty (Elem n a t ks) -> CM (El n ty) [Elem n a t ks].
Proof. intros H. constructor; [exists a, t, ks; reflexivity|exact H]. Qed.
Lemma cm_leaf n ty s : InSimple Rewritable ty s -> CM (El n ty) [leaf n s].
Proof. intros H. apply el. now apply valid_simple. Qed.
Lemma cm_oleaf {A} n ty (f : A -> string) o : (forall v, o = Some v -> InSimple Rewritable ty (f v)) -> CM (opt_el n ty) (oleaf n f o).
Proof. intros H. destruct o as [v|]; [|constructor]. apply cm_once, cm_leaf, H. reflexivity. Qed.
Lemma cm_oelem {A} n ty (f : A -> xml) o : (forall v, o = Some v -> CM (El n ty) [f v]) -> CM (opt_el n ty) (oelem f o).
Proof. intros H. destruct o as [v|]; [|constructor]. apply cm_once, H. reflexivity. Qed.
Lemma elements p l : CM p l -> has_any p = false -> filter is_element l = l.
Proof.
  intros H Ha. pose proof (cm_declared _ _ _ H Ha) as Hd. clear H. induction l as [|e l IH]; [reflexivity|]. cbn.
  destruct (Hd e (or_introl eq_refl)) as (n & ty & _ & Hn & _). rewrite (named_element _ _ Hn). f_equal. apply IH. intros x Hx. apply Hd. now right.
Qed.
Lemma node ty n a t ks : match complex_type Rewritable ty with
    | Some ct => AttrsValid Rewritable (ct_attrs ct) a /\ Matches (Many blank) (content t) /\ has_any (ct_content ct) = false /\ CM (ct_content ct) ks
    | None => False end -> V ty (Elem n a t ks).
Proof.
  destruct (complex_type Rewritable ty) as [ct|] eqn:E; [|contradiction]. intros (H1 & H2 & H3 & H4).
  eapply valid_complex; [exact E|exact H1|exact H2|]. now rewrite (elements _ _ H4 H3).
Qed.
Lemma no_attrs : AttrsValid Rewritable [] [].
Proof. split; [constructor|]. split; [intros n v []|intros n ty []]. Qed.
Lemma derived_ok ty o : otxt ty o -> AttrsValid Rewritable (derived_attr ty) (oattr "derivedFrom" sid o).
Proof.
  intros H. destruct o as [s|].
  - split; [constructor; [intros []|constructor]|]. split; [|intros n t [Hq|[]]; discriminate].
    intros n v [Hq|[]]. injection Hq as <- <-. exists ty, false. split; [now left|]. now apply H.
  - split; [constructor|]. split; [intros n v []|]. intros n t [Hq|[]]; discriminate.
Qed.
Lemma no_text : Matches (Many blank) "". Proof. constructor. Qed.
Ltac tnode := apply node; cbv [complex_type String.eqb Ascii.eqb Bool.eqb ct_attrs ct_content]; cbn [app];
  split; [try exact no_attrs|split; [try exact no_text|split; [reflexivity|]]].
Ltac sq := repeat first [apply cm_seq_nil | apply cm_one | apply cm_cons | apply cm_seq_cons].
#[local] Opaque InSimple.
Ltac oj := intros ? ?; first [apply t_bool | apply t_endian | apply t_dtype | apply t_mwv | apply t_ra | apply t_usage | apply t_ab | apply t_access
  | apply t_any].
Ltac lf := first
  [ apply cm_leaf; first [apply t_bool | apply t_endian | apply t_dtype | apply t_mwv | apply t_ra | apply t_usage | apply t_ab | apply t_access
      | apply t_cpu | apply t_sau | apply integer_text | assumption | apply int_dec; assumption | apply int_hex; assumption]
  | apply cm_oleaf; first [assumption | oj | let v := fresh in let E := fresh in intros v E; first
      [apply int_dec; now auto | apply int_hex; now auto | apply t_prot; intros ->; now auto]]].

Lemma w_ev v : conform_ev v -> CM (El "enumeratedValue" "enumeratedValueType") [ev_xml v].
Proof.
  intros (H1 & H2 & H3 & H4). apply el. tnode. sq; try lf. destruct (sev_value v) as [x|] eqn:E.
  - assert (sev_default v = None) as -> by (apply H4; discriminate). cbn. eapply cm_alt; [now left|]. apply cm_leaf. now apply H3.
  - destruct (sev_default v) as [b|] eqn:Eb; [|destruct H4 as [_ H4]; now destruct (H4 eq_refl)]. eapply cm_alt; [right; now left|]. lf.
Qed.
Lemma evs_in {A} (P : A -> Prop) (f : A -> xml) p l : (forall v, P v -> CM p [f v]) -> Forall P l -> forall e, In e (map f l) -> CM p [e].
Proof. intros H Hl e He. apply in_map_iff in He as (v & <- & Hv). rewrite Forall_forall in Hl. auto. Qed.
Lemma w_dai d : conform_dai d -> CM (El "dimArrayIndex" "dimArrayIndexType") [dai_xml d].
Proof.
  intros (H1 & H2 & H3). apply el. tnode. { destruct (_ && _); exact no_text. }
  sq; try lf. apply occ1; [destruct (sdai_evs d); cbn; congruence|]. eapply evs_in; [exact w_ev|exact H3].
Qed.
Lemma none_of {A} (o : option A) : ~ given o -> o = None.
Proof. unfold given. destruct o; intros H; [exfalso; apply H; discriminate|reflexivity]. Qed.
Lemma w_dim d : conform_dim d -> CM (Occurs dim_group 0 (Some 1%nat)) (dim_xml d).
Proof.
  intros (H1 & H2 & H3 & H4 & H5 & H6 & H7). unfold dim_xml. destruct (sd_dim d) as [n|] eqn:En.
  - destruct (sd_inc d) as [i|] eqn:Ei; [|destruct H1 as [H1 _]; now destruct (H1 ltac:(discriminate))].
    apply cm_once. unfold dim_group. cbn [oleaf app]. specialize (H2 n eq_refl). specialize (H3 i eq_refl). sq; try lf.
    apply cm_oelem. intros v Hv. apply w_dai. auto.
  - assert (sd_inc d = None) as -> by (apply none_of; intros H; apply H1 in H; now apply H).
    assert (Hn : ~ given (@None Z)) by (intros H; now apply H).
    assert (sd_index d = None) as -> by (apply none_of; tauto). assert (sd_name d = None) as -> by (apply none_of; tauto).
    assert (sd_dai d = None) as -> by (apply none_of; tauto). constructor.
Qed.
Lemma w_props p : conform_props p -> CM (Occurs (Seq props_group) 0 (Some 1%nat)) (props_xml p).
Proof. intros (H1 & H2 & H3 & H4). unfold props_xml. apply cm_once. unfold props_group, noany, nonneg in *. sq; lf. Qed.
Lemma w_wc w : conform_wc w -> CM (El "writeConstraint" "writeConstraintType") [wc_xml w].
Proof.
  unfold conform_wc, wc_xml. intros H. apply el. tnode. { destruct (_ && _); exact no_text. }
  destruct (wc_write_as_read w) as [a|], (wc_use_enum w) as [b|], (wc_range w) as [[lo hi]|]; try contradiction; cbn [oleaf oelem app].
  - eapply cm_alt; [now left|]. lf.
  - eapply cm_alt; [right; now left|]. lf.
  - eapply cm_alt; [right; right; now left|]. destruct H as [Hl Hh]. apply el. tnode. sq; lf.
Qed.
Lemma w_evc c : conform_evc c -> CM (El "enumeratedValues" "enumerationType") [evc_xml c].
Proof.
  intros (H1 & H2 & H3 & H4). apply el. tnode. { now apply derived_ok. } { destruct (_ && _); exact no_text. }
  sq; try lf. apply occ0. eapply evs_in; [exact w_ev|exact H4].
Qed.
Ltac rest := first [lf | apply w_dim; assumption | apply w_props; assumption | apply cm_oelem; intros ? ?; apply w_wc; now auto].
Lemma w_field f : conform_field f -> CM (El "field" "fieldType") [field_xml f].
Proof.
  intros (H1 & H2 & H3 & H4 & H5 & H6 & H7 & H8). apply el. tnode. { now apply derived_ok. }
  apply cm_seq_cons; [now apply w_dim|]. apply cm_cons; [lf|]. apply cm_seq_cons; [lf|].
  unfold conform_bits in H5. destruct H5 as (B1 & B2 & B3 & B4 & B5 & B6). unfold nonneg in *.
  rewrite !app_assoc, <- (app_assoc (pair_xml _ _ _ _)). rewrite <- !app_assoc.
  set (bits := pair_xml "bitOffset" "bitWidth" (sf_bit_offset f) (sf_bit_width f) ++ pair_xml "lsb" "msb" (sf_lsb f) (sf_msb f) ++
     oleaf "bitRange" sid (sf_bit_range f)).
  match goal with |- CM (Seq (?a :: _)) (_ ++ _ ++ _ ++ ?l) => assert (Hb : CM a bits) end.
  { subst bits. destruct (sf_lsb f), (sf_msb f), (sf_bit_offset f), (sf_bit_width f), (sf_bit_range f); try contradiction; cbn [pair_xml oleaf app].
    - eapply cm_alt; [now left|]. pose proof (B3 _ eq_refl). pose proof (B4 _ eq_refl). sq; lf.
    - eapply cm_alt; [right; now left|]. pose proof (B1 _ eq_refl). pose proof (B2 _ eq_refl). sq; lf.
    - eapply cm_alt; [right; right; now left|]. apply cm_leaf. now apply B5. }
  match goal with |- CM _ (?x ++ ?y ++ ?z ++ ?l) => replace (x ++ y ++ z ++ l) with (bits ++ l) by (subst bits; now rewrite <- !app_assoc) end.
  apply cm_seq_cons; [exact Hb|]. clear bits Hb. sq; try rest.
  apply occ_upto; [now rewrite map_length|]. eapply evs_in; [exact w_evc|exact H7].
Qed.
Lemma w_section {A} n ty ty' n' (P : A -> Prop) (f : A -> xml) l :
  complex_type Rewritable ty = Some (mk_complex [] (Seq [Occurs (El n' ty') 1 None])) ->
  (forall v, P v -> CM (El n' ty') [f v]) -> Forall P l -> CM (opt_el n ty) (section n (map f l)).
Proof.
  intros Hc Hf Hl. unfold section. destruct l as [|a l]; [constructor|]. change (is_nil (map f (a :: l))) with false. cbv iota. apply cm_once, el, node. rewrite Hc.
  split; [exact no_attrs|]. split; [exact no_text|]. split; [reflexivity|]. apply cm_one. apply occ1; [discriminate|]. eapply evs_in; eauto.
Qed.
Lemma w_reg r : conform_reg r -> CM (El "register" "registerType") [reg_xml r].
Proof.
  intros (H1 & H2 & H3 & H4 & H5 & H6 & H7 & H8 & H9 & H10 & H11 & H12). apply el. tnode. { now apply derived_ok. }
  apply cm_seq_cons; [now apply w_dim|]. apply cm_cons; [lf|]. apply cm_seq_cons; [lf|]. apply cm_seq_cons; [lf|].
  rewrite app_assoc. apply cm_seq_cons.
  { destruct H8 as [E|E]; rewrite E; cbn [oleaf app].
    - eapply cm_alt; [right; now left|]. lf.
    - rewrite app_nil_r. eapply cm_alt; [now left|]. lf. }
  apply cm_cons; [lf|]. sq; try rest. eapply w_section; [reflexivity|exact w_field|exact H12].
Qed.
Lemma w_clu c ks : conform_clu c -> (forall e, In e ks -> CM (El "register" "registerType") [e] \/ CM (El "cluster" "clusterType") [e]) ->
  CM (El "cluster" "clusterType") [clu_xml c ks].
Proof.
  intros (H1 & H2 & H3 & H4 & H5 & H6 & H7 & H8 & H9) Hk. apply el. tnode. { now apply derived_ok. }
  apply cm_seq_cons; [now apply w_dim|]. apply cm_cons; [lf|].
  destruct (sc_descr c) as [ds|] eqn:Ed; [|now destruct H5]. apply cm_cons; [apply cm_leaf; now apply H4|].
  apply cm_seq_cons; [lf|]. apply cm_seq_cons; [lf|]. apply cm_cons; [lf|]. apply cm_seq_cons; [now apply w_props|]. apply cm_one, cm_one.
  destruct ks as [|k ks].
  - change (@nil xml) with (@nil xml ++ []). apply cm_again; [discriminate| |constructor]. eapply cm_alt; [now left|constructor].
  - apply occ1; [discriminate|]. intros e He. destruct (Hk e He) as [H|H].
    + eapply cm_alt; [now left|]. apply occ0. intros x [<-|[]]. exact H.
    + eapply cm_alt; [right; now left|]. apply occ0. intros x [<-|[]]. exact H.
Qed.
Fixpoint svd_rc_ind2 (P : svd_rc -> Prop) (Hr : forall r, P (SReg r)) (Hc : forall c l, Forall P l -> P (SClu c l)) (x : svd_rc) : P x :=
  match x with
  | SReg r => Hr r
  | SClu c l => Hc c l ((fix go l := match l return Forall P l with [] => Forall_nil P | y :: l' => Forall_cons y (svd_rc_ind2 P Hr Hc y) (go l') end) l)
  end.
Lemma w_rc x : conform_rc x -> CM (El "register" "registerType") [rc_xml x] \/ CM (El "cluster" "clusterType") [rc_xml x].
Proof.
  induction x as [r|c l IH] using svd_rc_ind2; intros H; inversion H as [r' Hr|c' l' Hc Hl]; subst.
  - left. now apply w_reg.
  - right. cbn [rc_xml]. apply w_clu; [exact Hc|]. intros e He. apply in_map_iff in He as (y & <- & Hy). rewrite Forall_forall in IH, Hl. auto.
Qed.
Lemma w_ab a : conform_ab a -> CM (El "addressBlock" "addressBlockType") [ab_xml a].
Proof. intros (H1 & H2 & H3). apply el. tnode. unfold noany in *. sq; lf. Qed.
Lemma w_int i : conform_int i -> CM (El "interrupt" "interruptType") [interrupt_xml i].
Proof. intros H1. apply el. tnode. apply cm_cons; [apply cm_leaf; exact H1|]. sq; lf. Qed.
Lemma w_per p : conform_per p -> CM (El "peripheral" "peripheralType") [per_xml p].
Proof.
  intros (H1 & H2 & H3 & H4 & H5 & H6 & H7 & H8 & H9 & H10 & H11 & H12 & H13 & H14 & H15 & H16). apply el. tnode. { now apply derived_ok. }
  sq; try rest.
  - apply occ0. eapply evs_in; [exact w_ab|exact H14].
  - apply occ0. eapply evs_in; [exact w_int|exact H15].
  - unfold section. destruct (sp_rcs p) as [|a l]; [constructor|]. change (is_nil (map rc_xml (a :: l))) with false. cbv iota.
    apply cm_once, el. tnode. apply occ1; [discriminate|]. intros e He. apply in_map_iff in He as (y & <- & Hy). rewrite Forall_forall in H16.
    destruct (w_rc y (H16 y Hy)) as [H|H]; (eapply cm_alt; [|exact H]); cbn; auto.
Qed.
Lemma w_region r : conform_region r -> CM (El "region" "region") [sau_region_xml r].
Proof.
  intros (H1 & H2). apply el. tnode.
  - destruct (ssr_enabled r) as [b|], (ssr_name r) as [s|]; cbn [oattr app sid].
    all: split; [repeat constructor; cbn; try tauto; intros [Hq|[]]; discriminate|]; split; [|intros n ty [Hq|[Hq|[]]]; discriminate].
    all: intros n v Hi; cbn in Hi.
    + destruct Hi as [Hq|[Hq|[]]]; injection Hq as <- <-.
      * exists "xs:boolean", false. split; [now left|apply t_bool].
      * exists "xs:string", false. split; [right; now left|apply t_any].
    + destruct Hi as [Hq|[]]; injection Hq as <- <-. exists "xs:boolean", false. split; [now left|apply t_bool].
    + destruct Hi as [Hq|[]]; injection Hq as <- <-. exists "xs:string", false. split; [right; now left|apply t_any].
    + destruct Hi.
  - match goal with |- CM _ ?l => rewrite <- (app_nil_r l) end. apply cm_again; [discriminate| |constructor]. sq; lf.
Qed.
Lemma w_sau c : conform_sau c -> CM (El "sauRegionsConfig" "sauRegionsConfig") [sau_config_xml c].
Proof.
  intros (H1 & H2). apply el. tnode.
  - unfold noany in H1. destruct (ssc_enabled c) as [b|], (ssc_prot c) as [s|]; cbn [oattr app sid].
    all: split; [repeat constructor; cbn; try tauto; intros [Hq|[]]; discriminate|]; split; [|intros n ty [Hq|[Hq|[]]]; discriminate].
    all: intros n v Hi; cbn in Hi.
    + destruct Hi as [Hq|[Hq|[]]]; injection Hq as <- <-.
      * exists "xs:boolean", false. split; [now left|apply t_bool].
      * exists "protectionStringType", false. split; [right; now left|apply t_prot; intros ->; auto].
    + destruct Hi as [Hq|[]]; injection Hq as <- <-. exists "xs:boolean", false. split; [now left|apply t_bool].
    + destruct Hi as [Hq|[]]; injection Hq as <- <-. exists "protectionStringType", false. split; [right; now left|apply t_prot; intros ->; auto].
    + destruct Hi.
  - destruct (is_nil _); exact no_text.
  - apply cm_one, occ0. eapply evs_in; [exact w_region|exact H2].
Qed.
Lemma w_cpu c : conform_cpu c -> CM (El "cpu" "cpuType") [cpu_xml c].
Proof.
  intros (H1 & H2 & H3 & H4 & H5). apply el. unfold nonneg in *. tnode. sq; try lf. apply cm_oelem. intros v Hv. apply w_sau. auto.
Qed.
Theorem w_device d : conform_device d -> ValidDoc Rewritable (device_xml d).
Proof.
  intros (H1 & H2 & H3 & H4 & H5 & H6 & H7 & H8 & H9 & H10 & H11 & H12 & H13 & H14 & H15 & H16).
  unfold ValidDoc, device_xml. cbn [doc_root]. do 3 eexists. split; [reflexivity|]. split.
  { repeat constructor; cbn; [|tauto]. intros [Hq|[]]. discriminate. }
  cbn [filter fst]. change (String.eqb ("{" ++ xs_uri ++ "}noNamespaceSchemaLocation") location_attr) with true.
  change (String.eqb "schemaVersion" location_attr) with false. cbn [negb].
  tnode.
  { split; [repeat constructor; intros []|]. split.
    - intros n v [Hq|[]]. injection Hq as <- <-. exists "xs:decimal", true. split; [now left|exact H1].
    - intros n ty [Hq|[]]. injection Hq as <- <-. now left. }
  sq; try lf; try (apply w_props; assumption).
  - apply cm_oelem. intros v Hv. apply w_cpu. auto.
  - unfold section. destruct (sdv_periphs d) as [|a l]; [congruence|]. change (is_nil (map per_xml (a :: l))) with false. cbv iota.
    apply cm_cons; [|apply cm_skip, cm_seq_nil]. apply el. tnode. apply cm_one, occ1; [discriminate|].
    exact (evs_in conform_per per_xml _ _ w_per H16).
Qed.
