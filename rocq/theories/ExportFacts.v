(** * ExportFacts: the texts of a processed device (for C54) *)
From Verif Require Import Base PyStr PyInt Types DimModel EnumModel ElemModel FinalModel ConvertModel SpecDim DimFacts TextFacts EnumFacts EnumFacts2 EnumFacts3 FinalFacts SpecRoundTrip RoundTrip ResolveModel ResolveInv ProcessModel SpecProcess PropsDevice SpecExport.

(** ** Texts with solid ends *)
Definition solid (s : string) : Prop := s <> "" /\ strip s = s.
Definition lead (s : string) : Prop := match s with String c _ => is_space c = false | EmptyString => False end.
Fixpoint tailed (s : string) : Prop :=
  match s with EmptyString => False | String c EmptyString => is_space c = false | String _ s' => tailed s' end.

Lemma tailed_rstrip s : s <> "" -> (rstrip_by is_space s = s <-> tailed s).
Proof.
  induction s as [|c s IH]; [congruence|]. intros _. destruct s as [|d s].
  - cbn. destruct (is_space c); split; intros H; first [discriminate H | reflexivity].
  - specialize (IH ltac:(discriminate)). cbn [tailed]. change (rstrip_by is_space (String c (String d s))) with
      (match rstrip_by is_space (String d s) with EmptyString => if is_space c then EmptyString else String c EmptyString | r => String c r end).
    rewrite <- IH. destruct (rstrip_by is_space (String d s)) as [|e r].
    + split; [destruct (is_space c); discriminate|discriminate].
    + split; [intros H; injection H as -> ->; reflexivity|congruence].
Qed.
Lemma lstrip_len p s : (String.length (lstrip_by p s) <= String.length s)%nat.
Proof. induction s as [|c s IH]; cbn; [lia|]. destruct (p c); cbn; lia. Qed.
Lemma rstrip_len p s : (String.length (rstrip_by p s) <= String.length s)%nat.
Proof. induction s as [|c s IH]; cbn; [lia|]. destruct (rstrip_by p s); [destruct (p c)|]; cbn in *; lia. Qed.
Lemma solid_iff s : solid s <-> lead s /\ tailed s.
Proof.
  unfold solid, strip, strip_by. destruct s as [|c s]; [cbn; tauto|]. cbn [lead lstrip_by]. destruct (is_space c) eqn:E.
  - split; [|intros [H _]; discriminate]. intros [_ H]. exfalso. assert (L := rstrip_len is_space (lstrip_by is_space s)).
    assert (L' := lstrip_len is_space s). rewrite H in L. cbn in L. lia.
  - rewrite (tailed_rstrip (String c s)) by discriminate. split; [tauto|]. intros [_ H]. split; [discriminate|exact H].
Qed.
Lemma lead_app a b : lead a -> lead (a ++ b).
Proof. destruct a; cbn; tauto. Qed.
Lemma tailed_app a b : tailed b -> tailed (a ++ b).
Proof. intros H. induction a as [|c a IH]; [exact H|]. cbn [append tailed]. destruct (a ++ b)%string; [destruct IH|exact IH]. Qed.
Lemma tailed_suffix a b : b <> "" -> tailed (a ++ b) -> tailed b.
Proof.
  intros Hb. induction a as [|c a IH]; [tauto|]. cbn [append tailed]. intros H. apply IH.
  destruct (a ++ b)%string eqn:E; [|exact H]. destruct a, b; cbn in E; congruence.
Qed.
Lemma sapp_nil s : (s ++ "")%string = s.
Proof. induction s as [|c s IH]; cbn; congruence. Qed.
Lemma dense_solid s : s <> "" -> sforallb (fun c => negb (is_space c)) s = true -> solid s.
Proof.
  intros Hs H. apply solid_iff. split.
  - destruct s as [|c s]; [congruence|]. cbn in *. apply andb_true_iff in H as [H _]. now destruct (is_space c).
  - induction s as [|c s IH]; [congruence|]. cbn [sforallb] in H. apply andb_true_iff in H as [H1 H2].
    destruct s as [|d s]; [cbn; now destruct (is_space c)|]. now apply IH.
Qed.
Lemma solid_str n : solid (str_of_Z n).
Proof. split; [apply str_ne|apply strip_str]. Qed.
Lemma solid_join a b : solid a -> solid b -> solid (a ++ b).
Proof. rewrite !solid_iff. intros [A1 A2] [B1 B2]. split; [now apply lead_app|now apply tailed_app]. Qed.
Lemma solid_numbered a n : solid a -> solid (a ++ "_" ++ str_of_Z n).
Proof. intros H. apply solid_join; [exact H|]. apply (solid_join "_"); [split; [discriminate|reflexivity]|apply solid_str]. Qed.

Lemma Subst_lead ph i s r : Subst ph i s r -> lead i -> lead s -> lead r.
Proof. intros H Hi. destruct H as [s|a s r]; [tauto|]. intros Hs. destruct a as [|c a]; [exact (lead_app i r Hi)|exact Hs]. Qed.
Lemma Subst_empty ph i r : ph <> "" -> Subst ph i "" r -> r = "".
Proof. intros Hp H. inversion H as [|a s r' E H1 H2]; subst; [reflexivity|]. destruct a, ph; cbn in *; congruence. Qed.
Lemma Subst_tailed ph i s r : ph <> "" -> Subst ph i s r -> tailed i -> tailed s -> tailed r.
Proof.
  intros Hp H Hi. induction H as [s H|a s r H H1 IH]; [tauto|]. intros Hs. destruct s as [|c s].
  - rewrite (Subst_empty _ _ _ Hp H1). apply tailed_app. now rewrite sapp_nil.
  - apply tailed_app, tailed_app, IH. apply tailed_suffix with (a := (a ++ ph)%string); [discriminate|]. now rewrite <- sapp_assoc.
Qed.
Lemma solid_replace ph i s : ph <> "" -> solid i -> solid s -> solid (replace ph i s).
Proof.
  rewrite !solid_iff. intros Hp [I1 I2] [S1 S2]. assert (H := replace_Subst ph i Hp s).
  split; [eapply Subst_lead; eauto|eapply Subst_tailed; eauto].
Qed.

(** ** Indexes *)
Definition good_index (s : string) : Prop := solid s /\ ~ In "" (split_on "," (remove_spaces s)).
Lemma remove_dense s : sforallb (fun c => negb (is_space c)) (remove_spaces s) = true.
Proof. induction s as [|c s IH]; cbn [remove_spaces]; [reflexivity|]. destruct (is_space c) eqn:E; [exact IH|]. cbn. now rewrite E. Qed.
Lemma split_dense c s : sforallb (fun c => negb (is_space c)) s = true -> Forall (fun t => sforallb (fun c => negb (is_space c)) t = true) (split_on c s).
Proof.
  induction s as [|d s IH]; cbn [split_on sforallb]; [repeat constructor|]. intros H. apply andb_true_iff in H as [H1 H2]. specialize (IH H2).
  destruct (Ascii.eqb c d); [now constructor|]. destruct (split_on c s) as [|t l]; [repeat constructor; cbn; now rewrite H1|].
  inversion IH; subst. constructor; [cbn; now rewrite H1|assumption].
Qed.
Lemma letter_dense z : 65 <= z <= 90 -> solid (String (ascii_of_N (Z.to_N z)) "").
Proof.
  intros H. apply dense_solid; [discriminate|]. cbn. unfold is_space, in_code_range, code. rewrite N_ascii_embedding by lia.
  repeat match goal with |- context [(?a <=? ?b)%N] => destruct (N.leb_spec a b) end; cbn; try reflexivity; lia.
Qed.
Lemma index_solid d oi ws l : (forall s, oi = Some s -> good_index s) -> process_dim_index d oi = (ws, Ok l) -> Forall solid l.
Proof.
  intros Hi H. unfold process_dim_index in H. apply bind_ok in H as (w1 & x0 & w2 & _ & H & _). apply bind_ok in H as (w3 & l' & w4 & H & H' & _).
  apply bind_ok in H' as (w5 & u & w6 & _ & H' & _). apply ret_ok in H' as [<- _].
  assert (R : forall a b, Forall solid (map str_of_Z (zrange a b))) by (intros a b; apply Forall_forall; intros s Hs; apply in_map_iff in Hs as (n & <- & _); apply solid_str).
  destruct oi as [s|]; [|apply ret_ok in H as [<- _]; apply R]. destruct (Hi s eq_refl) as [Hs He].
  destruct (re_num_range s).
  { destruct (split_on "-" s) as [|a [|b [|]]]; try discriminate H. destruct (py_int 10 a); [|discriminate H]. destruct (py_int 10 b); [|discriminate H].
    apply bind_ok in H as (w7 & u' & w8 & _ & H & _). apply ret_ok in H as [<- _]. apply R. }
  destruct (re_letter_range s) eqn:E.
  { unfold re_letter_range in E. destruct s as [|x [|m [|y s]]]; try discriminate E. apply andb_true_iff in E as [E E2]. apply andb_true_iff in E as [E E1].
    apply Ascii.eqb_eq in E1. subst m.
    destruct (split_on "-" (String x (String "-" (String y s)))) as [|a [|b [|]]] eqn:Es; try discriminate H.
    destruct a as [|a [|]]; try discriminate H. destruct b as [|b [|]]; try discriminate H.
    apply bind_ok in H as (w7 & u' & w8 & _ & H & _). apply ret_ok in H as [<- _].
    assert (Ex : Ascii.eqb "-" x = false) by (destruct (Ascii.eqb_spec "-" x) as [<-|]; [discriminate E|reflexivity]).
    assert (Ey : Ascii.eqb "-" y = false) by (destruct (Ascii.eqb_spec "-" y) as [<-|]; [discriminate E2|reflexivity]).
    change (String x (String "-" (String y s))) with (single x ++ String "-" (String y s))%string in Es.
    rewrite split_app in Es by (unfold single; cbn [sforallb]; rewrite Ex; reflexivity). cbn [split_on] in Es. rewrite Ey in Es.
    destruct (split_on "-" s) as [|t l]; injection Es as <- <-; try (intros; subst).
    all: apply Forall_forall; intros q Hq; apply in_map_iff in Hq as (z & <- & Hz); apply zrange_in in Hz; apply letter_dense;
      unfold is_upper, in_code_range in E, E2; apply andb_true_iff in E as [?%N.leb_le ?%N.leb_le]; apply andb_true_iff in E2 as [?%N.leb_le ?%N.leb_le]; lia. }
  destruct (re_word_list s).
  { apply ret_ok in H as [<- _]. apply Forall_forall. intros t Ht. apply dense_solid; [intros ->; contradiction|].
    revert t Ht. apply Forall_forall. apply split_dense, remove_dense. }
  destruct (re_word s); [|discriminate H]. apply ret_ok in H as [<- _]. constructor; [exact Hs|constructor].
Qed.

Definition ok (o : option string) : Prop := forall s, o = Some s -> solid s.
Definition ok_raw (o : option string) : Prop := forall s, o = Some s -> s <> "".
Lemma dimension_solid name display dim oi k ws single names displays : solid name -> ok display -> (forall s, oi = Some s -> good_index s) ->
  extract_dimension name display dim oi k = (ws, Ok (single, names, displays)) -> Forall solid names /\ Forall ok displays.
Proof.
  intros Hn Hd Hi H. unfold extract_dimension in H. apply bind_ok in H as (w1 & x & w2 & _ & H & _). apply bind_ok in H as (w3 & dim' & w4 & _ & H & _).
  apply bind_ok in H as (w5 & y & w6 & _ & H & _). apply bind_ok in H as (w7 & [ns ds] & w8 & H & H' & _). apply ret_ok in H' as [E _]. cbn in E. injection E as _ <- <-.
  unfold process_dim in H. destruct dim' as [d|]; [|apply ret_ok in H as [E _]; injection E as <- <-; split; (constructor; [assumption|constructor])].
  apply bind_ok in H as (w9 & z & w10 & _ & H & _).
  assert (G : forall ph idx, ph <> "" -> Forall solid idx -> Forall solid (map (fun i => replace ph i name) idx) /\ Forall ok (map (fun i => option_map (replace ph i) display) idx)).
  { intros ph idx Hp Hx. split; apply Forall_forall; intros s Hs; apply in_map_iff in Hs as (i & <- & Hin); rewrite Forall_forall in Hx; specialize (Hx i Hin).
    - now apply solid_replace. - intros t Ht. destruct display as [u|]; [|discriminate]. injection Ht as <-. apply solid_replace; auto. }
  destruct (contains "[%s]" name).
  - assert (H' : process_dim_array name display d = (w10, Ok (ns, ds))) by (destruct k; [exact H|exact H|exact H|discriminate H]). clear H.
    unfold process_dim_array in H'. apply bind_ok in H' as (w11 & q & w12 & _ & H & _). apply ret_ok in H as [E _]. injection E as <- <-.
    apply G; [discriminate|]. apply Forall_forall. intros s Hs. apply in_map_iff in Hs as (n & <- & _). apply solid_str.
  - destruct (contains "%s" name); [|discriminate H].
    assert (H' : process_dim_list name display d oi = (w10, Ok (ns, ds))) by (destruct k; [discriminate H|exact H|exact H|exact H]). clear H.
    unfold process_dim_list in H'. apply bind_ok in H' as (w11 & q & w12 & _ & H & _). apply bind_ok in H as (w13 & idx & w14 & H & H' & _).
    apply ret_ok in H' as [E _]. injection E as <- <-. apply G; [discriminate|]. eapply index_solid; eauto.
Qed.

(** ** Enumerated values *)
Definition ok_iev (v : iev) : Prop := solid (iev_name v) /\ ok_raw (iev_descr v).
Definition ok_ievc (c : ievc) : Prop := ok (ievc_name c) /\ ok (ievc_header c) /\ Forall ok_iev (ievc_evs c).
Lemma values_solid ps lsb msb ws vs : Forall (fun q => solid (sev_name q) /\ ok_raw (sev_descr q)) ps ->
  process_enumerated_values ps lsb msb = (ws, Ok vs) -> Forall ok_iev vs.
Proof.
  intros Hps H. rewrite Forall_forall in Hps. apply pev_inv in H as (w0 & st & acc & HL & HV & _ & HC). destruct (process_evs_loop_ok _ _ _ _ _ VInv_init HL) as (_ & HF & _). cbn [snd app] in HF.
  assert (HA : forall v, In v acc -> ok_iev v).
  { intros v Hv. destruct (HF v Hv) as (q & w & us & u & Hq & Hu & Hin & ->). apply resolve_wildcard_ok in Hu as [_ R2]. destruct (Hps q Hq) as [Q1 Q2].
    destruct (R2 u Hin) as (Ed & _ & K). assert (E : iev_name (reset_default u) = iev_name u /\ iev_descr (reset_default u) = iev_descr u) by (unfold reset_default; destruct (iev_default u); split; reflexivity).
    destruct E as [E1 E2]. split; [rewrite E1|rewrite E2, Ed; exact Q2].
    destruct (iev_value u) as [z|]; [destruct K as (t & ? & ? & _ & _ & _ & _ & ->)|destruct K as [-> _]; exact Q1]. unfold wildcard_name. destruct (contains _ _); [now apply solid_numbered|exact Q1]. }
  apply Forall_forall. destruct HC as [(_ & HP & _)|(d & r & Hd & HE & HP & _)]; intros v Hv.
  - apply HA. eapply Permutation_in; [apply Permutation_sym, HP|exact Hv].
  - apply (Permutation_in _ (Permutation_sym HP)) in Hv. apply extend_ok in HE as (_ & _ & K & _); [|apply HV|intros u Hu Hd'; apply (vi_default _ _ HV u Hu Hd')]. apply K in Hv as [[Hv _]|(z & _ & _ & ->)]; [now apply HA|].
    assert (Hin : In d acc) by (apply HV; exact Hd). destruct (HA d Hin) as [D1 D2]. split; [now apply solid_numbered|exact D2].
Qed.
Definition nonempty (s : string) : Prop := s <> "".
Definition ok_evc (e : svd_evc) : Prop := Forall solid (texts_evc e) /\ Forall nonempty (raws_evc e).
Lemma ok_opt o : Forall solid (opt_list o) <-> ok o.
Proof. destruct o as [s|]; cbn; split; intros H; [intros t E; injection E as <-; now inversion H|constructor; [now apply H|constructor]|intros t E; discriminate|constructor]. Qed.
Lemma raw_opt o : Forall nonempty (opt_list o) <-> ok_raw o.
Proof. destruct o as [s|]; cbn; split; intros H; [intros t E; injection E as <-; now inversion H|constructor; [now apply H|constructor]|intros t E; discriminate|constructor]. Qed.
Lemma index_opt o : Forall good_index (opt_list o) <-> forall s, o = Some s -> good_index s.
Proof. destruct o as [s|]; cbn; split; intros H; [intros t E; injection E as <-; now inversion H|constructor; [now apply H|constructor]|intros t E; discriminate|constructor]. Qed.
Lemma container_solid e lsb msb ws c : ok_evc e -> create_evc e lsb msb = (ws, Ok c) -> ok_ievc c.
Proof.
  intros [H1 H2] H. unfold create_evc in H. apply bind_ok in H as (w1 & vs & w2 & H & H' & _). apply ret_ok in H' as [<- _].
  unfold texts_evc in H1. rewrite !Forall_app, !ok_opt, Forall_map in H1. destruct H1 as (N1 & N2 & N3). split; [exact N1|]. split; [exact N2|]. cbn [ievc_evs].
  eapply values_solid; [|exact H]. unfold raws_evc in H2. rewrite Forall_flat_map in H2. rewrite Forall_forall in *. intros q Hq. split; [now apply N3|]. now apply raw_opt, H2.
Qed.

(** ** The intermediate elements *)
Definition okd (d : idim) : Prop := forall s, id_index d = Some s -> good_index s.
Definition ok_fb (b : field_base) : Prop := solid (fb_name b) /\ ok_raw (fb_descr b).
Definition ok_rb (b : reg_base) : Prop := solid (rb_name b) /\ ok (rb_display b) /\ ok (rb_altgroup b) /\ ok (rb_altreg b) /\ ok_raw (rb_descr b).
Definition ok_cb (b : clu_base) : Prop := solid (cb_name b) /\ ok (cb_altclu b) /\ ok (cb_header b) /\ ok_raw (cb_descr b).
Definition ok_pb (b : per_base) : Prop :=
  solid (pb_name b) /\ ok (pb_version b) /\ ok (pb_altper b) /\ ok (pb_group b) /\ ok (pb_prepend b) /\ ok (pb_append b) /\ ok (pb_header b) /\
  ok_raw (pb_descr b) /\ ok_raw (pb_disable b) /\ Forall (fun i => solid (int_name i) /\ ok_raw (int_descr i)) (pb_ints b).
Definition ok_if (f : ifield) : Prop := ok_fb (if_b f) /\ okd (if_dim f) /\ Forall ok_ievc (if_evcs f).
Inductive ok_irc : irc -> Prop :=
| ok_ireg r : ok_rb (ir_b r) -> okd (ir_dim r) -> Forall ok_if (ir_fields r) -> ok_irc (IReg r)
| ok_iclu c l : ok_cb (ic_b c) -> okd (ic_dim c) -> Forall ok_irc l -> ok_irc (IClu c l).
Definition ok_ip (p : iper) : Prop := ok_pb (ip_b p) /\ okd (ip_dim p) /\ Forall ok_irc (ip_rcs p).
Definition ok_processed (v : processed) : Prop := match v with PrPer p => ok_ip p | PrRc x => ok_irc x | PrFld f => ok_if f end.

Definition texts_of (p : parsed) : list string :=
  match p with PaDev => [] | PaPer p => texts_per p | PaRc x => texts_rc x | PaFld f => texts_field f | PaEvc e => texts_evc e end.
Definition raws_of (p : parsed) : list string :=
  match p with PaDev => [] | PaPer p => raws_per p | PaRc x => raws_rc x | PaFld f => raws_field f | PaEvc e => raws_evc e end.
Definition indexes_of (p : parsed) : list string :=
  match p with PaPer p => indexes_per p | PaRc x => indexes_rc x | PaFld f => opt_list (sd_index (sf_dim f)) | _ => [] end.
Definition ok_parsed (p : parsed) : Prop := Forall solid (texts_of p) /\ Forall nonempty (raws_of p) /\ Forall good_index (indexes_of p).

Lemma merge_ok {A} own (f : A -> option string) b : ok own -> (forall x, b = Some x -> ok (f x)) -> ok (merge own f b).
Proof. intros H1 H2. unfold merge, of_base. destruct own; [exact H1|]. destruct b; cbn; [now apply H2|intros s E; discriminate]. Qed.
Lemma merge_raw {A} own (f : A -> option string) b : ok_raw own -> (forall x, b = Some x -> ok_raw (f x)) -> ok_raw (merge own f b).
Proof. intros H1 H2. unfold merge, of_base. destruct own; [exact H1|]. destruct b; cbn; [now apply H2|intros s E; discriminate]. Qed.
Lemma merge_okd own b : (forall s, sd_index own = Some s -> good_index s) -> (forall x, b = Some x -> okd x) -> okd (merge_dim own b).
Proof.
  intros H1 H2 s. unfold merge_dim, merge, of_base. cbn [id_index]. destruct (sd_index own) eqn:E; cbn; [apply H1|].
  destruct b as [x|]; cbn; [apply (H2 x eq_refl)|discriminate].
Qed.

Ltac conjs := repeat match goal with |- _ /\ _ => split end.
Ltac splits H := cbn [texts_of raws_of indexes_of texts_per texts_rc texts_field texts_reg texts_clu raws_per raws_rc raws_field raws_reg indexes_per indexes_rc indexes_reg] in H;
  unfold texts_per, texts_field, texts_reg, texts_clu, raws_per, raws_field, raws_reg, indexes_per, indexes_reg in H; cbn [app] in H;
  rewrite ?Forall_cons_iff, ?Forall_app, ?Forall_cons_iff, ?Forall_app, ?ok_opt, ?raw_opt, ?index_opt, ?Forall_flat_map, ?Forall_map in H.

Lemma parsed_ok_dim p : ok_parsed p -> forall s, sd_index (parsed_dim p) = Some s -> good_index s.
Proof.
  intros (_ & _ & H). destruct p as [|p|[r|c l]|f|e]; cbn [parsed_dim]; try (intros s E; discriminate E).
  all: splits H; intuition.
Qed.
Lemma parsed_ok_name p : ok_parsed p -> (forall e, p <> PaEvc e) -> p <> PaDev -> solid (parsed_name p) /\ ok (parsed_display p).
Proof.
  intros (H & _ & _) He Hd. destruct p as [|p|[r|c l]|f|e]; cbn [parsed_name parsed_display]; [congruence| | | | |exfalso; now apply (He e)].
  all: splits H; split; try (intros s E; discriminate E); intuition.
Qed.
Lemma create_ok index name display p bv ws v : solid name -> ok display -> ok_parsed p -> (forall b, bv = Some b -> ok_processed b) ->
  create_element index name display p bv = (ws, Ok v) -> ok_processed v.
Proof.
  intros Hn Hd (H1 & H2 & H3) Hb H. unfold create_element in H. destruct p as [|p|[r|c l]|f|e]; try discriminate H.
  - apply ret_ok in H as [<- _]. cbn [ok_processed]. splits H1. splits H2. splits H3. set (b := match bv with Some (PrPer b) => Some b | _ => None end).
    assert (Hb' : forall x, b = Some x -> ok_ip x) by (intros x E; unfold b in E; destruct bv as [[q|y|g]|]; try discriminate E; injection E as <-; exact (Hb _ eq_refl)).
    assert (Hbb : forall x, option_map ip_b b = Some x -> ok_pb x) by (intros x E; destruct b as [q|]; [|discriminate E]; injection E as <-; exact (proj1 (Hb' q eq_refl))).
    assert (Hbd : forall x, option_map ip_dim b = Some x -> okd x) by (intros x E; destruct b as [q|]; [|discriminate E]; injection E as <-; exact (proj1 (proj2 (Hb' q eq_refl)))).
    clearbody b. unfold ok_ip, ok_pb, process_peripheral. cbn [ip_b ip_dim ip_rcs pb_name pb_version pb_descr pb_altper pb_group pb_prepend pb_append pb_header pb_disable pb_ints].
    conjs; try (apply merge_ok; [intuition|intros x E; apply (Hbb x E)]); try (apply merge_raw; [intuition|intros x E; apply (Hbb x E)]); try (apply merge_okd; [intuition|exact Hbd]); try solve [intuition].
    + unfold process_interrupts. apply Forall_forall. intros i Hi. rewrite isort_in in Hi.
      destruct H1 as (_ & _ & _ & _ & _ & _ & _ & H1 & _). destruct H2 as (_ & _ & H2 & _). rewrite Forall_forall in H1, H2. split; [now apply H1|]. now apply raw_opt, H2.
  - apply ret_ok in H as [<- _]. cbn [ok_processed]. splits H1. splits H2. splits H3. set (b := match bv with Some (PrRc (IReg b)) => Some b | _ => None end).
    assert (Hb' : forall x, b = Some x -> ok_irc (IReg x)) by (intros x E; unfold b in E; destruct bv as [[q|[y|y l]|g]|]; try discriminate E; injection E as <-; exact (Hb _ eq_refl)).
    assert (Hbb : forall x, option_map ir_b b = Some x -> ok_rb x) by (intros x E; destruct b as [q|]; [|discriminate E]; injection E as <-; specialize (Hb' q eq_refl); inversion Hb'; assumption).
    assert (Hbd : forall x, option_map ir_dim b = Some x -> okd x) by (intros x E; destruct b as [q|]; [|discriminate E]; injection E as <-; specialize (Hb' q eq_refl); inversion Hb'; assumption).
    clearbody b. unfold process_register. apply ok_ireg; [|apply merge_okd; [intuition|exact Hbd]|constructor].
    unfold ok_rb. cbn [ir_b rb_name rb_display rb_descr rb_altgroup rb_altreg].
    conjs; try (apply merge_ok; [intuition|intros x E; apply (Hbb x E)]); try (apply merge_raw; [intuition|intros x E; apply (Hbb x E)]); try solve [intuition].
    intros s E. destruct display as [u|]; [|discriminate E]. injection E as <-. destruct (contains "[%s]" u); [apply solid_replace; [discriminate|apply solid_str|now apply Hd]|now apply Hd].
  - apply ret_ok in H as [<- _]. cbn [ok_processed]. splits H1. splits H2. splits H3. set (b := match bv with Some (PrRc (IClu b _)) => Some b | _ => None end).
    assert (Hb' : forall x, b = Some x -> ok_cb (ic_b x) /\ okd (ic_dim x)) by (intros x E; unfold b in E; destruct bv as [[q|[y|y l']|g]|]; try discriminate E; injection E as <-; specialize (Hb _ eq_refl); inversion Hb; auto).
    assert (Hbb : forall x, option_map ic_b b = Some x -> ok_cb x) by (intros x E; destruct b as [q|]; [|discriminate E]; injection E as <-; apply (Hb' q eq_refl)).
    assert (Hbd : forall x, option_map ic_dim b = Some x -> okd x) by (intros x E; destruct b as [q|]; [|discriminate E]; injection E as <-; apply (Hb' q eq_refl)).
    clearbody b. unfold process_cluster. apply ok_iclu; [|apply merge_okd; [intuition|exact Hbd]|constructor].
    unfold ok_cb. cbn [ic_b cb_name cb_descr cb_altclu cb_header].
    conjs; try (apply merge_ok; [intuition|intros x E; apply (Hbb x E)]); try (apply merge_raw; [intuition|intros x E; apply (Hbb x E)]); try solve [intuition].
  - apply bind_ok in H as (w1 & g & w2 & H & H' & _). apply ret_ok in H' as [<- _]. cbn [ok_processed]. splits H1. splits H2. splits H3. set (b := match bv with Some (PrFld b) => Some b | _ => None end) in H.
    assert (Hb' : forall x, b = Some x -> ok_if x) by (intros x E; unfold b in E; destruct bv as [[q|y|h]|]; try discriminate E; injection E as <-; exact (Hb _ eq_refl)).
    assert (Hbb : forall x, option_map if_b b = Some x -> ok_fb x) by (intros x E; destruct b as [q|]; [|discriminate E]; injection E as <-; apply (Hb' q eq_refl)).
    assert (Hbd : forall x, option_map if_dim b = Some x -> okd x) by (intros x E; destruct b as [q|]; [|discriminate E]; injection E as <-; apply (Hb' q eq_refl)).
    clearbody b. unfold process_field in H. apply bind_ok in H as (w3 & ml & w4 & _ & H & _). apply ret_ok in H as [<- _].
    unfold ok_if, ok_fb. cbn [if_b if_dim if_evcs fb_name fb_descr].
    conjs; try (apply merge_raw; [intuition|intros x E; apply (Hbb x E)]); try (apply merge_okd; [intuition|exact Hbd]); try solve [intuition].
Qed.
Lemma created_ok names : forall index displays p bv ws vs, Forall solid names -> Forall ok displays -> ok_parsed p -> (forall b, bv = Some b -> ok_processed b) ->
  create_elements index names displays p bv = (ws, Ok vs) -> Forall ok_processed vs.
Proof.
  induction names as [|n names IH]; intros index displays p bv ws vs Hn Hd Hp Hb H; cbn [create_elements] in H.
  - apply ret_ok in H as [<- _]. constructor.
  - apply bind_ok in H as (w1 & v & w2 & H1 & H & _). apply bind_ok in H as (w3 & vs' & w4 & H2 & H & _). apply ret_ok in H as [<- _]. inversion Hn; subst.
    constructor.
    + eapply create_ok; [eassumption| |exact Hp|exact Hb|exact H1]. destruct Hd; [intros s E; discriminate|assumption].
    + eapply IH; [assumption| |exact Hp|exact Hb|exact H2]. destruct Hd; [constructor|assumption].
Qed.

Lemma with_name_ok name v : solid name -> ok_processed v -> ok_processed (with_name name v).
Proof.
  intros Hn. destruct v as [p|[r|c l]|f]; cbn [with_name ok_processed].
  - intros ((_ & H) & H1 & H2). split; [|split; assumption]. split; [exact Hn|exact H].
  - intros H. inversion H as [? (_ & H1) H2 H3|]; subst. apply ok_ireg; [|exact H2|exact H3]. split; [exact Hn|exact H1].
  - intros H. inversion H as [|? ? (_ & H1) H2 H3]; subst. apply ok_iclu; [|exact H2|exact H3]. split; [exact Hn|exact H1].
  - intros ((_ & H) & H1 & H2). split; [|split; assumption]. split; [exact Hn|exact H].
Qed.
Lemma without_dim_ok v : ok_processed v -> ok_processed (without_dim v).
Proof.
  assert (N : okd no_idim) by (intros s E; discriminate). destruct v as [p|[r|c l]|f]; cbn [without_dim ok_processed].
  - intros (H & _ & H2). split; [exact H|]. split; [exact N|exact H2].
  - intros H. inversion H as [? H1 H2 H3|]; subst. now apply ok_ireg.
  - intros H. inversion H as [|? ? H1 H2 H3]; subst. now apply ok_iclu.
  - intros (H & _ & H2). split; [exact H|]. split; [exact N|exact H2].
Qed.

Definition ok_node (n : node) : Prop := ok_parsed (n_parsed n) /\ forall v, n_processed n = Some v -> ok_processed v.
Lemma sub_ok p q : ok_parsed p -> (incl (texts_of q) (texts_of p)) -> incl (raws_of q) (raws_of p) -> incl (indexes_of q) (indexes_of p) -> ok_parsed q.
Proof. intros (H1 & H2 & H3) I1 I2 I3. split; [|split]; eapply incl_Forall; eassumption. Qed.
Lemma incl_flat {A} (f : A -> list string) x l : In x l -> incl (f x) (flat_map f l).
Proof. intros H s Hs. apply in_flat_map. eauto. Qed.

Lemma made_ok n bv w single names displays w' vs : ok_node n -> (forall e, n_parsed n <> PaEvc e) -> BaseOk ok_node n bv ->
  node_dimension (n_parsed n) bv = (w, Ok (single, names, displays)) -> create_elements 0 names displays (n_parsed n) bv = (w', Ok vs) -> Forall ok_processed vs.
Proof.
  intros [Hp Hv] He Hb Hd Hc.
  assert (Hbv : forall b, bv = Some b -> ok_processed b).
  { intros b ->. destruct Hb as [[_ E]|(path & nb & v & _ & [_ Hnb] & _ & Hv' & E)]; [discriminate E|]. injection E as ->. now apply Hnb. }
  assert (Hdev : n_parsed n = PaDev \/ n_parsed n <> PaDev) by (destruct (n_parsed n); [now left|right; discriminate ..]).
  destruct Hdev as [E|Hdev].
  { rewrite E in Hc. destruct names; cbn [create_elements create_element] in Hc; [apply ret_ok in Hc as [<- _]; constructor|].
    apply bind_ok in Hc as (w1 & v & w2 & Hc & _). discriminate Hc. }
  destruct (parsed_ok_name _ Hp He Hdev) as [N1 N2]. unfold node_dimension in Hd.
  apply dimension_solid in Hd as [D1 D2].
  - eapply created_ok; eassumption.
  - exact N1.
  - destruct (n_parsed n) as [|p|[r|c l]|f|e]; cbn [parsed_display] in *; try (intros s E; discriminate E).
    destruct (sr_display r); [exact N2|]. cbn [or_if_none]. destruct bv as [b|]; [|intros s E; discriminate E]. specialize (Hbv b eq_refl). cbn [obind].
    destruct b as [q|[q|q l]|q]; cbn [processed_display]; try (intros s E; discriminate E). inversion Hbv as [? (_ & K & _)|]; subst. exact K.
  - apply (merge_okd (parsed_dim (n_parsed n)) (option_map processed_dim bv)); [now apply parsed_ok_dim|].
    intros x E. destruct bv as [b|]; [|discriminate E]. injection E as <-. specialize (Hbv b eq_refl).
    destruct b as [q|[q|q l]|q]; cbn [processed_dim]; [apply Hbv|inversion Hbv; assumption|inversion Hbv; assumption|apply Hbv].
Qed.

Lemma texts_closed : Closed ok_parsed ok_node.
Proof.
  assert (NV : forall n p b, ok_parsed p -> ok_node (mk_node n b false p None false)) by (intros n p b H; split; [exact H|intros v E; discriminate E]).
  constructor.
  - intros p x H Hx. apply (sub_ok _ (PaRc x) H); cbn [texts_of raws_of indexes_of]; unfold texts_per, raws_per, indexes_per.
    all: intros s Hs; rewrite ?in_app_iff; cbn [In]; rewrite ?in_app_iff; repeat right; apply in_flat_map; eauto.
  - intros c l x H Hx. apply (sub_ok _ (PaRc x) H); cbn [texts_of raws_of indexes_of texts_rc raws_rc indexes_rc].
    all: intros s Hs; rewrite ?in_app_iff; right; apply in_flat_map; eauto.
  - intros r f H Hf. apply (sub_ok _ (PaFld f) H); cbn [texts_of raws_of indexes_of texts_rc raws_rc indexes_rc]; unfold texts_reg, raws_reg, indexes_reg.
    all: intros s Hs; rewrite ?in_app_iff; cbn [In]; rewrite ?in_app_iff; repeat right; apply in_flat_map; eauto.
  - intros f e H He. apply (sub_ok _ (PaEvc e) H); cbn [texts_of raws_of indexes_of]; unfold texts_field, raws_field.
    all: intros s Hs; rewrite ?in_app_iff; cbn [In]; rewrite ?in_app_iff; try (repeat right; apply in_flat_map; eauto). destruct Hs.
  - split; [repeat constructor|intros v E; discriminate E].
  - intros; now apply NV.
  - intros; now apply NV.
  - intros; now apply NV.
  - intros; now apply NV.
  - intros; now apply NV.
  - intros n bv w names displays w' v vs Hn _ He Hb Hd Hc. assert (H := made_ok _ _ _ _ _ _ _ _ Hn He Hb Hd Hc). split; [apply Hn|]. intros v' E. cbn in E. injection E as <-. now inversion H.
  - intros n bv w names displays w' v vs Hn _ He Hb Hd Hc. assert (H := made_ok _ _ _ _ _ _ _ _ Hn He Hb Hd Hc). split; [apply Hn|]. intros v' E. cbn in E. injection E as <-.
    apply with_name_ok; [|now inversion H]. apply parsed_ok_name; [apply Hn|exact He|]. intros E. rewrite E in Hc. destruct names; cbn [create_elements create_element] in Hc; [apply ret_ok in Hc as [? _]; discriminate|].
    apply bind_ok in Hc as (w1 & v' & w2 & Hc & _). discriminate Hc.
  - intros n bv w names displays w' vs v Hn _ He Hb Hd Hc Hin. assert (H := made_ok _ _ _ _ _ _ _ _ Hn He Hb Hd Hc). split; [apply Hn|]. intros v' E. cbn in E. injection E as <-.
    apply without_dim_ok. rewrite Forall_forall in H. now apply H.
  - intros n e Hn _ _. exact Hn.
  - intros n nb e e' Hn Hnb Ep Ep' _ _. split; (split; [apply Hnb|apply Hn]).
  - intros n f cs Hn _ _ Hv _ Hcs. split; [apply Hn|]. intros v E. cbn in E. injection E as <-. destruct Hn as [_ Hn]. destruct (Hn _ Hv) as (F1 & F2 & _).
    split; [exact F1|]. split; [exact F2|]. cbn [if_evcs]. apply Forall_forall. intros c Hc. destruct (Hcs c Hc) as (m & e & w & [[Hm1 [Hm2 _]] _] & Em & Hw). rewrite Em in Hm1, Hm2.
    eapply container_solid; [|exact Hw]. split; assumption.
  - intros n r fs Hn _ _ Hv _ Hfs. split; [apply Hn|]. intros v E. cbn in E. injection E as <-. destruct Hn as [_ Hn]. specialize (Hn _ Hv). cbn [ok_processed] in *. inversion Hn as [? R1 R2 _|]; subst.
    apply ok_ireg; [exact R1|exact R2|]. cbn [ir_fields]. apply Forall_forall. intros f Hf. destruct (Hfs f Hf) as (m & [_ Hm] & _ & Em). exact (Hm _ Em).
  - intros n c l s xs Hn _ _ Hv _ Hxs. split; [apply Hn|]. intros v E. cbn in E. injection E as <-. destruct Hn as [_ Hn]. specialize (Hn _ Hv). cbn [ok_processed] in *. inversion Hn as [|? ? R1 R2 _]; subst.
    apply ok_iclu; [exact R1|exact R2|]. apply Forall_forall. intros f Hf. destruct (Hxs f Hf) as (m & [_ Hm] & _ & Em). exact (Hm _ Em).
  - intros n p s xs Hn _ _ Hv _ _ Hxs. split; [apply Hn|]. intros v E. cbn in E. injection E as <-. destruct Hn as [_ Hn]. destruct (Hn _ Hv) as (F1 & F2 & _).
    split; [exact F1|]. split; [exact F2|]. cbn [ip_rcs]. apply Forall_forall. intros f Hf. destruct (Hxs f Hf) as (m & [_ Hm] & _ & Em). exact (Hm _ Em).
Qed.

(** ** Validated elements *)
Definition ok_ev (v : ev) : Prop := solid (ev_name v) /\ ok_raw (ev_descr v).
Definition ok_c (c : evc) : Prop := ok (evc_name c) /\ ok (evc_header c) /\ Forall ok_ev (evc_evs c).
Definition ok_f (f : field) : Prop := ok_fb (f_b f) /\ Forall ok_c (f_evcs f).
Inductive ok_rc : rc -> Prop :=
| ok_r r : ok_rb (r_b r) -> Forall ok_f (r_fields r) -> ok_rc (Reg r)
| ok_cl c l : ok_cb (c_b c) -> Forall ok_rc l -> ok_rc (Clu c l).
Definition ok_p (p : per) : Prop := ok_pb (pr_b p) /\ Forall ok_rc (pr_rcs p).

Lemma inherit_ok x : forall up, ok_irc x -> ok_irc (inherit_rc up x).
Proof.
  induction x as [r|c l IH] using irc_ind'; intros up H; inversion H as [? H1 H2 H3|? ? H1 H2 H3]; subst; cbn [inherit_rc].
  - apply ok_ireg; [exact H1|exact H2|]. cbn [ir_fields]. apply Forall_map. eapply Forall_impl; [|exact H3]. intros f (F1 & F2 & F3). split; [exact F1|]. split; [exact F2|exact F3].
  - apply ok_iclu; [exact H1|exact H2|]. apply Forall_map. rewrite Forall_forall in *. auto.
Qed.
Lemma fin_containers_solid cs lsb msb ws l : Forall ok_ievc cs -> fin_enum_containers cs lsb msb = (ws, Ok l) -> Forall ok_c l.
Proof.
  intros Hc H. unfold fin_enum_containers in H. apply bind_ok in H as (w1 & r & w2 & H & H' & _). apply ret_ok in H' as [<- _].
  apply Forall_forall. intros c Hin. rewrite isort_in in Hin. revert w1 r H Hin. induction Hc as [|x cs (X1 & X2 & X3) _ IH]; intros w1 r H Hin; cbn [mapM] in H.
  - apply ret_ok in H as [<- _]. destruct Hin.
  - apply bind_ok in H as (w3 & y & w4 & H1 & H & _). apply bind_ok in H as (w5 & r' & w6 & H2 & H & _). apply ret_ok in H as [<- _]. destruct Hin as [<-|Hin]; [|eauto].
    apply bind_ok in H1 as (w7 & vs & w8 & H1 & H & _). apply ret_ok in H as [<- _]. split; [exact X1|]. split; [exact X2|]. cbn [evc_evs].
    apply fin_enum_values_ok in H1 as (-> & _). apply Forall_map. apply Forall_forall. intros v Hv. apply filter_In in Hv as [Hv _]. rewrite Forall_forall in X3. exact (X3 v Hv).
Qed.
Lemma fin_fields_solid l size ws fs : Forall ok_if l -> fin_fields l size = (ws, Ok fs) -> Forall ok_f fs.
Proof.
  intros Hl H. apply fin_fields_ok in H as (ys & w1 & w2 & HL & _ & -> & _). apply Forall_forall. intros f Hf. rewrite isort_in in Hf. clear - Hl HL Hf.
  induction HL as [|x l y ys evcs w ws _ Hc Hf' HL IH|x l ys ws _ HL IH]; [destruct Hf| |]; inversion Hl as [|? ? (X1 & _ & X2) Hl']; subst; [|auto].
  destruct Hf as [<-|Hf]; [|auto]. apply field_from_ok in Hf' as (a & _ & _ & ->). split; [exact X1|]. eapply fin_containers_solid; eauto.
Qed.
Lemma fin_rc_solid x : forall base ws y, ok_irc x -> fin_rc x base = (ws, Ok (Some y)) -> ok_rc y.
Proof.
  induction x as [r|c l IH] using irc_ind'; intros base ws y Hx H; apply fin_rc_ok in H as (s & _ & [(_ & E & _)|(_ & w & _ & H)]); try discriminate E; inversion Hx as [? H1 H2 H3|? ? H1 H2 H3]; subst.
  - destruct H as [(_ & E & _)|(_ & _ & fs & p & Hf & _ & _ & E)]; [discriminate E|]. injection E as ->. apply ok_r; [exact H1|]. eapply fin_fields_solid; eauto.
  - destruct H as (ch & w1 & H & [(_ & E & _)|(_ & _ & p & _ & _ & E)]); [discriminate E|]. cbv zeta in E. injection E as ->. apply ok_cl; [exact H1|].
    apply fin_rcs_ok in H as (ys & w3 & w4 & HL & _ & -> & _). apply Forall_forall. intros z Hz. apply isort_in in Hz. destruct (Loop_in _ _ _ _ HL z Hz) as (x & w5 & Hx' & Hfx).
    rewrite Forall_forall in IH, H3. eapply IH; eauto.
Qed.
Lemma fin_per_solid p ws q : ok_ip p -> fin_per p = (ws, Ok (Some q)) -> ok_p q.
Proof.
  intros (H1 & _ & H3) H. apply fin_per_ok in H as (rcs & w1 & w2 & H & _ & [(_ & E & _)|(_ & [(s & _ & _ & E & _)|(pp & _ & _ & _ & E)])]); try discriminate E.
  cbv zeta in E. injection E as ->. split; [exact H1|]. cbn [pr_rcs]. apply fin_rcs_ok in H as (ys & w3 & w4 & HL & _ & -> & _). apply Forall_forall. intros z Hz. apply isort_in in Hz.
  destruct (Loop_in _ _ _ _ HL z Hz) as (x & w5 & Hx' & Hfx). rewrite Forall_forall in H3. eapply fin_rc_solid; [|exact Hfx]. now apply H3.
Qed.

Lemma device_solid d ws dev : Trimmed d -> Filled d -> Processes d ws dev -> Forall ok_p (dv_periphs dev).
Proof.
  intros T F H. destruct (processes_inv _ _ _ H) as (i & w1 & w2 & (fuel & ps & Hr & ->) & Hf & _).
  assert (HD : forall p, In p (sdv_periphs d) -> ok_parsed (PaPer p)).
  { intros p Hp. split; [|split]; cbn [texts_of raws_of indexes_of]; apply Forall_forall; intros s Hs.
    - assert (Hin : In s (texts_device d)) by (unfold texts_device; cbn [In]; rewrite !in_app_iff; repeat right; apply in_flat_map; eauto).
      split; [apply (proj1 (Forall_forall _ _) (fl_texts _ F) s Hin)|apply (proj1 (Forall_forall _ _) (tr_texts _ T) s Hin)].
    - apply (proj1 (Forall_forall _ _) (fl_raws _ F) s). unfold raws_device. rewrite !in_app_iff. right. apply in_flat_map; eauto.
    - assert (Hin : In s (indexes_device d)) by (unfold indexes_device; apply in_flat_map; eauto).
      destruct (proj1 (Forall_forall _ _) (fl_indexes _ F) s Hin) as [A B]. split; [|exact B]. split; [exact A|apply (proj1 (Forall_forall _ _) (tr_indexes _ T) s Hin)]. }
  destruct (resolve_nodes _ _ texts_closed _ _ _ _ HD Hr) as [_ HN].
  unfold finalize in Hf. apply bind_ok in Hf as (w3 & l & w4 & Hf & Hd & _). apply ret_ok in Hd as [<- _]. cbn [dv_periphs].
  apply fin_pers_ok in Hf as (ys & w5 & w6 & HL & _ & -> & _). apply Forall_forall. intros q Hq. apply isort_in in Hq. destruct (PLoop_in _ _ _ HL q Hq) as (x & w & Hx & Hw).
  cbn [inherit_properties idv_periphs] in Hx. apply in_map_iff in Hx as (x' & <- & Hx'). destruct (HN x' Hx') as (m & [_ Hm] & _ & Em). specialize (Hm _ Em). cbn [ok_processed] in Hm.
  eapply fin_per_solid; [|exact Hw]. destruct Hm as (M1 & M2 & M3). split; [exact M1|]. split; [exact M2|]. cbn [inherit_per ip_rcs]. apply Forall_map. eapply Forall_impl; [|exact M3]. intros; now apply inherit_ok.
Qed.

(** ** The converted device *)
Lemma solid_named s : solid s -> s <> "". Proof. now intros []. Qed.
Lemma ok_faithful o : ok o -> ok_text o. Proof. intros H s E. exact (H s E). Qed.
Lemma nd : faithful_dim ConvertModel.no_dim.
Proof. split; [|split]; intros s E; discriminate E. Qed.
Lemma conv_evc_ok c : ok_c c -> faithful_evc (conv_evc c) /\ Forall (fun v => sev_name v <> "") (sevc_evs (conv_evc c)).
Proof.
  intros (H1 & H2 & H3). split.
  - split; [exact H1|]. split; [exact H2|]. split; [intros s E; discriminate E|]. cbn [conv_evc sevc_evs]. apply Forall_map. eapply Forall_impl; [|exact H3].
    intros v [V1 V2]. split; [apply V1|]. split; [exact V2|]. intros s E. cbn in E. injection E as <-. apply solid_str.
  - cbn [conv_evc sevc_evs]. apply Forall_map. eapply Forall_impl; [|exact H3]. intros v [V1 _]. apply V1.
Qed.
Lemma conv_field_ok f : ok_f f -> faithful_field (conv_field f) /\ named_field (conv_field f).
Proof.
  intros ((H1 & H2) & H3). split.
  - unfold faithful_field, conv_field. cbn [sf_dim sf_name sf_descr sf_bit_offset sf_bit_width sf_lsb sf_msb sf_bit_range sf_evcs sf_derived].
    split; [apply nd|]. split; [apply H1|]. split; [exact H2|]. split; [split; reflexivity|]. split; [split; discriminate|]. split; [intros s E; discriminate E|].
    split; [|intros s E; discriminate E]. apply Forall_map. eapply Forall_impl; [|exact H3]. intros c Hc. now apply conv_evc_ok.
  - unfold named_field, conv_field. cbn [sf_name sf_dim sf_evcs]. split; [apply H1|]. split; [exact Logic.I|]. apply Forall_map. eapply Forall_impl; [|exact H3]. intros c Hc. now apply conv_evc_ok.
Qed.
Lemma conv_rc_ok x : ok_rc x -> faithful_rc (conv_rc x) /\ named_rc (conv_rc x).
Proof.
  induction x as [r|c l IH] using rc_ind'; intros H; inversion H as [? H1 H2|? ? H1 H2]; subst; cbn [conv_rc].
  - destruct H1 as (N1 & N2 & N3 & N4 & N5). split; constructor.
    + unfold faithful_reg, conv_reg. cbn [sr_dim sr_name sr_display sr_descr sr_altgroup sr_altreg sr_fields sr_derived].
      split; [apply nd|]. split; [apply N1|]. split; [exact N2|]. split; [exact N5|]. split; [exact N3|]. split; [exact N4|]. split; [|intros s E; discriminate E].
      apply Forall_map. eapply Forall_impl; [|exact H2]. intros f Hf. now apply conv_field_ok.
    + unfold named_reg, conv_reg. cbn [sr_name sr_dim sr_fields]. split; [apply N1|]. split; [exact Logic.I|]. apply Forall_map. eapply Forall_impl; [|exact H2]. intros f Hf. now apply conv_field_ok.
  - destruct H1 as (N1 & N2 & N3 & N4). split; constructor.
    + unfold faithful_clu, conv_clu. cbn [sc_dim sc_name sc_descr sc_altclu sc_header sc_derived].
      split; [apply nd|]. split; [apply N1|]. split; [exact N4|]. split; [exact N2|]. split; [exact N3|intros s E; discriminate E].
    + apply Forall_map. rewrite Forall_forall in *. intros y Hy. now apply IH; [|apply H2].
    + apply N1.
    + exact Logic.I.
    + apply Forall_map. rewrite Forall_forall in *. intros y Hy. now apply IH; [|apply H2].
Qed.
Lemma conv_per_ok p : ok_p p -> faithful_per (conv_per p) /\ named_per (conv_per p).
Proof.
  intros ((N1 & N2 & N3 & N4 & N5 & N6 & N7 & N8 & N9 & N10) & H). split.
  - unfold faithful_per, conv_per. cbn [sp_dim sp_name sp_version sp_descr sp_altper sp_group sp_prepend sp_append sp_header sp_disable sp_ints sp_rcs sp_derived].
    split; [apply nd|]. split; [apply N1|]. split; [exact N2|]. split; [exact N8|]. split; [exact N3|]. split; [exact N4|]. split; [exact N5|]. split; [exact N6|]. split; [exact N7|]. split; [exact N9|].
    split; [eapply Forall_impl; [|exact N10]; intros i [I1 I2]; split; [apply I1|exact I2]|]. split; [|intros s E; discriminate E].
    apply Forall_map. eapply Forall_impl; [|exact H]. intros x Hx. now apply conv_rc_ok.
  - unfold named_per, conv_per. cbn [sp_name sp_dim sp_ints sp_rcs]. split; [apply N1|]. split; [exact Logic.I|]. split; [eapply Forall_impl; [|exact N10]; intros i [I1 _]; apply I1|].
    apply Forall_map. eapply Forall_impl; [|exact H]. intros x Hx. now apply conv_rc_ok.
Qed.
Theorem conv_device_ok d ws dev : Trimmed d -> Filled d -> Processes d ws dev -> dv_periphs dev <> [] -> faithful_device (conv_device dev) /\ named_device (conv_device dev).
Proof.
  intros T F H Hne. assert (HP := device_solid _ _ _ T F H). destruct (processes_good _ _ _ H) as [_ Eb].
  assert (HT : Forall solid (texts_device d)) by (apply Forall_forall; intros s Hs; split; [apply (proj1 (Forall_forall _ _) (fl_texts _ F) s Hs)|apply (proj1 (Forall_forall _ _) (tr_texts _ T) s Hs)]).
  unfold texts_device in HT. rewrite !Forall_cons_iff, !Forall_app, !ok_opt, Forall_map in HT. destruct HT as (T1 & T2 & T3 & T4 & T5 & T6 & T7 & T8 & _).
  assert (HL : ok_raw (sdv_license d)) by (apply raw_opt; assert (K := fl_raws _ F); unfold raws_device in K; rewrite Forall_app in K; apply K).
  assert (HC : forall c, sdv_cpu d = Some c -> solid (scpu_rev c)) by (intros c E; rewrite E in T8; now inversion T8).
  assert (HS : forall c s r nm, sdv_cpu d = Some c -> scpu_sau c = Some s -> In r (ssc_regions s) -> ssr_name r = Some nm -> trimmed nm).
  { intros c s r nm E1 E2 Hr E3. apply (proj1 (Forall_forall _ _) (tr_sau _ T)). unfold sau_names. rewrite E1. cbn [opt_list flat_map]. rewrite E2, app_nil_r. cbn [opt_list flat_map]. rewrite app_nil_r.
    apply in_flat_map. exists r. split; [exact Hr|]. rewrite E3. now left. }
  split.
  - unfold faithful_device, conv_device. rewrite Eb. cbn [process_device_base db_vendor db_vendor_id db_name db_series db_version db_license db_cpu db_hsf db_hdp
      sdv_xs sdv_schema sdv_vendor sdv_vendor_id sdv_name sdv_series sdv_version sdv_license sdv_cpu sdv_hsf sdv_hdp sdv_periphs].
    split; [reflexivity|]. split; [reflexivity|]. split; [exact T3|]. split; [exact T4|]. split; [apply T1|]. split; [exact T5|]. split; [apply T2|]. split; [exact HL|].
    split; [|split; [exact T6|split; [exact T7|]]].
    + intros c E. destruct (sdv_cpu d) as [c0|] eqn:Ec; [|discriminate E]. cbn in E. injection E as <-. split; [apply (HC c0 eq_refl)|].
      intros s E. cbn [conv_cpu scpu_sau process_cpu cpu_sau] in E. destruct (scpu_sau c0) as [s0|] eqn:Es; [|discriminate E]. cbn in E. injection E as <-.
      cbn [conv_sau_config ssc_regions process_sau_config sauc_regions]. rewrite map_map. apply Forall_map. apply Forall_forall. intros r Hr nm En. cbn in En. eapply HS; eauto.
    + apply Forall_map. eapply Forall_impl; [|exact HP]. intros p Hp. now apply conv_per_ok.
  - unfold named_device, conv_device. rewrite Eb. cbn [process_device_base db_name db_version db_cpu sdv_name sdv_version sdv_cpu sdv_periphs].
    split; [apply T1|]. split; [apply T2|]. split; [|split].
    + intros c E. destruct (sdv_cpu d) as [c0|] eqn:Ec; [|discriminate E]. cbn in E. injection E as <-. apply (HC c0 eq_refl).
    + destruct (dv_periphs dev); [congruence|discriminate].
    + apply Forall_map. eapply Forall_impl; [|exact HP]. intros p Hp. now apply conv_per_ok.
Qed.
